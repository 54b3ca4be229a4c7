(** Concrete cases for the properties of BlochBasis. *)
From Coq Require Import Reals Lra.
From Verif Require Import ZLib Csum DFT NumPy Index Spec Basis SpecBasis BasisProofs BasisFacts Operator Wavepacket SpecWavepacket
  BlochBasis SpecBloch.
Local Open Scope R_scope.
Local Open Scope C_scope.

(** Two bands, two samples, two points per cell: band [b] is the plane wave [b] at every
    sample. *)
Definition ex_bloch_data : ndarray :=
  {| ashape := [8]%nat; aflat := fun t => cdelta (t / 4) (t mod 2) |}.
Definition ex_bloch_axes : list basis := [BFundT 2].

Lemma ex_bloch_fact : let d := ex_bloch_data in
  nprod (ashape d) = (2 * nprod [2%nat] * bsize (BTuple ex_bloch_axes))%nat /\ bwf (BTuple ex_bloch_axes) /\
  explicit_orthonormal (BTuple ex_bloch_axes) /\ map bsize ex_bloch_axes = map bfund ex_bloch_axes /\
  bands_orthonormal 2 [2%nat] ex_bloch_axes d /\ aflat d 0%nat <> aflat d 1%nat.
Proof.
  cbv zeta. split; [reflexivity|]. split; [cbn; repeat split; lia|]. split; [cbn; auto|]. split; [reflexivity|]. split.
  - intros b b' s Hb Hb' Hs. cbn in Hs.
    assert (B : b = 0%nat \/ b = 1%nat) by lia. assert (B' : b' = 0%nat \/ b' = 1%nat) by lia. assert (S' : s = 0%nat \/ s = 1%nat) by lia.
    unfold inner_product, row, ex_bloch_data, ex_bloch_axes. cbn [aflat bsize map nprod Nat.mul Nat.add].
    destruct B as [->| ->], B' as [->| ->], S' as [->| ->]; cbn; unfold cdelta; cbn; rewrite ?Cconj_1, ?Cconj_0; ring.
  - cbn. unfold cdelta. cbn. intros E; apply (f_equal fst) in E; cbn in E; lra.
Qed.

Lemma ex_truncated_fact : bsize (BTuple [BTrans 2 3]) <> nprod (map bfund [BTrans 2 3]) /\ bwf (BTuple [BTrans 2 3]).
Proof. split; [cbn; lia|cbn; repeat split; lia]. Qed.
