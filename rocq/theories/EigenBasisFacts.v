(** Concrete cases for bases of eigenstates. *)
From Coq Require Import Reals Lra.
From Verif Require Import ZLib Csum DFT NumPy Index Spec SpecMatrix Basis SpecBasis Operator SpecOperator OperatorProofs StateList SpecStateList
  Localize SpecLocalize Spectral Spectral2 EigenBasis SpecEigenBasis EigenBasisProofs.
Local Open Scope R_scope.
Local Open Scope C_scope.

(** Two states with a hop between them, in a basis of plane waves. *)
Definition hop : operator :=
  {| orow := BTuple [BFundT 2]; ocol := BTuple [BFundT 2];
     odata := {| ashape := [4%nat]; aflat := fun t => if ((t =? 1) || (t =? 2))%nat then 1 else 0 |} |}.
Lemma ex_hop_ok : op_wf hop /\ bwf (orow hop) /\ explicit_orthonormal (orow hop) /\ hermitian (bsize (orow hop)) (op_entry hop) /\
  selects (bsize (orow hop)) (Some (1, 1)%Z) 1 1 /\ selects (bsize (orow hop)) None 0 1 /\
  exists E, ascending_spectrum (bsize (orow hop)) (op_entry hop) E.
Proof.
  assert (H : hermitian (bsize (orow hop)) (op_entry hop)).
  { intros i j Hi Hj. cbn in Hi, Hj. unfold adjoint, op_entry.
    destruct i as [|[|i]]; [| |lia]; (destruct j as [|[|j]]; [| |lia]); cbn; apply injective_projections; cbn; ring. }
  split; [reflexivity|]. split; [cbn; lia|]. split; [cbn; tauto|]. split; [exact H|]. split; [left; reflexivity|].
  split; [right; repeat split; reflexivity|].
  destruct (spectral _ _ H) as [[V E] [A1 [A2 [_ A4]]]]. cbn [fst snd] in *. exists E. split; [exact A1|]. exists V. split; [exact A2|exact A4].
Qed.

(** The eigenvectors of the hop, found by inspection. *)
Definition hop_values (k : nat) : C := if (k =? 0)%nat then 1 else - (1).
Definition hop_vectors (i k : nat) : C := if ((i =? 1) && (k =? 1))%nat%bool then RtoC (- / sqrt 2) else RtoC (/ sqrt 2).
Lemma ex_hop_eig : (forall k x, (k < 2)%nat -> (x < 2)%nat -> csum (fun y => op_entry hop x y * hop_vectors y k) 2 = hop_values k * hop_vectors x k) /\
  inverse_matrices 2 (fun k i => hop_vectors i k) hop_vectors.
Proof.
  assert (S2 : (0 < sqrt 2)%R) by (apply sqrt_lt_R0; lra). assert (Q := sqrt_sqrt 2 ltac:(lra)). split.
  - intros k x Hk Hx. destruct k as [|[|k]]; [| |lia]; (destruct x as [|[|x]]; [| |lia]); cbn; apply injective_projections; cbn; ring.
  - assert (E : (/ sqrt 2 * / sqrt 2 = / 2)%R) by (rewrite <- Rinv_mult, Q; reflexivity).
    split; intros i j Hi Hj; unfold matmul; destruct i as [|[|i]]; try lia; destruct j as [|[|j]]; try lia; cbn;
      apply injective_projections; cbn; lra.
Qed.
