(** Proofs about explicit_z_basis.py: the Hamiltonian of plane waves times explicit z states. *)
From Coq Require Import Reals List ZArith Arith Lia Lra Bool.
From Verif Require Import ZLib Csum DFT NumPy Spec SpecReal Index IndexProofs Lattice Basis SpecBasis BasisProofs BasisProofs2 BasisProofs3 Operator SpecOperator OperatorProofs
  SpecMatrix Wavepacket SpecWavepacket Hamiltonian SpecHamiltonian HamiltonianProofs HamiltonianProofs2 Localize SpecLocalize LocalizeProofs3 Oscillator
  Generator SpecGenerator GeneratorProofs GeneratorProofs2 GeneratorProofs3 KernelProofs3.
Import ListNotations.
Local Open Scope R_scope.
Local Open Scope C_scope.

Lemma trans_overlap r n i k : (0 < r <= n)%nat -> (i < r)%nat -> (k < n)%nat ->
  overlap (BTrans r n) (BFundT n) i k = cdelta (slot n (freq r i)) k.
Proof.
  intros Hr Hi Hk. unfold overlap. cbn [bfund bstate].
  rewrite <- (plane_wave_orth n (slot n (freq r i)) k) by (try apply slot_lt; lia).
  apply csum_ext. intros x _. f_equal.
  - f_equal. apply plane_wave_cong; [lia|]. apply Zcong_sym. apply slot_cong. lia.
  - apply plane_wave_cong; [lia|]. apply freq_cong. exact Hk.
Qed.

Lemma trans_overlap' r n i k : (0 < r <= n)%nat -> (i < r)%nat -> (k < n)%nat ->
  overlap (BFundT n) (BTrans r n) k i = cdelta (slot n (freq r i)) k.
Proof.
  intros Hr Hi Hk. rewrite <- (overlap_conj (BFundT n) (BTrans r n)) by reflexivity. rewrite trans_overlap by assumption.
  unfold cdelta. destruct (_ =? _)%nat; [apply Cconj_RtoC|apply Cconj_RtoC].
Qed.

Lemma slot_freq n i : (i < n)%nat -> slot n (freq n i) = i.
Proof.
  intros H. assert (Hc := freq_cong n i H). unfold slot. destruct Hc as [q Hq].
  replace (freq n i) with (Z.of_nat i + q * Z.of_nat n)%Z by lia. rewrite Z.mod_add by lia. rewrite Z.mod_small by lia. apply Nat2Z.id.
Qed.

Lemma freq_slot r n i : (i < r)%nat -> (r <= n)%nat -> freq n (slot n (freq r i)) = freq r i.
Proof.
  intros Hi Hr. assert (K : is_freq n (slot n (freq r i)) (freq r i)) by (apply slot_is_freq; assumption).
  assert (K' := freq_is_freq n (slot n (freq r i)) ltac:(apply slot_lt; lia)).
  exact (InterpProofs.is_freq_unique _ _ _ _ K' K).
Qed.

(** ** Kinetic energy *)

Lemma wave_split n0 n1 nz delta k0 k1 kz f q : perpendicular_axis delta ->
  wave_vector [n0; n1; nz] delta [k0; k1; kz] f q ->
  wave_vector [n0; n1] delta [k0; k1] f q /\
  wave_vector [nz] (fun _ _ => delta 2%nat 2%nat) [kz] (fun _ => f 2%nat) (fun _ => q 2%nat) /\
  dot 3 q q = (dot 2 q q + dot 1 (fun _ => q 2%nat) (fun _ => q 2%nat))%R.
Proof.
  intros [P1 [P2 [P3 P4]]] H. split; [|split].
  - intros a Ha. cbn [length] in Ha. assert (K := H a ltac:(cbn; lia)). unfold dot in *. cbn [length rsum] in *.
    destruct a as [|[|a]]; [| |lia]; cbn [nth] in *; rewrite ?P1, ?P2 in K; lra.
  - intros a Ha. cbn [length] in Ha. assert (a = 0)%nat by lia. subst a. assert (K := H 2%nat ltac:(cbn; lia)). unfold dot in *. cbn [length rsum nth] in *.
    rewrite P3, P4 in K. lra.
  - unfold dot. cbn [rsum]. lra.
Qed.

Lemma wave_join n0 n1 nz delta k0 k1 kz f q p : perpendicular_axis delta ->
  wave_vector [n0; n1] delta [k0; k1] f q ->
  wave_vector [nz] (fun _ _ => delta 2%nat 2%nat) [kz] (fun _ => f 2%nat) p ->
  wave_vector [n0; n1; nz] delta [k0; k1; kz] f (fun c => if (c =? 2)%nat then p 0%nat else q c).
Proof.
  intros [P1 [P2 [P3 P4]]] H H' a Ha. cbn [length] in Ha. unfold dot. cbn [length rsum Nat.eqb].
  destruct a as [|[|[|a]]]; [| | |lia].
  - assert (K := H 0%nat ltac:(cbn; lia)). unfold dot in K. cbn [length rsum nth] in *. rewrite P1. lra.
  - assert (K := H 1%nat ltac:(cbn; lia)). unfold dot in K. cbn [length rsum nth] in *. rewrite P2. lra.
  - assert (K := H' 0%nat ltac:(cbn; lia)). unfold dot in K. cbn [length rsum nth] in *. rewrite P3, P4. lra.
Qed.

Definition z_basis (m nz : nat) (vecs : nat -> nat -> C) : basis := BExpl m vecs (BFund nz).

Lemma unravel3 a b c i : unravel [a; b; c] i = [i / (b * c); i mod (b * c) / c; i mod (b * c) mod c]%nat.
Proof. cbn [unravel nprod]. rewrite !Nat.mul_1_r, !Nat.div_1_r. reflexivity. Qed.

Lemma slab_overlap n0 n1 nz r0 r1 m vecs i k0 k1 kz : (0 < r0 <= n0)%nat -> (0 < r1 <= n1)%nat ->
  (i < r0 * (r1 * m))%nat -> (k0 < n0)%nat -> (k1 < n1)%nat -> (kz < nz)%nat ->
  overlap (slab_basis n0 n1 nz r0 r1 m vecs) (momenta [n0; n1; nz]) i (ravel [n0; n1; nz] [k0; k1; kz]) =
  cdelta (slot n0 (freq r0 (i / (r1 * m)))) k0 * (cdelta (slot n1 (freq r1 (i mod (r1 * m) / m))) k1 *
  overlap (z_basis m nz vecs) (BFundT nz) (i mod (r1 * m) mod m) kz) /\
  overlap (momenta [n0; n1; nz]) (slab_basis n0 n1 nz r0 r1 m vecs) (ravel [n0; n1; nz] [k0; k1; kz]) i =
  cdelta (slot n0 (freq r0 (i / (r1 * m)))) k0 * (cdelta (slot n1 (freq r1 (i mod (r1 * m) / m))) k1 *
  overlap (BFundT nz) (z_basis m nz vecs) kz (i mod (r1 * m) mod m)).
Proof.
  intros H0 H1 Hi Hk0 Hk1 Hkz.
  assert (Hm : (0 < m)%nat) by (destruct m; lia).
  assert (I0 : (i / (r1 * m) < r0)%nat) by (apply Nat.div_lt_upper_bound; lia).
  assert (I1 : (i mod (r1 * m) / m < r1)%nat) by (apply Nat.div_lt_upper_bound; [lia|]; rewrite (Nat.mul_comm m r1); apply Nat.mod_upper_bound; lia).
  split.
  - unfold slab_basis, momenta. rewrite axis_overlaps_unravel by (repeat constructor).
    cbn [map bsize]. rewrite (unravel3 r0 r1 m i). rewrite unravel_ravel by (apply ravel3; assumption). cbn [axis_overlaps].
    rewrite !trans_overlap by assumption. unfold z_basis. ring.
  - unfold slab_basis, momenta. rewrite axis_overlaps_unravel by (repeat constructor).
    cbn [map bsize]. rewrite (unravel3 r0 r1 m i). rewrite unravel_ravel by (apply ravel3; assumption). cbn [axis_overlaps].
    rewrite !trans_overlap' by assumption. unfold z_basis. ring.
Qed.

Lemma delta_swap a b k : cdelta a k * cdelta b k = cdelta a k * cdelta a b.
Proof. unfold cdelta. destruct (a =? k)%nat eqn:E; [apply Nat.eqb_eq in E; subst k|]; [|ring]. rewrite (Nat.eqb_sym b a). ring. Qed.

(** The kinetic energy between two states of the slab. *)
Lemma slab_kinetic n0 n1 nz r0 r1 m vecs (E : nat -> C) (Exy : nat -> nat -> C) (Ez : nat -> C) i j :
  (0 < r0 <= n0)%nat -> (0 < r1 <= n1)%nat -> (i < r0 * (r1 * m))%nat -> (j < r0 * (r1 * m))%nat ->
  (forall k0 k1 kz, (k0 < n0)%nat -> (k1 < n1)%nat -> (kz < nz)%nat -> E (ravel [n0; n1; nz] [k0; k1; kz]) = Exy k0 k1 + Ez kz) ->
  let s0 i := slot n0 (freq r0 (i / (r1 * m))) in
  let s1 i := slot n1 (freq r1 (i mod (r1 * m) / m)) in
  let z := zi r1 m in
  csum (fun k => overlap (slab_basis n0 n1 nz r0 r1 m vecs) (momenta [n0; n1; nz]) i k * E k *
                 overlap (momenta [n0; n1; nz]) (slab_basis n0 n1 nz r0 r1 m vecs) k j) (nprod [n0; n1; nz]) =
  cdelta (s0 i) (s0 j) * cdelta (s1 i) (s1 j) *
   (Exy (s0 i) (s1 i) * overlap (z_basis m nz vecs) (z_basis m nz vecs) (z i) (z j) +
    csum (fun k => overlap (z_basis m nz vecs) (BFundT nz) (z i) k * Ez k * overlap (BFundT nz) (z_basis m nz vecs) k (z j)) nz).
Proof.
  intros H0 H1 Hi Hj HE s0 s1 z.
  assert (Hz : (0 < nz)%nat \/ nz = 0%nat) by lia. destruct Hz as [Hz|Hz].
  2:{ subst nz. rewrite csum3. rewrite (csum_zero_ext _ n0); [|intros; apply csum_zero_ext; reflexivity].
      unfold overlap, z_basis. cbn [bfund csum]. ring. }
  rewrite csum3.
  transitivity (csum (fun k0 => csum (fun k1 => csum (fun kz =>
     (cdelta (s0 i) k0 * cdelta (s0 i) (s0 j)) * ((cdelta (s1 i) k1 * cdelta (s1 i) (s1 j)) * (overlap (z_basis m nz vecs) (BFundT nz) (z i) kz *
       (Exy k0 k1 + Ez kz) * overlap (BFundT nz) (z_basis m nz vecs) kz (z j)))) nz) n1) n0).
  { apply csum_ext. intros k0 Hk0. apply csum_ext. intros k1 Hk1. apply csum_ext. intros kz Hkz.
    destruct (slab_overlap n0 n1 nz r0 r1 m vecs i k0 k1 kz) as [A _]; try assumption.
    destruct (slab_overlap n0 n1 nz r0 r1 m vecs j k0 k1 kz) as [_ B]; try assumption.
    rewrite A, B, HE by assumption. fold (s0 i) (s0 j) (s1 i) (s1 j). fold (zi r1 m i) (zi r1 m j). fold (z i) (z j).
    rewrite <- (delta_swap (s0 i) (s0 j) k0), <- (delta_swap (s1 i) (s1 j) k1). ring. }
  assert (S0 : (s0 i < n0)%nat) by (apply slot_lt; lia). assert (S1 : (s1 i < n1)%nat) by (apply slot_lt; lia).
  rewrite (csum_single _ n0 (s0 i) S0).
  2:{ intros k0 _ Hne. apply csum_zero_ext. intros k1 _. apply csum_zero_ext. intros kz _.
      replace (cdelta (s0 i) k0) with (RtoC 0) by (unfold cdelta; destruct (Nat.eqb_spec (s0 i) k0); [congruence|reflexivity]). ring. }
  rewrite (csum_single _ n1 (s1 i) S1).
  2:{ intros k1 _ Hne. apply csum_zero_ext. intros kz _.
      replace (cdelta (s1 i) k1) with (RtoC 0) by (unfold cdelta; destruct (Nat.eqb_spec (s1 i) k1); [congruence|reflexivity]). ring. }
  replace (cdelta (s0 i) (s0 i)) with (RtoC 1) by (unfold cdelta; rewrite Nat.eqb_refl; reflexivity).
  replace (cdelta (s1 i) (s1 i)) with (RtoC 1) by (unfold cdelta; rewrite Nat.eqb_refl; reflexivity).
  assert (Cz : complete (BFundT nz)) by (apply full_complete; [exact Hz|reflexivity]).
  rewrite <- (overlap_comp (z_basis m nz vecs) (BFundT nz) (z_basis m nz vecs) (z i) (z j) eq_refl Cz). cbn [bsize].
  rewrite <- csum_scal_l, <- csum_plus, <- csum_scal_l. apply csum_ext. intros kz _. ring.
Qed.
