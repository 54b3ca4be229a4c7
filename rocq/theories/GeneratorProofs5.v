(** Proofs about explicit_z_basis.py: the elements of the total Hamiltonian. *)
From Coq Require Import Reals List ZArith Arith Lia Lra Bool.
From Verif Require Import ZLib Csum DFT NumPy Spec SpecReal Index IndexProofs Lattice Basis SpecBasis BasisProofs BasisProofs2 BasisProofs3 Operator SpecOperator OperatorProofs
  SpecMatrix Wavepacket SpecWavepacket Hamiltonian SpecHamiltonian HamiltonianProofs HamiltonianProofs2 Localize SpecLocalize LocalizeProofs3 Oscillator
  Generator SpecGenerator GeneratorProofs GeneratorProofs2 GeneratorProofs3 GeneratorProofs4 KernelProofs3.
Import ListNotations.
Local Open Scope R_scope.
Local Open Scope C_scope.

Lemma plane_wave_delta n r a b : (0 < r <= n)%nat -> (a < r)%nat -> (b < r)%nat ->
  csum (fun x => Cconj (plane_wave n (freq r a) x) * plane_wave n (freq r b) x) n = cdelta (slot n (freq r a)) (slot n (freq r b)).
Proof.
  intros Hr Ha Hb. rewrite <- (plane_wave_orth n (slot n (freq r a)) (slot n (freq r b))) by (apply slot_lt; lia).
  apply csum_ext. intros x _. f_equal; [f_equal|]; apply plane_wave_cong; try lia; apply Zcong_sym; apply slot_cong; lia.
Qed.

(** A potential of z alone. *)
Lemma slab_config n0 n1 nz r0 r1 m vecs (V0 : nat -> C) i j :
  (0 < r0 <= n0)%nat -> (0 < r1 <= n1)%nat -> (i < r0 * (r1 * m))%nat -> (j < r0 * (r1 * m))%nat ->
  potential_element (slab_basis n0 n1 nz r0 r1 m vecs) (fun x => V0 (x mod nz)%nat) i j =
  cdelta (slot n0 (freq r0 (i / (r1 * m)))) (slot n0 (freq r0 (j / (r1 * m)))) *
  cdelta (slot n1 (freq r1 (i mod (r1 * m) / m))) (slot n1 (freq r1 (j mod (r1 * m) / m))) *
  csum (fun z => Cconj (vecs (zi r1 m i) z) * V0 z * vecs (zi r1 m j) z) nz.
Proof.
  intros H0 H1 Hi Hj. unfold potential_element. change (bfund (slab_basis n0 n1 nz r0 r1 m vecs)) with (nprod [n0; n1; nz]).
  assert (Hm : (0 < m)%nat) by (destruct m; lia).
  assert (B : forall t, (t < r0 * (r1 * m))%nat -> (t / (r1 * m) < r0)%nat /\ (t mod (r1 * m) / m < r1)%nat).
  { intros t Ht. split; [apply Nat.div_lt_upper_bound; lia|]. apply Nat.div_lt_upper_bound; [lia|]. rewrite (Nat.mul_comm m r1). apply Nat.mod_upper_bound. lia. }
  destruct (B i Hi) as [I0 I1]. destruct (B j Hj) as [J0 J1].
  rewrite <- !plane_wave_delta by assumption.
  rewrite csum3. rewrite <- csum_scal_r. rewrite <- csum_scal_r. apply csum_ext. intros x0 Hx0.
  rewrite <- Cmult_assoc. rewrite <- csum_scal_r, <- csum_scal_l. apply csum_ext. intros x1 Hx1. rewrite Cmult_assoc. rewrite <- csum_scal_l. apply csum_ext. intros z Hz.
  rewrite !slab_state by assumption. rewrite !Cconj_mult.
  replace (ravel [n0; n1; nz] [x0; x1; z] mod nz)%nat with z.
  2:{ cbn [ravel nprod]. rewrite !Nat.mul_1_r, Nat.add_0_r. rewrite Nat.add_assoc. rewrite Nat.mul_assoc, <- Nat.mul_add_distr_r.
      rewrite Nat.add_comm, Nat.mod_add by lia. symmetry. apply Nat.mod_small. exact Hz. }
  unfold zi. ring.
Qed.

Lemma z_overlap m nz vecs a k : (k < nz)%nat ->
  overlap (z_basis m nz vecs) (BFundT nz) a k = csum (fun x => Cconj (vecs a x) * plane_wave nz (freq nz k) x) nz /\
  overlap (BFundT nz) (z_basis m nz vecs) k a = csum (fun x => Cconj (plane_wave nz (freq nz k) x) * vecs a x) nz.
Proof.
  intros Hk. assert (S : forall x, (x < nz)%nat -> bstate (z_basis m nz vecs) a x = vecs a x).
  { intros x Hx. cbn [z_basis bstate bsize]. rewrite (csum_single _ nz x Hx).
    - unfold cdelta. rewrite Nat.eqb_refl. ring.
    - intros y _ Hy. unfold cdelta. destruct (Nat.eqb_spec y x); [congruence|]. ring. }
  split; unfold overlap; cbn [bfund z_basis]; apply csum_ext; intros x Hx; rewrite S by assumption; reflexivity.
Qed.

Lemma z_orthonormal m nz vecs a b : (a < m)%nat -> (b < m)%nat ->
  (forall i j, (i < m)%nat -> (j < m)%nat -> inner_product nz (vecs i) (vecs j) = cdelta i j) ->
  overlap (z_basis m nz vecs) (z_basis m nz vecs) a b = cdelta a b.
Proof.
  intros Ha Hb H. rewrite <- H by assumption. unfold overlap, inner_product. cbn [bfund z_basis]. apply csum_ext. intros x Hx.
  assert (S : forall a, bstate (z_basis m nz vecs) a x = vecs a x).
  { intros c. cbn [z_basis bstate bsize]. rewrite (csum_single _ nz x Hx).
    - unfold cdelta. rewrite Nat.eqb_refl. ring.
    - intros y _ Hy. unfold cdelta. destruct (Nat.eqb_spec y x); [congruence|]. ring. }
  unfold z_basis in S. rewrite !S. reflexivity.
Qed.

(** The eigenvalue equation between two z states. *)
Lemma z_element nz m (vecs : nat -> nat -> C) (e : nat -> R) (A : nat -> nat -> C) (V0 E : nat -> C) a b :
  (a < m)%nat -> (b < m)%nat ->
  (forall i j, (i < m)%nat -> (j < m)%nat -> inner_product nz (vecs i) (vecs j) = cdelta i j) ->
  (forall k x, (k < m)%nat -> (x < nz)%nat -> csum (fun y => A x y * vecs k y) nz = RtoC (e k) * vecs k x) ->
  (forall x y, (x < nz)%nat -> (y < nz)%nat -> A x y = V0 x * cdelta x y +
     csum (fun k => plane_wave nz (freq nz k) x * E k * Cconj (plane_wave nz (freq nz k) y)) nz) ->
  RtoC (e b) * cdelta a b =
  csum (fun z => Cconj (vecs a z) * V0 z * vecs b z) nz +
  csum (fun k => overlap (z_basis m nz vecs) (BFundT nz) a k * E k * overlap (BFundT nz) (z_basis m nz vecs) k b) nz.
Proof.
  intros Ha Hb Ho He HA. rewrite <- Ho by assumption. unfold inner_product.
  transitivity (csum (fun x => Cconj (vecs a x) * csum (fun y => A x y * vecs b y) nz) nz).
  { rewrite <- csum_scal_l. apply csum_ext. intros x Hx. rewrite He by assumption. ring. }
  transitivity (csum (fun x => Cconj (vecs a x) * V0 x * vecs b x +
     csum (fun k => csum (fun y => Cconj (vecs a x) * plane_wave nz (freq nz k) x * E k * (Cconj (plane_wave nz (freq nz k) y) * vecs b y)) nz) nz) nz).
  { apply csum_ext. intros x Hx. rewrite csum_swap.
    transitivity (csum (fun y => Cconj (vecs a x) * (V0 x * cdelta x y * vecs b y) +
       csum (fun k => Cconj (vecs a x) * plane_wave nz (freq nz k) x * E k * (Cconj (plane_wave nz (freq nz k) y) * vecs b y)) nz) nz).
    { rewrite <- csum_scal_l. apply csum_ext. intros y Hy. rewrite HA by assumption.
      rewrite Cmult_plus_distr_r, Cmult_plus_distr_l. f_equal. rewrite <- csum_scal_r, <- csum_scal_l. apply csum_ext. intros k _. ring. }
    rewrite csum_plus. f_equal. rewrite (csum_single _ nz x Hx).
    - unfold cdelta. rewrite Nat.eqb_refl. ring.
    - intros y _ Hy. unfold cdelta. destruct (Nat.eqb_spec x y); [congruence|]. ring. }
  rewrite csum_plus. f_equal. rewrite csum_swap. apply csum_ext. intros k Hk. destruct (z_overlap m nz vecs a k Hk) as [Za _]. destruct (z_overlap m nz vecs b k Hk) as [_ Zb].
  rewrite Za, Zb. rewrite <- (csum_scal_r (E k)), LinAlg.csum_mult. apply csum_ext. intros x _. apply csum_ext. intros y _. ring.
Qed.

(** ** The first two axes *)

Lemma guard r n : (0 < r)%nat -> (0 < n)%nat -> (2 * (r - 1) <= n)%nat -> (r <= n)%nat.
Proof. lia. Qed.

Lemma unravel2 a b i : unravel [a; b] i = [i / b; i mod b]%nat.
Proof. cbn [unravel nprod]. rewrite !Nat.mul_1_r, !Nat.div_1_r. reflexivity. Qed.

Lemma xy_spec same hbar r0 r1 m n0 n1 delta inv2 mass f : identity_test same -> (0 < r0 <= n0)%nat -> (0 < r1 <= n1)%nat ->
  is_inverse 2 delta inv2 ->
  exists xy, xy_hamiltonian same hbar r0 r1 m inv2 mass f = Some xy /\
    forall i q, (i < r0 * (r1 * m))%nat ->
      wave_vector [n0; n1] delta [slot n0 (freq r0 (i / (r1 * m))); slot n1 (freq r1 (i mod (r1 * m) / m))] f q ->
      xy i = RtoC (hbar * hbar * dot 2 q q / (2 * mass)).
Proof.
  intros Hs H0 H1 Hinv. set (axes := [BTrans r0 r0; BTrans r1 r1]).
  assert (Hw : bwf (BTuple axes)) by (cbn; lia). assert (Ho : explicit_orthonormal (BTuple axes)) by (cbn; tauto).
  destruct (kinetic_hamiltonian_spec same Hs axes Hw hbar mass inv2 (Some f)) as [H [E [Sq [R [Cc [_ K]]]]]].
  unfold xy_hamiltonian. fold axes. rewrite E. destruct Sq as [Wf [S1 S2]]. rewrite (op_reshape H Wf). cbn [np_diag ashape].
  eexists. split; [reflexivity|]. intros i q Hi Hq.
  assert (Hm : (0 < m)%nat) by (destruct m; lia).
  cbn [aflat]. unfold at2. cbn [ashape aflat last nth]. 
  set (t := (i / m)%nat). assert (Ht : (t < r0 * r1)%nat) by (apply Nat.div_lt_upper_bound; lia).
  assert (T0 : (t / r1 = i / (r1 * m))%nat) by (unfold t; rewrite Nat.div_div by lia; rewrite (Nat.mul_comm m r1); reflexivity).
  assert (T1 : (t mod r1 = i mod (r1 * m) / m)%nat).
  { unfold t. rewrite (Nat.mul_comm r1 m). rewrite Nat.mod_mul_r by lia. rewrite (Nat.mul_comm m), Nat.div_add by lia.
    rewrite (Nat.div_small (i mod m)) by (apply Nat.mod_upper_bound; lia). reflexivity. }
  assert (I0 : (t / r1 < r0)%nat) by (apply Nat.div_lt_upper_bound; lia).
  assert (I1 : (t mod r1 < r1)%nat) by (apply Nat.mod_upper_bound; lia).
  assert (Bs : bsize (BTuple axes) = (r0 * r1)%nat) by (cbn; lia).
  transitivity (op_entry H t t); [unfold op_entry; reflexivity|]. rewrite K by (rewrite Bs; exact Ht).
  change (map bfund axes) with [r0; r1]. 
  assert (Hn : nprod [r0; r1] = (r0 * r1)%nat) by (cbn; lia). rewrite Hn.
  assert (Ov : forall k, (k < r0 * r1)%nat -> overlap (BTuple axes) (momenta [r0; r1]) t k = cdelta t k /\ overlap (momenta [r0; r1]) (BTuple axes) k t = cdelta t k).
  { intros k Hk. assert (K0 : (k / r1 < r0)%nat) by (apply Nat.div_lt_upper_bound; lia). assert (K1 : (k mod r1 < r1)%nat) by (apply Nat.mod_upper_bound; lia).
    assert (A : cdelta (slot r0 (freq r0 (t / r1))) (k / r1) * cdelta (slot r1 (freq r1 (t mod r1))) (k mod r1) = cdelta t k).
    { rewrite !slot_freq by assumption. apply cdelta_div_mod. lia. }
    unfold momenta, axes. split; rewrite axis_overlaps_unravel by (repeat constructor); cbn [map bsize]; rewrite !unravel2; cbn [axis_overlaps];
      rewrite ?trans_overlap, ?trans_overlap' by (try assumption; lia); rewrite <- A; ring. }
  rewrite (csum_single _ (r0 * r1) t Ht).
  2:{ intros k Hk Hne. destruct (Ov k Hk) as [A _]. rewrite A. unfold cdelta. destruct (Nat.eqb_spec t k); [congruence|]. ring. }
  destruct (Ov t Ht) as [A B]. rewrite A, B. unfold cdelta. rewrite Nat.eqb_refl.
  rewrite mass_energy_wave. cbv zeta. cbn [length fraction].
  rewrite Cmult_1_l, Cmult_1_r. do 3 f_equal. 
  assert (U : forall c, (c < 2)%nat -> q c = (fundamental_stacked_k_points [r0; r1] inv2 c t + tensordot00 2 (dk_stacked inv2) f c)%R).
  { apply (wave_unique [r0; r1] delta inv2 (unravel [r0; r1] t) f).
    - exact Hinv.
    - rewrite unravel2, T0, T1. intros a Ha. assert (Q := Hq a Ha). cbn [length] in *. rewrite Q. f_equal. f_equal. f_equal.
      rewrite T0 in I0. rewrite T1 in I1.
      destruct a as [|[|a]]; [| |lia]; cbn [nth]; apply freq_slot; lia.
    - apply (k_point_wave [r0; r1] delta inv2 t f Hinv). rewrite Hn. exact Ht. }
  unfold dot. cbn [rsum]. rewrite !U by lia. reflexivity.
Qed.
