(** Kernels of diagonal operators on stacked bases, the effective Gaussian kernel as a function of
    the displacement, overlaps in the position basis, and Hamiltonians declared in fundamental bases
    (C22, C78, C84, C72). *)
From Coq Require Import Reals List ZArith Arith Lia Lra Bool.
From Verif Require Import ZLib Csum DFT NumPy Spec SpecReal Index IndexProofs Lattice Basis SpecBasis BasisProofs BasisProofs2 BasisProofs3 BasisFacts
  Operator SpecOperator OperatorProofs Kernel SpecKernel KernelProofs KernelProofs2 Correlation SpecCorrelation CorrelationProofs CorrelationProofs2
  Overlap OverlapProofs Wavepacket SpecWavepacket WavepacketProofs2 LocalizeProofs4 VolumeBasis SpecVolumeBasis VolumeBasisProofs Generator SpecGenerator GeneratorProofs2.
Import ListNotations.
Local Open Scope R_scope.
Local Open Scope C_scope.

Lemma isotropic_of_operators o shape : diagonal_noise_wf o -> (0 < noise_count o)%nat ->
  bsize (lrow (nops o)) = nprod shape -> (0 < nprod shape)%nat ->
  exists k, get_isotropic_kernel_from_diagonal_operators_stacked false shape o = Some k /\ ashape k = [nprod shape] /\
    (forall i, (i < nprod shape)%nat -> aflat k i = diagonal_kernel_of o i 0) /\
    forall k', get_isotropic_kernel_from_diagonal_operators_stacked true shape o = Some k' <->
      k' = k /\ forall x y d, in_shape x shape -> in_shape y shape -> displacement shape d x y ->
        diagonal_kernel_of o (ravel shape x) (ravel shape y) = diagonal_kernel_of o (ravel shape d) 0.
Proof.
  intros Hw Hc Hn Hp. destruct (diagonal_kernel_spec o Hw Hc) as [D [HD [SD VD]]]. rewrite Hn in SD, VD.
  destruct (isotropic_stacked_value shape D Hp) as [k [Hk [Sk [Vk Ck]]]]; [rewrite SD; cbn [nprod]; lia|].
  unfold get_isotropic_kernel_from_diagonal_operators_stacked. rewrite HD. exists k. split; [exact Hk|]. split; [exact Sk|]. split.
  - intros i Hi. rewrite (Vk i Hi). apply VD; assumption.
  - intros k'. rewrite Ck. split; intros [E K]; (split; [exact E|]); intros x y d Hx Hy Hd; specialize (K x y d Hx Hy Hd);
      assert (Rx := ravel_lt _ _ Hx); assert (Ry := ravel_lt _ _ Hy);
      assert (Rd : (ravel shape d < nprod shape)%nat) by (apply ravel_lt; exact (displacement_in_shape _ _ _ _ Hd));
      rewrite !VD in * by assumption; exact K.
Qed.

Lemma effective_isotropic kb h delta shape eta t f : aligned (length shape) delta -> (0 < length shape)%nat ->
  Forall (fun n => (0 < n)%nat) shape -> (0 <= eta * kb * t)%R -> h <> 0%R -> f <> 0%R ->
  let c := (eta * kb * t / h ^ 2)%R in
  exists k L, get_effective_gaussian_isotropic_noise_kernel kb h delta shape eta t f = Some k /\ ashape k = [nprod shape] /\
    shortest (length shape) delta L /\
    forall x y d, in_shape x shape -> in_shape y shape -> displacement shape d x y ->
      exists r v, periodic_distance delta shape x y r /\ aflat k (ravel shape d) = RtoC v /\
        v = (2 * c * (L / f) ^ 2 * exp (- r ^ 2 / (2 * (L / f) ^ 2)))%R /\
        (Rabs (v - (2 * c * (L / f) ^ 2 - c * r ^ 2)) <= c * r ^ 4 / (4 * (L / f) ^ 2))%R.
Proof.
  intros Ha Hl Hs Hp Hh Hf c.
  destruct (gaussian_parameters_spec kb h delta (length shape) eta t f Hl Hp Hh Hf) as [a [lambda [L [HP [SL [El Ea]]]]]].
  assert (HL := shortest_pos _ _ _ Ha SL). assert (Hlam : lambda <> 0%R) by (intros ->; lra).
  assert (El' : lambda = (L / f)%R) by (rewrite <- El; field; exact Hf).
  assert (Hh2 : (0 < h ^ 2)%R) by (rewrite <- Rsqr_pow2; apply Rsqr_pos_lt; exact Hh).
  assert (Hc : (0 <= c)%R). { apply Rmult_le_pos; [exact Hp|]. left. apply Rinv_0_lt_compat. exact Hh2. }
  assert (Ea2 : (a ^ 2 = 2 * c * lambda ^ 2)%R). { rewrite Ea. unfold c. field. exact Hh. }
  destruct (isotropic_kernel_spec delta shape (gaussian_fn a lambda) Ha Hs) as [k [Hk [Sk Vk]]].
  exists k, L. unfold get_effective_gaussian_isotropic_noise_kernel, get_gaussian_isotropic_noise_kernel. rewrite HP.
  split; [exact Hk|]. split; [exact Sk|]. split; [exact SL|]. intros x y d Hx Hy Hd.
  destruct (Vk x y d Hx Hy Hd) as [r [Hr Er]]. exists r, (a ^ 2 * exp (- r ^ 2 / (2 * lambda ^ 2)))%R.
  split; [exact Hr|]. split; [exact Er|]. rewrite <- El'. split; [rewrite Ea2; reflexivity|].
  rewrite <- Ea2. apply gaussian_quadratic; assumption.
Qed.

Lemma overlap_in_positions same : identity_test same -> forall a m data, bwf (BTuple a) -> explicit_orthonormal (BTuple a) ->
  Forall (fun b => (0 < bfund b)%nat) a -> nprod (ashape data) = (bsize (BTuple a) * m)%nat ->
  exists out, convert_overlap_to_position_basis same a m data = Some out /\ ashape out = [(bfund (BTuple a) * m)%nat] /\
    forall c x, (c < m)%nat -> (x < bfund (BTuple a))%nat ->
      aflat out (x * m + c)%nat = amplitude (BTuple a) (fun k => aflat data (k * m + c)%nat) x.
Proof.
  intros Hs a m data Wa Oa Pa Hd.
  assert (E : map (fun b => BFund (bfund b)) a = map BFund (map bfund a)) by (rewrite map_map; reflexivity).
  assert (PF : Forall (fun n => (0 < n)%nat) (map bfund a)) by (apply Forall_map; exact Pa).
  assert (WB := position_wf _ PF). destruct (full_bases _ WB (position_full _)) as [CB [OB _]].
  destruct (convert_overlap same Hs (BTuple a) (BTuple (map BFund (map bfund a))) m data Wa WB Oa CB (compatible_position a) Hd) as [out [Ho [So Vo]]].
  assert (S1 : bsize (BTuple (map BFund (map bfund a))) = bfund (BTuple a)) by (cbn [bsize bfund]; rewrite map_bsize_Fund; reflexivity).
  assert (S2 : bfund (BTuple (map BFund (map bfund a))) = bfund (BTuple a)) by (cbn [bfund]; rewrite map_bfund_Fund; reflexivity).
  exists out. unfold convert_overlap_to_position_basis. rewrite E. split; [exact Ho|]. split; [rewrite So, S1; reflexivity|].
  intros c x Hcm Hx. rewrite <- Vo by (try assumption; rewrite S2; exact Hx).
  assert (Hx' : (x < nprod (map bfund a))%nat) by exact Hx.
  rewrite <- (ravel_unravel _ x Hx'). symmetry. apply amplitude_position with (v := fun k => aflat out (k * m + c)%nat).
  apply unravel_in_shape. exact Hx'.
Qed.

(** A plane wave on fewer points. *)
Lemma plane_fewer r n f x X : (0 < r)%nat -> (0 < n)%nat -> (X * r = x * n)%nat ->
  RtoC (sqrt (INR r)) * plane_wave r f x = RtoC (sqrt (INR n)) * plane_wave n f X.
Proof.
  intros Hr Hn Hx. assert (Q : forall N, (0 < N)%nat -> RtoC (sqrt (INR N)) * isqrt N = 1).
  { intros N HN. unfold isqrt. rewrite <- RtoC_mult. f_equal. apply Rinv_r. apply Rgt_not_eq. apply sqrt_lt_R0. apply lt_0_INR. exact HN. }
  unfold plane_wave. rewrite !Cmult_assoc, !Q, !Cmult_1_l by assumption.
  rewrite <- (omega_scale r n) by assumption. rewrite <- (omega_scale n r) by assumption.
  rewrite (Nat.mul_comm n r). f_equal. rewrite <- !Z.mul_assoc. f_equal. nia.
Qed.

(** ** One axis *)
Lemma axis_forms same b : identity_test same -> bwf b -> explicit_orthonormal b ->
  let N := bfund b in
  exists G H, convert same b (basis_as_fundamental_basis b) = Some G /\ convert same b (basis_as_fundamental_transformed_basis b) = Some H /\
    (forall v x, (x < N)%nat -> G v x = amplitude b v x) /\
    (forall v j, (j < N)%nat -> H v j = inner_product N (plane_wave N (freq N j)) (G v)) /\
    (forall v x, (x < N)%nat -> G v x = csum (fun j => H v j * plane_wave N (freq N j) x) N).
Proof.
  intros Hs Hw He N. assert (HN : (0 < N)%nat) by exact (bfund_pos b Hw).
  assert (CP : compatible b (BFund N)) by (apply compatible_other; [intros la lb [_ E]; discriminate E|reflexivity]).
  assert (CM : compatible b (BFundT N)) by (apply compatible_other; [intros la lb [_ E]; discriminate E|reflexivity]).
  destruct (proj2 (convert_some_iff same _ _) CP) as [G EG]. destruct (proj2 (convert_some_iff same _ _) CM) as [H EH].
  exists G, H. split; [exact EG|]. split; [exact EH|].
  assert (WP : bwf (BFund N)) by exact HN. assert (WM : bwf (BFundT N)) by exact HN.
  assert (FP : full (BFund N)) by (cbn; auto). assert (FM : full (BFundT N)) by (cbn; auto).
  assert (GV : forall v x, (x < N)%nat -> G v x = amplitude b v x).
  { intros v x Hx. rewrite <- (convert_amplitude same _ _ G Hs Hw WP He (proj1 (full_bases _ WP FP)) EG v x Hx).
    unfold amplitude. cbn [bsize bstate]. rewrite (csum_single _ N x Hx).
    - unfold cdelta. rewrite Nat.eqb_refl. ring.
    - intros j Hj Hne. unfold cdelta. destruct (Nat.eqb_spec j x); [contradiction|ring]. }
  split; [exact GV|]. split.
  - intros v j Hj. rewrite (convert_orthonormal same Hs _ _ H Hw WM He EH v j Hj). unfold inner_product.
    transitivity (csum (fun k => csum (fun x => Cconj (plane_wave N (freq N j) x) * bstate b k x * v k) N) (bsize b)).
    { apply csum_ext. intros k Hk. unfold overlap. cbn [bstate]. fold N. rewrite <- csum_scal_r. reflexivity. }
    rewrite csum_swap. apply csum_ext. intros x Hx. rewrite (GV v x Hx). unfold amplitude.
    rewrite <- csum_scal_l. apply csum_ext. intros k Hk. ring.
  - intros v x Hx. rewrite (GV v x Hx).
    rewrite <- (convert_amplitude same _ _ H Hs Hw WM He (proj1 (full_bases _ WM FM)) EH v x Hx). reflexivity.
Qed.

Lemma stacked_of_axes d axes : in_space d axes ->
  stacked_basis_as_fundamental_position_basis axes = Some (map basis_as_fundamental_position_basis axes) /\
  stacked_basis_as_fundamental_momentum_basis axes = Some (map basis_as_fundamental_momentum_basis axes) /\
  stacked_basis_as_fundamental_basis axes = fundamental_stacked_basis_from_shape (fundamental_shape axes) /\
  stacked_basis_as_fundamental_transformed_basis axes = fundamental_transformed_stacked_basis_from_shape (fundamental_shape axes) /\
  forall a, In a axes ->
    la_delta (basis_as_fundamental_position_basis a) = la_delta a /\ la_delta (basis_as_fundamental_momentum_basis a) = la_delta a /\
    la_basis (basis_as_fundamental_position_basis a) = basis_as_fundamental_basis (la_basis a) /\
    la_basis (basis_as_fundamental_momentum_basis a) = basis_as_fundamental_transformed_basis (la_basis a).
Proof.
  intros H. split; [exact (as_position d axes H)|]. split; [exact (as_momentum d axes H)|]. repeat split.
Qed.

(** ** The Hamiltonian with explicit z states, declared in fundamental bases *)
Lemma fundamental_slab_state n0 n1 nz r0 r1 m vecs i x0 x1 X0 X1 z : (0 < r0)%nat -> (0 < r1)%nat ->
  (x0 < r0)%nat -> (x1 < r1)%nat -> (X0 < n0)%nat -> (X1 < n1)%nat -> (z < nz)%nat ->
  (X0 * r0 = x0 * n0)%nat -> (X1 * r1 = x1 * n1)%nat ->
  RtoC (sqrt (INR r0) * sqrt (INR r1)) * bstate (BTuple [BFundT r0; BFundT r1; BExpl m vecs (BFund nz)]) i (ravel [r0; r1; nz] [x0; x1; z]) =
  RtoC (sqrt (INR n0) * sqrt (INR n1)) * bstate (slab_basis n0 n1 nz r0 r1 m vecs) i (ravel [n0; n1; nz] [X0; X1; z]).
Proof.
  intros H0 H1 Hx0 Hx1 HX0 HX1 Hz E0 E1.
  assert (B : bstate (BTuple [BFundT r0; BFundT r1; BExpl m vecs (BFund nz)]) i (ravel [r0; r1; nz] [x0; x1; z]) =
    bstate (slab_basis r0 r1 nz r0 r1 m vecs) i (ravel [r0; r1; nz] [x0; x1; z])) by reflexivity.
  rewrite B, !slab_state by assumption. rewrite !RtoC_mult.
  assert (P0 := plane_fewer r0 n0 (freq r0 (i / (r1 * m))) x0 X0 H0 ltac:(lia) E0).
  assert (P1 := plane_fewer r1 n1 (freq r1 (i mod (r1 * m) / m)) x1 X1 H1 ltac:(lia) E1).
  transitivity ((RtoC (sqrt (INR r0)) * plane_wave r0 (freq r0 (i / (r1 * m))) x0) * (RtoC (sqrt (INR r1)) * plane_wave r1 (freq r1 (i mod (r1 * m) / m)) x1)
    * vecs (i mod (r1 * m) mod m)%nat z); [ring|]. rewrite P0, P1. ring.
Qed.

Lemma as_fundamental_spec same eigh hbar n0 n1 nz inv2 inv1 data frac r0 r1 config mass m H vecs : (0 < r0)%nat -> (0 < r1)%nat ->
  explicit_z_hamiltonian same eigh hbar n0 n1 nz inv2 inv1 data frac r0 r1 config mass m = Some H ->
  orow H = slab_basis n0 n1 nz r0 r1 m vecs ->
  exists H', explicit_z_hamiltonian_as_fundamental same eigh hbar n0 n1 nz inv2 inv1 data frac r0 r1 config mass m = Some H' /\
    odata H' = odata H /\ orow H' = BTuple [BFundT r0; BFundT r1; BExpl m vecs (BFund nz)] /\ ocol H' = orow H' /\
    bsize (orow H') = bsize (orow H) /\
    forall i x0 x1 X0 X1 z, (x0 < r0)%nat -> (x1 < r1)%nat -> (X0 < n0)%nat -> (X1 < n1)%nat -> (z < nz)%nat ->
      (X0 * r0 = x0 * n0)%nat -> (X1 * r1 = x1 * n1)%nat ->
      RtoC (sqrt (INR r0) * sqrt (INR r1)) * bstate (orow H') i (ravel [r0; r1; nz] [x0; x1; z]) =
      RtoC (sqrt (INR n0) * sqrt (INR n1)) * bstate (orow H) i (ravel [n0; n1; nz] [X0; X1; z]).
Proof.
  intros H0 H1 HH Ho. unfold explicit_z_hamiltonian_as_fundamental. rewrite HH, Ho. unfold slab_basis at 1.
  eexists. split; [reflexivity|]. cbn [odata orow ocol bsize]. split; [reflexivity|]. split; [reflexivity|]. split; [reflexivity|].
  split; [reflexivity|]. intros i x0 x1 X0 X1 z A1 A2 A3 A4 A5 A6 A7. apply fundamental_slab_state; assumption.
Qed.
Lemma as_fundamental_raises same eigh hbar n0 n1 nz inv2 inv1 data frac r0 r1 config mass m :
  explicit_z_hamiltonian same eigh hbar n0 n1 nz inv2 inv1 data frac r0 r1 config mass m = None ->
  explicit_z_hamiltonian_as_fundamental same eigh hbar n0 n1 nz inv2 inv1 data frac r0 r1 config mass m = None.
Proof. intros H. unfold explicit_z_hamiltonian_as_fundamental. rewrite H. reflexivity. Qed.
