(** Proofs about explicit_z_basis.py: assembling the total Hamiltonian. *)
From Coq Require Import Reals List ZArith Arith Lia Lra Bool.
From Verif Require Import ZLib Csum DFT NumPy Spec SpecReal Index IndexProofs Lattice Basis SpecBasis BasisProofs BasisProofs2 BasisProofs3 Operator SpecOperator OperatorProofs
  SpecMatrix Wavepacket SpecWavepacket Hamiltonian SpecHamiltonian HamiltonianProofs HamiltonianProofs2 Localize SpecLocalize LocalizeProofs3 Oscillator
  Generator SpecGenerator GeneratorProofs GeneratorProofs2 GeneratorProofs3 GeneratorProofs4 GeneratorProofs5 KernelProofs3.
Import ListNotations.
Local Open Scope R_scope.
Local Open Scope C_scope.

Lemma potential_element_plus b V W i j :
  potential_element b (fun x => V x + W x) i j = potential_element b V i j + potential_element b W i j.
Proof. unfold potential_element. rewrite <- csum_plus. apply csum_ext. intros x _. ring. Qed.

Lemma potential_element_V b V W i j : (forall x, (x < bfund b)%nat -> V x = W x) -> potential_element b V i j = potential_element b W i j.
Proof. intros H. unfold potential_element. apply csum_ext. intros x Hx. rewrite H by assumption. reflexivity. Qed.

Lemma ravel_mod_last n0 n1 nz x0 x1 z : (z < nz)%nat -> (ravel [n0; n1; nz] [x0; x1; z] mod nz = z)%nat.
Proof.
  intros Hz. cbn [ravel nprod]. rewrite !Nat.mul_1_r, Nat.add_0_r. rewrite Nat.add_assoc. rewrite Nat.mul_assoc, <- Nat.mul_add_distr_r.
  rewrite Nat.add_comm, Nat.mod_add by lia. apply Nat.mod_small. exact Hz.
Qed.

(** The Hamiltonian of the axis of the configuration, on its points. *)
Lemma z_hamiltonian_entries same hbar nz inv1 (config : nat -> C) mass f L : identity_test same -> (0 < nz)%nat ->
  is_inverse 1 (fun _ _ => L) inv1 -> (forall z, (z < nz)%nat -> snd (config z) = 0%R) ->
  exists H, total_surface_hamiltonian same hbar [BFund nz] inv1 config mass (Some (fun _ => f)) = Some H /\
    reshape (odata H) [nz; nz] = Some {| ashape := [nz; nz]; aflat := aflat (odata H) |} /\
    hermitian nz (at2 {| ashape := [nz; nz]; aflat := aflat (odata H) |}) /\
    mat_eq nz (at2 {| ashape := [nz; nz]; aflat := aflat (odata H) |}) (op_entry H) /\
    forall (p : nat -> nat -> R), (forall k, (k < nz)%nat -> wave_vector [nz] (fun _ _ => L) [k] (fun _ => f) (p k)) ->
    forall x y, (x < nz)%nat -> (y < nz)%nat ->
      at2 {| ashape := [nz; nz]; aflat := aflat (odata H) |} x y = config x * cdelta x y +
        csum (fun k => plane_wave nz (freq nz k) x * RtoC (hbar * hbar * dot 1 (p k) (p k) / (2 * mass)) * Cconj (plane_wave nz (freq nz k) y)) nz.
Proof.
  intros Hs Hz Hinv HV. set (axes := [BFund nz]).
  assert (Hw : bwf (BTuple axes)) by (cbn; lia). assert (Ho : explicit_orthonormal (BTuple axes)) by (cbn; tauto).
  destruct (hamiltonian_elements same Hs axes Hw Ho (fun _ _ => L) inv1 Hinv hbar mass (Some (fun _ => f)) config) as [H [E [Sq [R [Cc K]]]]].
  assert (Bs : bsize (BTuple axes) = nz) by (cbn; lia).
  assert (St : forall i x, bstate (BTuple axes) i x = cdelta i x).
  { intros i x. cbn [axes bstate map product_states nprod]. rewrite !Nat.div_1_r. ring. }
  assert (Am : forall x, (x < nz)%nat -> amplitude (BTuple axes) config x = config x).
  { intros x Hx. unfold amplitude. rewrite Bs. rewrite (csum_single _ nz x Hx).
    - rewrite St. unfold cdelta. rewrite Nat.eqb_refl. ring.
    - intros y _ Hy. rewrite St. unfold cdelta. destruct (Nat.eqb_spec y x); [congruence|]. ring. }
  assert (At : forall x y, at2 {| ashape := [nz; nz]; aflat := aflat (odata H) |} x y = op_entry H x y).
  { intros x y. unfold at2, op_entry. cbn [ashape aflat last nth]. rewrite Cc, Bs. reflexivity. }
  exists H. split; [exact E|]. split; [|split; [|split; [intros x y _ _; apply At|]]].
  - destruct Sq as [Wf [S1 S2]]. assert (Q := op_reshape H Wf). rewrite S1, S2, Bs in Q. exact Q.
  - intros i j Hi Hj. unfold adjoint. rewrite !At.
    assert (Hh := hamiltonian_hermitian same Hs axes Hw Ho (fun _ _ => L) inv1 Hinv hbar mass (Some (fun _ => f)) config H). rewrite Bs in Hh.
    apply Hh; try assumption. intros x Hx. change (bfund (BTuple axes)) with (nz * 1)%nat in Hx. rewrite Nat.mul_1_r in Hx. rewrite Am by assumption. apply HV. assumption.
  - intros p Hp x y Hx Hy. rewrite At. rewrite (K p).
    2:{ intros k Hk. change (map bfund axes) with [nz] in *. cbn [nprod] in Hk. rewrite Nat.mul_1_r in Hk.
        replace (unravel [nz] k) with [k] by (cbn [unravel nprod]; rewrite Nat.div_1_r; reflexivity).
        apply Hp. exact Hk. }
    2,3: rewrite Bs; assumption.
    change (map bfund axes) with [nz]. cbn [nprod length]. rewrite Nat.mul_1_r. f_equal.
    + rewrite (csum_single _ nz x Hx).
      * rewrite !St, Am by assumption. unfold cdelta. rewrite Nat.eqb_refl. rewrite (Nat.eqb_sym y x). rewrite Cconj_RtoC. ring.
      * intros t _ Ht. rewrite !St. unfold cdelta. destruct (Nat.eqb_spec x t); [congruence|]. rewrite Cconj_RtoC. ring.
    + apply csum_ext. intros k Hk. change (length axes) with 1%nat.
      unfold axes, momenta. rewrite !axis_overlaps_unravel by (repeat constructor).
      assert (U : forall k, unravel [nz] k = [k]) by (intros t; cbn [unravel nprod]; rewrite Nat.div_1_r; reflexivity).
      cbn [map bsize]. rewrite !U. cbn [axis_overlaps]. rewrite overlap_position by assumption.
      rewrite <- (overlap_conj (BFundT nz) (BFund nz) y k) by reflexivity. rewrite overlap_position by assumption. ring.
Qed.

Lemma explicit_z_waves n0 n1 nz delta inv2 inv1 f : (0 < n0)%nat -> (0 < n1)%nat -> (0 < nz)%nat -> perpendicular_axis delta ->
  is_inverse 2 delta inv2 -> is_inverse 1 (fun _ _ => delta 2%nat 2%nat) inv1 -> exists q, waves [n0; n1; nz] delta (Some f) q.
Proof.
    intros P0 P1 Hm Hp Hi2 Hi1.
    assert (W2 := waves_exist [n0; n1] delta inv2 (Some f) Hi2). assert (W1 := waves_exist [nz] (fun _ _ => delta 2%nat 2%nat) inv1 (Some (fun _ => f 2%nat)) Hi1).
    match type of W2 with waves _ _ _ ?q => set (qa := q) in * end. match type of W1 with waves _ _ _ ?q => set (qb := q) in * end.
    exists (fun k c => if (c =? 2)%nat then qb (k mod nz)%nat 0%nat else qa (k / nz)%nat c).
    intros k Hk. cbn [nprod] in Hk. rewrite Nat.mul_1_r in Hk. rewrite unravel3.
    assert (K1 : (k / nz < n0 * n1)%nat) by (apply Nat.div_lt_upper_bound; lia).
    assert (Eq0 : (k / (n1 * nz) = k / nz / n1)%nat) by (rewrite Nat.div_div by lia; rewrite (Nat.mul_comm nz n1); reflexivity).
    assert (Eq1 : (k mod (n1 * nz) / nz = (k / nz) mod n1)%nat).
    { rewrite (Nat.mul_comm n1 nz). rewrite Nat.mod_mul_r by lia. rewrite (Nat.mul_comm nz), Nat.div_add by lia.
      rewrite (Nat.div_small (k mod nz)) by (apply Nat.mod_upper_bound; lia). reflexivity. }
    assert (Eq2 : (k mod (n1 * nz) mod nz = k mod nz)%nat).
    { rewrite (Nat.mul_comm n1 nz). rewrite Nat.mod_mul_r by lia. rewrite (Nat.mul_comm nz), Nat.mod_add by lia. apply Nat.mod_mod. lia. }
    rewrite Eq0, Eq1, Eq2. cbn [fraction].
    apply (wave_join n0 n1 nz delta (k / nz / n1) ((k / nz) mod n1) (k mod nz) f (qa (k / nz)%nat) (qb (k mod nz)%nat) Hp).
    - rewrite <- (unravel2 n0 n1 (k / nz)). refine (W2 (k / nz)%nat _). cbn [nprod]. lia.
    - replace [(k mod nz)%nat] with (unravel [nz] (k mod nz)) by (cbn [unravel nprod]; rewrite Nat.div_1_r; reflexivity).
      refine (W1 (k mod nz)%nat _). cbn [nprod]. rewrite Nat.mul_1_r. apply Nat.mod_upper_bound. lia.
  Qed.

Section Total.
  Context (same : basis -> basis -> bool) (eigh : eigh_fn) (hbar mass : R) (n0 n1 nz r0 r1 m : nat).
  Context (delta inv2 inv1 : nat -> nat -> R) (data config : nat -> C) (f : nat -> R).
  Context (Hs : identity_test same) (He : eigh_ok eigh).
  Context (H0 : (0 < r0)%nat) (H1 : (0 < r1)%nat) (P0 : (0 < n0)%nat) (P1 : (0 < n1)%nat).
  Context (G0 : (2 * (r0 - 1) <= n0)%nat) (G1 : (2 * (r1 - 1) <= n1)%nat).
  Context (Hm : (0 < m <= nz)%nat).
  Context (Hp : perpendicular_axis delta) (Hi2 : is_inverse 2 delta inv2) (Hi1 : is_inverse 1 (fun _ _ => delta 2%nat 2%nat) inv1).
  Context (Hc : forall z, (z < nz)%nat -> snd (config z) = 0%R).

  Let N := (r0 * (r1 * m))%nat.

  Lemma explicit_z_spec : exists H Hz A vecs,
    total_surface_hamiltonian same hbar [BFund nz] inv1 config mass (Some (fun _ => f 2%nat)) = Some Hz /\
    mat_eq nz A (op_entry Hz) /\ vecs = (fun k x => snd (eigh nz A 0%nat (m - 1)%nat) x k) /\ hermitian nz A /\
    explicit_z_hamiltonian same eigh hbar n0 n1 nz inv2 inv1 data f r0 r1 config mass m = Some H /\
    square N H /\ orow H = slab_basis n0 n1 nz r0 r1 m vecs /\ ocol H = slab_basis n0 n1 nz r0 r1 m vecs /\
    (forall a b, (a < m)%nat -> (b < m)%nat -> inner_product nz (vecs a) (vecs b) = cdelta a b) /\
    forall q, waves [n0; n1; nz] delta (Some f) q -> forall i j, (i < N)%nat -> (j < N)%nat ->
      op_entry H i j =
        kinetic_element hbar mass [n0; n1; nz] (slab_basis n0 n1 nz r0 r1 m vecs) q i j +
        potential_element (slab_basis n0 n1 nz r0 r1 m vecs) (fun x => config (x mod nz)%nat) i j +
        potential_element (slab_basis n0 n1 nz r0 r1 m (fun k z => Cconj (vecs k z))) (fun x => data x - config (x mod nz)%nat) i j.
  Proof using All.
    assert (R0 : (r0 <= n0)%nat) by lia. assert (R1 : (r1 <= n1)%nat) by lia.
    destruct (z_hamiltonian_entries same hbar nz inv1 config mass (f 2%nat) (delta 2%nat 2%nat) Hs ltac:(lia) Hi1 Hc) as [Hz [Ez [Rz [Herm [Az Kz]]]]].
    unfold explicit_z_hamiltonian.
    replace (n0 <? 2 * (r0 - 1))%nat with false by (symmetry; apply Nat.ltb_ge; lia).
    replace (n1 <? 2 * (r1 - 1))%nat with false by (symmetry; apply Nat.ltb_ge; lia).
    rewrite Ez, Rz. set (A := at2 _) in *.
    replace (Z.of_nat m - 1)%Z with (Z.of_nat (m - 1)) by lia.
    assert (Ev := eigenvectors_some eigh nz A 0 (m - 1) ltac:(lia) ltac:(lia)). change (Z.of_nat 0) with 0%Z in Ev. rewrite Ev. clear Ev.
    assert (Q := He nz A 0%nat (m - 1)%nat Herm ltac:(lia) ltac:(lia)). destruct (eigh nz A 0%nat (m - 1)%nat) as [e v] eqn:Eigh. cbn [fst snd].
    replace (m - 1 - 0 + 1)%nat with m in Q by lia. destruct Q as [Qo [Qe _]].
    set (vecs := fun k i => v i k).
    assert (Orth : forall a b, (a < m)%nat -> (b < m)%nat -> inner_product nz (vecs a) (vecs b) = cdelta a b).
    { intros a b Ha Hb. apply Qo; assumption. }
    set (W := fun x => data x - config (x mod nz)%nat).
    destruct (energies2_elements n0 n1 nz r0 r1 m P0 P1 W vecs) as [rows [Er [Sh Kr]]].
    assert (Ft : to_list3 n0 n1 nz (ft_potential n0 n1 nz data config) =
                 to_list3 n0 n1 nz (ifft2 n0 n1 (fun x0 x1 z => W (ravel [n0; n1; nz] [x0; x1; z])))).
    { apply to_list3_ext. intros k0 k1 z _ _ Hz'. unfold ft_potential, ifft2. f_equal. apply csum_ext. intros x0 _. apply csum_ext. intros x1 _.
      unfold W. rewrite ravel_mod_last by exact Hz'. reflexivity. }
    rewrite Ft, Er.
    destruct (xy_spec same hbar r0 r1 m n0 n1 delta inv2 mass f Hs ltac:(lia) ltac:(lia) Hi2) as [xy [Exy Kxy]]. rewrite Exy.
    change (explicit_z_basis n0 n1 nz r0 r1 m vecs) with (slab_basis n0 n1 nz r0 r1 m vecs).
    set (B := slab_basis n0 n1 nz r0 r1 m vecs).
    assert (Bn : bsize B = N) by (unfold B, N; cbn; lia). rewrite Bn.
    match goal with |- context [add_operator ?a ?b] => set (oa := a); set (ob := b) end.
    assert (Sa : square N oa) by (unfold square, op_wf, oa; cbn [orow ocol odata ashape ravel_array array2 nprod]; rewrite !Bn; repeat split; lia).
    assert (Sb : square N ob) by (unfold square, op_wf, ob; cbn [orow ocol odata ashape ravel_array array2 nprod]; rewrite !Bn; repeat split; lia).
    destruct (add_operator_spec N oa ob Sa Sb eq_refl) as [H [EH [SH [RH [CH KH]]]]].
    exists H, Hz, A, vecs. split; [reflexivity|]. split; [exact Az|]. split; [rewrite Eigh; reflexivity|]. split; [exact Herm|]. split; [exact EH|]. split; [exact SH|]. split; [exact RH|]. split; [exact CH|]. split; [exact Orth|].
    intros q Hq i j Hi Hj. rewrite KH by assumption.
    assert (Ea : op_entry oa i j = if (i =? j)%nat then xy i else 0).
    { unfold op_entry, oa. cbn [ocol odata]. rewrite Bn. unfold ravel_array. change (aflat {| ashape := ?s; aflat := ?g |}) with g. apply (array2_flat N N); assumption. }
    assert (Eb : op_entry ob i j = (if (i =? j)%nat then RtoC (e (i mod m)%nat) else 0) + entry rows i j).
    { unfold op_entry, ob. cbn [ocol odata]. rewrite Bn. apply (array2_flat N N (fun i j => Cplus (if (i =? j)%nat then RtoC (e (i mod m)%nat) else 0) (entry rows i j))). assumption. }
    rewrite Ea, Eb, Kr by assumption. fold W.
    match goal with |- _ = _ + ?p => set (pw := p) end.
    (* wave vectors *)
    set (idx := fun k0 k1 kz => ravel [n0; n1; nz] [k0; k1; kz]).
    assert (Wv : forall k0 k1 kz, (k0 < n0)%nat -> (k1 < n1)%nat -> (kz < nz)%nat -> wave_vector [n0; n1; nz] delta [k0; k1; kz] f (q (idx k0 k1 kz))).
    { intros k0 k1 kz A0 A1 A2. assert (I3 : in_shape [k0; k1; kz] [n0; n1; nz]) by (apply ravel3; assumption).
      assert (X := Hq (idx k0 k1 kz) (ravel_lt _ _ I3)). unfold idx in X at 1. rewrite unravel_ravel in X by exact I3. exact X. }
    set (T := fun d : R => RtoC (hbar * hbar * d / (2 * mass))).
    set (p := fun k (_ : nat) => q (idx 0%nat 0%nat k) 2%nat).
    assert (Wp : forall k, (k < nz)%nat -> wave_vector [nz] (fun _ _ => delta 2%nat 2%nat) [k] (fun _ => f 2%nat) (p k)).
    { intros k Hk. exact (proj1 (proj2 (wave_split n0 n1 nz delta 0 0 k f _ Hp (Wv 0%nat 0%nat k P0 P1 Hk)))). }
    set (Exy' := fun k0 k1 => T (dot 2 (q (idx k0 k1 0%nat)) (q (idx k0 k1 0%nat)))).
    set (Ez' := fun k => T (dot 1 (p k) (p k))).
    assert (Split : forall k0 k1 kz, (k0 < n0)%nat -> (k1 < n1)%nat -> (kz < nz)%nat ->
       T (dot 3 (q (idx k0 k1 kz)) (q (idx k0 k1 kz))) = Exy' k0 k1 + Ez' kz).
    { intros k0 k1 kz A0 A1 A2. destruct (wave_split n0 n1 nz delta k0 k1 kz f _ Hp (Wv k0 k1 kz A0 A1 A2)) as [S1 [S2 S3]].
      destruct (wave_split n0 n1 nz delta k0 k1 0 f _ Hp (Wv k0 k1 0%nat A0 A1 ltac:(lia))) as [S1' _].
      assert (U2 := wave_unique [n0; n1] delta inv2 [k0; k1] f _ _ Hi2 S1 S1').
      assert (U1 := wave_unique [nz] (fun _ _ => delta 2%nat 2%nat) inv1 [kz] (fun _ => f 2%nat) _ _ Hi1 S2 (Wp kz A2)).
      unfold Exy', Ez', T. rewrite <- RtoC_plus. f_equal. rewrite S3.
      assert (D2 : dot 2 (q (idx k0 k1 kz)) (q (idx k0 k1 kz)) = dot 2 (q (idx k0 k1 0%nat)) (q (idx k0 k1 0%nat))).
      { unfold dot. cbn [rsum]. rewrite !U2 by (cbn; lia). reflexivity. }
      assert (D1 : dot 1 (fun _ => q (idx k0 k1 kz) 2%nat) (fun _ => q (idx k0 k1 kz) 2%nat) = dot 1 (p kz) (p kz)).
      { unfold dot. cbn [rsum]. assert (X := U1 0%nat ltac:(cbn; lia)). cbn beta in X. rewrite X. reflexivity. }
      rewrite D2, D1. unfold Rdiv. ring. }
    unfold kinetic_element, B. change (length [n0; n1; nz]) with 3%nat.
    rewrite (slab_kinetic n0 n1 nz r0 r1 m vecs (fun k => RtoC (hbar * hbar * dot 3 (q k) (q k) / (2 * mass))) Exy' Ez' i j) by (first [lia|assumption|exact Split]).
    rewrite (slab_config n0 n1 nz r0 r1 m vecs config i j) by (first [lia|assumption]).
    assert (Bz : forall t, (t < N)%nat -> (zi r1 m t < m)%nat) by (intros t _; unfold zi; apply Nat.mod_upper_bound; lia).
    rewrite z_orthonormal by (first [apply Bz; assumption|exact Orth]).
    assert (Zel := z_element nz m vecs e A config Ez' (zi r1 m i) (zi r1 m j) (Bz i Hi) (Bz j Hj) Orth Qe (Kz p Wp)).
    set (s0 := fun t => slot n0 (freq r0 (t / (r1 * m)))) in *. set (s1 := fun t => slot n1 (freq r1 (t mod (r1 * m) / m))) in *.
    fold (s0 i) (s0 j) (s1 i) (s1 j).
    match type of Zel with _ = ?c + ?k => set (cz := c) in *; set (kz := k) in * end.
    assert (Lhs : (if (i =? j)%nat then xy i else 0) + (if (i =? j)%nat then RtoC (e (i mod m)%nat) else 0) =
      cdelta (s0 i) (s0 j) * cdelta (s1 i) (s1 j) * (Exy' (s0 i) (s1 i) * cdelta (zi r1 m i) (zi r1 m j)) +
      cdelta (s0 i) (s0 j) * cdelta (s1 i) (s1 j) * (RtoC (e (zi r1 m j)) * cdelta (zi r1 m i) (zi r1 m j))).
    { assert (Bd : forall t, (t < N)%nat -> (t / (r1 * m) < r0)%nat /\ (t mod (r1 * m) / m < r1)%nat).
      { intros t Ht. split; [apply Nat.div_lt_upper_bound; unfold N in Ht; lia|]. apply Nat.div_lt_upper_bound; [lia|]. rewrite (Nat.mul_comm m r1). apply Nat.mod_upper_bound. lia. }
      destruct (Bd i Hi) as [I0 I1]. destruct (Bd j Hj) as [J0 J1].
      assert (D : cdelta (s0 i) (s0 j) * cdelta (s1 i) (s1 j) * cdelta (zi r1 m i) (zi r1 m j) = cdelta i j).
      { assert (D0 : cdelta (s0 i) (s0 j) = cdelta (i / (r1 * m)) (j / (r1 * m))).
        { unfold s0, cdelta. destruct (Nat.eqb_spec (i / (r1 * m)) (j / (r1 * m))) as [->|Hn]; [rewrite Nat.eqb_refl; reflexivity|].
          destruct (Nat.eqb_spec (slot n0 (freq r0 (i / (r1 * m)))) (slot n0 (freq r0 (j / (r1 * m))))) as [X|_]; [|reflexivity].
          exfalso. apply Hn. apply (slot_inj r0 n0); assumption. }
        assert (D1 : cdelta (s1 i) (s1 j) = cdelta (i mod (r1 * m) / m) (j mod (r1 * m) / m)).
        { unfold s1, cdelta. destruct (Nat.eqb_spec (i mod (r1 * m) / m) (j mod (r1 * m) / m)) as [->|Hn]; [rewrite Nat.eqb_refl; reflexivity|].
          destruct (Nat.eqb_spec (slot n1 (freq r1 (i mod (r1 * m) / m))) (slot n1 (freq r1 (j mod (r1 * m) / m)))) as [X|_]; [|reflexivity].
          exfalso. apply Hn. apply (slot_inj r1 n1); assumption. }
        rewrite D0, D1. unfold zi. rewrite <- Cmult_assoc. rewrite (cdelta_div_mod m) by lia. apply cdelta_div_mod. nia. }
      transitivity (Exy' (s0 i) (s1 i) * cdelta i j + RtoC (e (zi r1 m j)) * cdelta i j); [|rewrite <- D; ring].
      unfold cdelta. destruct (Nat.eqb_spec i j) as [<-|]; [|ring].
      assert (Zi : (i mod m = zi r1 m i)%nat).
      { unfold zi. rewrite (Nat.mul_comm r1 m). rewrite Nat.mod_mul_r by lia. rewrite (Nat.mul_comm m), Nat.mod_add by lia. symmetry. apply Nat.mod_mod. lia. }
      rewrite Zi. rewrite (Kxy i (q (idx (s0 i) (s1 i) 0%nat)) Hi).
      2:{ apply (wave_split n0 n1 nz delta (s0 i) (s1 i) 0 f _ Hp). apply Wv; [apply slot_lt; lia|apply slot_lt; lia|lia]. }
      fold (T (dot 2 (q (idx (s0 i) (s1 i) 0%nat)) (q (idx (s0 i) (s1 i) 0%nat)))). fold (Exy' (s0 i) (s1 i)). ring. }
    rewrite Cplus_assoc, Lhs. f_equal. rewrite Zel. ring.
  Qed.
End Total.
