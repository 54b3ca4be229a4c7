(** Consequences and concrete facts about the Hamiltonian in explicit z states. *)
From Coq Require Import Reals List ZArith Arith Lia Lra Bool.
From Verif Require Import ZLib Csum DFT NumPy Spec SpecReal Index IndexProofs Lattice LatticeProofs Basis SpecBasis BasisProofs BasisProofs2 BasisProofs3 Operator SpecOperator OperatorProofs
  SpecMatrix Wavepacket SpecWavepacket Hamiltonian SpecHamiltonian HamiltonianProofs HamiltonianProofs2 Localize SpecLocalize LocalizeProofs3 Oscillator OscillatorProofs2
  Spectral3 Generator SpecGenerator GeneratorProofs GeneratorProofs2 GeneratorProofs3 GeneratorProofs4 GeneratorProofs5 GeneratorProofs6 GeneratorFacts KernelProofs3.
Import ListNotations.
Local Open Scope R_scope.
Local Open Scope C_scope.

Lemma kinetic_element_hermitian hbar mass shape b q i j : bfund b = nprod shape ->
  kinetic_element hbar mass shape b q i j = Cconj (kinetic_element hbar mass shape b q j i).
Proof.
  intros Hb. unfold kinetic_element. rewrite Cconj_csum. apply csum_ext. intros k _.
  assert (Fm : bfund (momenta shape) = nprod shape).
  { unfold momenta. cbn [bfund]. f_equal. rewrite map_map. cbn [bfund]. apply map_id. }
  rewrite !Cconj_mult, Cconj_RtoC. rewrite !overlap_conj by congruence. ring.
Qed.

Section Total.
  Context (same : basis -> basis -> bool) (eigh : eigh_fn) (hbar mass : R) (n0 n1 nz r0 r1 m : nat).
  Context (delta inv2 inv1 : nat -> nat -> R) (data config : nat -> C) (f : nat -> R).
  Context (Hs : identity_test same) (He : eigh_ok eigh).
  Context (H0 : (0 < r0)%nat) (H1 : (0 < r1)%nat) (P0 : (0 < n0)%nat) (P1 : (0 < n1)%nat).
  Context (G0 : (2 * (r0 - 1) <= n0)%nat) (G1 : (2 * (r1 - 1) <= n1)%nat).
  Context (Hm : (0 < m <= nz)%nat).
  Context (Hp : perpendicular_axis delta) (Hi2 : is_inverse 2 delta inv2) (Hi1 : is_inverse 1 (fun _ _ => delta 2%nat 2%nat) inv1).
  Context (Hc : forall z, (z < nz)%nat -> snd (config z) = 0%R).

  Let N := (r0 * (r1 * m))%nat.
  Let call := explicit_z_hamiltonian same eigh hbar n0 n1 nz inv2 inv1 data f r0 r1 config mass m.

  Lemma explicit_z_built : exists H Hz vecs e,
    call = Some H /\ square N H /\ orow H = slab_basis n0 n1 nz r0 r1 m vecs /\ ocol H = slab_basis n0 n1 nz r0 r1 m vecs /\
    explicit_orthonormal (slab_basis n0 n1 nz r0 r1 m vecs) /\
    total_surface_hamiltonian same hbar [BFund nz] inv1 config mass (Some (fun _ => f 2%nat)) = Some Hz /\
    (forall k x, (k < m)%nat -> (x < nz)%nat -> csum (fun y => op_entry Hz x y * vecs k y) nz = RtoC (e k) * vecs k x) /\
    (forall E, ascending_spectrum nz (op_entry Hz) E -> forall k, (k < m)%nat -> e k = E k) /\
    forall q, waves [n0; n1; nz] delta (Some f) q -> forall i j, (i < N)%nat -> (j < N)%nat ->
      op_entry H i j =
        kinetic_element hbar mass [n0; n1; nz] (slab_basis n0 n1 nz r0 r1 m vecs) q i j +
        potential_element (slab_basis n0 n1 nz r0 r1 m vecs) (fun x => config (x mod nz)%nat) i j +
        potential_element (slab_basis n0 n1 nz r0 r1 m (fun k z => Cconj (vecs k z))) (fun x => data x - config (x mod nz)%nat) i j.
  Proof using All.
    destruct (explicit_z_spec same eigh hbar mass n0 n1 nz r0 r1 m delta inv2 inv1 data config f Hs He H0 H1 P0 P1 G0 G1 Hm Hp Hi2 Hi1 Hc)
      as [H [Hz [A [vecs [Ez [EA [Ev [Herm [E [S [R [Cc [Or K]]]]]]]]]]]]].
    assert (Q := He nz A 0%nat (m - 1)%nat Herm ltac:(lia) ltac:(lia)). destruct (eigh nz A 0%nat (m - 1)%nat) as [e v] eqn:Eigh.
    replace (m - 1 - 0 + 1)%nat with m in Q by lia. destruct Q as [Qo [Qe Qs]].
    exists H, Hz, vecs, e. split; [exact E|]. split; [exact S|]. split; [exact R|]. split; [exact Cc|].
    split. { cbn [slab_basis explicit_orthonormal]. repeat split; exact Or. }
    split; [exact Ez|]. split; [|split; [|exact K]].
    - intros k x Hk Hx. rewrite Ev. cbn [snd]. rewrite <- Qe by assumption. apply csum_ext. intros y Hy. rewrite EA by assumption. reflexivity.
    - intros E' HE k Hk. rewrite (Qs E'); [f_equal; lia| |exact Hk]. destruct HE as [M [V [U D]]]. split; [exact M|]. exists V. split; [exact U|].
      intros i j Hi Hj. rewrite EA by assumption. apply D; assumption.
  Qed.

  Lemma explicit_z_real H vecs q : call = Some H -> orow H = slab_basis n0 n1 nz r0 r1 m vecs ->
    (forall k z, (k < m)%nat -> (z < nz)%nat -> snd (vecs k z) = 0%R) ->
    waves [n0; n1; nz] delta (Some f) q -> forall i j, (i < N)%nat -> (j < N)%nat ->
    op_entry H i j = kinetic_element hbar mass [n0; n1; nz] (orow H) q i j + potential_element (orow H) data i j.
  Proof using All.
    intros E R Hr Hq i j Hi Hj. destruct explicit_z_built as [H' [_ [vecs' [_ [E' [_ [R' [_ [_ [_ [_ [_ K]]]]]]]]]]]].
    rewrite E in E'. injection E' as <-. assert (Ev : vecs' = vecs) by (rewrite R in R'; injection R' as ->; reflexivity). subst vecs'.
    rewrite (K q Hq i j Hi Hj), R. rewrite <- Cplus_assoc. f_equal.
    rewrite (potential_element_ext _ n0 n1 nz r0 r1 m (fun k z => Cconj (vecs k z)) vecs (fun x => data x - config (x mod nz)%nat) i j eq_refl)
      by (try assumption; intros k z Hk Hz; apply Cconj_real; apply Hr; assumption).
    rewrite <- potential_element_plus. apply potential_element_V. intros x _. ring.
  Qed.

  Lemma explicit_z_hermitian H : call = Some H -> (forall x, (x < n0 * (n1 * nz))%nat -> snd (data x) = 0%R) -> hermitian N (op_entry H).
  Proof using All.
    intros E Hd i j Hi Hj. unfold adjoint. destruct explicit_z_built as [H' [_ [vecs [_ [E' [_ [_ [_ [_ [_ [_ [_ K]]]]]]]]]]]].
    rewrite E in E'. injection E' as <-.
    destruct (explicit_z_waves n0 n1 nz delta inv2 inv1 f P0 P1 ltac:(lia) Hp Hi2 Hi1) as [q Hq].
    rewrite !(K q Hq) by assumption. rewrite !Cconj_plus. f_equal; [f_equal|].
    - apply kinetic_element_hermitian. cbn. lia.
    - apply potential_element_hermitian. intros x _. apply Hc. apply Nat.mod_upper_bound. lia.
    - apply potential_element_hermitian. intros x Hx. cbn [bfund slab_basis map nprod] in Hx. rewrite Nat.mul_1_r in Hx.
      assert (C1 := Hc (x mod nz)%nat ltac:(apply Nat.mod_upper_bound; lia)). assert (C2 := Hd x Hx).
      unfold Cminus, Cplus, Copp. cbn [snd]. rewrite C1, C2. ring.
  Qed.
End Total.

Lemma explicit_z_size same eigh hbar n0 n1 nz inv2 inv1 data f r0 r1 config mass m :
  (n0 < 2 * (r0 - 1) \/ n1 < 2 * (r1 - 1))%nat ->
  explicit_z_hamiltonian same eigh hbar n0 n1 nz inv2 inv1 data f r0 r1 config mass m = None.
Proof.
  intros H. unfold explicit_z_hamiltonian. destruct (n0 <? 2 * (r0 - 1))%nat eqn:E; [reflexivity|]. apply Nat.ltb_ge in E.
  replace (n1 <? 2 * (r1 - 1))%nat with true by (symmetry; apply Nat.ltb_lt; lia). reflexivity.
Qed.

(** ** Phases of the eigenvectors *)

Definition rephase (ph : nat -> (nat -> C) -> C) (eigh : eigh_fn) : eigh_fn := fun n A lo hi =>
  (fst (eigh n A lo hi), fun x k => snd (eigh n A lo hi) x k * ph k (fun y => snd (eigh n A lo hi) y k)).

Lemma rephase_ok ph eigh : (forall k u, Cconj (ph k u) * ph k u = 1) -> eigh_ok eigh -> eigh_ok (rephase ph eigh).
Proof.
  intros Hph He n A lo hi HA Hlo Hhi. assert (Q := He n A lo hi HA Hlo Hhi). unfold rephase.
  destruct (eigh n A lo hi) as [e v] eqn:Ei. rewrite ?Ei. cbn [fst snd] in *. destruct Q as [Qo [Qe Qs]]. split; [|split; [|exact Qs]].
  - intros a b Ha Hb. transitivity (Cconj (ph a (fun y => v y a)) * ph b (fun y => v y b) * cdelta a b).
    + rewrite <- Qo by assumption. rewrite <- csum_scal_l. apply csum_ext. intros x _. rewrite Cconj_mult. ring.
    + unfold cdelta. destruct (Nat.eqb_spec a b) as [->|]; [rewrite Hph|]; ring.
  - intros k x Hk Hx. transitivity (csum (fun y => A x y * v y k) n * ph k (fun y => v y k)).
    + rewrite <- csum_scal_r. apply csum_ext. intros y _. ring.
    + rewrite Qe by assumption. ring.
Qed.

(** ** Two points along a unit axis without potential *)

Definition unit3 (a c : nat) : R := if (a =? c)%nat then 1%R else 0%R.
Lemma unit3_perpendicular : perpendicular_axis unit3.
Proof. repeat split. Qed.
Lemma unit3_inverse2 : is_inverse 2 unit3 unit3.
Proof. split; intros a b Ha Hb; destruct a as [|[|a]]; try lia; destruct b as [|[|b]]; try lia; unfold unit3, rdelta; cbn [rsum Nat.eqb]; ring. Qed.
Lemma unit3_inverse1 : is_inverse 1 (fun _ _ => unit3 2%nat 2%nat) (fun _ _ => 1%R).
Proof. split; intros a b Ha Hb; destruct a as [|a]; try lia; destruct b as [|b]; try lia; unfold unit3, rdelta; cbn [rsum Nat.eqb]; ring. Qed.

Definition no_test (_ _ : basis) : bool := false.
Lemma no_test_identity : identity_test no_test.
Proof. intros a b H. discriminate. Qed.

Definition flat (_ : nat) : C := RtoC 0.
Definition no_fraction (_ : nat) : R := 0%R.

Section Two.
  Variable eigh : eigh_fn.
  Hypothesis He : eigh_ok eigh.

  Lemma two_spec : exists H vecs A, 
    explicit_z_hamiltonian no_test eigh 1 1 1 2 unit3 (fun _ _ => 1%R) spike no_fraction 1 1 flat 1 2 = Some H /\
    orow H = slab_basis 1 1 2 1 1 2 vecs /\
    vecs = (fun k x => snd (eigh 2%nat A 0%nat 1%nat) x k) /\
    (A 0%nat 0%nat = RtoC (PI * PI) /\ A 0%nat 1%nat = RtoC (- (PI * PI))) /\ hermitian 2 A /\
    forall q, waves [1; 1; 2]%nat unit3 (Some no_fraction) q -> forall i j, (i < 2)%nat -> (j < 2)%nat ->
      op_entry H i j = kinetic_element 1 1 [1; 1; 2]%nat (slab_basis 1 1 2 1 1 2 vecs) q i j +
        potential_element (slab_basis 1 1 2 1 1 2 (fun k z => Cconj (vecs k z))) spike i j.
  Proof using He.
    destruct (z_hamiltonian_entries no_test 1 2 (fun _ _ => 1%R) flat 1 0%R (unit3 2%nat 2%nat) no_test_identity ltac:(lia) unit3_inverse1 ltac:(intros; reflexivity))
      as [Hz [Ez [Rz [Herm [Az Kz]]]]].
    destruct (explicit_z_spec no_test eigh 1 1 1 1 2 1 1 2 unit3 unit3 (fun _ _ => 1%R) spike flat no_fraction no_test_identity He
      ltac:(lia) ltac:(lia) ltac:(lia) ltac:(lia) ltac:(cbn; lia) ltac:(cbn; lia) ltac:(lia) unit3_perpendicular unit3_inverse2 unit3_inverse1 ltac:(intros; reflexivity))
      as [H [Hz' [A [vecs [Ez' [EA [Ev [HermA [E [S [R [Cc [Or K]]]]]]]]]]]]].
    unfold no_fraction in Ez' at 1. rewrite Ez in Ez'. injection Ez' as <-.
    exists H, vecs, A. split; [exact E|]. split; [exact R|]. split; [exact Ev|]. split.
    - assert (X : forall x y, (x < 2)%nat -> (y < 2)%nat -> A x y = RtoC 0 * cdelta x y +
        csum (fun k => plane_wave 2 (freq 2 k) x * RtoC (1 * 1 * (2 * PI * IZR (freq 2 k) * (2 * PI * IZR (freq 2 k))) / (2 * 1)) * Cconj (plane_wave 2 (freq 2 k) y)) 2).
      { intros x y Hx Hy. rewrite EA, <- Az by assumption. rewrite (Kz (fun k _ => 2 * PI * IZR (freq 2 k))%R) by
          (try assumption; intros k Hk a Ha; cbn [length] in Ha; assert (a = 0)%nat by lia; subst a; unfold dot, unit3; cbn [length rsum nth Nat.eqb]; ring).
        f_equal. apply csum_ext. intros k _. unfold dot. cbn [rsum]. do 3 f_equal. f_equal. ring. }
      assert (O1 : omega 2 1 = RtoC (-1)).
      { unfold omega. cbn [INR]. replace (2 * PI * 1 / (1 + 1))%R with PI by field. unfold cis. rewrite cos_PI, sin_PI. reflexivity. }
      assert (O2 : omega 2 (-1) = RtoC (-1)).
      { unfold omega. cbn [INR]. replace (2 * PI * -1 / (1 + 1))%R with (- PI)%R by field. unfold cis. rewrite cos_neg, sin_neg, cos_PI, sin_PI. unfold RtoC. f_equal. ring. }
      assert (Q2 : isqrt 2 * isqrt 2 = RtoC (/ 2)).
      { assert (Y := isqrt_sqr 2 ltac:(lia)). cbn [INR] in Y. transitivity (isqrt 2 * isqrt 2 * RtoC (1 + 1) * RtoC (/ 2)).
        - rewrite <- Cmult_assoc, <- RtoC_mult. replace ((1 + 1) * / 2)%R with 1%R by field. ring.
        - rewrite Y. ring. }
      split; rewrite X by lia; cbn [csum]; change (freq 2 0) with 0%Z; change (freq 2 1) with (-1)%Z; unfold plane_wave;
        rewrite !Cconj_mult, isqrt_conj; change (0 * Z.of_nat 0)%Z with 0%Z; change (-1 * Z.of_nat 0)%Z with 0%Z; change (0 * Z.of_nat 1)%Z with 0%Z; change (-1 * Z.of_nat 1)%Z with (-1)%Z;
        rewrite ?O2, !omega_0, ?Cconj_RtoC.
      + transitivity ((isqrt 2 * isqrt 2) * RtoC (1 * 1 * (2 * PI * -1 * (2 * PI * -1)) / (2 * 1)) + (isqrt 2 * isqrt 2) * RtoC (1 * 1 * (2 * PI * 0 * (2 * PI * 0)) / (2 * 1))).
        { ring. } rewrite Q2, <- !RtoC_mult, <- RtoC_plus. f_equal. field.
      + transitivity ((isqrt 2 * isqrt 2) * RtoC (1 * 1 * (2 * PI * -1 * (2 * PI * -1)) / (2 * 1)) * RtoC (-1) + (isqrt 2 * isqrt 2) * RtoC (1 * 1 * (2 * PI * 0 * (2 * PI * 0)) / (2 * 1))).
        { ring. } rewrite Q2, <- !RtoC_mult, <- RtoC_plus. f_equal. field.
    - split; [exact HermA|]. intros q Hq i j Hi Hj. rewrite (K q Hq i j) by (cbn; assumption).
      transitivity (kinetic_element 1 1 [1; 1; 2]%nat (slab_basis 1 1 2 1 1 2 vecs) q i j + 0 + potential_element (slab_basis 1 1 2 1 1 2 (fun k z => Cconj (vecs k z))) spike i j); [|ring].
      f_equal; [f_equal|].
      + unfold potential_element, flat. apply csum_zero_ext. intros x _. ring.
      + apply potential_element_V. intros x _. unfold flat. ring.
  Qed.

  (** The ratio of the two components of an eigenvector is real, and none vanishes. *)
  Lemma two_vectors A v k : A 0%nat 0%nat = RtoC (PI * PI) -> A 0%nat 1%nat = RtoC (- (PI * PI)) -> hermitian 2 A ->
    v = snd (eigh 2%nat A 0%nat 1%nat) -> (k < 2)%nat ->
    v 0%nat k <> 0 /\ exists r : R, v 1%nat k = RtoC r * v 0%nat k.
  Proof using He.
    intros A0 A1 HA Ev Hk. assert (Q := He 2%nat A 0%nat 1%nat HA ltac:(lia) ltac:(lia)). destruct (eigh 2%nat A 0%nat 1%nat) as [e w]. cbn [snd] in Ev. subst w.
    destruct Q as [Qo [Qe _]]. cbn [Nat.sub Nat.add] in *.
    assert (X := Qe k 0%nat Hk ltac:(lia)). cbn [csum] in X. rewrite A0, A1 in X.
    assert (PP : (PI * PI <> 0)%R) by (generalize PI_RGT_0; nra).
    assert (V1 : v 1%nat k = RtoC (1 - e k / (PI * PI)) * v 0%nat k).
    { destruct (v 0%nat k) as [a b], (v 1%nat k) as [c d]. unfold RtoC, Cplus, Cmult in *. cbn [fst snd] in *. injection X as X1 X2.
      f_equal; apply (Rmult_eq_reg_l (PI * PI)); try exact PP; field_simplify; try exact PP; nra. }
    split; [|eexists; exact V1]. intros Z. rewrite Z in V1. assert (Y := Qo k k Hk Hk). cbn [csum] in Y. rewrite Z, V1 in Y.
    unfold cdelta in Y. rewrite Nat.eqb_refl in Y. unfold RtoC, Cplus, Cmult, Cconj in Y. cbn [fst snd] in Y. injection Y. lra.
  Qed.
End Two.

Definition straight (_ : nat) (u : nat -> C) : C :=
  if Ceq_dec (u 0%nat) 0 then 1 else Cconj (u 0%nat) * RtoC (/ Cmod (u 0%nat)).

Lemma straight_unit k u : Cconj (straight k u) * straight k u = 1.
Proof.
  unfold straight. destruct (Ceq_dec (u 0%nat) 0) as [E|E]; [rewrite Cconj_RtoC; ring|].
  assert (P := Cmod_gt_0 (u 0%nat)). apply P in E. clear P.
  assert (M : (Cmod (u 0%nat) * Cmod (u 0%nat) = fst (u 0%nat) * fst (u 0%nat) + snd (u 0%nat) * snd (u 0%nat))%R).
  { unfold Cmod. rewrite sqrt_sqrt by nra. ring. }
  set (c := Cmod (u 0%nat)) in *. destruct (u 0%nat) as [a b]. cbn [fst snd] in *.
  unfold Cconj, Cmult, RtoC. cbn [fst snd]. f_equal; [|ring].
  transitivity ((a * a + b * b) / (c * c))%R; [field; lra|]. rewrite M. apply Rinv_r. rewrite <- M. nra.
Qed.

(** Some diagonaliser returns real states. *)
Lemma two_real : exists eigh H vecs, eigh_ok eigh /\
  explicit_z_hamiltonian no_test eigh 1 1 1 2 unit3 (fun _ _ => 1%R) spike no_fraction 1 1 flat 1 2 = Some H /\
  orow H = slab_basis 1 1 2 1 1 2 vecs /\ (forall k z, (k < 2)%nat -> (z < 2)%nat -> snd (vecs k z) = 0%R).
Proof.
  destruct eigh_exists as [eigh He]. assert (He' := rephase_ok straight eigh straight_unit He).
  destruct (two_spec _ He') as [H [vecs [A [E [R [Ev [[A0 A1] [HA _]]]]]]]].
  exists (rephase straight eigh), H, vecs. split; [exact He'|]. split; [exact E|]. split; [exact R|].
  intros k z Hk Hz. rewrite Ev. unfold rephase. cbn [snd]. set (v := snd (eigh 2%nat A 0%nat 1%nat)).
  destruct (two_vectors eigh He A v k A0 A1 HA eq_refl Hk) as [N [r Hr]].
  assert (Z0 : snd (v 0%nat k * straight k (fun y => v y k)) = 0%R).
  { unfold straight. destruct (Ceq_dec (v 0%nat k) 0) as [X|_]; [contradiction|].
    destruct (v 0%nat k) as [a b]. unfold Cconj, Cmult, RtoC. cbn [fst snd]. ring. }
  destruct z as [|[|z]]; [exact Z0| |lia]. rewrite Hr. rewrite <- Cmult_assoc.
  destruct (v 0%nat k * straight k (fun y => v y k)) as [a b]. cbn [snd] in Z0. unfold Cmult, RtoC. cbn [fst snd]. rewrite Z0. ring.
Qed.

Definition quarter_turn (k : nat) (u : nat -> C) : C := straight k u * match k with 0%nat => 1 | _ => Ci end.
Lemma quarter_turn_unit k u : Cconj (quarter_turn k u) * quarter_turn k u = 1.
Proof.
  unfold quarter_turn. rewrite Cconj_mult.
  transitivity (Cconj (straight k u) * straight k u * (Cconj (match k with 0%nat => 1 | _ => Ci end) * match k with 0%nat => 1 | _ => Ci end)); [ring|].
  rewrite straight_unit. destruct k; unfold Ci, RtoC, Cconj, Cmult; cbn [fst snd]; f_equal; ring.
Qed.

Lemma straight_value k (u : nat -> C) : u 0%nat <> 0 -> exists r : R, r <> 0%R /\ u 0%nat * straight k u = RtoC r.
Proof.
  intros N. exists (Cmod (u 0%nat)). unfold straight. destruct (Ceq_dec (u 0%nat) 0) as [X|_]; [contradiction|].
  apply Cmod_gt_0 in N. split; [lra|].
  assert (M : (Cmod (u 0%nat) * Cmod (u 0%nat) = fst (u 0%nat) * fst (u 0%nat) + snd (u 0%nat) * snd (u 0%nat))%R).
  { unfold Cmod. rewrite sqrt_sqrt by nra. ring. }
  set (c := Cmod (u 0%nat)) in *. destruct (u 0%nat) as [a b]. cbn [fst snd] in *.
  unfold Cconj, Cmult, RtoC. cbn [fst snd]. f_equal; [|ring].
  transitivity ((a * a + b * b) / c)%R; [field; lra|]. rewrite <- M. field. lra.
Qed.

(** For some diagonaliser the matrix is not that of the Hamiltonian in the basis it is labelled with. *)
Lemma two_refutes : exists eigh H, eigh_ok eigh /\
  explicit_z_hamiltonian no_test eigh 1 1 1 2 unit3 (fun _ _ => 1%R) spike no_fraction 1 1 flat 1 2 = Some H /\
  forall q, waves [1; 1; 2]%nat unit3 (Some no_fraction) q ->
    op_entry H 0 1 <> kinetic_element 1 1 [1; 1; 2]%nat (orow H) q 0 1 + potential_element (orow H) spike 0 1.
Proof.
  destruct eigh_exists as [eigh He]. assert (He' := rephase_ok quarter_turn eigh quarter_turn_unit He).
  destruct (two_spec _ He') as [H [u [A [E [R [Ev [[A0 A1] [HA K]]]]]]]].
  destruct (two_vectors eigh He A _ 0 A0 A1 HA eq_refl ltac:(lia)) as [N0 _].
  destruct (two_vectors eigh He A _ 1 A0 A1 HA eq_refl ltac:(lia)) as [N1 _].
  exists (rephase quarter_turn eigh), H. split; [exact He'|]. split; [exact E|]. intros q Hq X.
  rewrite (K q Hq) in X by lia. rewrite R in X. rewrite !spike_element in X.
  assert (Y : Cconj (Cconj (u 0%nat 0%nat)) * Cconj (u 1%nat 0%nat) = Cconj (u 0%nat 0%nat) * u 1%nat 0%nat).
  { match type of X with ?a + ?b = ?a + ?c => assert (Z : b = c) by (transitivity (a + b - a); [ring|rewrite X; ring]) end.
    match type of Z with ?t * ?b = ?t * ?c => transitivity (RtoC (/ 25) * (t * b)); [|rewrite Z] end;
      rewrite Cmult_assoc, <- RtoC_mult; replace (/ 25 * 25)%R with 1%R by field; ring. }
  rewrite Ev in Y. unfold rephase, quarter_turn in Y. cbn [fst snd] in Y. set (v := snd (eigh 2%nat A 0%nat 1%nat)) in *.
  destruct (straight_value 0 (fun y => v y 0%nat) N0) as [r0 [P0 S0]]. destruct (straight_value 1 (fun y => v y 1%nat) N1) as [r1 [P1 S1]].
  assert (T0 : v 0%nat 0%nat * (straight 0 (fun y => v y 0%nat) * 1) = RtoC r0) by (rewrite <- S0; ring).
  assert (T1 : v 0%nat 1%nat * (straight 1 (fun y => v y 1%nat) * Ci) = RtoC r1 * Ci) by (rewrite <- S1; ring).
  rewrite T0, T1 in Y. unfold Ci, RtoC, Cconj, Cmult in Y. cbn [fst snd] in Y.
  assert (Z := f_equal snd Y). cbn [snd] in Z. assert (r0 * r1 <> 0)%R by (apply Rmult_integral_contrapositive_currified; assumption). lra.
Qed.
