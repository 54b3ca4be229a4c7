(** Examples and refutations for the observables of lists of states. *)
From Coq Require Import Reals Lra Lia.
From Verif Require Import ZLib Csum DFT NumPy Index Basis SpecBasis BasisProofs BasisProofs2 BasisProofs3 BasisFacts Lattice LatticeProofs Operator
  StateList SpecStateList Wavepacket SpecWavepacket Hamiltonian HamiltonianProofs Brillouin
  Observables SpecObservables ObservablesProofs ObservablesProofs2 ObservablesProofs3 ObservablesProofs4 ObservablesProofs5 ObservablesProofs6 ObservablesProofs7.
Local Open Scope R_scope.
Local Open Scope C_scope.

(** A grid of four points over a length of eight: a state at the last point, of norm two, and
    one shared between the first two. *)
Definition ex_axes : list basis := [BFund 4].
Definition ex_delta (_ _ : nat) : R := 8%R.
Definition ex_inv (_ _ : nat) : R := (1 / 8)%R.
Definition ex_values : list C := [RtoC 0; RtoC 0; RtoC 0; RtoC 2; RtoC 1; Ci; RtoC 0; RtoC 0].
Definition ex_states : state_list :=
  {| slist := BFund 2; sbasis := BTuple ex_axes; sdata := {| ashape := [8%nat]; aflat := fun t => nth t ex_values (RtoC 0) |} |}.

Lemma ex_ok : bwf (BTuple ex_axes) /\ explicit_orthonormal (BTuple ex_axes) /\ length ex_axes = 1%nat /\ sbasis ex_states = BTuple ex_axes /\ well_formed_list ex_states /\
  (0 < ex_delta 0%nat 0%nat)%R.
Proof. repeat split; try reflexivity; try (cbn; lia). unfold ex_delta. lra. Qed.

Lemma amplitude_fund n v x : (x < n)%nat -> amplitude (BTuple [BFund n]) v x = v x.
Proof.
  intros Hx. unfold amplitude. cbn [bsize nprod map]. rewrite Nat.mul_1_r.
  transitivity (csum (fun k => cdelta x k * v k) n); [|apply csum_delta_l; exact Hx].
  apply csum_ext. intros k Hk. cbn [bstate product_states map nprod bsize bfund]. rewrite !Nat.div_1_r.
  rewrite (cdelta_sym k x). ring.
Qed.

Lemma ex_density0 x : (x < 4)%nat -> density ex_states 0 x = (if x =? 3 then 4 else 0)%R.
Proof.
  intros Hx. unfold density. change (sbasis ex_states) with (BTuple [BFund 4]). rewrite amplitude_fund by exact Hx.
  unfold state_of, row. cbn [bsize sbasis ex_states nprod map ex_axes sdata aflat Nat.mul Nat.add].
  do 4 (destruct x as [|x]; [cbn [nth ex_values Nat.add]; unfold Cnorm2; cbn; ring|]). lia.
Qed.
Lemma ex_density1 x : (x < 4)%nat -> density ex_states 1 x = (if x <? 2 then 1 else 0)%R.
Proof.
  intros Hx. unfold density. change (sbasis ex_states) with (BTuple [BFund 4]). rewrite amplitude_fund by exact Hx.
  unfold state_of, row. cbn [bsize sbasis ex_states nprod map ex_axes sdata aflat Nat.mul Nat.add].
  do 4 (destruct x as [|x]; [cbn [nth ex_values Nat.add]; unfold Cnorm2; cbn; ring|]). lia.
Qed.

Lemma ex_phase0 : mean_phase [4%nat] (axis_direction 1 0) ex_states 0 = RtoC 4 * cis (2 * PI * (6 / 8)).
Proof.
  rewrite (mean_phase_point [4%nat] _ ex_states 0 [3%nat]).
  - cbn [ravel nprod]. rewrite ex_density0 by (cbn; lia). cbn [Nat.eqb Nat.mul Nat.add]. f_equal. f_equal. f_equal.
    rewrite turns_single. cbn. field.
  - repeat constructor.
  - intros x Hx Hn. cbn in Hx, Hn. rewrite ex_density0 by lia. destruct (Nat.eqb_spec x 3); [lia|reflexivity].
Qed.
Lemma ex_phase1 : mean_phase [4%nat] (axis_direction 1 0) ex_states 1 = RtoC (sqrt 2) * cis (2 * PI * (1 / 8)).
Proof.
  unfold mean_phase. cbn [nprod Nat.mul Nat.add csum].
  rewrite !ex_density1 by lia. cbn [Nat.ltb Nat.leb unravel nprod]. rewrite !Nat.div_1_r. rewrite !turns_single. rewrite Cplus_0_l, !Cmult_0_l, !Cplus_0_r, !Cmult_1_l.
  replace (2 * PI * (INR 0 / INR 4))%R with 0%R by (cbn; field). replace (2 * PI * (INR 1 / INR 4))%R with (PI / 2)%R by (cbn; field).
  replace (2 * PI * (1 / 8))%R with (PI / 4)%R by field. unfold cis. rewrite cos_0, sin_0, cos_PI2, sin_PI2, cos_PI4, sin_PI4.
  assert (sqrt 2 <> 0)%R by (apply Rgt_not_eq, sqrt_lt_R0; lra). apply injective_projections; cbn; field; assumption.
Qed.

Lemma ex_periodic : exists v, get_average_x_periodic never ex_axes ex_delta ex_states 0 = Some (BFund 2, (2%nat, v)) /\ v 0%nat = 6%R /\ v 1%nat = 1%R.
Proof.
  destruct ex_ok as (Hw & Ho & H1 & Eb & Ws & HL).
  destruct (average_x_periodic_1d never never_identity ex_axes Hw Ho ex_delta ex_states Eb Ws H1) as (v & G & V).
  exists v. split; [exact G|]. rewrite (V 0%nat), (V 1%nat) by (cbn; lia). change (map bfund ex_axes) with [4%nat]. rewrite H1.
  rewrite ex_phase0, ex_phase1. unfold ex_delta. split.
  - rewrite (periodic_position_unique 8 _ 4 6); [|lra|lra|reflexivity]. apply (rmod_unique _ _ _ 0%Z); lra.
  - rewrite (periodic_position_unique 8 _ (sqrt 2) 1); [|lra|apply sqrt_lt_R0; lra|reflexivity]. apply (rmod_unique _ _ _ 0%Z); lra.
Qed.

Lemma ex_restored : exists v, get_restored_x never ex_axes ex_delta ex_states 1 2 0 = Some (BFund 2, (2%nat, v)) /\ v 0%nat 0%nat = (- 2)%R /\ v 0%nat 1%nat = 1%R.
Proof.
  destruct ex_ok as (Hw & Ho & H1 & Eb & Ws & HL).
  destruct (restored_api never never_identity ex_axes Hw Ho ex_delta H1 HL ex_states 1 2 Eb Ws eq_refl) as (v & G & _ & _ & B & T).
  exists v. split; [exact G|].
  destruct (T 0%nat (fun i => if i =? 0 then - 2 else 1)%R (fun i => if i =? 0 then 4 else sqrt 2)%R) as (k & K).
  - intros i Hi. change (map bfund ex_axes) with [4%nat]. unfold ex_delta. destruct i as [|[|i]]; [| |lia]; cbn [Nat.eqb Nat.mul Nat.add].
    + split; [lra|]. rewrite ex_phase0. f_equal. replace (2 * PI * (6 / 8))%R with (2 * PI * (- 2 / 8) + IZR 1 * (2 * PI))%R by (cbn; field). apply cis_shift.
    + split; [apply sqrt_lt_R0; lra|]. exact ex_phase1.
  - intros i Hi. assert (i = 0%nat) by lia. subst. cbn [Nat.eqb]. unfold ex_delta. rewrite Rabs_right; lra.
  - specialize (B 0%nat ltac:(lia)). rewrite (K 0%nat) in B by lia. unfold ex_delta in *. cbn [Nat.eqb] in B.
    assert (k = 0)%Z. { assert (-1 < k < 1)%Z by (split; apply lt_IZR; lra). lia. }
    subst k. rewrite !K by lia. cbn [Nat.eqb]. split; lra.
Qed.

Lemma ex_average_x : exists f, get_average_x never ex_axes ex_delta ex_states 0 = Some (BFund 2, f) /\ f 0%nat = RtoC 24 /\ f 1%nat = RtoC 2.
Proof.
  destruct ex_ok as (Hw & Ho & H1 & Eb & Ws & HL).
  destruct (average_x_1d never never_identity ex_axes Hw Ho ex_delta ex_states Eb Ws H1) as (f & G & F).
  exists f. split; [exact G|]. rewrite !F. change (nprod (map bfund ex_axes)) with 4%nat. cbn [rsum].
  rewrite !ex_density0, !ex_density1 by lia. unfold ex_delta. cbn. split; f_equal; field.
Qed.

Lemma ex_real x : (x < 4)%nat -> amplitude (sbasis ex_states) (state_of ex_states 0) x = RtoC 1 * RtoC (if x =? 3 then 2 else 0)%R.
Proof.
  intros Hx. change (sbasis ex_states) with (BTuple [BFund 4]). rewrite amplitude_fund by exact Hx.
  unfold state_of, row. cbn [bsize sbasis ex_states nprod map ex_axes sdata aflat Nat.mul Nat.add].
  do 4 (destruct x as [|x]; [cbn [nth ex_values Nat.add Nat.eqb]; rewrite Cmult_1_l; reflexivity|]). lia.
Qed.
Lemma ex_momentum p : (p < 4)%nat -> momentum_density [4%nat] ex_states 0 p = 1%R.
Proof.
  intros Hp. rewrite md_sum by exact Hp.
  rewrite (csum_ext _ (fun x => cdelta 3 x * (isqrt 4 * (omega 4 (- (Z.of_nat p * Z.of_nat x)) * RtoC 2)))).
  - rewrite csum_delta_l by lia. rewrite !Cnorm2_mult. rewrite omega_norm2. unfold isqrt, Cnorm2. cbn [fst snd RtoC].
    replace (INR 4) with (2 * 2)%R by (cbn; ring). rewrite sqrt_square by lra. field.
  - intros x Hx. rewrite ex_real by exact Hx. destruct (Nat.eqb_spec x 3) as [->|Hn].
    + rewrite cdelta_refl. ring.
    + rewrite cdelta_neq by lia. ring.
Qed.
Lemma ex_average_k : exists f, get_average_k never ex_axes ex_inv ex_states 0 = Some (BFund 2, f) /\ f 0%nat = RtoC (- (PI / 2)).
Proof.
  destruct ex_ok as (Hw & Ho & H1 & Eb & Ws & HL).
  destruct (average_k_1d never never_identity ex_axes Hw Ho ex_inv ex_states Eb Ws H1) as (f & G & F).
  exists f. split; [exact G|]. rewrite F. change (map bfund ex_axes) with [4%nat]. cbn [nprod Nat.mul Nat.add rsum].
  rewrite !ex_momentum by lia. unfold ex_inv. cbn. f_equal. field.
Qed.

(** A real wavefunction can have a mean momentum. *)
Lemma real_at_rest_refuted : ~ (forall same axes inv s f, identity_test same -> bwf (BTuple axes) -> explicit_orthonormal (BTuple axes) -> length axes = 1%nat ->
  sbasis s = BTuple axes -> well_formed_list s -> get_average_k same axes inv s 0 = Some (slist s, f) ->
  forall i (g : nat -> R), (i < bsize (slist s))%nat ->
    (forall x, (x < nprod (map bfund axes))%nat -> amplitude (sbasis s) (state_of s i) x = RtoC (g x)) -> f i = 0).
Proof.
  intros H. destruct ex_ok as (Hw & Ho & H1 & Eb & Ws & HL). destruct ex_average_k as (f & G & F).
  specialize (H never ex_axes ex_inv ex_states f never_identity Hw Ho H1 Eb Ws G 0%nat (fun x => if x =? 3 then 2 else 0)%R ltac:(cbn; lia)).
  rewrite F in H. assert (Q : RtoC (- (PI / 2)) = 0).
  { apply H. intros x Hx. change (nprod (map bfund ex_axes)) with 4%nat in Hx. rewrite ex_real by exact Hx. ring. }
  apply RtoC_inj in Q. pose proof PI_RGT_0. lra.
Qed.

Lemma ex_norms : squared_norm ex_states 0 = 4%R /\ squared_norm ex_states 1 = 2%R.
Proof.
  destruct ex_ok as (Hw & Ho & H1 & Eb & Ws & HL).
  rewrite <- !(density_sum ex_axes Hw Ho ex_states _ Eb). change (nprod (map bfund ex_axes)) with 4%nat. cbn [rsum].
  rewrite !ex_density0, !ex_density1 by lia. cbn. lra.
Qed.

Lemma ex_coherent : exists x0 k0 sg, get_coherent_coordinates never ex_axes ex_delta ex_inv ex_states 0 = Some (2%nat, x0, k0, sg) /\
  x0 0%nat = 6%R /\ k0 0%nat = RtoC (- (PI / 8)) /\ sg 0%nat = Some 0%R.
Proof.
  destruct ex_ok as (Hw & Ho & H1 & Eb & Ws & HL). destruct ex_norms as (N0 & N1).
  destruct (coherent_spec never never_identity ex_axes Hw Ho H1 ex_delta ex_inv HL ex_states Eb Ws) as (R0 & K).
  destruct (get_coherent_coordinates never ex_axes ex_delta ex_inv ex_states 0) as [[[[n x0] k0] sg]|] eqn:G.
  2: { exfalso. destruct (proj1 R0 eq_refl) as (i & Hi & E). cbn in Hi. destruct i as [|[|i]]; [| |lia]; lra. }
  destruct (K _ _ _ _ eq_refl) as (En & V). cbn in En. subst n. destruct (V 0%nat ltac:(lia)) as (B & E & Kk & Sn & Sv). clear V K R0.
  exists x0, k0, sg. split; [reflexivity|]. change (map bfund ex_axes) with [4%nat] in E, Kk, Sn, Sv. unfold ex_delta in B, E, Sv.
  assert (M : Cmod (mean_phase [4%nat] (axis_direction 1 0) ex_states 0) = 4%R).
  { rewrite ex_phase0, Cmod_mult, Cmod_R, cis_mod, Rabs_right; lra. }
  split; [|split].
  - rewrite M in E. pose proof (periodic_position_unique 8 _ 4 (x0 0%nat) ltac:(lra) ltac:(lra) E) as P1.
    pose proof (periodic_position_unique 8 _ 4 6 ltac:(lra) ltac:(lra) ex_phase0) as P2. rewrite P1 in P2.
    rewrite (rmod_unique (x0 0%nat) 8 (x0 0%nat) 0%Z), (rmod_unique 6 8 6 0%Z) in P2 by lra. exact P2.
  - rewrite Kk, N0. cbn [nprod Nat.mul Nat.add rsum]. rewrite !ex_momentum by lia. unfold ex_inv. cbn. f_equal. field.
  - destruct (sg 0%nat) as [sigma|] eqn:Es.
    + destruct (Sv sigma eq_refl) as (Ps & Q). rewrite M, N0 in Q.
      assert (X : exp (- (sigma * (2 * PI / 8)) ^ 2 / 4) = exp 0) by (rewrite exp_0; lra). apply exp_inv in X.
      pose proof PI_RGT_0. assert (Y : (sigma * (2 * PI / 8))%R = 0%R) by (apply Rsqr_0_uniq; unfold Rsqr; lra).
      apply Rmult_integral in Y. destruct Y as [->|Y]; [reflexivity|lra].
    + exfalso. pose proof (proj1 Sn eq_refl) as Z. rewrite Z, Cmod_0 in M. lra.
Qed.

(** A list of three states on a grid with two dimensions. *)
Lemma ex_plane : bwf (BTuple [BFund 2; BFund 3]) /\ explicit_orthonormal (BTuple [BFund 2; BFund 3]) /\
  length [BFund 2; BFund 3] <> 1%nat /\ length [BFund 2; BFund 3] <> nprod (map bfund [BFund 2; BFund 3]).
Proof. repeat split; cbn; lia. Qed.
