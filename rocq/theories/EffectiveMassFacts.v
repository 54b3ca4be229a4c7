(** Facts about effective masses: free particles, hopping between neighbouring cells, Wannier
    Hamiltonians. *)
From Coq Require Import Reals Lia Lra List Arith ZArith.
From Verif Require Import ZLib Csum DFT NumPy Index IndexProofs Lattice Basis SpecBasis Operator SpecOperator OperatorProofs2 Wavepacket SpecWavepacket OverlapProofs3
  Localize SpecLocalize LocalizeProofs LocalizeProofs6 WannierBasis WannierBasisProofs WannierBasisFacts Dynamics DynamicsProofs8 VolumeBasis SpecVolumeBasis WaveLists
  EffectiveMass SpecEffectiveMass EffectiveMassProofs EffectiveMassProofs2.
Import ListNotations.
Local Open Scope R_scope.
Local Open Scope C_scope.

Lemma one_axis n E : (0 < n)%nat -> neighbour_component [n] 0 E = csum (fun s => RtoC (E s) * omega n (Z.of_nat s)) n / RtoC (INR n).
Proof.
  intros Hn. unfold neighbour_component. cbn [nprod nth unravel]. rewrite Nat.mul_1_r. f_equal. apply csum_ext. intros s Hs.
  rewrite Nat.div_1_r. unfold omega. rewrite <- INR_IZR_INZ. reflexivity.
Qed.

Lemma sin_small n : (2 <= n)%nat -> (0 < sin (PI / INR n))%R.
Proof.
  intros Hn. assert (P := PI_RGT_0). assert (H2 : (2 <= INR n)%R) by (apply (le_INR 2); exact Hn).
  apply sin_gt_0; [apply Rdiv_lt_0_compat; lra|]. apply (Rmult_lt_reg_r (INR n)); [lra|]. unfold Rdiv. rewrite Rmult_assoc, Rinv_l by lra. nra.
Qed.

Lemma free_component c delta n N : (0 < delta)%R -> (2 <= n)%nat ->
  Cmod (neighbour_component [n] 0 (fun s => c * free_band delta N (sample_momentum delta n s))%R) =
  (Rabs c / delta ^ 2 * (2 * PI ^ 2 * Rabs (weight n N)) / (INR n * sin (PI / INR n)) ^ 2)%R.
Proof.
  intros Hd Hn. assert (P := PI_RGT_0). assert (Hi : (0 < INR n)%R) by (apply lt_0_INR; lia). assert (Hs := sin_small n Hn).
  rewrite one_axis by lia.
  rewrite (csum_ext _ (fun s => RtoC (c / delta ^ 2) * (RtoC (G0 n (base N) (slope N) s) * omega n (Z.of_nat s)))).
  2:{ intros s Hs'. rewrite free_band_G by (assumption || lia). rewrite Cmult_assoc, <- RtoC_mult. f_equal. f_equal. field. lra. }
  rewrite csum_scal_l. set (T := csum _ n).
  assert (F : RtoC (- 4 * sin (PI / INR n) ^ 2) * T = RtoC (4 * (2 * PI / INR n) * (slope N * PI * weight n N))) by (apply free_sum; exact Hn).
  apply (f_equal Cmod) in F. rewrite Cmod_mult, !Cmod_R in F.
  replace (Rabs (- 4 * sin (PI / INR n) ^ 2)) with (4 * sin (PI / INR n) ^ 2)%R in F.
  2:{ replace (- 4 * sin (PI / INR n) ^ 2)%R with (- (4 * sin (PI / INR n) ^ 2))%R by ring. rewrite Rabs_Ropp, Rabs_pos_eq; [reflexivity|]. nra. }
  replace (Rabs (4 * (2 * PI / INR n) * (slope N * PI * weight n N))) with (8 * PI ^ 2 / INR n * Rabs (weight n N))%R in F.
  2:{ replace (4 * (2 * PI / INR n) * (slope N * PI * weight n N))%R with ((8 * PI ^ 2 / INR n) * (slope N * weight n N))%R by (field; lra).
      rewrite !Rabs_mult. rewrite (Rabs_pos_eq (8 * PI ^ 2 / INR n)); [|apply Rmult_le_pos; [nra|left; apply Rinv_0_lt_compat, Hi]].
      replace (Rabs (slope N)) with 1%R; [ring|]. unfold slope. destruct (Nat.even N); [rewrite Rabs_R1; reflexivity|replace (-1)%R with (- (1))%R by ring; rewrite Rabs_Ropp, Rabs_R1; reflexivity]. }
  rewrite Cmod_div by (intros E; apply RtoC_inj in E; lra). rewrite Cmod_mult, !Cmod_R, (Rabs_pos_eq (INR n)) by lra.
  assert (FT : (Cmod T = 8 * PI ^ 2 / INR n * Rabs (weight n N) / (4 * sin (PI / INR n) ^ 2))%R) by (rewrite <- F; field; lra).
  rewrite FT. assert (D : Rabs (c / delta ^ 2) = (Rabs c / delta ^ 2)%R).
  { unfold Rdiv. rewrite Rabs_mult, (Rabs_pos_eq (/ delta ^ 2)); [reflexivity|]. left. apply Rinv_0_lt_compat, pow_lt, Hd. }
  rewrite D. field. repeat split; lra.
Qed.

Lemma cos_small n : (3 <= n)%nat -> (0 < cos (PI / INR n) < 1)%R.
Proof.
  intros Hn. assert (P := PI_RGT_0). assert (H2 : (3 <= INR n)%R) by (replace 3%R with (INR 3) by (cbn; ring); apply le_INR; exact Hn).
  assert (Q : (0 < PI / INR n < PI / 2)%R).
  { split; [apply Rdiv_lt_0_compat; lra|]. apply Rmult_lt_compat_l; [lra|]. apply Rinv_lt_contravar; nra. }
  split; [apply cos_gt_0; lra|]. rewrite <- cos_0. apply cos_decreasing_1; lra.
Qed.
Lemma weight_bounds n N : (2 <= n)%nat -> (0 < weight n N <= 2 * INR N + 1)%R /\ ((2 * INR N + 1) * cos (PI / INR n) <= weight n N)%R.
Proof.
  intros Hn. assert (Q := pos_INR N). assert (P := PI_RGT_0). unfold weight. destruct (Nat.even n) eqn:En.
  - assert (B := COS_bound (PI / INR n)). split; [lra|nra].
  - destruct (Nat.eq_dec n 2) as [->|]; [discriminate|]. assert (B := cos_small n ltac:(lia)). destruct (Nat.even N); nra.
Qed.
Lemma sinc_bounds x : (0 < x <= 2)%R -> (1 - x ^ 2 / 3 <= (sin x / x) ^ 2 < 1)%R.
Proof.
  intros Hx. assert (L : (sin x < x)%R) by (apply sin_lt_x; lra).
  assert (G : (x - x ^ 3 / 6 <= sin x)%R).
  { assert (X4 : (x <= 4)%R) by lra. destruct (pre_sin_bound x 0 ltac:(lra) X4) as [A _]. unfold sin_approx, sum_f_R0, sin_term in A. cbn in A. cbn. lra. }
  assert (Q1 : (1 - x ^ 2 / 6 <= sin x / x)%R).
  { apply (Rmult_le_reg_r x); [lra|]. unfold Rdiv at 2. rewrite Rmult_assoc, Rinv_l by lra. lra. }
  assert (Q2 : (sin x / x < 1)%R) by (apply (Rmult_lt_reg_r x); [lra|]; unfold Rdiv; rewrite Rmult_assoc, Rinv_l by lra; lra).
  assert (x ^ 2 <= 4)%R by nra. split; nra.
Qed.

(** ** Hopping between neighbouring cells *)
Lemma hopping_component n e0 J : (3 <= n)%nat ->
  neighbour_component [n] 0 (fun s => e0 - 2 * J * cos (2 * PI * INR s / INR n))%R = RtoC (- J).
Proof.
  intros Hn. rewrite one_axis by lia. assert (Hi : (0 < INR n)%R) by (apply lt_0_INR; lia).
  rewrite (csum_ext _ (fun s => RtoC e0 * omega n (1 * Z.of_nat s) - RtoC J * (omega n (2 * Z.of_nat s) + omega n (0 * Z.of_nat s)))).
  - rewrite csum_minus, !csum_scal_l, csum_plus. rewrite (omega_sum_neq n 1), (omega_sum_neq n 2); [|lia| |lia|].
    + rewrite omega_sum_0; [|lia|exists 0%Z; lia]. rewrite RtoC_opp. field. intros E. apply RtoC_inj in E. lra.
    + intros [q Q]. destruct (Z.le_gt_cases q 0); nia.
    + intros [q Q]. destruct (Z.le_gt_cases q 0); nia.
  - intros s Hs. rewrite !Z.mul_1_l, Z.mul_0_l, omega_0.
    replace (2 * Z.of_nat s)%Z with (Z.of_nat s + Z.of_nat s)%Z by ring. rewrite omega_add.
    unfold omega. rewrite <- INR_IZR_INZ. set (t := (2 * PI * INR s / INR n)%R).
    assert (T := sin2_cos2 t). unfold Rsqr in T.
    assert (TJ : (J * (sin t * sin t) + J * (cos t * cos t) = J)%R) by (rewrite <- Rmult_plus_distr_l, T; ring).
    apply injective_projections; cbn; [lra|ring].
Qed.

(** ** The masses from the Hamiltonian of the Wannier states *)
Lemma mass_unscaled hbar delta N b (x : R) : (0 < N)%nat -> delta <> 0%R ->
  effective_mass hbar delta N b x = rdiv (sqrt (INR N) * (hbar ^ 2 * (2 * INR b + 1)))%R (delta ^ 2 * x)%R.
Proof.
  intros HN Hd. unfold effective_mass, free_energy. rewrite rdiv_some by (apply pow_nonzero, Hd). cbn [obind]. assert (P := PI_RGT_0).
  unfold rdiv. destruct (Req_EM_T x 0) as [->|Z].
  - destruct (Req_EM_T (delta ^ 2 * 0) 0) as [_|X]; [reflexivity|]. exfalso. apply X. ring.
  - destruct (Req_EM_T (delta ^ 2 * x) 0) as [X|_]; [apply Rmult_integral in X; destruct X as [X|X]; [exact (False_ind _ (pow_nonzero delta 2 Hd X))|contradiction]|].
    f_equal. field. repeat split; (lra || assumption).
Qed.
Lemma ravel_zeros ls : ravel ls (repeat 0%nat (length ls)) = 0%nat.
Proof. induction ls as [|n ls IH]; [reflexivity|]. cbn [length repeat ravel]. rewrite IH. reflexivity. Qed.

Lemma localized_mass hbar ls axes op energies a (E : nat -> R) : Forall (fun n => (0 < n)%nat) ls -> (a < length ls)%nat -> length axes = length ls ->
  (2 <= nth a ls 0)%nat -> norm (length axes) (lattice_of axes a) <> 0%R ->
  nprod (ashape op) = nprod ls -> nprod (ashape energies) = nprod ls ->
  (forall s, (s < nprod ls)%nat -> aflat op s * Cconj (aflat op s) = 1) ->
  (forall s, (s < nprod ls)%nat -> aflat energies s = RtoC (E s)) ->
  exists M, get_wavepacket_localized_effective_mass hbar 1 ls axes op energies (Z.of_nat a) = Some M /\
    M 0%nat = rdiv (sqrt (INR (nprod ls)) * hbar ^ 2)%R (norm (length axes) (lattice_of axes a) ^ 2 * Cmod (neighbour_component ls a E))%R.
Proof.
  intros Hls Ha Hlen H2 Hd Hop He Hu HE.
  assert (HN : (0 < nprod ls)%nat) by (apply nprod_pos; exact Hls).
  assert (HI : RtoC (INR (nprod ls)) <> 0) by (intros X; apply RtoC_inj in X; apply (not_0_INR (nprod ls)); [lia|exact X]).
  destruct (full_and_sampled (BFund 1) (BFund 1) ls op energies Hls) as (W & H & EW & EH & V & _); [cbn [bsize]; lia|cbn [bsize]; lia|].
  cbn [bsize] in EH, V.
  destruct (wannier_hamiltonian_spec (BFund 1) (BFund 1) (BTuple (map BFundT ls)) op energies) as (W' & EW' & _ & _ & _ & _ & L & _);
    [rewrite size_T; cbn [bsize]; lia|rewrite size_T; cbn [bsize]; lia|].
  rewrite EW in EW'. injection EW' as <-. rewrite size_T in L. cbn [bsize] in L.
  assert (U := unit_in_shape ls a Hls Ha H2). assert (Z := zeros_in_shape ls Hls).
  unfold get_wavepacket_localized_effective_mass. rewrite EH, (neighbour_some ls a Hls Ha H2), axis_length_some by (rewrite Hlen; exact Ha).
  eexists. split; [reflexivity|]. cbn beta. rewrite mass_unscaled by assumption.
  set (k := ravel ls (unit_idx (length ls) a)).
  assert (K : aflat H (((0 * nprod ls + 0) * 1 + 0) * nprod ls + k)%nat = Cconj (neighbour_component ls a E)).
  { specialize (V (repeat 0%nat (length ls)) (unit_idx (length ls) a) 0%nat 0%nat Z U ltac:(lia) ltac:(lia)). rewrite ravel_zeros in V. fold k in V.
    replace (((0 * nprod ls + 0) * 1 + 0) * nprod ls + k)%nat with (((0 * 1 + 0) * nprod ls + k) * 1 + 0)%nat by lia. rewrite V.
    unfold neighbour_component. unfold Cdiv. rewrite Cconj_mult, Cconj_csum. rewrite <- RtoC_inv by (apply not_0_INR; lia). f_equal.
    - apply csum_ext. intros s Hs. rewrite L by (assumption || lia). cbn [csum]. unfold at_sample.
      replace ((s * 1 + 0) * 1 + 0)%nat with s by lia. replace (0 * nprod ls + s)%nat with s by lia. rewrite (HE s Hs).
      rewrite plane_zeros, Cconj_mult.
      rewrite <- plane_freqs by (assumption || apply unravel_in_shape; exact Hs).
      assert (LU := in_shape_length _ _ (unravel_in_shape ls s Hs)).
      rewrite plane_unit by (rewrite ?map_length; assumption).
      replace (nth a (map Z.of_nat (unravel ls s)) 0%Z) with (Z.of_nat (nth a (unravel ls s) 0%nat)) by (symmetry; apply (map_nth Z.of_nat (unravel ls s) 0%nat)).
      transitivity (aflat op s * Cconj (aflat op s) * (RtoC (E s) * Cconj (omega (nth a ls 0%nat) (Z.of_nat (nth a (unravel ls s) 0%nat))))); [ring|]. rewrite (Hu s Hs).
      unfold omega. rewrite <- INR_IZR_INZ. rewrite Cmult_1_l. f_equal. apply injective_projections; cbn; ring.
    - apply injective_projections; cbn; ring. }
  rewrite K. replace (Cmod (Cconj (neighbour_component ls a E))) with (Cmod (neighbour_component ls a E)) by (unfold Cmod; f_equal; cbn; ring).
  cbn [INR]. f_equal. ring.
Qed.

(** The identity as operator, two bands and two samples. *)
Definition unit_op : ndarray := {| ashape := [8]%nat; aflat := fun t => cdelta ((t / 2) mod 2) (t mod 2) |}.
Lemma swapped_order hbar axes energies : ashape energies = [4]%nat -> length axes = 1%nat -> norm 1 (lattice_of axes 0) <> 0%R ->
  exists M, get_wavepacket_localized_effective_mass hbar 2 [2%nat] axes unit_op energies 0 = Some M /\ M 0%nat = None /\ M 1%nat = None.
Proof.
  intros He Hlen Hd. assert (Hls : Forall (fun n => (0 < n)%nat) [2%nat]) by (apply Forall_cons; [lia|apply Forall_nil]).
  destruct (full_and_sampled (BFund 2) (BFund 2) [2%nat] unit_op energies Hls) as (W & H & EW & EH & V & _); [reflexivity|rewrite He; reflexivity|].
  cbn [bsize] in EH, V.
  destruct (wannier_hamiltonian_spec (BFund 2) (BFund 2) (BTuple (map BFundT [2%nat])) unit_op energies) as (W' & EW' & _ & _ & _ & _ & L & _); [reflexivity|rewrite He; reflexivity|].
  rewrite EW in EW'. injection EW' as <-. change (bsize (BTuple (map BFundT [2%nat]))) with 2%nat in L. cbn [bsize] in L.
  assert (O : forall s, (s < 2)%nat -> list_entry W s 0 1 = 0).
  { intros s Hs. rewrite L by lia. unfold at_sample, unit_op. cbn [aflat csum]. 
    destruct s as [|[|s]]; [| |lia]; repeat match goal with |- context [cdelta ?a ?b] => let a' := eval cbv in a in let b' := eval cbv in b in change (cdelta a b) with (cdelta a' b') end;
      rewrite ?cdelta_refl, ?(cdelta_neq 0 1), ?(cdelta_neq 1 0) by lia; unfold Cconj; apply injective_projections; cbn; ring. }
  assert (Q : forall r, (r < 2)%nat -> aflat H (((r * 2 + 0) * 2 + r) * 2 + 1)%nat = 0).
  { intros r Hr. specialize (V [r] [r] 0%nat 1%nat). change (nprod [2%nat]) with 2%nat in V. cbn [ravel] in V.
    replace (r * nprod [] + 0)%nat with r in V by (cbn; lia). rewrite V; [|apply Forall2_cons; [lia|apply Forall2_nil]|apply Forall2_cons; [lia|apply Forall2_nil]|lia|lia].
    cbn [csum]. rewrite (O 0%nat), (O 1%nat) by lia. unfold Cdiv. ring. }
  unfold get_wavepacket_localized_effective_mass. rewrite EH. change 0%Z with (Z.of_nat 0).
  rewrite (neighbour_some [2%nat] 0 Hls) by (cbn; lia). rewrite axis_length_some by lia. rewrite Hlen.
  eexists. split; [reflexivity|]. cbn beta.
  assert (Q0 := Q 0%nat ltac:(lia)). assert (Q1 := Q 1%nat ltac:(lia)).
  change (nprod [2%nat]) with 2%nat. change (ravel [2%nat] (unit_idx (length [2%nat]) 0)) with 1%nat.
  cbn [Nat.mul Nat.add] in Q0, Q1 |- *. rewrite Q0, Q1, Cmod_0. rewrite !mass_unscaled by (lia || assumption). rewrite !(Rmult_0_r (norm 1 (lattice_of axes 0) ^ 2)).
  unfold rdiv. destruct (Req_EM_T 0 0); [split; reflexivity|contradiction].
Qed.
