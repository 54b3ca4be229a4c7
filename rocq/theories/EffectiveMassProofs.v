(** Proofs about effective masses: the Fourier component that is used. *)
From Coq Require Import Reals Lia Lra List Arith ZArith.
From Verif Require LocalizeProofs4.
From Verif Require Import ZLib Csum DFT NumPy Index IndexProofs Lattice Basis SpecBasis BasisProofs BasisProofs2 Operator OperatorProofs2 Wavepacket SpecWavepacket WavepacketProofs WavepacketProofs2
  Hamiltonian HamiltonianProofs HamiltonianProofs3 Localize Dynamics DynamicsProofs8 Fourier VolumeBasis SpecVolumeBasis VolumeBasisProofs WaveLists SpecWaveLists WaveListsProofs OverlapProofs3 EffectiveMass SpecEffectiveMass.
Import ListNotations.
Local Open Scope R_scope.
Local Open Scope C_scope.

Definition unit_idx (m a : nat) : list nat := map (fun i => if (i =? a)%nat then 1%nat else 0%nat) (seq 0 m).
Lemma unit_idx_Z m a : map (fun i => if (Z.of_nat i =? Z.of_nat a)%Z then 1%nat else 0%nat) (seq 0 m) = unit_idx m a.
Proof.
  unfold unit_idx. apply map_ext. intros i. destruct (Nat.eqb_spec i a); destruct (Z.eqb_spec (Z.of_nat i) (Z.of_nat a)); lia.
Qed.
Lemma unit_idx_S m a : unit_idx (S m) (S a) = 0%nat :: unit_idx m a.
Proof. unfold unit_idx. cbn [seq map]. f_equal. rewrite <- seq_shift, map_map. apply map_ext. intros i. reflexivity. Qed.
Lemma unit_idx_0 m : unit_idx (S m) 0 = 1%nat :: repeat 0%nat m.
Proof.
  unfold unit_idx. cbn [seq map]. f_equal. rewrite <- seq_shift, map_map. induction m as [|m IH]; [reflexivity|].
  cbn [seq map repeat]. f_equal. rewrite <- seq_shift, map_map. exact IH.
Qed.
Lemma zeros_in_shape ls : Forall (fun n => (0 < n)%nat) ls -> in_shape (repeat 0%nat (length ls)) ls.
Proof. induction 1; cbn [length repeat]; [apply Forall2_nil|apply Forall2_cons; assumption]. Qed.
Lemma unit_in_shape ls : forall a, Forall (fun n => (0 < n)%nat) ls -> (a < length ls)%nat -> (2 <= nth a ls 0)%nat -> in_shape (unit_idx (length ls) a) ls.
Proof.
  induction ls as [|n ls IH]; intros a Hp Ha H2; [cbn in Ha; lia|]. inversion Hp as [|? ? Hn Hp']; subst. cbn [length]. destruct a as [|a].
  - rewrite unit_idx_0. cbn in H2. apply Forall2_cons; [lia|apply zeros_in_shape, Hp'].
  - rewrite unit_idx_S. cbn in Ha, H2. apply Forall2_cons; [lia|]. apply IH; [exact Hp'|lia|exact H2].
Qed.
Lemma all_below idx : forall ls, length idx = length ls -> forallb (fun p => (fst p <? snd p)%nat) (combine idx ls) = true <-> in_shape idx ls.
Proof.
  induction idx as [|i idx IH]; intros [|n ls] L; cbn in L; try lia; cbn [combine forallb fst snd].
  - split; intros; [apply Forall2_nil|reflexivity].
  - rewrite Bool.andb_true_iff, (IH ls) by lia. rewrite Nat.ltb_lt. split; [intros [A B]; apply Forall2_cons; assumption|intros H; inversion H; subst; split; assumption].
Qed.
Lemma neighbour_some ls a : Forall (fun n => (0 < n)%nat) ls -> (a < length ls)%nat -> (2 <= nth a ls 0)%nat ->
  neighbour_index ls (Z.of_nat a) = Some (ravel ls (unit_idx (length ls) a)).
Proof.
  intros Hp Ha H2. unfold neighbour_index. rewrite unit_idx_Z.
  rewrite (proj2 (all_below (unit_idx (length ls) a) ls ltac:(unfold unit_idx; rewrite map_length, seq_length; reflexivity)) (unit_in_shape ls a Hp Ha H2)). reflexivity.
Qed.
Lemma neighbour_short ls a : (a < length ls)%nat -> (nth a ls 0 < 2)%nat -> neighbour_index ls (Z.of_nat a) = None.
Proof.
  intros Ha H2. unfold neighbour_index. rewrite unit_idx_Z. destruct (forallb _ _) eqn:E; [|reflexivity].
  apply all_below in E; [|unfold unit_idx; rewrite map_length, seq_length; reflexivity].
  exfalso. assert (B : (nth a (unit_idx (length ls) a) 0 < nth a ls 0)%nat) by (apply IndexProofs.in_shape_nth; [exact E|exact Ha]).
  unfold unit_idx in B. rewrite (nth_indep _ 0%nat ((fun i => if (i =? a)%nat then 1%nat else 0%nat) 0%nat)) in B by (rewrite map_length, seq_length; exact Ha).
  rewrite (map_nth (fun i => if (i =? a)%nat then 1%nat else 0%nat)), seq_nth in B by exact Ha. cbn [Nat.add] in B. rewrite Nat.eqb_refl in B. lia.
Qed.

Lemma plane_zeros ls : forall f m, plane ls f (map Z.of_nat (repeat 0%nat m)) = 1.
Proof.
  induction ls as [|n ls IH]; intros f m; [reflexivity|]. destruct f as [|f1 f]; [reflexivity|]. destruct m as [|m]; [reflexivity|].
  cbn [repeat map plane]. rewrite IH. change (Z.of_nat 0) with 0%Z. rewrite Z.mul_0_r, omega_0. ring.
Qed.
Lemma plane_unit ls : forall f a, length f = length ls -> (a < length ls)%nat ->
  plane ls f (map Z.of_nat (unit_idx (length ls) a)) = omega (nth a ls 0%nat) (nth a f 0%Z).
Proof.
  induction ls as [|n ls IH]; intros [|f1 f] a L Ha; cbn in L, Ha; try lia. cbn [length]. destruct a as [|a].
  - rewrite unit_idx_0. cbn [map plane nth]. rewrite plane_zeros. change (Z.of_nat 1) with 1%Z. rewrite Z.mul_1_r. ring.
  - rewrite unit_idx_S. cbn [map plane nth]. rewrite IH by lia. change (Z.of_nat 0) with 0%Z. rewrite Z.mul_0_r, omega_0. ring.
Qed.
Lemma omega_freq_self n s : (0 < n)%nat -> omega n (freq n s) = cis (2 * PI * INR s / INR n).
Proof.
  intros Hn. unfold freq. destruct (Z.leb _ _); unfold omega.
  - rewrite <- INR_IZR_INZ. reflexivity.
  - rewrite minus_IZR, <- !INR_IZR_INZ. replace (2 * PI * (INR s - INR n) / INR n)%R with (2 * PI * INR s / INR n + 2 * PI * IZR (-1))%R.
    + rewrite cis_plus, cis_2PI_Z. ring.
    + field. apply not_0_INR. lia.
Qed.

Lemma state_unit ls a s : Forall (fun n => (0 < n)%nat) ls -> (a < length ls)%nat -> (2 <= nth a ls 0)%nat -> (s < nprod ls)%nat ->
  bstate (BTuple (map BFundT ls)) s (ravel ls (unit_idx (length ls) a)) =
  isqrt (nprod ls) * cis (2 * PI * INR (nth a (unravel ls s) 0%nat) / INR (nth a ls 0%nat)).
Proof.
  intros Hp Ha H2 Hs. assert (U := unravel_in_shape ls s Hs). assert (V := unit_in_shape ls a Hp Ha H2).
  assert (B := bstate_ravel (map BFundT ls) (unravel ls s) (unit_idx (length ls) a)).
  rewrite map_bsize_FundT, map_bfund_FundT in B. specialize (B U V). rewrite ravel_unravel in B by exact Hs. rewrite B.
  assert (LU : length (unravel ls s) = length ls) by (apply in_shape_length; exact U).
  rewrite axis_states_plane; [|exact LU|unfold unit_idx; rewrite map_length, seq_length; reflexivity].
  rewrite plane_unit; [|rewrite map_length, seq_length; reflexivity|exact Ha]. f_equal.
  rewrite (nth_indep _ 0%Z ((fun a => freq (nth a ls 0%nat) (nth a (unravel ls s) 0%nat)) 0%nat)) by (rewrite map_length, seq_length; exact Ha).
  rewrite (map_nth (fun a => freq (nth a ls 0%nat) (nth a (unravel ls s) 0%nat))), seq_nth by exact Ha. cbn [Nat.add].
  apply omega_freq_self. lia.
Qed.

Lemma explicit_orthonormal_fundt ls : explicit_orthonormal (BTuple (map BFundT ls)).
Proof. induction ls as [|n ls IH]; [exact I|]. split; [exact I|exact IH]. Qed.
Lemma mass_value hbar delta N b (z : C) : (0 < N)%nat -> delta <> 0%R ->
  effective_mass hbar delta N b (Cmod (isqrt N * z)) =
  rdiv (hbar ^ 2 * (2 * INR b + 1))%R (delta ^ 2 * Cmod (z / RtoC (INR N))%C)%R.
Proof.
  intros HN Hd. assert (HI : (0 < INR N)%R) by (apply lt_0_INR; lia). assert (Hs := sqrt_lt_R0 _ HI).
  unfold effective_mass, free_energy. rewrite rdiv_some by (apply pow_nonzero, Hd). cbn [obind].
  assert (E1 : Cmod (isqrt N * z) = (Cmod z / sqrt (INR N))%R).
  { unfold isqrt. rewrite Cmod_mult, Cmod_R, Rabs_pos_eq by (left; apply Rinv_0_lt_compat, Hs). field. lra. }
  assert (E2 : Cmod (z / RtoC (INR N)) = (Cmod z / INR N)%R).
  { rewrite Cmod_div by (intros E; apply RtoC_inj in E; lra). rewrite Cmod_R, Rabs_pos_eq by lra. reflexivity. }
  rewrite E1, E2. assert (Q := sqrt_sqrt (INR N) ltac:(lra)). assert (P := PI_RGT_0).
  destruct (Req_EM_T (Cmod z) 0) as [Z|Z].
  - rewrite Z. unfold rdiv. replace (0 / sqrt (INR N))%R with 0%R by (field; lra). replace (delta ^ 2 * (0 / INR N))%R with 0%R by (field; lra).
    destruct (Req_EM_T 0 0); [reflexivity|contradiction].
  - assert (0 < Cmod z)%R by (assert (0 <= Cmod z)%R by apply Cmod_ge_0; lra).
    rewrite !rdiv_some.
    + f_equal. transitivity (hbar ^ 2 * (2 * INR b + 1) * (sqrt (INR N) * sqrt (INR N)) / (delta ^ 2 * Cmod z))%R; [field|rewrite Q; field]; repeat split; try lra; exact Hd.
    + apply Rmult_integral_contrapositive. split; [apply pow_nonzero, Hd|]. apply Rgt_not_eq, Rdiv_lt_0_compat; assumption.
    + apply Rgt_not_eq, Rdiv_lt_0_compat; assumption.
Qed.
Lemma axis_length_some axes a : (a < length axes)%nat -> axis_length axes (Z.of_nat a) = Some (norm (length axes) (lattice_of axes a)).
Proof.
  intros Ha. unfold axis_length. unfold norm_axis. destruct (Z.leb_spec (- Z.of_nat (length axes)) (Z.of_nat a)); [|lia]. destruct (Z.ltb_spec (Z.of_nat a) (Z.of_nat (length axes))); [|lia].
  destruct (Z.ltb_spec (Z.of_nat a) 0); [lia|]. cbn [andb]. rewrite Nat2Z.id. reflexivity.
Qed.

Definition phase_mean (ls : list nat) (ph : nat -> C) (E : nat -> R) : C := csum (fun s => RtoC (E s) * ph s) (nprod ls) / RtoC (INR (nprod ls)).

Section Mass.
  Variables (same : basis -> basis -> bool) (hbar : R) (nb : nat) (ls : list nat) (axes : list length_axis) (data ev : ndarray).
  Hypothesis Hid : identity_test same.
  Hypothesis Hls : Forall (fun n => (0 < n)%nat) ls.
  Hypothesis Hw : bwf (stacked axes).
  Hypothesis Ho : explicit_orthonormal (stacked axes).
  Hypothesis Hd : nprod (ashape data) = (nb * nprod ls * bsize (stacked axes))%nat.
  Hypothesis He : nprod (ashape ev) = (nb * nprod ls)%nat.
  Variable E : nat -> nat -> R.
  Hypothesis HE : forall b s, (b < nb)%nat -> (s < nprod ls)%nat -> aflat ev (b * nprod ls + s)%nat = RtoC (E b s).
  Variables (axis : Z) (k : nat) (delta : R) (ph : nat -> C).
  Hypothesis Hk : neighbour_index ls axis = Some k.
  Hypothesis Hkn : (k < nprod ls)%nat.
  Hypothesis Hax : axis_length axes axis = Some delta.
  Hypothesis Hdelta : delta <> 0%R.
  Hypothesis Hph : forall s, (s < nprod ls)%nat -> bstate (BTuple (map BFundT ls)) s k = isqrt (nprod ls) * ph s.

  Lemma mass_at : exists M, get_wavepacket_transformed_energy_effective_mass same hbar nb (map BFundT ls) axes data ev axis = Some M /\
    forall b, (b < nb)%nat -> M b = rdiv (hbar ^ 2 * (2 * INR b + 1))%R (delta ^ 2 * Cmod (phase_mean ls ph (E b)))%R.
  Proof using All.
    assert (HN : (0 < nprod ls)%nat) by (apply nprod_pos; exact Hls).
    assert (W : bwf (BTuple (map BFundT ls))).
    { clear - Hls. induction Hls as [|n l Hn Hl IH]; [exact I|]. split; [exact Hn|exact (IH Hl)]. }
    assert (PW : bwf (BTuple (map BFund ls))).
    { clear - Hls. induction Hls as [|n l Hn Hl IH]; [exact I|]. split; [exact Hn|exact (IH Hl)]. }
    destruct (conv_some same nb (BTuple (map BFundT ls)) (stacked axes) (Some (BTuple (map BFund ls))) None data ev Hid) as (d & e & E1 & _ & Se & _ & V).
    - exact W.
    - exact Hw.
    - exact PW.
    - exact Hw.
    - apply explicit_orthonormal_fundt.
    - exact Ho.
    - assert (Q := LocalizeProofs4.compatible_position (map BFundT ls)). rewrite map_bfund_FundT in Q. exact Q.
    - apply compatible_refl.
    - cbn [bsize]. rewrite map_bsize_FundT. exact Hd.
    - cbn [bsize]. rewrite map_bsize_FundT. exact He.
    - unfold get_wavepacket_transformed_energy_effective_mass. rewrite map_bfund_FundT, E1, Hk, Hax.
      eexists. split; [reflexivity|]. intros b Hb. cbn beta.
      assert (SB : bsize (BTuple (map BFund ls)) = nprod ls) by (cbn [bsize]; rewrite map_map, (map_ext (fun x => bsize (BFund x)) (fun x => x)), map_id by reflexivity; reflexivity).
      assert (ST : bsize (BTuple (map BFundT ls)) = nprod ls) by (cbn [bsize]; rewrite map_bsize_FundT; reflexivity).
      assert (K : at2 e b k = isqrt (nprod ls) * csum (fun s => RtoC (E b s) * ph s) (nprod ls)).
      { specialize (V b k Hb). cbv zeta in V. rewrite SB in V. specialize (V Hkn). unfold at2. rewrite Se. cbn [nth]. rewrite SB. unfold band_value in V.
        rewrite V, ST, <- csum_scal_l. apply csum_ext. intros s Hs. rewrite HE by assumption.
        assert (Q := overlap_points (map BFundT ls) k s W). unfold points, as_fundamental_position in Q. cbn [bfund] in Q. rewrite ?map_bfund_FundT in Q. rewrite map_map in Q. change (map (fun x => BFund (bfund (BFundT x))) ls) with (map BFund ls) in Q.
        rewrite Q by exact Hkn. rewrite (Hph s Hs). ring. }
      rewrite K. rewrite ST, mass_value by assumption. reflexivity.
  Qed.
End Mass.

Lemma transformed_mass same hbar nb ls axes data ev a E : identity_test same -> Forall (fun n => (0 < n)%nat) ls -> (a < length ls)%nat -> length axes = length ls ->
  (2 <= nth a ls 0)%nat -> bwf (stacked axes) -> explicit_orthonormal (stacked axes) ->
  nprod (ashape data) = (nb * nprod ls * bsize (stacked axes))%nat -> nprod (ashape ev) = (nb * nprod ls)%nat -> norm (length axes) (lattice_of axes a) <> 0%R ->
  (forall b s, (b < nb)%nat -> (s < nprod ls)%nat -> aflat ev (b * nprod ls + s)%nat = RtoC (E b s)) ->
  exists M, get_wavepacket_transformed_energy_effective_mass same hbar nb (map BFundT ls) axes data ev (Z.of_nat a) = Some M /\
    forall b, (b < nb)%nat -> M b = rdiv (hbar ^ 2 * (2 * INR b + 1))%R (norm (length axes) (lattice_of axes a) ^ 2 * Cmod (neighbour_component ls a (E b)))%R.
Proof.
  intros Hid Hls Ha Hlen H2 Hw Ho Hd He Hdelta HE.
  apply (mass_at same hbar nb ls axes data ev Hid Hls Hw Ho Hd He E HE (Z.of_nat a) (ravel ls (unit_idx (length ls) a)) _
    (fun s => cis (2 * PI * INR (nth a (unravel ls s) 0%nat) / INR (nth a ls 0%nat))) (neighbour_some ls a Hls Ha H2)).
  - apply ravel_lt, unit_in_shape; assumption.
  - apply axis_length_some. rewrite Hlen. exact Ha.
  - exact Hdelta.
  - intros s Hs. apply state_unit; assumption.
Qed.

Lemma negative_zeros m (z : Z) : (z < 0)%Z -> map (fun i => if (Z.of_nat i =? z)%Z then 1%nat else 0%nat) (seq 0 m) = repeat 0%nat m.
Proof.
  intros Hz. enough (G : forall o, map (fun i => if (Z.of_nat i =? z)%Z then 1%nat else 0%nat) (seq o m) = repeat 0%nat m) by apply G.
  induction m as [|m IH]; intros o; [reflexivity|]. cbn [seq map repeat]. rewrite IH. destruct (Z.eqb_spec (Z.of_nat o) z); [lia|reflexivity].
Qed.
Lemma state_zero ls s : Forall (fun n => (0 < n)%nat) ls -> (s < nprod ls)%nat ->
  bstate (BTuple (map BFundT ls)) s (ravel ls (repeat 0%nat (length ls))) = isqrt (nprod ls) * 1.
Proof.
  intros Hp Hs. assert (U := unravel_in_shape ls s Hs). assert (V := zeros_in_shape ls Hp).
  assert (B := bstate_ravel (map BFundT ls) (unravel ls s) (repeat 0%nat (length ls))).
  rewrite map_bsize_FundT, map_bfund_FundT in B. specialize (B U V). rewrite ravel_unravel in B by exact Hs. rewrite B.
  rewrite axis_states_plane; [|apply in_shape_length; exact U|apply repeat_length]. rewrite plane_zeros. reflexivity.
Qed.

Lemma negative_mass same hbar nb ls axes data ev a E : identity_test same -> Forall (fun n => (0 < n)%nat) ls -> (a < length ls)%nat -> length axes = length ls ->
  bwf (stacked axes) -> explicit_orthonormal (stacked axes) ->
  nprod (ashape data) = (nb * nprod ls * bsize (stacked axes))%nat -> nprod (ashape ev) = (nb * nprod ls)%nat -> norm (length axes) (lattice_of axes a) <> 0%R ->
  (forall b s, (b < nb)%nat -> (s < nprod ls)%nat -> aflat ev (b * nprod ls + s)%nat = RtoC (E b s)) ->
  exists M, get_wavepacket_transformed_energy_effective_mass same hbar nb (map BFundT ls) axes data ev (Z.of_nat a - Z.of_nat (length ls)) = Some M /\
    forall b, (b < nb)%nat -> M b = rdiv (hbar ^ 2 * (2 * INR b + 1))%R (norm (length axes) (lattice_of axes a) ^ 2 * Rabs (rsum (E b) (nprod ls) / INR (nprod ls)))%R.
Proof.
  intros Hid Hls Ha Hlen Hw Ho Hd He Hdelta HE.
  assert (HN : (0 < nprod ls)%nat) by (apply nprod_pos; exact Hls).
  destruct (mass_at same hbar nb ls axes data ev Hid Hls Hw Ho Hd He E HE (Z.of_nat a - Z.of_nat (length ls)) (ravel ls (repeat 0%nat (length ls))) (norm (length axes) (lattice_of axes a)) (fun _ => 1)) as (M & E1 & V).
  - unfold neighbour_index. rewrite negative_zeros by lia.
    rewrite (proj2 (all_below _ ls (repeat_length _ _)) (zeros_in_shape ls Hls)). reflexivity.
  - apply ravel_lt, zeros_in_shape, Hls.
  - unfold axis_length, norm_axis. rewrite Hlen. destruct (Z.leb_spec (- Z.of_nat (length ls)) (Z.of_nat a - Z.of_nat (length ls))); [|lia].
    destruct (Z.ltb_spec (Z.of_nat a - Z.of_nat (length ls)) (Z.of_nat (length ls))); [|lia]. destruct (Z.ltb_spec (Z.of_nat a - Z.of_nat (length ls)) 0); [|lia]. cbn [andb].
    rewrite Z.sub_add, Nat2Z.id. reflexivity.
  - exact Hdelta.
  - intros s Hs. apply state_zero; assumption.
  - exists M. split; [exact E1|]. intros b Hb. rewrite (V b Hb). f_equal. f_equal. unfold phase_mean.
    rewrite (csum_ext _ (fun s => RtoC (E b s))) by (intros; ring). rewrite csum_RtoC, <- RtoC_div, Cmod_R by (apply not_0_INR; lia). reflexivity.
Qed.

Lemma short_axis same hbar nb ls axes data ev a : (a < length ls)%nat -> (nth a ls 0 < 2)%nat ->
  get_wavepacket_transformed_energy_effective_mass same hbar nb (map BFundT ls) axes data ev (Z.of_nat a) = None.
Proof.
  intros Ha H2. unfold get_wavepacket_transformed_energy_effective_mass. rewrite map_bfund_FundT, (neighbour_short ls a Ha H2).
  destruct (convert_wavepacket_with_eigenvalues_to_basis _ _ _ _ _ _ _ _) as [[d e]|]; reflexivity.
Qed.
