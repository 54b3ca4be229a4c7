(** Proofs about the occupations of bands by states, and about probabilities against time. *)
From Coq Require Import Reals Lra Lia Psatz.
From Verif Require Import ZLib Csum DFT NumPy Index IndexProofs Basis SpecBasis Operator SpecOperator Spec SpecReduce Reduce ReduceProofs ReduceProofs2 TimeBasis Dynamics DynamicsProofs7 DynamicsProofs8 LatticeProofs TrajectoryProofs Plots SpecPlots PlotsProofs2 ValuePlots ValuePlotsProofs EffectiveMass Occupation OccupationProofs OccupationProofs2.
Local Open Scope R_scope.

Lemma average_energy nb ns h b : (0 < ns)%nat -> get_average_band_energy nb ns h b = Some (rsum (fun s => fst (h (b * ns + s)%nat)) ns / INR ns).
Proof. intros H. unfold get_average_band_energy. apply rdiv_some. apply not_0_INR. lia. Qed.
Lemma average_bounds n f lo hi : (0 < n)%nat -> (forall i, (i < n)%nat -> lo <= f i <= hi) -> lo <= rsum f n / INR n <= hi.
Proof.
  intros Hn H. assert (Hi : 0 < INR n) by (apply lt_0_INR; exact Hn).
  assert (L : rsum (fun _ => lo) n <= rsum f n) by (apply rsum_le; intros i Hi'; apply H; exact Hi').
  assert (U : rsum f n <= rsum (fun _ => hi) n) by (apply rsum_le; intros i Hi'; apply H; exact Hi').
  rewrite rsum_const in L, U. split; [apply Rmult_le_reg_r with (INR n)|apply Rmult_le_reg_r with (INR n)]; try exact Hi; unfold Rdiv; rewrite Rmult_assoc, Rinv_l by lra; lra.
Qed.

Lemma total_occupation nb ns h c m : (0 < ns)%nat -> rsum (fun t => Cnorm2 (c t)) (nb * ns) <> 0 ->
  exists line mid, plot_total_band_occupation_against_energy nb ns h c m = Some (line, mid) /\ length line = nb /\
    let x b := rsum (fun s => fst (h (b * ns + s)%nat)) ns / INR ns in
    let y b := rsum (fun s => Cnorm2 (c (b * ns + s)%nat)) ns in
    (forall b, (b < nb)%nat -> line_x line b = x b /\ shows m (RtoC (y b)) (line_y line b)) /\
    rsum y nb = rsum (fun t => Cnorm2 (c t)) (nb * ns) /\
    mid * rsum (fun t => Cnorm2 (c t)) (nb * ns) = rsum (fun b => x b * y b) nb /\
    (forall lo hi, (forall t, (t < nb * ns)%nat -> lo <= fst (h t) <= hi) -> lo <= mid <= hi) /\
    ((forall b s, (b < nb)%nat -> (s < ns)%nat -> h (b * ns + s)%nat = h (b * ns)%nat) ->
     mid * rsum (fun t => Cnorm2 (c t)) (nb * ns) = rsum (fun t => fst (h t) * Cnorm2 (c t)) (nb * ns)).
Proof.
  intros Hns Hc. unfold plot_total_band_occupation_against_energy. destruct (Nat.eqb_spec ns 0); [lia|]. cbv zeta.
  set (energy := fun b => match get_average_band_energy nb ns h b with Some e => e | None => 0 end).
  set (total := fun b => rsum (fun s => Cmod (c (b * ns + s)%nat) ^ 2) ns).
  assert (T : forall b, total b = rsum (fun s => Cnorm2 (c (b * ns + s)%nat)) ns).
  { intros b. unfold total. apply rsum_ext. intros s _. rewrite Cnorm2_Cmod. ring. }
  assert (X : forall b, energy b = rsum (fun s => fst (h (b * ns + s)%nat)) ns / INR ns) by (intros b; unfold energy; rewrite average_energy by exact Hns; reflexivity).
  assert (Y : rsum total nb = rsum (fun t => Cnorm2 (c t)) (nb * ns)). { rewrite rsum_flat. apply rsum_ext. intros b _. apply T. }
  destruct (plain_line nb (fun b => RtoC (total b)) energy m) as (line & EL & L & V). 
  match goal with |- context [plot_data_1d nb ?D ?e m false] => change (plot_data_1d nb D e m false) with (plot_data_1d nb (fun b => RtoC (total b)) energy m false) end.
  match goal with |- context [rdiv ?u ?w] => change (rdiv u w) with (rdiv (rsum (fun b => energy b * total b) nb) (rsum total nb)) end.
  rewrite EL. rewrite rdiv_some by (rewrite Y; exact Hc).
  assert (P : 0 < rsum (fun t => Cnorm2 (c t)) (nb * ns)).
  { destruct (Rle_lt_or_eq_dec 0 (rsum (fun t => Cnorm2 (c t)) (nb * ns))) as [Z|Z]; [apply rsum_nonneg; intros; apply Cnorm2_nonneg|exact Z|congruence]. }
  do 2 eexists. split; [reflexivity|]. split; [exact L|]. cbv zeta.
  assert (M : rsum (fun b => energy b * total b) nb / rsum total nb * rsum (fun t => Cnorm2 (c t)) (nb * ns) =
    rsum (fun b => rsum (fun s => fst (h (b * ns + s)%nat)) ns / INR ns * rsum (fun s => Cnorm2 (c (b * ns + s)%nat)) ns) nb).
  { rewrite Y. transitivity (rsum (fun b => energy b * total b) nb); [field; lra|]. apply rsum_ext. intros b _. rewrite X, T. reflexivity. }
  split; [|split; [|split; [|split]]].
  - intros b Hb. destruct (V b Hb) as (E1 & _ & E2). rewrite E1, X. split; [reflexivity|]. rewrite T in E2. exact E2.
  - rewrite <- Y. apply rsum_ext. intros b _. symmetry. apply T.
  - exact M.
  - intros lo hi Hb. rewrite Y. assert (B : forall b, (b < nb)%nat -> lo <= energy b <= hi).
    { intros b Hb'. rewrite X. apply average_bounds; [exact Hns|]. intros s Hs. apply Hb. nia. }
    assert (T0 : forall b, 0 <= total b) by (intros b; rewrite T; apply rsum_nonneg; intros; apply Cnorm2_nonneg).
    assert (LO : rsum (fun b => lo * total b) nb <= rsum (fun b => energy b * total b) nb) by (apply rsum_le; intros b Hb'; apply Rmult_le_compat_r; [apply T0|apply B; exact Hb']).
    assert (HI : rsum (fun b => energy b * total b) nb <= rsum (fun b => hi * total b) nb) by (apply rsum_le; intros b Hb'; apply Rmult_le_compat_r; [apply T0|apply B; exact Hb']).
    rewrite rsum_scal_l, Y in LO, HI. set (N := rsum (fun t => Cnorm2 (c t)) (nb * ns)) in *.
    split; apply Rmult_le_reg_r with N; try exact P; unfold Rdiv; rewrite Rmult_assoc, Rinv_l by lra; lra.
  - intros F. rewrite M, rsum_flat. apply rsum_ext. intros b Hb.
    rewrite (rsum_ext (fun s => fst (h (b * ns + s)%nat)) (fun _ => fst (h (b * ns)%nat))) by (intros s Hs; rewrite F by assumption; reflexivity).
    rewrite rsum_const. rewrite (rsum_ext (fun s => fst (h (b * ns + s)%nat) * Cnorm2 (c (b * ns + s)%nat)) (fun s => fst (h (b * ns)%nat) * Cnorm2 (c (b * ns + s)%nat))) by (intros s Hs; rewrite F by assumption; reflexivity).
    rewrite rsum_scal_l. field. apply not_0_INR. lia.
Qed.
Lemma total_raises nb ns h c m : (ns = 0%nat \/ forall t, (t < nb * ns)%nat -> c t = RtoC 0) -> plot_total_band_occupation_against_energy nb ns h c m = None.
Proof.
  intros H. unfold plot_total_band_occupation_against_energy. destruct (Nat.eqb_spec ns 0); [reflexivity|]. destruct H as [H|H]; [contradiction|].
  destruct (plot_data_1d _ _ _ _ _); [|reflexivity].
  assert (Z : rsum (fun b => rsum (fun s => Cmod (c (b * ns + s)%nat) ^ 2) ns) nb = 0).
  { rewrite (rsum_ext _ (fun _ => 0)); [apply rsum_const0|]. intros b Hb. rewrite (rsum_ext _ (fun _ => 0)); [apply rsum_const0|]. intros s Hs. rewrite H by nia. rewrite Cmod_0. ring. }
  cbv zeta. rewrite Z. unfold rdiv. destruct (Req_EM_T 0 0); [reflexivity|contradiction].
Qed.

(** ** Thermal occupations of bands, drawn *)
Lemma thermal_bands nb ns kT energy m : (0 < nb)%nat -> (0 < ns)%nat -> kT <> 0 ->
  exists p line line', plot_occupation_against_band nb ns kT energy m = Some line /\ plot_occupation_against_band_average_energy nb ns kT energy m = Some line' /\
    length line = nb /\ length line' = nb /\ rsum p nb = 1 /\
    (forall b, (b < nb)%nat -> 0 < p b /\ p b * rsum (fun t => exp (- energy t / kT)) (nb * ns) = rsum (fun s => exp (- energy (b * ns + s)%nat / kT)) ns /\
       line_x line b = INR b /\ shows m (RtoC (p b)) (line_y line b) /\
       line_x line' b = rsum (fun s => energy (b * ns + s)%nat) ns / INR ns /\ shows m (RtoC (p b)) (line_y line' b)).
Proof.
  intros Hnb Hns HkT. destruct (band_occupation nb ns kT energy Hnb Hns HkT) as (f & p & Ef & Ep & P & S1 & _).
  unfold plot_occupation_against_band, plot_occupation_against_band_average_energy, plot_value_list_against_nx. rewrite Ef. destruct (Nat.eqb_spec ns 0); [lia|].
  set (D := fun b => match f b with Some p => RtoC p | None => RtoC 0 end).
  destruct (plain_line nb D INR m) as (line & E1 & L1 & V1).
  destruct (plain_line nb D (fun b => match get_average_band_energy nb ns (fun t => RtoC (energy t)) b with Some e => e | None => 0 end) m) as (line' & E2 & L2 & V2).
  exists p, line, line'. split; [exact E1|]. split; [exact E2|]. split; [exact L1|]. split; [exact L2|]. split; [exact S1|].
  intros b Hb. assert (Db : D b = RtoC (p b)) by (unfold D; rewrite Ep by exact Hb; reflexivity).
  destruct (V1 b Hb) as (X1 & _ & Y1). destruct (V2 b Hb) as (X2 & _ & Y2). rewrite Db in Y1, Y2.
  split; [apply P; exact Hb|]. split; [|split; [exact X1|split; [exact Y1|split; [|exact Y2]]]].
  - assert (Z := partition_pos nb ns kT energy Hnb Hns). assert (E := Ep b Hb). unfold get_wavepacket_band_occupation in Ef. destruct (Req_EM_T kT 0); [contradiction|].
    injection Ef as <-. cbv beta in E. rewrite rdiv_some in E by (apply Rgt_not_eq; exact Z). injection E as <-. rewrite rsum_flat. unfold Rdiv at 1. rewrite Rmult_assoc, Rinv_l by (apply Rgt_not_eq; exact Z). apply Rmult_1_r.
  - rewrite X2, average_energy by exact Hns. reflexivity.
Qed.
Lemma thermal_bands_raise nb ns energy m : plot_occupation_against_band nb ns 0 energy m = None /\ plot_occupation_against_band_average_energy nb ns 0 energy m = None.
Proof. unfold plot_occupation_against_band, plot_occupation_against_band_average_energy, get_wavepacket_band_occupation. destruct (Req_EM_T 0 0); [split; reflexivity|contradiction]. Qed.

(** ** Probabilities against time *)
Lemma split_index n0 n1 n2 i j k : (i < n0)%nat -> (j < n1)%nat -> (k < n2)%nat -> unravel [n0; n1; n2] (i * (n1 * n2) + (j * n2 + k)) = [i; j; k].
Proof.
  intros Hi Hj Hk. assert (U := unravel_ravel [n0; n1; n2] [i; j; k]). replace (ravel [n0; n1; n2] [i; j; k]) with (i * (n1 * n2) + (j * n2 + k))%nat in U by (cbn -[Nat.mul Nat.add]; ring).
  apply U. repeat (constructor; [assumption|]). constructor.
Qed.
Lemma matching_first_two n0 n1 n2 (a : nat -> C) k : (k < n2)%nat ->
  sum_matching [0; 1]%nat [n0; n1; n2] a [k] = csum (fun i => csum (fun j => a ((i * n1 + j) * n2 + k)%nat) n1) n0.
Proof.
  intros Hk. unfold sum_matching. replace (nprod [n0; n1; n2]) with (n0 * (n1 * n2))%nat by (cbn; lia). rewrite csum_mul. apply csum_ext. intros i Hi. rewrite csum_mul.
  apply csum_ext. intros j Hj.
  assert (U : forall k', (k' < n2)%nat -> unravel [n0; n1; n2] (i * (n1 * n2) + (j * n2 + k')) = [i; j; k']).
  { intros k' Hk'. apply (split_index n0 n1 n2 i j k' Hi Hj Hk'). }
  rewrite (csum_single _ n2 k Hk).
  - rewrite U by exact Hk. change (remaining 0%nat [0; 1]%nat [i; j; k]) with [k]. destruct (list_eq_dec Nat.eq_dec [k] [k]); [|contradiction]. apply (f_equal a). ring.
  - intros k' Hk' Hne. rewrite U by exact Hk'. change (remaining 0%nat [0; 1]%nat [i; j; k']) with [k']. destruct (list_eq_dec Nat.eq_dec [k'] [k]) as [E|]; [injection E as E; contradiction|reflexivity].
Qed.
Lemma matching_last n0 n1 n2 (a : nat -> C) i j : (i < n0)%nat -> (j < n1)%nat ->
  sum_matching [2]%nat [n0; n1; n2] a [i; j] = csum (fun k => a ((i * n1 + j) * n2 + k)%nat) n2.
Proof.
  intros Hi Hj. unfold sum_matching. replace (nprod [n0; n1; n2]) with (n0 * (n1 * n2))%nat by (cbn; lia). rewrite csum_mul.
  assert (U : forall i j k, (i < n0)%nat -> (j < n1)%nat -> (k < n2)%nat -> unravel [n0; n1; n2] (i * (n1 * n2) + (j * n2 + k)) = [i; j; k]).
  { exact (split_index n0 n1 n2). }
  rewrite (csum_single _ n0 i Hi).
  - rewrite csum_mul, (csum_single _ n1 j Hj).
    + apply csum_ext. intros k Hk. rewrite U by assumption. change (remaining 0%nat [2]%nat [i; j; k]) with [i; j]. destruct (list_eq_dec Nat.eq_dec [i; j] [i; j]); [|contradiction]. apply (f_equal a). ring.
    + intros j' Hj' Hne. apply csum_zero_ext. intros k Hk. rewrite U by assumption. change (remaining 0%nat [2]%nat [i; j'; k]) with [i; j']. destruct (list_eq_dec Nat.eq_dec [i; j'] [i; j]) as [E|]; [injection E as E; contradiction|reflexivity].
  - intros i' Hi' Hne. rewrite csum_mul. apply csum_zero_ext. intros j' Hj'. apply csum_zero_ext. intros k Hk. rewrite U by assumption. change (remaining 0%nat [2]%nat [i'; j'; k]) with [i'; j'].
    destruct (list_eq_dec Nat.eq_dec [i'; j'] [i; j]) as [E|]; [injection E as E _; contradiction|reflexivity].
Qed.
