(** Proofs about the lines of lists of values. *)
From Coq Require Import Reals Lra Lia Psatz FunctionalExtensionality.
From Verif Require Import ZLib Csum DFT NumPy Index TimeBasis TimeProofs Dynamics DynamicsProofs8 Plots SpecPlots PlotsProofs2 PlotsProofs3 ValuePlots.
Local Open Scope R_scope.
Local Open Scope C_scope.

Lemma plain_line n D co m : exists line, plot_data_1d n D co m false = Some line /\ length line = n /\
  forall i, (i < n)%nat -> line_x line i = co i /\ line_y line i = measured_vector m D i /\ shows m (D i) (line_y line i).
Proof.
  unfold plot_data_1d. eexists. split; [reflexivity|]. split; [rewrite map_length, seq_length; reflexivity|]. intros i Hi.
  assert (N := nth_points (fun i => (co i, measured_vector m D i)) n i (0%R, 0%R) [] Hi). rewrite app_nil_r in N.
  unfold line_x, line_y. rewrite N. cbn [fst snd]. split; [reflexivity|]. split; [reflexivity|]. apply measured_shows.
Qed.

Lemma rolled_fft n off v k : (0 < n)%nat -> np_fft n (roll n off v) k = csum (fun j => v j * omega n (- (Z.of_nat k * (Z.of_nat j + off)))) n.
Proof.
  intros Hn. unfold np_fft, roll. set (s := fun j => Z.to_nat ((Z.of_nat j - off) mod Z.of_nat n)). set (t := fun j => Z.to_nat ((Z.of_nat j + off) mod Z.of_nat n)).
  transitivity (csum (fun j => (fun j' => v j' * omega n (- (Z.of_nat k * (Z.of_nat j' + off)))) (s j)) n).
  - apply csum_ext. intros j Hj. cbn beta. f_equal. apply omega_cong; [exact Hn|].
    assert (B := Z.mod_pos_bound (Z.of_nat j - off) (Z.of_nat n) ltac:(lia)). unfold s. rewrite Z2Nat.id by lia.
    assert (D := Z.div_mod (Z.of_nat j - off) (Z.of_nat n) ltac:(lia)).
    exists (- (Z.of_nat k * ((Z.of_nat j - off) / Z.of_nat n)))%Z. nia.
  - apply (csum_bij (fun j' => v j' * omega n (- (Z.of_nat k * (Z.of_nat j' + off)))) n n s t); intros j Hj; unfold s, t.
    + assert (B := Z.mod_pos_bound (Z.of_nat j - off) (Z.of_nat n) ltac:(lia)). split; [lia|]. rewrite Z2Nat.id by lia.
      rewrite Zplus_mod_idemp_l, Z.sub_add, Z.mod_small by lia. lia.
    + assert (B := Z.mod_pos_bound (Z.of_nat j + off) (Z.of_nat n) ltac:(lia)). split; [lia|]. rewrite Z2Nat.id by lia.
      rewrite Zminus_mod_idemp_l, Z.add_simpl_r, Z.mod_small by lia. lia.
Qed.

Lemma frequency_coordinates b d : (0 < tn b)%nat -> tspan b <> 0%R -> dt b = Some d ->
  exists co, np_fftfreq (tn b) d = Some co /\ forall i, (i < tn b)%nat -> fftshift_vector (tn b) co i = (IZR (Z.of_nat i - Z.of_nat (tn b / 2)) / tspan b)%R.
Proof.
  intros Hn Hs Hd. assert (Hi : (0 < INR (tn b))%R) by (apply lt_0_INR; lia).
  unfold dt in Hd. destruct (Nat.eqb_spec (tn b) 0); [lia|]. injection Hd as <-. unfold np_fftfreq.
  assert (E : (INR (tn b) * (tspan b / INR (tn b)) = tspan b)%R) by (field; lra). rewrite E, rdiv_some by exact Hs.
  eexists. split; [reflexivity|]. intros i Hi'. change (fftshift_vector (tn b) (fun k => (IZR (nk_points (tn b) k) * (1 / tspan b))%R) i) with (IZR (nk_points (tn b) (ascending (tn b) i)) * (1 / tspan b))%R.
  rewrite ascending_point by exact Hi'. field. exact Hs.
Qed.

Lemma frequency_value b ts v i : (0 < tn b)%nat -> (0 < tstep b)%nat -> tspan b <> 0%R -> times b = Some ts -> (i < tn b)%nat ->
  let f := (IZR (Z.of_nat i - Z.of_nat (tn b / 2)) / tspan b)%R in
  let delay := (tspan b / INR (tn b) * IZR (toffset b) * (1 - / INR (tstep b)))%R in
  fftshift_vector (tn b) (np_fft (tn b) (roll (tn b) (toffset b) v)) i =
  cis (- (2 * PI * f * delay)) * csum (fun j => v j * cis (- (2 * PI * f * nth j ts 0))) (tn b).
Proof.
  intros Hn Hst Hs Ht Hi f delay. destruct (times_spec b Hn Hst) as (l & E & _ & T & _). rewrite Ht in E. injection E as <-.
  change (fftshift_vector (tn b) (np_fft (tn b) (roll (tn b) (toffset b) v)) i) with (np_fft (tn b) (roll (tn b) (toffset b) v) (ascending (tn b) i)).
  rewrite rolled_fft by exact Hn. rewrite <- csum_scal_l. apply csum_ext. intros j Hj. rewrite (T j 0%R Hj).
  assert (Hin : (0 < INR (tn b))%R) by (apply lt_0_INR; lia). assert (Hit : (0 < INR (tstep b))%R) by (apply lt_0_INR; lia).
  rewrite (Cmult_comm (v j) (omega _ _)), (Cmult_comm (v j) (cis _)), Cmult_assoc. f_equal. rewrite <- cis_plus.
  rewrite (omega_cong (tn b) _ (- ((Z.of_nat i - Z.of_nat (tn b / 2)) * (Z.of_nat j + toffset b)))).
  - unfold omega. f_equal. rewrite opp_IZR, mult_IZR, plus_IZR, <- INR_IZR_INZ. unfold f, delay. field. repeat split; (lra || exact Hs).
  - exact Hn.
  - unfold ascending. assert (B := Z.mod_pos_bound (Z.of_nat i - Z.of_nat (tn b / 2)) (Z.of_nat (tn b)) ltac:(lia)). rewrite Z2Nat.id by lia.
    set (z := (Z.of_nat i - Z.of_nat (tn b / 2))%Z) in *. assert (D := Z.div_mod z (Z.of_nat (tn b)) ltac:(lia)).
    exists ((z / Z.of_nat (tn b)) * (Z.of_nat j + toffset b))%Z. nia.
Qed.

Lemma frequency_line b ts v m : (0 < tn b)%nat -> (0 < tstep b)%nat -> tspan b <> 0%R -> times b = Some ts ->
  let delay := (tspan b / INR (tn b) * IZR (toffset b) * (1 - / INR (tstep b)))%R in
  exists line, plot_value_list_against_frequency b v m = Some line /\ length line = tn b /\
    forall i, (i < tn b)%nat -> line_x line i = (IZR (Z.of_nat i - Z.of_nat (tn b / 2)) / tspan b)%R /\
      shows m (cis (- (2 * PI * line_x line i * delay)) * csum (fun j => v j * cis (- (2 * PI * line_x line i * nth j ts 0))) (tn b)) (line_y line i).
Proof.
  intros Hn Hst Hs Ht delay. unfold plot_value_list_against_frequency.
  destruct (dt b) as [d|] eqn:Ed; [|unfold dt in Ed; destruct (Nat.eqb_spec (tn b) 0); [lia|discriminate]].
  destruct (frequency_coordinates b d Hn Hs Ed) as (co & -> & C).
  destruct (plain_line (tn b) (fftshift_vector (tn b) (np_fft (tn b) (roll (tn b) (toffset b) v))) (fftshift_vector (tn b) co) m) as (line & E & L & V).
  exists line. split; [exact E|]. split; [exact L|]. intros i Hi. destruct (V i Hi) as (X & _ & S0). rewrite X, (C i Hi). split; [reflexivity|].
  rewrite (frequency_value b ts v i Hn Hst Hs Ht Hi) in S0. exact S0.
Qed.
Lemma frequency_raises b v m : (tn b = 0%nat \/ tspan b = 0%R) -> plot_value_list_against_frequency b v m = None.
Proof.
  intros H. unfold plot_value_list_against_frequency, dt. destruct (Nat.eqb_spec (tn b) 0); [reflexivity|]. destruct H as [H|H]; [contradiction|].
  unfold np_fftfreq. rewrite H. assert (INR (tn b) <> 0%R) by (apply not_0_INR; assumption). replace (INR (tn b) * (0 / INR (tn b)))%R with 0%R by (field; assumption).
  unfold rdiv. destruct (Req_EM_T 0 0); [reflexivity|contradiction].
Qed.

(** ** Lists split by an index *)
Definition row (n : nat) (v : nat -> C) (i j : nat) : C := v (i * n + j)%nat.
Lemma split_time nb b ts v m : times b = Some ts ->
  exists lines, plot_split_value_list_against_time nb b v m = Some lines /\ length lines = nb /\
    forall i, (i < nb)%nat -> exists line, nth_error lines i = Some (Some line) /\ length line = tn b /\
      forall j, (j < tn b)%nat -> line_x line j = nth j ts 0%R /\ shows m (csum (fun i' => v (i' * tn b + j)%nat) (S i)) (line_y line j).
Proof.
  intros Ht. unfold plot_split_value_list_against_time. rewrite Ht. eexists. split; [reflexivity|]. split; [rewrite map_length, seq_length; reflexivity|].
  intros i Hi. destruct (plain_line (tn b) (cumulative (fun i j => v (i * tn b + j)%nat) i) (fun j => nth j ts 0%R) m) as (line & E & L & V).
  exists line. split; [|split; [exact L|]].
  - rewrite nth_error_map. rewrite (nth_error_nth' (seq 0 nb) 0%nat) by (rewrite seq_length; exact Hi). cbn [option_map]. rewrite seq_nth by exact Hi. cbn [Nat.add]. rewrite E. reflexivity.
  - intros j Hj. destruct (V j Hj) as (X & _ & S0). split; [exact X|exact S0].
Qed.
Lemma split_frequency nb b v m : (0 < tn b)%nat ->
  plot_split_value_list_against_frequency nb b v m =
  if Req_EM_T (tspan b) 0 then None
  else Some (map (fun i => plot_value_list_against_frequency b (fun j => csum (fun i' => v (i' * tn b + j)%nat) (S i)) m) (seq 0 nb)).
Proof.
  intros Hn. unfold plot_split_value_list_against_frequency, plot_value_list_against_frequency.
  destruct (dt b) as [d|] eqn:Ed; [|unfold dt in Ed; destruct (Nat.eqb_spec (tn b) 0); [lia|discriminate]].
  destruct (Req_EM_T (tspan b) 0) as [Z|Z].
  - unfold dt in Ed. destruct (Nat.eqb_spec (tn b) 0); [lia|]. injection Ed as <-. unfold np_fftfreq. rewrite Z.
    assert (INR (tn b) <> 0%R) by (apply not_0_INR; lia). replace (INR (tn b) * (0 / INR (tn b)))%R with 0%R by (field; assumption).
    unfold rdiv. destruct (Req_EM_T 0 0); [reflexivity|contradiction].
  - destruct (frequency_coordinates b d Hn Z Ed) as (co & -> & _). f_equal. apply map_ext. intros i. f_equal.
    extensionality k. unfold cumulative, fftshift_vector, np_fft, roll. rewrite csum_swap. apply csum_ext. intros j _. rewrite csum_scal_r. reflexivity.
Qed.

(** ** Averages *)
Lemma mean_nonneg n f : (0 < n)%nat -> (forall i, (0 <= f i)%R) -> (0 <= mean n f)%R.
Proof.
  intros Hn Hf. unfold mean. apply Rmult_le_pos; [|left; apply Rinv_0_lt_compat, lt_0_INR; exact Hn].
  clear Hn. induction n as [|n IH]; [cbn; lra|]. cbn [rsum]. specialize (Hf n). lra.
Qed.
Lemma average_line nb b ts v m : (0 < nb)%nat -> times b = Some ts ->
  exists line lower upper, plot_average_value_list_against_time nb b v m = Some (line, lower, upper) /\ length line = tn b /\
    forall j, (j < tn b)%nat ->
      let y i := measured_vector m v (i * tn b + j)%nat in
      line_x line j = nth j ts 0%R /\ ((lower j + upper j) / 2 = mean nb y)%R /\ (((upper j - lower j) / 2) ^ 2 = mean nb (fun i => (y i - mean nb y) ^ 2) / INR nb)%R /\
      (lower j <= upper j)%R /\
      (m = PAbs \/ m = PReal -> line_y line j = mean nb y) /\ (m = PImag -> line_y line j = 0%R).
Proof.
  intros Hnb Ht. unfold plot_average_value_list_against_time. destruct (Nat.eqb_spec nb 0); [lia|]. rewrite Ht.
  set (avg := fun j => mean nb (fun i => measured_vector m v (i * tn b + j)%nat)).
  destruct (plain_line (tn b) (fun j => RtoC (avg j)) (fun j => nth j ts 0%R) m) as (line & E & L & V). unfold avg in E. rewrite E.
  do 3 eexists. split; [reflexivity|]. split; [exact L|]. intros j Hj. set (y := fun i => measured_vector m v (i * tn b + j)%nat). change (avg) with (fun j => mean nb (fun i => measured_vector m v (i * tn b + j)%nat)) in V. cbn beta in V. destruct (V j Hj) as (X & _ & S0).
  assert (Hi : (0 < INR nb)%R) by (apply lt_0_INR; lia). assert (Hq := sqrt_lt_R0 _ Hi). assert (Q := sqrt_sqrt (INR nb) ltac:(lra)).
  assert (P : (0 <= np_std nb y)%R) by apply sqrt_pos.
  split; [exact X|]. fold y in S0. split; [field; lra|]. split; [|split; [|split]].
  - replace ((mean nb y + np_std nb y / sqrt (INR nb) - (mean nb y - np_std nb y / sqrt (INR nb))) / 2)%R with (np_std nb y / sqrt (INR nb))%R by (field; lra).
    transitivity (np_std nb y * np_std nb y / (sqrt (INR nb) * sqrt (INR nb)))%R; [field; lra|]. rewrite Q. f_equal. unfold np_std. apply sqrt_sqrt. apply mean_nonneg; [exact Hnb|]. intros i. apply pow2_ge_0.
  - assert (0 <= np_std nb y / sqrt (INR nb))%R by (apply Rmult_le_pos; [exact P|left; apply Rinv_0_lt_compat, Hq]). lra.
  - intros [-> | ->]; cbn [shows] in S0; [|exact S0]. rewrite S0, Cmod_R. apply Rabs_pos_eq. apply mean_nonneg; [exact Hnb|]. intros i. apply Cmod_ge_0.
  - intros ->. cbn [shows] in S0. exact S0.
Qed.
