(** Facts about the lines of lists of values. *)
From Coq Require Import Reals Lra Lia Psatz FunctionalExtensionality.
From Verif Require Import ZLib Csum DFT NumPy Index TimeBasis TimeProofs Dynamics Plots SpecPlots PlotsProofs2 PlotsProofs3 ValuePlots ValuePlotsProofs.
Local Open Scope R_scope.
Local Open Scope C_scope.

Lemma time_line b ts v m : times b = Some ts ->
  exists line, plot_value_list_against_time b v m = Some line /\ length line = tn b /\
    forall j, (j < tn b)%nat -> line_x line j = nth j ts 0%R /\ shows m (v j) (line_y line j).
Proof.
  intros H. unfold plot_value_list_against_time. rewrite H. destruct (plain_line (tn b) v (fun j => nth j ts 0%R) m) as (line & E & L & V).
  exists line. split; [exact E|]. split; [exact L|]. intros j Hj. destruct (V j Hj) as (X & _ & S0). split; [exact X|exact S0].
Qed.
Lemma nx_line n v m : exists line, plot_value_list_against_nx n v m = Some line /\ length line = n /\
    forall j, (j < n)%nat -> line_x line j = INR j /\ shows m (v j) (line_y line j).
Proof.
  unfold plot_value_list_against_nx. destruct (plain_line n v INR m) as (line & E & L & V).
  exists line. split; [exact E|]. split; [exact L|]. intros j Hj. destruct (V j Hj) as (X & _ & S0). split; [exact X|exact S0].
Qed.
Lemma all_lines nb b ts v m : times b = Some ts ->
  let lines := plot_all_value_list_against_time nb b v m in
  length lines = nb /\
  forall i, (i < nb)%nat -> exists line, nth_error lines i = Some (Some line) /\ length line = tn b /\
    forall j, (j < tn b)%nat -> line_x line j = nth j ts 0%R /\ shows m (v (i * tn b + j)%nat) (line_y line j).
Proof.
  intros H lines. unfold lines, plot_all_value_list_against_time. rewrite map_length, seq_length. split; [reflexivity|]. intros i Hi.
  destruct (time_line b ts (fun j => v (i * tn b + j)%nat) m H) as (line & E & L & V). exists line.
  split; [|split; [exact L|exact V]]. rewrite nth_error_map. rewrite (nth_error_nth' (seq 0 nb) 0%nat) by (rewrite seq_length; exact Hi).
  cbn [option_map]. rewrite seq_nth by exact Hi. cbn [Nat.add]. rewrite E. reflexivity.
Qed.

(** ** The spectrum and its modulus *)
Lemma frequency_exact b ts v m : (0 < tn b)%nat -> (0 < tstep b)%nat -> tspan b <> 0%R -> times b = Some ts ->
  m = PAbs \/ tstep b = 1%nat \/ toffset b = 0%Z ->
  exists line, plot_value_list_against_frequency b v m = Some line /\ length line = tn b /\
    forall i, (i < tn b)%nat -> line_x line i = (IZR (Z.of_nat i - Z.of_nat (tn b / 2)) / tspan b)%R /\
      shows m (csum (fun j => v j * cis (- (2 * PI * line_x line i * nth j ts 0))) (tn b)) (line_y line i).
Proof.
  intros Hn Hst Hs Ht Hm. destruct (frequency_line b ts v m Hn Hst Hs Ht) as (line & E & L & V). exists line. split; [exact E|]. split; [exact L|].
  intros i Hi. destruct (V i Hi) as (X & W). split; [exact X|]. destruct Hm as [-> | Hm].
  - cbn [shows] in *. rewrite W, Cmod_mult, cis_mod. ring.
  - replace (cis _) with (RtoC 1) in W; [rewrite Cmult_1_l in W; exact W|].
    replace (- (2 * PI * line_x line i * (tspan b / INR (tn b) * IZR (toffset b) * (1 - / INR (tstep b)))))%R with 0%R; [symmetry; apply cis_0|].
    destruct Hm as [-> | ->]; [change (INR 1) with 1%R; field; apply not_0_INR; lia|ring].
Qed.

(** ** A wrong phase: every second time, the first left out *)
Definition late : time_basis := {| tn := 2; tstep := 2; toffset := 1; tspan := 1 |}.
Lemma late_refuted : exists ts line, times late = Some ts /\ plot_value_list_against_frequency late (fun j => if (j =? 0)%nat then RtoC 1 else RtoC 0) PReal = Some line /\
  line_x line 0 = (-1)%R /\ line_y line 0 = (-1)%R /\
  fst (csum (fun j => (if (j =? 0)%nat then RtoC 1 else RtoC 0) * cis (- (2 * PI * line_x line 0 * nth j ts 0))) 2) = 0%R.
Proof.
  destruct (times_spec late) as (ts & Ht & _ & T & _); [cbn; lia..|].
  destruct (frequency_line late ts (fun j => if (j =? 0)%nat then RtoC 1 else RtoC 0) PReal) as (line & E & L & V); [cbn; (lia || lra)..|exact Ht|].
  exists ts, line. split; [exact Ht|]. split; [exact E|]. destruct (V 0%nat) as (X & W); [cbn; lia|]. cbn [late tn tstep toffset tspan] in X, W, T.
  assert (T0 := T 0%nat 0%R ltac:(lia)). change (INR 2) with (1 + 1)%R in *.
  assert (X1 : line_x line 0 = (-1)%R) by (rewrite X; cbn; lra). split; [exact X1|].
  assert (N0 : nth 0 ts 0%R = (1 / 4)%R). { rewrite T0. cbn. field. }
  assert (S2 : forall f, csum (fun j => (if (j =? 0)%nat then RtoC 1 else RtoC 0) * f j) 2 = f 0%nat). { intros f. cbn [csum Nat.eqb]. ring. }
  rewrite S2, N0, X1 in *. cbn [shows] in W. rewrite W, <- cis_plus. split.
  - replace (- (2 * PI * -1 * (1 / (1 + 1) * 1 * (1 - / (1 + 1)))) + - (2 * PI * -1 * (1 / 4)))%R with PI by field. unfold cis. cbn. apply cos_PI.
  - replace (- (2 * PI * -1 * (1 / 4)))%R with (PI / 2)%R by field. unfold cis. cbn. apply cos_PI2.
Qed.

(** ** Averages of imaginary parts *)
Lemma imaginary_average nb b ts : (0 < nb)%nat -> (0 < tn b)%nat -> times b = Some ts ->
  exists line lower upper, plot_average_value_list_against_time nb b (fun _ => Ci) PImag = Some (line, lower, upper) /\
    forall j, (j < tn b)%nat -> lower j = 1%R /\ upper j = 1%R /\ line_y line j = 0%R.
Proof.
  intros Hnb Hn Ht. destruct (average_line nb b ts (fun _ => Ci) PImag Hnb Ht) as (line & lower & upper & E & _ & V). exists line, lower, upper. split; [exact E|].
  intros j Hj. destruct (V j Hj) as (_ & A & B & _ & _ & Z0). specialize (Z0 eq_refl).
  assert (Hi : (0 < INR nb)%R) by (apply lt_0_INR; lia).
  assert (M : forall c, mean nb (fun _ => c) = c). { intros c. unfold mean. assert (R0 : rsum (fun _ => c) nb = (INR nb * c)%R). { clear. induction nb as [|n IH]; [cbn; ring|]. rewrite S_INR. cbn [rsum]. rewrite IH. ring. } rewrite R0. field. lra. }
  cbn [measured_vector Ci snd] in A, B. rewrite M in A. rewrite M, M in B.
  replace ((1 - 1) ^ 2 / INR nb)%R with 0%R in B by (field; lra). assert ((upper j - lower j) / 2 = 0)%R by nra. repeat split; (lra || exact Z0).
Qed.
