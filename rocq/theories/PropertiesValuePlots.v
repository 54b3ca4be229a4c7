(** C119: lines of lists of values. *)
From Coq Require Import Reals Lra Lia.
From Verif Require Import ZLib Csum DFT NumPy Index TimeBasis TimeProofs Dynamics Plots SpecPlots ValuePlots ValuePlotsProofs ValuePlotsFacts.
Local Open Scope R_scope.
Local Open Scope C_scope.

(** Three times in steps of two from the first on, and span 3. *)
Definition C119_times : time_basis := {| tn := 3; tstep := 2; toffset := 1; tspan := 3 |}.
Example C119_case : (0 < tn C119_times)%nat /\ (0 < tstep C119_times)%nat /\ tspan C119_times <> 0%R /\ exists ts, times C119_times = Some ts /\ nth 1 ts 0%R = (3 / 2)%R.
Proof.
  split; [cbn; lia|]. split; [cbn; lia|]. split; [cbn; lra|]. destruct (times_spec C119_times) as (l & E & _ & T & _); [cbn; lia..|].
  exists l. split; [exact E|]. rewrite T by (cbn; lia). cbn. field.
Qed.

(** Against time, and against the index: every value where it belongs. *)
Theorem C119_against_time : forall (b : time_basis) (ts : list R) (v : nat -> C) (m : plot_measure), times b = Some ts ->
  exists line, plot_value_list_against_time b v m = Some line /\ length line = tn b /\
    forall j, (j < tn b)%nat -> line_x line j = nth j ts 0%R /\ shows m (v j) (line_y line j).
Proof. exact time_line. Qed.
Print Assumptions C119_against_time.

Theorem C119_against_index : forall (n : nat) (v : nat -> C) (m : plot_measure),
  exists line, plot_value_list_against_nx n v m = Some line /\ length line = n /\
    forall j, (j < n)%nat -> line_x line j = INR j /\ shows m (v j) (line_y line j).
Proof. exact nx_line. Qed.
Print Assumptions C119_against_index.

Theorem C119_all_against_time : forall (nb : nat) (b : time_basis) (ts : list R) (v : nat -> C) (m : plot_measure), times b = Some ts ->
  let lines := plot_all_value_list_against_time nb b v m in
  length lines = nb /\
  forall i, (i < nb)%nat -> exists line, nth_error lines i = Some (Some line) /\ length line = tn b /\
    forall j, (j < tn b)%nat -> line_x line j = nth j ts 0%R /\ shows m (v (i * tn b + j)%nat) (line_y line j).
Proof. exact all_lines. Qed.
Print Assumptions C119_all_against_time.

(** Against frequency: the Fourier sum over the times of the values, late by
    offset * dt * (1 - 1/step). *)
Theorem C119_against_frequency : forall (b : time_basis) (ts : list R) (v : nat -> C) (m : plot_measure),
  (0 < tn b)%nat -> (0 < tstep b)%nat -> tspan b <> 0%R -> times b = Some ts ->
  let delay := (tspan b / INR (tn b) * IZR (toffset b) * (1 - / INR (tstep b)))%R in
  exists line, plot_value_list_against_frequency b v m = Some line /\ length line = tn b /\
    forall i, (i < tn b)%nat -> line_x line i = (IZR (Z.of_nat i - Z.of_nat (tn b / 2)) / tspan b)%R /\
      shows m (cis (- (2 * PI * line_x line i * delay)) * csum (fun j => v j * cis (- (2 * PI * line_x line i * nth j ts 0))) (tn b)) (line_y line i).
Proof. exact frequency_line. Qed.
Print Assumptions C119_against_frequency.

Theorem C119_against_frequency_exact : forall (b : time_basis) (ts : list R) (v : nat -> C) (m : plot_measure),
  (0 < tn b)%nat -> (0 < tstep b)%nat -> tspan b <> 0%R -> times b = Some ts ->
  m = PAbs \/ tstep b = 1%nat \/ toffset b = 0%Z ->
  exists line, plot_value_list_against_frequency b v m = Some line /\ length line = tn b /\
    forall i, (i < tn b)%nat -> line_x line i = (IZR (Z.of_nat i - Z.of_nat (tn b / 2)) / tspan b)%R /\
      shows m (csum (fun j => v j * cis (- (2 * PI * line_x line i * nth j ts 0))) (tn b)) (line_y line i).
Proof. exact frequency_exact. Qed.
Print Assumptions C119_against_frequency_exact.

(** Not so in general: a single one at time 1/4 has real part 0 at frequency -1; drawn is -1. *)
Theorem C119_frequency_phase_refuted :
  exists (b : time_basis) (v : nat -> C) (ts : list R) (line : list (R * R)),
    times b = Some ts /\ plot_value_list_against_frequency b v PReal = Some line /\
    line_x line 0 = (-1)%R /\ line_y line 0 = (-1)%R /\
    fst (csum (fun j => v j * cis (- (2 * PI * line_x line 0 * nth j ts 0))) (tn b)) = 0%R.
Proof. exact (ex_intro _ late (ex_intro _ (fun j => if (j =? 0)%nat then RtoC 1 else RtoC 0) late_refuted)). Qed.
Print Assumptions C119_frequency_phase_refuted.

Theorem C119_frequency_raises : forall (b : time_basis) (v : nat -> C) (m : plot_measure),
  (tn b = 0%nat \/ tspan b = 0%R) -> plot_value_list_against_frequency b v m = None.
Proof. exact frequency_raises. Qed.
Print Assumptions C119_frequency_raises.

(** Split lists are drawn on top of each other: line i is that of the sum of the lists up to i. *)
Theorem C119_split_against_time : forall (nb : nat) (b : time_basis) (ts : list R) (v : nat -> C) (m : plot_measure), times b = Some ts ->
  exists lines, plot_split_value_list_against_time nb b v m = Some lines /\ length lines = nb /\
    forall i, (i < nb)%nat -> exists line, nth_error lines i = Some (Some line) /\ length line = tn b /\
      forall j, (j < tn b)%nat -> line_x line j = nth j ts 0%R /\ shows m (csum (fun i' => v (i' * tn b + j)%nat) (S i)) (line_y line j).
Proof. exact split_time. Qed.
Print Assumptions C119_split_against_time.

Theorem C119_split_against_frequency : forall (nb : nat) (b : time_basis) (v : nat -> C) (m : plot_measure), (0 < tn b)%nat ->
  plot_split_value_list_against_frequency nb b v m =
  if Req_EM_T (tspan b) 0 then None
  else Some (map (fun i => plot_value_list_against_frequency b (fun j => csum (fun i' => v (i' * tn b + j)%nat) (S i)) m) (seq 0 nb)).
Proof. exact split_frequency. Qed.
Print Assumptions C119_split_against_frequency.

(** Averages of repeats: the band is the mean of the measured values and its standard error; the
    line is that mean for moduli and real parts, and zero for imaginary parts. *)
Theorem C119_average : forall (nb : nat) (b : time_basis) (ts : list R) (v : nat -> C) (m : plot_measure), (0 < nb)%nat -> times b = Some ts ->
  exists (line : list (R * R)) (lower upper : nat -> R), plot_average_value_list_against_time nb b v m = Some (line, lower, upper) /\ length line = tn b /\
    forall j, (j < tn b)%nat ->
      let y i := measured_vector m v (i * tn b + j)%nat in
      line_x line j = nth j ts 0%R /\ ((lower j + upper j) / 2 = rsum y nb / INR nb)%R /\
      (((upper j - lower j) / 2) ^ 2 = rsum (fun i => (y i - rsum y nb / INR nb) ^ 2) nb / INR nb / INR nb)%R /\
      (lower j <= upper j)%R /\
      (m = PAbs \/ m = PReal -> line_y line j = (rsum y nb / INR nb)%R) /\ (m = PImag -> line_y line j = 0%R).
Proof. exact average_line. Qed.
Print Assumptions C119_average.

Theorem C119_average_imaginary_refuted : forall (nb : nat) (b : time_basis) (ts : list R), (0 < nb)%nat -> (0 < tn b)%nat -> times b = Some ts ->
  exists (line : list (R * R)) (lower upper : nat -> R), plot_average_value_list_against_time nb b (fun _ => Ci) PImag = Some (line, lower, upper) /\
    forall j, (j < tn b)%nat -> lower j = 1%R /\ upper j = 1%R /\ line_y line j = 0%R.
Proof. exact imaginary_average. Qed.
Print Assumptions C119_average_imaginary_refuted.
