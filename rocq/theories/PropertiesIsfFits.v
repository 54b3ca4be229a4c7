(** Fits of scattering functions (C107). *)
From Coq Require Import Reals Psatz List.
From Coquelicot Require Import Coquelicot.
From Verif Require Import ZLib Csum DFT NumPy Kernel Dynamics SpecDynamics IsfFits SpecIsfFits IsfFitsProofs IsfFitsFacts.
Import ListNotations.
Local Open Scope R_scope.

(** A fit within its bounds exists for every data: for four points, the fits of every kind. *)
Example ex_fits :
  curve_fit_ok exchanging_fit /\
  (exists fit, fit_isf_to_double_exponential exchanging_fit (sample_isf None) MAbs = Some fit) /\
  (exists fit, fit_isf_to_fey_4_variable_model_110_fixed_ratio exchanging_fit (sample_isf (Some [1; 1; 1; 1])) (/ 3) MReal 2 (/ 2) None = Some fit) /\
  (exists fit, fit_isf_to_fey_4_variable_model_110 exchanging_fit (sample_isf None) MImag 2 (/ 2) = Some fit) /\
  (exists fit, fit_isf_to_fey_model_110 exchanging_fit (sample_isf None) MReal 2 = Some fit) /\
  (exists fit, fit_isf_to_fey_model_112bar exchanging_fit (sample_isf None) MReal 2 = Some fit).
Proof.
  split; [exact exchanging_fit_ok|]. split; [destruct (labels_exchanged (sample_isf None) MAbs) as [fit [E _]]; exists fit; exact E|].
  split; [apply sample_fixed; lra|]. split; [apply sample_free|]. apply sample_fey.
Qed.

(** The double exponential: the curve of the fit has non-negative rates and weights of at most
    one, is one at time zero, decreases, stays between the baseline and one, and is no further
    from the data than the start of the fit. *)
Theorem C107_double_exponential :
  forall cf isf m fit, curve_fit_ok cf -> fit_isf_to_double_exponential cf isf m = Some fit ->
  let g := two_decays (f4_fast_amplitude fit) (f4_fast_rate fit) (f4_slow_amplitude fit) (f4_slow_rate fit) (f4_baseline fit) in
  (forall times, get_isf_from_4_variable_fit fit times = map (fun t => RtoC (g t)) times) /\
  0 <= f4_fast_rate fit /\ 0 <= f4_slow_rate fit /\ 0 <= f4_fast_amplitude fit <= 1 /\ 0 <= f4_slow_amplitude fit <= 1 /\
  g 0 = 1 /\ (forall s t, s <= t -> g t <= g s) /\ (forall t, 0 <= t -> f4_baseline fit <= g t <= 1) /\
  squared_error g (isf_times isf) (map (measured m) (isf_values isf)) <=
  squared_error (two_decays (/ 2) 20000000000 (/ 2) 10000000000 0) (isf_times isf) (map (measured m) (isf_values isf)).
Proof. exact double_fit. Qed.
Print Assumptions C107_double_exponential.

(** The names fast and slow say nothing about the rates: exchanging the decays gives the same
    curve, and for every data some fit within the bounds, no worse than the start, has the
    slow rate above the fast one. *)
Theorem C107_fast_and_slow_refuted :
  (forall fit times, get_isf_from_4_variable_fit (exchanged fit) times = get_isf_from_4_variable_fit fit times) /\
  exists cf, curve_fit_ok cf /\ forall isf m, exists fit,
    fit_isf_to_double_exponential cf isf m = Some fit /\ f4_fast_rate fit < f4_slow_rate fit.
Proof. split; [exact exchanged_isf|]. exists exchanging_fit. split; [exact exchanging_fit_ok|exact labels_exchanged]. Qed.
Print Assumptions C107_fast_and_slow_refuted.

Example ex_root : exists fsolve fit, fey_root fsolve fit = Some (1, 1) /\ fey_equations fit (1, 1) = Some (0, 0).
Proof. exact sample_root. Qed.

(** The rates extracted from a fit at a positive root: the decays of the Fey model with these
    rates are those of the fit, and the scattering function of the extracted rates has the
    fitted decays (with weights of its own and no baseline). *)
Theorem C107_extracted_rates :
  forall fsolve fit nu lam, fey_root fsolve fit = Some (nu, lam) -> 0 < nu -> 0 < lam ->
  fey_equations fit (nu, lam) = Some (0, 0) ->
  exists r, extract_fey_rate_from_4_variables_fit_112bar fsolve fit = Some r /\ 0 < ff_fast_rate r /\ 0 < ff_slow_rate r /\
    decay_rates (ff_fast_rate r) (ff_slow_rate r) (phases_112bar (ff_a_dk r)) (f4_fast_rate fit) (f4_slow_rate fit) /\
    exists a0 a1, 0 <= a0 /\ 0 <= a1 /\ a0 + a1 = 1 /\ forall times,
      get_isf_from_fey_model_fit_112bar r times =
      Some (get_isf_from_4_variable_fit {| f4_fast_rate := f4_fast_rate fit; f4_fast_amplitude := a0; f4_slow_rate := f4_slow_rate fit; f4_slow_amplitude := a1; f4_baseline := 0 |} times).
Proof. exact fey_extracted. Qed.
Print Assumptions C107_extracted_rates.

(** Positive roots exist exactly for fits whose rates are far enough apart; then they come in
    pairs that exchange the two extracted rates.  So not every fit has extracted rates (none
    with equal rates has), and which of them is called fast depends on the root found. *)
Theorem C107_extraction_exists :
  (forall fit, 0 < f4_slow_rate fit -> f4_slow_rate fit <= f4_fast_rate fit ->
    ((exists nu lam, 0 < nu /\ 0 < lam /\ fey_equations fit (nu, lam) = Some (0, 0)) <->
     4 * f4_fast_rate fit * f4_slow_rate fit <=
       (1 - Cnorm2 (phases_112bar 2) / 9) * ((f4_fast_rate fit + f4_slow_rate fit) * (f4_fast_rate fit + f4_slow_rate fit)))) /\
  (forall fit, 0 < f4_slow_rate fit -> f4_fast_rate fit = f4_slow_rate fit ->
    ~ exists nu lam, 0 < nu /\ 0 < lam /\ fey_equations fit (nu, lam) = Some (0, 0)) /\
  (forall fit nu lam, 0 < nu -> 0 < lam -> fey_equations fit (nu, lam) = Some (0, 0) ->
     fey_equations fit (nu / lam, / lam) = Some (0, 0)) /\
  (forall fsolve fsolve' fit nu lam r r', fey_root fsolve fit = Some (nu, lam) -> 0 < nu -> 0 < lam ->
     fey_root fsolve' fit = Some (nu / lam, / lam) ->
     extract_fey_rate_from_4_variables_fit_112bar fsolve fit = Some r -> extract_fey_rate_from_4_variables_fit_112bar fsolve' fit = Some r' ->
     ff_fast_rate r' = ff_slow_rate r /\ ff_slow_rate r' = ff_fast_rate r).
Proof.
  split; [intros fit H1 H2; rewrite fey_roots_rates; exact (fey_rates_exist _ _ H1 H2)|]. split; [|split; [exact fey_root_exchange|exact fey_exchanged]].
  intros fit H E H'. apply fey_roots_rates in H'. rewrite E in H'. exact (no_rates _ H H').
Qed.
Print Assumptions C107_extraction_exists.

(** The four variable model with positive rates: two decays at the non-negative rates of the
    Fey model plus the offset. *)
Theorem C107_four_variable_model :
  forall fit, 0 < y4_fast_rate fit -> 0 < y4_slow_rate fit ->
  exists r0 r1, decay_rates (y4_fast_rate fit) (y4_slow_rate fit) (phases_110 (y4_a_dk fit)) r0 r1 /\ 0 < r0 /\ 0 <= r1 /\
    forall times, get_isf_from_fey_4_variable_model_110 fit times =
      Some (get_isf_from_4_variable_fit {| f4_fast_rate := r0; f4_fast_amplitude := y4_fast_amplitude fit; f4_slow_rate := r1; f4_slow_amplitude := y4_slow_amplitude fit; f4_baseline := y4_offset fit |} times).
Proof. exact four_variable_isf. Qed.
Print Assumptions C107_four_variable_model.

(** Non-negative weights adding up to one make it the Fey model itself. *)
Theorem C107_four_variable_contains_fey :
  forall fast slow a, 0 < fast -> 0 < slow -> cos (a / 2) <> - / 2 ->
  exists a0 a1, 0 <= a0 /\ 0 <= a1 /\ a0 + a1 = 1 /\ forall times,
    get_isf_from_fey_model_fit_110 {| ff_fast_rate := fast; ff_slow_rate := slow; ff_a_dk := a |} times =
    get_isf_from_fey_4_variable_model_110 {| y4_a_dk := a; y4_fast_rate := fast; y4_fast_amplitude := a0; y4_slow_rate := slow; y4_slow_amplitude := a1; y4_offset := 0 |} times.
Proof. exact four_variable_fey. Qed.
Print Assumptions C107_four_variable_contains_fey.

(** The parameters of the fits stay in their ranges and keep the given spacing and ratio; a
    negative ratio raises, since the start is outside of the bounds. *)
Theorem C107_fitted_parameters :
  forall cf, curve_fit_ok cf ->
  (forall x lam m a start e fit, fit_isf_to_fey_4_variable_model_110_fixed_ratio cf x lam m a start e = Some fit ->
    0 <= lam /\ y4_a_dk fit = a /\ y4_slow_rate fit = lam * y4_fast_rate fit /\ 0 <= y4_fast_rate fit /\ 0 <= y4_slow_rate fit /\
    0 <= y4_fast_amplitude fit /\ 0 <= y4_slow_amplitude fit /\ 0 <= y4_offset fit <= / 5) /\
  (forall x m a start fit, fit_isf_to_fey_4_variable_model_110 cf x m a start = Some fit ->
    y4_a_dk fit = a /\ 0 <= y4_fast_rate fit /\ 0 <= y4_slow_rate fit /\ 0 <= y4_fast_amplitude fit /\ 0 <= y4_slow_amplitude fit /\ 0 <= y4_offset fit <= / 5) /\
  (forall x m a fit, fit_isf_to_fey_model_110 cf x m a = Some fit \/ fit_isf_to_fey_model_112bar cf x m a = Some fit ->
    ff_a_dk fit = a /\ 0 <= ff_fast_rate fit /\ 0 <= ff_slow_rate fit).
Proof.
  intros cf H. split; [intros; eapply fixed_bounds; eassumption|]. split; [intros; eapply free_bounds; eassumption|].
  intros x m a fit [E|E]; exact (fey_bounds _ _ cf x m a fit H E).
Qed.
Print Assumptions C107_fitted_parameters.

(** The start of every fit lies within its bounds, with a fixed ratio exactly when it is not
    negative. *)
Theorem C107_starts :
  Forall2 within double_exponential_start double_exponential_bounds /\
  Forall2 within free_ratio_start free_ratio_bounds /\
  forall lam, (exists p0, fixed_ratio_start lam = Some p0 /\ Forall2 within p0 fixed_ratio_bounds) <-> 0 <= lam.
Proof.
  split; [repeat (apply Forall2_cons; [split; cbn [fst snd]; [lra|exact I || lra]|]); apply Forall2_nil|].
  split; [repeat (apply Forall2_cons; [split; cbn [fst snd]; [lra|exact I || lra]|]); apply Forall2_nil|].
  intros lam. split; [intros [p0 [E B]]; exact (fixed_start lam p0 E B)|apply fixed_start_inside].
Qed.
Print Assumptions C107_starts.

(** The fits depend only on the values strictly inside the window of times, so the last time
    is never used when no end is given.  Error bars do not change the fit: data that agree but
    carry different bars, or none, have the same fit. *)
Theorem C107_window_and_error_bars :
  forall cf x y m a start, bars_fit x -> bars_fit y ->
  (agree_between start None x y ->
    fit_isf_to_fey_4_variable_model_110 cf x m a start = fit_isf_to_fey_4_variable_model_110 cf y m a start) /\
  (forall lam e, agree_between start (Some e) x y ->
    fit_isf_to_fey_4_variable_model_110_fixed_ratio cf x lam m a start (Some e) = fit_isf_to_fey_4_variable_model_110_fixed_ratio cf y lam m a start (Some e)) /\
  (forall lam, isf_times x <> [] -> agree_between start (Some (last (isf_times x) 0)) x y ->
    fit_isf_to_fey_4_variable_model_110_fixed_ratio cf x lam m a start None = fit_isf_to_fey_4_variable_model_110_fixed_ratio cf y lam m a start None).
Proof.
  intros cf x y m a start Bx By. split; [intros; apply free_window; assumption|]. split; [intros; apply fixed_window; assumption|].
  intros lam H A. rewrite (fixed_end cf x) by exact H. rewrite (fixed_end cf y) by (rewrite <- (proj1 A); exact H). rewrite <- (proj1 A). apply fixed_window; assumption.
Qed.
Print Assumptions C107_window_and_error_bars.

Example ex_window : exists x y, bars_fit x /\ bars_fit y /\ agree_between (/ 2) (Some 3) x y /\ isf_deviation x <> isf_deviation y /\
  isf_values x <> isf_values y.
Proof.
  exists (sample_isf None), {| isf_times := [0; 1; 2; 3]; isf_values := [RtoC 7; (/ 2, / 3); (/ 4, 0); RtoC 6]; isf_deviation := Some [1; 2; 3; 4] |}.
  split; [exact I|]. split; [reflexivity|]. split; [|split; [discriminate|intros E; cbn in E; injection E; intros; lra]].
  split; [reflexivity|]. split; [reflexivity|]. intros i Hi H1 H2. cbn in Hi. destruct i as [|[|[|[|]]]]; cbn in *; [lra|reflexivity|reflexivity|lra|lia].
Qed.
