(** Quality of the fits of scattering functions (more of C107). *)
From Coq Require Import Reals List.
From Verif Require Import ZLib Csum DFT NumPy Kernel Dynamics IsfFits SpecIsfFits SpecIsfFits2 IsfFitsProofs IsfFitsFacts IsfFitsFacts2.
Import ListNotations.
Local Open Scope R_scope.

Example C107_curve_case : curve_fit_ok exchanging_fit /\
  exists fit g, fit_isf_to_fey_4_variable_model_110 exchanging_fit (sample_isf None) MReal 2 (/ 2) = Some fit /\
  (forall t, get_isf_from_fey_4_variable_model_110 fit [t] = Some [RtoC (g t)]) /\ 0 < window_error (Some (/ 2)) None MReal (sample_isf None) (fun _ => 0).
Proof. exact (conj exchanging_fit_ok sample_curves). Qed.

(** The curves drawn from a fit are no further from the data in the window of the fit than the
    curves of its start: for the four variable model with free and with fixed ratio and for the
    Fey models along both directions.  Positive rates have a curve. *)
Theorem C107_no_worse_than_start :
  (forall fit, 0 < y4_fast_rate fit -> 0 < y4_slow_rate fit -> exists g, forall t, get_isf_from_fey_4_variable_model_110 fit [t] = Some [RtoC (g t)]) /\
  forall cf x m a (g g0 : R -> R), curve_fit_ok cf ->
  (forall start fit, fit_isf_to_fey_4_variable_model_110 cf x m a start = Some fit ->
    (forall t, get_isf_from_fey_4_variable_model_110 fit [t] = Some [RtoC (g t)]) ->
    (forall t, get_isf_from_fey_4_variable_model_110
       {| y4_a_dk := a; y4_fast_rate := 1400000000; y4_fast_amplitude := / 5; y4_slow_rate := 700000000; y4_slow_amplitude := 4 / 5; y4_offset := / 20 |} [t] = Some [RtoC (g0 t)]) ->
    window_error (Some start) None m x g <= window_error (Some start) None m x g0) /\
  (forall lam start e fit, fit_isf_to_fey_4_variable_model_110_fixed_ratio cf x lam m a start e = Some fit ->
    (forall t, get_isf_from_fey_4_variable_model_110 fit [t] = Some [RtoC (g t)]) ->
    (forall t, get_isf_from_fey_4_variable_model_110
       {| y4_a_dk := a; y4_fast_rate := 1400000000; y4_fast_amplitude := lam / (1 + lam); y4_slow_rate := lam * 1400000000; y4_slow_amplitude := 1 / (1 + lam);
          y4_offset := / 20 |} [t] = Some [RtoC (g0 t)]) ->
    let e' := match e with Some e => e | None => last (isf_times x) 0 end in
    window_error (Some start) (Some e') m x g <= window_error (Some start) (Some e') m x g0) /\
  (forall fit, fit_isf_to_fey_model_110 cf x m a = Some fit ->
    (forall t, get_isf_from_fey_model_fit_110 fit [t] = Some [RtoC (g t)]) ->
    (forall t, get_isf_from_fey_model_fit_110 {| ff_fast_rate := 1400000000; ff_slow_rate := 300000000; ff_a_dk := a |} [t] = Some [RtoC (g0 t)]) ->
    window_error None None m x g <= window_error None None m x g0) /\
  (forall fit, fit_isf_to_fey_model_112bar cf x m a = Some fit ->
    (forall t, get_isf_from_fey_model_fit_112bar fit [t] = Some [RtoC (g t)]) ->
    (forall t, get_isf_from_fey_model_fit_112bar {| ff_fast_rate := 20000000000; ff_slow_rate := 10000000000; ff_a_dk := a |} [t] = Some [RtoC (g0 t)]) ->
    window_error None None m x g <= window_error None None m x g0).
Proof.
  split; [exact curves_exist|]. intros cf x m a g g0 Hok. split; [intros; eapply free_no_worse; eassumption|]. split; [intros; eapply fixed_no_worse; eassumption|].
  split; intros fit H Hg Hg0; eapply fey_no_worse; [reflexivity|exact Hok|exact H|exact Hg|exact Hg0|reflexivity|exact Hok|exact H|exact Hg|exact Hg0].
Qed.
Print Assumptions C107_no_worse_than_start.
