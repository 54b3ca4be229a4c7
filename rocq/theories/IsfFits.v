(** Model of the fits of dynamics/isf.py: double exponentials, the four variable Fey model and
    the rates of the Fey model extracted from a fit.  No proofs here. *)
From Coq Require Import Reals.
From Verif Require Import ZLib Csum DFT NumPy Kernel Dynamics.
Local Open Scope R_scope.

(** util/util.py:170-195 [get_measured_data] of one number ("angle", which unwraps, is not
    modelled). *)
Inductive measure := MReal | MImag | MAbs.
Definition measured (m : measure) (z : C) : R := match m with MReal => fst z | MImag => snd z | MAbs => Cmod z end.

(** A scattering function with its times and, for some, the field "standard_deviation". *)
Record isf_data := { isf_times : list R; isf_values : list C; isf_deviation : option (list R) }.

(** What scipy.optimize.curve_fit returned for a model (a function of time and parameters),
    times, data, a start and bounds ([None] is infinity), or that it raised. *)
Definition bound := (R * option R)%type.
Definition curve_fit_fn :=
  (R -> list R -> option R) -> list R -> list R -> list R -> list bound -> option (list R).

(** ** The double exponential *)

(** 116-124 [ISF4VariableFit]. *)
Record fit4 := { f4_fast_rate : R; f4_fast_amplitude : R; f4_slow_rate : R; f4_slow_amplitude : R; f4_baseline : R }.

(** 127-150 [get_isf_from_4_variable_fit]: the data. *)
Definition get_isf_from_4_variable_fit (fit : fit4) (times : list R) : list C :=
  map (fun t => RtoC (f4_fast_amplitude fit * exp (- f4_fast_rate fit * t)
                      + f4_slow_amplitude fit * exp (- f4_slow_rate fit * t) + f4_baseline fit)) times.

(** 153-194 [fit_isf_to_double_exponential]: the inner function [f] and the fit. *)
Definition double_exponential (t : R) (p : list R) : option R :=
  match p with
  | [a; b; c; d] => Some (a * exp (- b * t) + c * exp (- d * t) + (1 - a - c))
  | _ => None
  end.
Definition double_exponential_start : list R := [/ 2; 20000000000; / 2; 10000000000].
Definition double_exponential_bounds : list bound := [(0, Some 1); (0, None); (0, Some 1); (0, None)].
Definition fit_isf_to_double_exponential (curve_fit : curve_fit_fn) (isf : isf_data) (m : measure) : option fit4 :=
  match curve_fit double_exponential (isf_times isf) (map (measured m) (isf_values isf))
          double_exponential_start double_exponential_bounds with
  | Some [p0; p1; p2; p3] =>
      Some {| f4_fast_rate := p1; f4_fast_amplitude := p0; f4_slow_rate := p3; f4_slow_amplitude := p2;
              f4_baseline := 1 - p0 - p2 |}
  | _ => None
  end.

(** ** Rates of the Fey model *)

(** 197-203 [ISFFeyModelFit]. *)
Record fey_fit := { ff_fast_rate : R; ff_slow_rate : R; ff_a_dk : R }.

(** 527-547 [get_isf_from_fey_model_fit_110] and 550-570 [get_isf_from_fey_model_fit_112bar]:
    the data; [None] when a value is not a number (see Dynamics.v). *)
Definition as_complex (l : list (option R)) : option (list C) :=
  match all_some l with Some v => Some (map RtoC v) | None => None end.
Definition get_isf_from_fey_model_fit_110 (fit : fey_fit) (times : list R) : option (list C) :=
  as_complex (map (fun t => calculate_isf_fey_model_110 t (ff_fast_rate fit) (ff_slow_rate fit) (ff_a_dk fit)) times).
Definition get_isf_from_fey_model_fit_112bar (fit : fey_fit) (times : list R) : option (list C) :=
  as_complex (map (fun t => calculate_isf_fey_model_112bar t (ff_fast_rate fit) (ff_slow_rate fit) (ff_a_dk fit)) times).

(** 206-243 [extract_fey_rate_from_4_variables_fit_112bar]: the equations [_func], whose root
    scipy.optimize.fsolve looks for from the given start; the warning is not modelled. *)
Definition fey_equations (fit : fit4) (x : R * R) : option (R * R) :=
  let (nu, lam) := x in
  obind (rsqrt (lam ^ 2 + 2 * lam * (8 * cos (2 * sqrt 3 / 2) + 1) / 9 + 1)) (fun y =>
  obind (rdiv (nu * (lam + 1 + y)) (2 * lam)) (fun fast =>
  obind (rdiv (nu * (lam + 1 - y)) (2 * lam)) (fun slow =>
  Some (fast - f4_fast_rate fit, slow - f4_slow_rate fit)))).
Definition fsolve_fn := (R * R -> option (R * R)) -> R * R -> R * R.
Definition fey_root (fsolve : fsolve_fn) (fit : fit4) : option (R * R) :=
  obind (rdiv (f4_slow_rate fit) (f4_fast_rate fit)) (fun ratio =>
  Some (fsolve (fey_equations fit) (f4_slow_rate fit, ratio))).
Definition extract_fey_rate_from_4_variables_fit_112bar (fsolve : fsolve_fn) (fit : fit4) : option fey_fit :=
  obind (fey_root fsolve fit) (fun result =>
  obind (rdiv (fst result) (snd result)) (fun fey_fast =>
  Some {| ff_fast_rate := fey_fast; ff_slow_rate := fst result; ff_a_dk := 2 |})).

(** 573-607 [fit_isf_to_fey_model_110] and 610-644 [fit_isf_to_fey_model_112bar]. *)
Definition fey_model (calculate : R -> R -> R -> R -> option R) (a_dk t : R) (p : list R) : option R :=
  match p with [fast; slow] => calculate t fast slow a_dk | _ => None end.
Definition fit_isf_to_fey_model (calculate : R -> R -> R -> R -> option R) (start : list R)
    (curve_fit : curve_fit_fn) (isf : isf_data) (m : measure) (a_dk : R) : option fey_fit :=
  match curve_fit (fey_model calculate a_dk) (isf_times isf) (map (measured m) (isf_values isf)) start [(0, None); (0, None)] with
  | Some [p0; p1] => Some {| ff_fast_rate := p0; ff_slow_rate := p1; ff_a_dk := a_dk |}
  | _ => None
  end.
Definition fit_isf_to_fey_model_110 := fit_isf_to_fey_model calculate_isf_fey_model_110 [1400000000; 300000000].
Definition fit_isf_to_fey_model_112bar := fit_isf_to_fey_model calculate_isf_fey_model_112bar [20000000000; 10000000000].

(** ** The four variable Fey model *)

(** 246-255 [ISFFey4VariableFit]. *)
Record fey4_fit := { y4_a_dk : R; y4_fast_rate : R; y4_fast_amplitude : R; y4_slow_rate : R; y4_slow_amplitude : R; y4_offset : R }.

(** 258-294 [calculate_isf_fey_4_variable_model_110] at one time. *)
Definition calculate_isf_fey_4_variable_model_110 (t fast_rate fast_amplitude slow_rate slow_amplitude offset a_dk : R) : option R :=
  obind (rdiv slow_rate fast_rate) (fun lam =>
  obind (rsqrt (9 * lam ^ 2 + 16 * lam * cos (a_dk / 2) ^ 2 + 16 * lam * cos (a_dk / 2) - 14 * lam + 9)) (fun z =>
  obind (rdiv (- slow_rate * (3 * lam + 3 + z) * t) (6 * lam)) (fun e0 =>
  obind (rdiv (- slow_rate * (3 * lam + 3 - z) * t) (6 * lam)) (fun e1 =>
  Some (fast_amplitude * exp e0 + slow_amplitude * exp e1 + offset))))).

(** 297-323 [get_isf_from_fey_4_variable_model_110]: the data. *)
Definition get_isf_from_fey_4_variable_model_110 (fit : fey4_fit) (times : list R) : option (list C) :=
  as_complex (map (fun t => calculate_isf_fey_4_variable_model_110 t (y4_fast_rate fit) (y4_fast_amplitude fit)
    (y4_slow_rate fit) (y4_slow_amplitude fit) (y4_offset fit) (y4_a_dk fit)) times).

(** Boolean masks: [times[valid]] and [data[valid]]; a mask of another length raises. *)
Definition masked (keep : R -> bool) (times data : list R) : option (list R * list R) :=
  if Nat.eqb (length times) (length data)
  then let l := filter (fun p => keep (fst p)) (combine times data) in Some (map fst l, map snd l)
  else None.
Definition above (x t : R) : bool := if Rlt_dec x t then true else false.

(** 326-383 [fit_isf_to_fey_4_variable_model_110_fixed_ratio]: [sigma] is computed but not
    handed to curve_fit (its mask must fit, or indexing raises). *)
Definition fixed_ratio_model (lam a_dk t : R) (p : list R) : option R :=
  match p with
  | [fr; fa; sa; offset] => calculate_isf_fey_4_variable_model_110 t fr fa (lam * fr) sa offset a_dk
  | _ => None
  end.
Definition fixed_ratio_start (lam : R) : option (list R) :=
  obind (rdiv lam (1 + lam)) (fun a => obind (rdiv 1 (1 + lam)) (fun b => Some [1400000000; a; b; / 20])).
Definition fixed_ratio_bounds : list bound := [(0, None); (0, None); (0, None); (0, Some (/ 5))].
Definition deviation_fits (isf : isf_data) : bool :=
  match isf_deviation isf with Some d => Nat.eqb (length d) (length (isf_times isf)) | None => true end.
Definition fit_isf_to_fey_4_variable_model_110_fixed_ratio (curve_fit : curve_fit_fn) (isf : isf_data) (lam : R)
    (m : measure) (a_dk start_t : R) (end_t : option R) : option fey4_fit :=
  let times := isf_times isf in
  obind (match end_t with Some e => Some e | None => match rev times with e :: _ => Some e | [] => None end end) (fun e =>
  if deviation_fits isf then
    obind (masked (fun t => andb (above start_t t) (above t e)) times (map (measured m) (isf_values isf))) (fun kept =>
    obind (fixed_ratio_start lam) (fun p0 =>
    match curve_fit (fixed_ratio_model lam a_dk) (fst kept) (snd kept) p0 fixed_ratio_bounds with
    | Some [p0; p1; p2; p3] =>
        Some {| y4_a_dk := a_dk; y4_fast_rate := p0; y4_fast_amplitude := p1; y4_slow_rate := lam * p0;
                y4_slow_amplitude := p2; y4_offset := p3 |}
    | _ => None
    end))
  else None).

(** 386-450 [fit_isf_to_fey_4_variable_model_110]. *)
Definition free_ratio_model (a_dk t : R) (p : list R) : option R :=
  match p with
  | [fr; fa; sr; sa; offset] => calculate_isf_fey_4_variable_model_110 t fr fa sr sa offset a_dk
  | _ => None
  end.
Definition free_ratio_start : list R := [1400000000; / 5; 700000000; 4 / 5; / 20].
Definition free_ratio_bounds : list bound := [(0, None); (0, None); (0, None); (0, None); (0, Some (/ 5))].
Definition fit_isf_to_fey_4_variable_model_110 (curve_fit : curve_fit_fn) (isf : isf_data)
    (m : measure) (a_dk start_t : R) : option fey4_fit :=
  if deviation_fits isf then
    obind (masked (above start_t) (isf_times isf) (map (measured m) (isf_values isf))) (fun kept =>
    match curve_fit (free_ratio_model a_dk) (fst kept) (snd kept) free_ratio_start free_ratio_bounds with
    | Some [p0; p1; p2; p3; p4] =>
        Some {| y4_a_dk := a_dk; y4_fast_rate := p0; y4_fast_amplitude := p1; y4_slow_rate := p2;
                y4_slow_amplitude := p3; y4_offset := p4 |}
    | _ => None
    end)
  else None.
