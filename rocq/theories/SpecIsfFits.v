(** Vocabulary for the statements about fits of scattering functions. *)
From Coq Require Import Reals List.
From Verif Require Import ZLib Csum DFT NumPy Dynamics IsfFits.
Import ListNotations.
Local Open Scope R_scope.

(** A number within its bounds. *)
Definition within (x : R) (b : bound) : Prop :=
  fst b <= x /\ match snd b with Some u => x <= u | None => True end.

(** Squared distance of a curve from data. *)
Definition squared_error (g : R -> R) (times data : list R) : R :=
  fold_right (fun p acc => (g (fst p) - snd p) * (g (fst p) - snd p) + acc) 0 (combine times data).

(** scipy.optimize.curve_fit with bounds raises for a start outside of them; the parameters
    it returns lie within them and fit no worse than the start. *)
Definition curve_fit_ok (curve_fit : curve_fit_fn) : Prop :=
  forall f times data p0 bounds p, curve_fit f times data p0 bounds = Some p ->
    Forall2 within p0 bounds /\ Forall2 within p bounds /\
    forall g0 g, (forall t, f t p0 = Some (g0 t)) -> (forall t, f t p = Some (g t)) ->
      squared_error g times data <= squared_error g0 times data.

(** The decay rates [r0] >= [r1] of the two-site model of SpecDynamics.v: the roots of
    x^2 - (fast + slow) x + fast slow (1 - |T|^2 / 9), the characteristic polynomial of its
    rate matrix. *)
Definition decay_rates (fast slow : R) (T : C) (r0 r1 : R) : Prop :=
  r1 <= r0 /\ forall x, (x - r0) * (x - r1) = x * x - (fast + slow) * x + fast * slow * (1 - Cnorm2 T / 9).

(** The curve with two decays and an offset. *)
Definition two_decays (a0 r0 a1 r1 offset t : R) : R := a0 * exp (- (r0 * t)) + a1 * exp (- (r1 * t)) + offset.

(** The fit with its two decays exchanged. *)
Definition exchanged (fit : fit4) : fit4 :=
  {| f4_fast_rate := f4_slow_rate fit; f4_fast_amplitude := f4_slow_amplitude fit;
     f4_slow_rate := f4_fast_rate fit; f4_slow_amplitude := f4_fast_amplitude fit; f4_baseline := f4_baseline fit |}.

(** Two scattering functions with the same times that agree wherever [lo] < t < [hi] ([None]
    is infinity). *)
Definition agree_between (lo : R) (hi : option R) (x y : isf_data) : Prop :=
  isf_times x = isf_times y /\ length (isf_values x) = length (isf_values y) /\
  forall i, (i < length (isf_times x))%nat ->
    lo < nth i (isf_times x) 0 -> match hi with Some h => nth i (isf_times x) 0 < h | None => True end ->
    nth i (isf_values x) (RtoC 0) = nth i (isf_values y) (RtoC 0).

(** Error bars, when given, come one per time. *)
Definition bars_fit (x : isf_data) : Prop :=
  match isf_deviation x with Some d => length d = length (isf_times x) | None => True end.
