(** Properties of the bases of times and of Bloch fractions (C90). *)
From Coq Require Import Reals ZArith.
From Verif Require Import ZLib Csum DFT NumPy Index Spec TimeBasis TimeProofs LocalizedFacts.
Local Open Scope R_scope.

(** ** C90 *)
Example ex_C90_times : (1 < tn ex_times)%nat /\ (0 < tstep ex_times)%nat /\ (1 < tfund ex_times)%nat /\ (0 < tspan ex_times)%R /\
  times ex_times <> None.
Proof. exact ex_times_ok. Qed.

(** One time per basis vector, a spacing [dt] apart; the spacing is the span divided by the
    number of times and a multiple of the fundamental spacing. *)
Theorem C90_times :
  forall b, (0 < tn b)%nat -> (0 < tstep b)%nat ->
  exists l, times b = Some l /\ length l = tn b /\
    (forall i d, (i < tn b)%nat -> nth i l d = tspan b * (IZR (toffset b) + INR i * INR (tstep b)) / (INR (tn b) * INR (tstep b))) /\
    (exists h small, dt b = Some h /\ fundamental_dt b = Some small /\ h = INR (tstep b) * small /\ tspan b = INR (tn b) * h /\
       forall i d, (S i < tn b)%nat -> nth (S i) l d - nth i l d = h).
Proof. exact times_spec. Qed.
Print Assumptions C90_times.

Theorem C90_empty_raises : forall b, times b = None <-> (tn b * tstep b = 0)%nat.
Proof. exact times_raise. Qed.
Print Assumptions C90_empty_raises.

(** All the times lie in the span, which does not contain its end, exactly when the offset is
    less than a step; they start at zero exactly when it is zero. *)
Theorem C90_span :
  forall b l, (0 < tn b)%nat -> (0 < tstep b)%nat -> 0 < tspan b -> times b = Some l ->
  ((forall i, (i < tn b)%nat -> 0 <= nth i l 0 < tspan b) <-> (0 <= toffset b < Z.of_nat (tstep b))%Z) /\
  (nth 0 l 0 = 0 <-> toffset b = 0%Z) /\
  (forall i, (i < tn b)%nat -> nth i l 0 = tspan b -> exists j, (Z.of_nat (tn b * tstep b) = toffset b + Z.of_nat j * Z.of_nat (tstep b))%Z /\ j = i).
Proof. exact times_span. Qed.
Print Assumptions C90_span.

(** Up to whole spans the times are those of the fundamental states the basis vectors are. *)
Theorem C90_samples :
  forall b l, (0 < tn b)%nat -> (0 < tstep b)%nat -> times b = Some l -> forall i, (i < tn b)%nat ->
  exists c small, fundamental_dt b = Some small /\ nth i l 0 = small * INR (sample_pos (tn b) (tstep b) (toffset b) i) + IZR c * tspan b.
Proof. exact times_samples. Qed.
Print Assumptions C90_samples.

Example ex_C90_fundamental : exists l, times ex_times = Some l /\ nth 3 l 0%R = (5 / 3)%R /\ nth 10 (fundamental_times ex_times) 0%R = (20 / 11)%R.
Proof. exact ex_times_differ. Qed.

(** The fundamental times end at the end of the span, so that they are spaced more widely, and
    the times are not among them: they are smaller by one part in the number of them. *)
Theorem C90_fundamental_times :
  forall b l, (0 < tn b)%nat -> (0 < tstep b)%nat -> (1 < tfund b)%nat -> times b = Some l ->
  length (fundamental_times b) = tfund b /\ nth (tfund b - 1) (fundamental_times b) 0 = tspan b /\
  (forall j, (S j < tfund b)%nat -> nth (S j) (fundamental_times b) 0 - nth j (fundamental_times b) 0 = tspan b / INR (tfund b - 1)) /\
  forall i j, (i < tn b)%nat -> (j < tfund b)%nat -> Z.of_nat j = (toffset b + Z.of_nat i * Z.of_nat (tstep b))%Z ->
    nth i l 0 = nth j (fundamental_times b) 0 * (1 - / INR (tfund b)).
Proof. exact fundamental_times_spec. Qed.
Print Assumptions C90_fundamental_times.

(** The span of an explicit basis with the times of an evenly spaced one is the spacing. *)
Theorem C90_explicit_span :
  (forall b l, (1 < tn b)%nat -> (0 < tstep b)%nat -> times b = Some l ->
     exists h, explicit_delta_t l = Some h /\ tspan b = INR (tn b) * h /\ (h = tspan b <-> tspan b = 0)) /\
  (forall l, explicit_delta_t l = None <-> (length l < 2)%nat).
Proof. exact (conj explicit_span explicit_raises). Qed.
Print Assumptions C90_explicit_span.

Example ex_C90_fractions : (0 < 4)%nat /\ (0 < 3)%nat /\ (2 < 4)%nat.
Proof. repeat constructor. Qed.

(** The Bloch fractions are real numbers from minus one half to below one half, evenly spaced
    up to whole numbers and all different. *)
Theorem C90_bloch_fractions :
  (forall n step offset, (0 < n)%nat -> (0 < step)%nat -> forall i, (i < n)%nat ->
     exists q c, bloch_fractions n step offset i = RtoC q /\ - (1 / 2) <= q < 1 / 2 /\
       q + IZR c = INR i / INR n + IZR offset / (INR n * INR step) - 1 / 2) /\
  (forall n step offset i j, (0 < n)%nat -> (0 < step)%nat -> (i < n)%nat -> (j < n)%nat ->
     bloch_fractions n step offset i = bloch_fractions n step offset j -> i = j) /\
  (forall n i, (i < n)%nat -> bloch_fractions n 1 0 i = RtoC (INR i / INR n - 1 / 2)).
Proof. exact (conj fractions_spec (conj fractions_distinct fractions_fundamental)). Qed.
Print Assumptions C90_bloch_fractions.
