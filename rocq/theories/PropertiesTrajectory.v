(** Properties of the averages over pairs of times (C92). *)
From Coq Require Import Reals.
From Verif Require Import ZLib Csum DFT NumPy TimeBasis Trajectory SpecTrajectory TrajectoryProofs TrajectoryProofs2 TrajectoryFacts.
Local Open Scope R_scope.

(** ** C92 *)
(** The sums over pairs of entries a given number of places apart, the later of the first array
    and the earlier of the second. *)
Theorem C92_offset_products :
  forall n x y d,
  (d < n)%nat -> offset_products_real n x y d = rsum (fun i => x (i + d)%nat * y i) (n - d).
Proof. exact offset_real_spec. Qed.
Print Assumptions C92_offset_products.

(** The same for complex entries; nothing is conjugated. *)
Theorem C92_offset_products_complex :
  forall n x y d,
  (d < n)%nat ->
  offset_products_complex n x y d = csum (fun i => Cmult (x (i + d)%nat) (y i)) (n - d).
Proof. exact offset_complex_spec. Qed.
Print Assumptions C92_offset_products_complex.

(** The documented sum has the arrays the other way round. *)
Theorem C92_documented_offsets_refuted :
  ~ (forall n x y d, (d < n)%nat ->
  offset_products_real n x y d = rsum (fun i => x i * y (i + d)%nat) (n - d)).
Proof. exact documented_offsets_refuted. Qed.
Print Assumptions C92_documented_offsets_refuted.

Example ex_C92_displacements : exists out y, get_average_displacements ex_lags ex_path = Some (out, y) /\
  y 0%nat = 0 /\ y 1%nat = 5 / 2 /\ y 2%nat = 9 /\ y 4%nat = 1 / 2.
Proof. exact ex_displacements. Qed.

(** For each trajectory and lag, the mean square (not root mean square) displacement over all
    pairs of times with that lag. *)
Theorem C92_displacements :
  forall b x out y,
  get_average_displacements b x = Some (out, y) -> forall r d, (d < tn b)%nat ->
  y (r * tn b + d)%nat = pair_mean (tn b) (fun i j => (x (r * tn b + j)%nat - x (r * tn b + i)%nat) ^ 2) d.
Proof. exact displacements_spec. Qed.
Print Assumptions C92_displacements.

(** Zero at lag zero, never negative, the same for a shifted trajectory, and quadratic in the lag
    for uniform motion. *)
Theorem C92_displacement_facts :
  forall b x out y,
  get_average_displacements b x = Some (out, y) -> forall r,
  ((0 < tn b)%nat -> y (r * tn b)%nat = 0) /\
  (forall d, (d < tn b)%nat -> 0 <= y (r * tn b + d)%nat) /\
  (forall x' out' y' c, get_average_displacements b x' = Some (out', y') ->
     (forall i, (i < tn b)%nat -> x' (r * tn b + i)%nat = x (r * tn b + i)%nat + c) ->
     forall d, (d < tn b)%nat -> y' (r * tn b + d)%nat = y (r * tn b + d)%nat) /\
  (forall x0 v, (forall i, (i < tn b)%nat -> x (r * tn b + i)%nat = x0 + v * INR i) ->
     forall d, (d < tn b)%nat -> y (r * tn b + d)%nat = (v * INR d) ^ 2).
Proof. exact displacement_facts. Qed.
Print Assumptions C92_displacement_facts.

Example ex_C92_isf : exists out y, get_average_isf ex_lags ex_path 1 = Some (out, y) /\
  y 1%nat = ((cos 1 + cos 2) / 2, - ((sin 1 + sin 2) / 2)).
Proof. exact ex_isf. Qed.

(** The intermediate scattering function: the mean of exp(-i k (x_j - x_i)) over the same pairs. *)
Theorem C92_isf :
  forall b x k out y,
  get_average_isf b x k = Some (out, y) -> forall r d, (d < tn b)%nat ->
  y (r * tn b + d)%nat = (pair_mean (tn b) (fun i j => cos (k * (x (r * tn b + j)%nat - x (r * tn b + i)%nat))) d,
                          - pair_mean (tn b) (fun i j => sin (k * (x (r * tn b + j)%nat - x (r * tn b + i)%nat))) d).
Proof. exact isf_spec. Qed.
Print Assumptions C92_isf.

(** One at lag zero, never larger than one, conjugated by reversing k, the same for a shifted
    trajectory, a pure phase for uniform motion, and close to one while the mean square
    displacement is small. *)
Theorem C92_isf_facts :
  forall b x k out y,
  get_average_isf b x k = Some (out, y) -> forall r,
  ((0 < tn b)%nat -> y (r * tn b)%nat = RtoC 1) /\
  (forall d, (d < tn b)%nat -> Cnorm2 (y (r * tn b + d)%nat) <= 1) /\
  (forall out' y', get_average_isf b x (- k) = Some (out', y') -> forall d, (d < tn b)%nat -> y' (r * tn b + d)%nat = Cconj (y (r * tn b + d)%nat)) /\
  (forall x' out' y' c, get_average_isf b x' k = Some (out', y') ->
     (forall i, (i < tn b)%nat -> x' (r * tn b + i)%nat = x (r * tn b + i)%nat + c) ->
     forall d, (d < tn b)%nat -> y' (r * tn b + d)%nat = y (r * tn b + d)%nat) /\
  (forall x0 v, (forall i, (i < tn b)%nat -> x (r * tn b + i)%nat = x0 + v * INR i) ->
     forall d, (d < tn b)%nat -> y (r * tn b + d)%nat = cis (- (k * v * INR d))) /\
  (forall out' s, get_average_displacements b x = Some (out', s) ->
     forall d, (d < tn b)%nat -> 1 - fst (y (r * tn b + d)%nat) <= k ^ 2 * s (r * tn b + d)%nat / 2).
Proof. exact isf_facts. Qed.
Print Assumptions C92_isf_facts.

(** The formula in the comment is the conjugate. *)
Theorem C92_commented_isf_refuted :
  ~ (forall b x k out y, get_average_isf b x k = Some (out, y) -> forall d, (d < tn b)%nat ->
  y d = Cdiv (csum (fun i => Cmult (cis (k * x (i + d)%nat)) (cis (- (k * x i)))) (tn b - d)) (RtoC (INR (tn b - d)))).
Proof. exact commented_isf_refuted. Qed.
Print Assumptions C92_commented_isf_refuted.

Example ex_C92_drift : exists out y, get_normalized_average_drift ex_lags ex_path ex_ks = Some (out, y) /\
  (forall i, (i < 3)%nat -> ex_ks i <> 0) /\ y 1%nat = - 2.
Proof. exact ex_drift. Qed.

(** The normalised average drift: minus the mean displacement, divided by the mean of 1 / k over
    the earlier times. *)
Theorem C92_normalized_average_drift :
  forall b x k out y,
  get_normalized_average_drift b x k = Some (out, y) -> forall r d, (d < tn b)%nat ->
  (forall i, (i < tn b - d)%nat -> k (r * tn b + i)%nat <> 0) -> rsum (fun i => / k (r * tn b + i)%nat) (tn b - d) <> 0 ->
  y (r * tn b + d)%nat = - pair_mean (tn b) (fun i j => x (r * tn b + j)%nat - x (r * tn b + i)%nat) d /
     pair_mean (tn b) (fun i _ => / k (r * tn b + i)%nat) d.
Proof. exact drift_spec. Qed.
Print Assumptions C92_normalized_average_drift.

(** For uniform motion it is minus the displacement times the wavenumber. *)
Theorem C92_normalized_average_drift_uniform :
  forall b x k out y x0 v kappa,
  get_normalized_average_drift b x k = Some (out, y) -> kappa <> 0 -> forall r,
  (forall i, (i < tn b)%nat -> x (r * tn b + i)%nat = x0 + v * INR i /\ k (r * tn b + i)%nat = kappa) ->
  forall d, (d < tn b)%nat -> y (r * tn b + d)%nat = - (v * INR d * kappa).
Proof. exact drift_uniform. Qed.
Print Assumptions C92_normalized_average_drift_uniform.

(** The average normalised drift is a difference of two sums of positions times wavenumbers, only
    one of which is divided by the number of times. *)
Theorem C92_average_normalized_drift :
  forall b x k out y,
  get_average_normalized_drift b x k = Some (out, y) -> forall r d, (d < tn b)%nat ->
  (forall i, (i < tn b - d)%nat -> k (r * tn b + i)%nat <> 0) ->
  y (r * tn b + d)%nat = rsum (fun i => x (r * tn b + i)%nat * k (r * tn b + i)%nat) (tn b - d)
     - rsum (fun i => x (r * tn b + (i + d))%nat * k (r * tn b + i)%nat) (tn b - d) / INR (tn b).
Proof. exact normalized_drift_spec. Qed.
Print Assumptions C92_average_normalized_drift.

(** A particle at rest therefore has a drift, and one that depends on the origin. *)
Theorem C92_average_normalized_drift_at_rest :
  forall b x k out y c kappa,
  get_average_normalized_drift b x k = Some (out, y) -> kappa <> 0 -> forall r,
  (forall i, (i < tn b)%nat -> x (r * tn b + i)%nat = c /\ k (r * tn b + i)%nat = kappa) ->
  forall d, (d < tn b)%nat -> y (r * tn b + d)%nat = c * kappa * INR (tn b - d) * (1 - / INR (tn b)).
Proof. exact normalized_drift_at_rest. Qed.
Print Assumptions C92_average_normalized_drift_at_rest.

Theorem C92_average_normalized_drift_translation_refuted :
  ~ (forall b x k c out y out' y',
  get_average_normalized_drift b x k = Some (out, y) -> get_average_normalized_drift b (fun i => x i + c) k = Some (out', y') ->
  forall d, (d < tn b)%nat -> y' d = y d).
Proof. exact normalized_drift_translation_refuted. Qed.
Print Assumptions C92_average_normalized_drift_translation_refuted.

(** The times of all four results are the differences of the given times. *)
Theorem C92_times :
  forall b x k s out,
  (exists y, get_average_displacements b x = Some (out, y)) \/ (exists y, get_average_isf b x s = Some (out, y)) \/
  (exists y, get_average_normalized_drift b x k = Some (out, y)) \/ (exists y, get_normalized_average_drift b x k = Some (out, y)) ->
  (0 < tstep b)%nat ->
  exists t l, times b = Some t /\ times out = Some l /\ length l = length t /\
    forall i d, (i + d < length t)%nat -> nth d l 0 = nth (i + d) t 0 - nth i t 0.
Proof. exact all_times. Qed.
Print Assumptions C92_times.

(** They raise exactly when there are no times. *)
Theorem C92_raises :
  forall b x k s,
  tn b = 0%nat <-> get_average_displacements b x = None /\ get_average_isf b x s = None /\
  get_average_normalized_drift b x k = None /\ get_normalized_average_drift b x k = None.
Proof. exact all_raise. Qed.
Print Assumptions C92_raises.
