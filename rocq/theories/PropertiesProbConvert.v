(** Conversions of probability vectors (C111). *)
From Coq Require Import Reals.
From Verif Require Import ZLib Csum DFT NumPy Index Basis SpecBasis SpecWavepacket VolumeBasis SpecVolumeBasis ProbConvert SpecProbConvert
  ProbConvertProofs ProbConvertFacts.
Local Open Scope R_scope.
Local Open Scope C_scope.

(** On a basis whose states are points of the grid the position form of a probability vector is
    again one: its entries are not negative and their total is the same. *)
Theorem C111_points_keep_total :
  forall same d axes (p : nat -> R), identity_test same -> in_space d axes -> bwf (stacked axes) -> Forall point_axis axes ->
  (forall k, (k < bsize (stacked axes))%nat -> (0 <= p k)%R) ->
  exists P r, convert_probability_vector_to_position_basis same axes p = Some (P, r) /\
    csum r (nprod (fundamental_shape axes)) = RtoC (rsum p (bsize (stacked axes))) /\
    forall x, (x < nprod (fundamental_shape axes))%nat -> nonnegative (r x).
Proof. exact points_preserve. Qed.
Print Assumptions C111_points_keep_total.
Example C111_points_case : in_space 2 ex_points /\ bwf (stacked ex_points) /\ Forall point_axis ex_points.
Proof. exact ex_points_ok. Qed.

(** On any other basis the numbers are converted as amplitudes, not as probabilities: the position
    form holds the values of the superposition, and its total is sqrt(N) times the entry of zero
    momentum of the momentum form. *)
Theorem C111_forms :
  forall same d axes (p : nat -> R), identity_test same -> in_space d axes -> bwf (stacked axes) -> explicit_orthonormal (stacked axes) ->
  let N := nprod (fundamental_shape axes) in
  exists P M r s, convert_probability_vector_to_position_basis same axes p = Some (P, r) /\
    convert_probability_vector_to_momentum_basis same axes p = Some (M, s) /\
    stacked P = stacked_basis_as_fundamental_basis axes /\ stacked M = stacked_basis_as_fundamental_transformed_basis axes /\
    (forall x, (x < N)%nat -> r x = amplitude (stacked axes) (fun k => RtoC (p k)) x) /\
    csum r N = RtoC (sqrt (INR N)) * s 0%nat.
Proof. exact position_form. Qed.
Print Assumptions C111_forms.
Theorem C111_waves_total :
  forall same d axes (p : nat -> R), identity_test same -> in_space d axes -> bwf (stacked axes) -> Forall wave_axis axes ->
  exists P r, convert_probability_vector_to_position_basis same axes p = Some (P, r) /\
    csum r (nprod (fundamental_shape axes)) = RtoC (sqrt (INR (nprod (fundamental_shape axes))) * p 0%nat).
Proof. exact waves_total. Qed.
Print Assumptions C111_waves_total.
Example C111_waves_case : in_space 1 ex_two_waves /\ bwf (stacked ex_two_waves) /\ Forall wave_axis ex_two_waves /\ explicit_orthonormal (stacked ex_two_waves).
Proof. exact ex_waves_ok. Qed.
Theorem C111_total_and_sign_refuted :
  forall same, identity_test same ->
  (let p := fun _ : nat => (/ 2)%R in
   rsum p 2 = 1%R /\ exists P r, convert_probability_vector_to_position_basis same ex_two_waves p = Some (P, r) /\
     csum r 2 = RtoC (sqrt 2 / 2)) /\
  (let p := fun k : nat => INR k in
   rsum p 2 = 1%R /\ exists P r, convert_probability_vector_to_position_basis same ex_two_waves p = Some (P, r) /\
     r 1%nat = RtoC (- / sqrt 2)).
Proof. exact waves_refuted. Qed.
Print Assumptions C111_total_and_sign_refuted.

(** A list is converted row by row, whenever its data have the size of its basis. *)
Theorem C111_list_rows :
  forall same n b0 (p : nat -> R) b1 total r, (0 < bsize b1)%nat ->
  convert_probability_vector_list_to_basis same n b0 total p b1 = Some r ->
  total = (n * bsize b0)%nat /\
  forall i, (i < n)%nat -> exists q, convert_probability_vector_to_basis same b0 (fun k => p (i * bsize b0 + k)%nat) b1 = Some q /\
    forall j, (j < bsize b1)%nat -> r (i * bsize b1 + j)%nat = q j.
Proof. exact list_rows. Qed.
Print Assumptions C111_list_rows.
Theorem C111_list_exists :
  forall same n b0 (p : nat -> R) b1 total,
  (exists r, convert_probability_vector_list_to_basis same n b0 total p b1 = Some r) <->
  total = (n * bsize b0)%nat /\ exists q, convert_probability_vector_to_basis same b0 p b1 = Some q.
Proof. exact list_exists. Qed.
Print Assumptions C111_list_exists.
Example C111_list_case : exists r, convert_probability_vector_list_to_basis (fun _ _ => false) 2 (BFund 3) 6 INR (BFundT 3) = Some r.
Proof. apply list_exists. split; [reflexivity|]. eexists. reflexivity. Qed.

(** get_probability_along_axis: for a list along one axis it returns the list; along one of two
    axes it returns the whole list, reshaped, under a basis that is too small unless the other axis
    has length one; with an index for each other axis, or more than two axes, or more than one
    axis asked for, it raises. *)
Theorem C111_along_one_axis :
  forall shape0 n1 (p : nat -> R) a, (a < length shape0)%nat -> (length shape0 <= 2)%nat -> Forall (fun n => (0 < n)%nat) shape0 -> (0 < n1)%nat ->
  let na := nth a shape0 0%nat in
  exists r, get_probability_along_axis shape0 n1 p [a] None = Some ([na; n1], ([na; (nprod shape0 * n1 / na)%nat], r)) /\
    forall t, (t < nprod shape0 * n1)%nat -> r t = p t.
Proof. exact along_one. Qed.
Print Assumptions C111_along_one_axis.
Example C111_along_case : exists r, get_probability_along_axis [2; 3]%nat 2 INR [1]%nat None = Some ([3; 2]%nat, ([3; 4]%nat, r)).
Proof. eexists. reflexivity. Qed.
Theorem C111_along_raises :
  forall shape0 n1 (p : nat -> R) axes idx, (2 <= length axes + length idx)%nat -> get_probability_along_axis shape0 n1 p axes (Some idx) = None.
Proof. exact along_raises. Qed.
Print Assumptions C111_along_raises.
Theorem C111_along_default_raises :
  forall shape0 n1 (p : nat -> R) axes, axes <> [] -> (3 <= length shape0)%nat \/ (2 <= length axes)%nat ->
  get_probability_along_axis shape0 n1 p axes None = None.
Proof. exact along_default_raises. Qed.
Print Assumptions C111_along_default_raises.
