(** Properties of the localised stochastic Schrodinger solver (C91). *)
From Coq Require Import Reals.
From Verif Require Import ZLib Csum DFT NumPy Index Spec Basis SpecBasis Operator SpecOperator Localize SpecLocalize
  StateList SpecStateList TimeBasis LocalizedSSE SpecLocalized LocalizedProofs LocalizedProofs2 LocalizedFacts.
Local Open Scope R_scope.
Local Open Scope C_scope.

(** ** C91 *)
Example ex_C91_states : bwf (sbasis ex_pair) /\ explicit_orthonormal (sbasis ex_pair) /\ well_formed_list ex_pair /\ bsize (slist ex_pair) = 2%nat /\
  total_norm ex_pair = 2%R /\ (forall k, (k < 2)%nat -> norm2 2 (state_of ex_pair k) = 1%R) /\ (exists same, identity_test same) /\ exists eigh, eigh_ok eigh.
Proof. exact ex_pair_ok. Qed.

(** The choices are combinations of the states.  Their probabilities are not negative and sum
    to one; they are orthogonal, and the squared norm of each is its probability times half
    the sum of the squared norms of the states.  Together they make up half of the sum of
    |psi><psi|, the mean over the choices is the square of that sum, divided by twice its
    trace. *)
Theorem C91_choice :
  forall same eigh s, identity_test same -> bwf (sbasis s) -> explicit_orthonormal (sbasis s) -> well_formed_list s ->
  (0 < bsize (slist s))%nat -> eigh_ok eigh -> (0 < total_norm s)%R ->
  let n := bsize (slist s) in let m := bsize (sbasis s) in
  exists p u, selection same eigh s = Some (p, u) /\
    (forall k, (k < n)%nat -> (0 <= p k)%R) /\ rsum p n = 1%R /\
    exists phi, (forall k, (k < n)%nat -> exists v, select_random_localized_state same eigh k s = Some v /\ is_vector v (sbasis s) (phi k)) /\
      (forall k, (k < n)%nat -> exists w, forall x, (x < m)%nat -> phi k x = csum (fun j => w j * state_of s j x) n) /\
      (forall k l, (k < n)%nat -> (l < n)%nat -> k <> l -> inner_product m (phi k) (phi l) = 0) /\
      (forall k, (k < n)%nat -> norm2 m (phi k) = (p k * total_norm s / 2)%R) /\
      (forall x y, csum (fun k => phi k x * Cconj (phi k y)) n = / RtoC 2 * sum_outer s x y) /\
      (forall x y, csum (fun k => RtoC (p k) * (phi k x * Cconj (phi k y))) n =
         / RtoC (2 * total_norm s) * csum (fun z => sum_outer s x z * sum_outer s z y) m).
Proof. exact choice_spec. Qed.
Print Assumptions C91_choice.

(** There is no choice if all the states are zero. *)
Theorem C91_zero_states_raise :
  forall same eigh s, identity_test same -> bwf (sbasis s) -> explicit_orthonormal (sbasis s) -> well_formed_list s ->
  (0 < bsize (slist s))%nat -> total_norm s = 0%R -> selection same eigh s = None.
Proof. exact selection_zero. Qed.
Print Assumptions C91_zero_states_raise.

Definition ex_none : state_list := {| slist := BFund 2; sbasis := BFund 2; sdata := {| ashape := [4%nat]; aflat := fun _ => RtoC 0 |} |}.
Example ex_C91_none : bwf (sbasis ex_none) /\ explicit_orthonormal (sbasis ex_none) /\ well_formed_list ex_none /\ (0 < bsize (slist ex_none))%nat /\ total_norm ex_none = 0%R.
Proof. repeat split; cbn; repeat constructor. unfold total_norm, Cnorm2, state_of; cbn. ring. Qed.

(** The choice is not normalised: of two normalised orthogonal states each is chosen half of
    the time, with squared norm one half. *)
Theorem C91_normalised_refuted :
  forall same eigh, identity_test same -> eigh_ok eigh ->
  exists p u, selection same eigh ex_pair = Some (p, u) /\ forall k, (k < 2)%nat -> p k = (1 / 2)%R /\
    exists v, select_random_localized_state same eigh k ex_pair = Some v /\ calculate_normalization v = (1 / 2)%R.
Proof. exact pair_choice. Qed.
Print Assumptions C91_normalised_refuted.

Example ex_C91_phase : bwf (sbasis ex_turned) /\ explicit_orthonormal (sbasis ex_turned) /\ well_formed_list ex_turned /\ bsize (slist ex_turned) = 2%nat /\
  Cnorm2 Ci = 1%R /\ (forall x, (x < 2)%nat -> state_of ex_turned 1 x = Ci * state_of ex_turned 0 x) /\ (0 < norm2 2 (state_of ex_turned 0))%R.
Proof. exact ex_turned_ok. Qed.

(** If the second state is the first up to a phase, one choice is certain and is that state up
    to a phase. *)
Theorem C91_phase_only :
  forall same eigh s c, identity_test same -> bwf (sbasis s) -> explicit_orthonormal (sbasis s) -> well_formed_list s ->
  eigh_ok eigh -> bsize (slist s) = 2%nat -> Cnorm2 c = 1%R ->
  (forall x, (x < bsize (sbasis s))%nat -> state_of s 1 x = c * state_of s 0 x) -> (0 < norm2 (bsize (sbasis s)) (state_of s 0))%R ->
  exists p u, selection same eigh s = Some (p, u) /\ forall k, (k < 2)%nat ->
    (p k = 0%R \/ p k = 1%R) /\
    (p k <> 0%R -> exists v z, select_random_localized_state same eigh k s = Some v /\ Cnorm2 z = 1%R /\
       is_vector v (sbasis s) (fun x => z * state_of s 0 x)).
Proof. exact phase_choice. Qed.
Print Assumptions C91_phase_only.

Example ex_C91_step : (0 < tn ex_times)%nat /\ (0 < tstep ex_times)%nat /\ (1 < 2)%nat /\ (0 < bsize (BFund 2))%nat.
Proof. repeat split; cbn; repeat constructor. Qed.

(** In one round the solver is asked for the state at once and after half of the spacing of
    the times, and the choice is made among these two states of the second realisation;
    nothing else of the result of the solver is used. *)
Theorem C91_round :
  forall same eigh solve hb n_realizations tb call idx state,
  (0 < tn tb)%nat -> (0 < tstep tb)%nat -> (1 < n_realizations)%nat -> (0 < bsize hb)%nat ->
  exists s ts, localized_step same eigh solve hb n_realizations tb call idx state = select_random_localized_state same eigh idx s /\
    slist s = BTuple [BFund 2] /\ sbasis s = hb /\ well_formed_list s /\
    length ts = 2%nat /\ nth 0 ts 0%R = 0%R /\ nth 1 ts 0%R = (tspan tb / INR (tn tb) / 2)%R /\
    forall i x, (i < 2)%nat -> (x < bsize hb)%nat ->
      state_of s i x = solve call (aflat (vdata state)) (fun i => nth i ts 0%R) (tspan tb / INR (tn tb) / 2 / INR (tstep tb))%R 1%nat i x.
Proof. exact step_states. Qed.
Print Assumptions C91_round.

(** It takes at least two realisations. *)
Theorem C91_one_realization_raises :
  forall same eigh solve hb n_realizations tb call idx state, (n_realizations <= 1)%nat ->
  localized_step same eigh solve hb n_realizations tb call idx state = None.
Proof. exact step_few_realizations. Qed.
Print Assumptions C91_one_realization_raises.

(** Every trajectory starts from the initial state; the state stored at time [t] is that after
    [t + 1] rounds. *)
Theorem C91_trajectories :
  forall same eigh solve hb n_trajectories n_realizations tb idx initial data,
  solve_localized same eigh solve hb n_trajectories n_realizations tb idx initial = Some data ->
  nprod (ashape data) = (n_trajectories * tn tb * bsize hb)%nat /\
  forall r, (r < n_trajectories)%nat -> exists l, length l = tn tb /\
    (forall t, (t < tn tb)%nat ->
       localized_step same eigh solve hb n_realizations tb (r * tn tb + t) (idx r t) (nth t (initial :: l) initial) = Some (nth t l initial)) /\
    forall t k, (t < tn tb)%nat -> (k < bsize hb)%nat -> aflat data ((r * tn tb + t) * bsize hb + k) = aflat (vdata (nth t l initial)) k.
Proof. exact solve_spec. Qed.
Print Assumptions C91_trajectories.

Example ex_C91_solver : bwf (BFund 2) /\ explicit_orthonormal (BFund 2) /\
  forall call psi ts small, exists i x, (i < 2)%nat /\ (x < bsize (BFund 2))%nat /\ ex_solver call psi ts small 1%nat i x <> 0.
Proof. split; [cbn; repeat constructor|]. split; [exact I|]. exact ex_solver_ok. Qed.

(** It succeeds as long as the states of the second realisation do not both vanish. *)
Theorem C91_succeeds :
  forall same eigh (solve : sse_solver) hb n_realizations tb, identity_test same -> eigh_ok eigh -> bwf hb -> explicit_orthonormal hb ->
  (0 < tn tb)%nat -> (0 < tstep tb)%nat -> (1 < n_realizations)%nat -> (0 < bsize hb)%nat ->
  (forall call psi ts small, exists i x, (i < 2)%nat /\ (x < bsize hb)%nat /\ solve call psi ts small 1%nat i x <> 0) ->
  forall n_trajectories idx initial, bsize (vbasis initial) = bsize hb -> (forall r t, (idx r t < 2)%nat) ->
    exists data, solve_localized same eigh solve hb n_trajectories n_realizations tb idx initial = Some data.
Proof. exact solve_succeeds. Qed.
Print Assumptions C91_succeeds.
