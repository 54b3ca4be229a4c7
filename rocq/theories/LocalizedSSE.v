(** Model of the localised solver in dynamics/stochastic_schrodinger/solve.py.
    qutip.ssesolve and the random choices are parameters.  No proofs here. *)
From Coq Require Import Reals.
From Verif Require Import ZLib Csum DFT NumPy Index Basis Operator Reduce Localize StateList TimeBasis.
Local Open Scope nat_scope.

(** 580-610 [_select_random_localized_state], up to the choice: the probabilities and, in
    rows, the combinations of states.  The norm of the matrix is that of its flat data; if
    it is zero the data are nan and scipy raises. *)
Definition selection (same : basis -> basis -> bool) (eigh : eigh_fn) (s : state_list)
  : option ((nat -> R) * (nat -> nat -> C)) :=
  match calculate_inner_products same s s with
  | None => None
  | Some o =>
      let n := bsize (slist s) in
      match reshape (odata o) [n; n] with
      | None => None
      | Some a =>
          let norm := sqrt (rsum (fun t => Cnorm2 (aflat (odata o) t)) (nprod (ashape (odata o)))) in
          if Req_EM_T norm 0%R then None
          else
            match calculate_eigenvectors_hermitian eigh n (fun i j => Cdiv (at2 a i j) (RtoC norm)) 0 (Z.of_nat n - 1) with
            | Some (e, u) => Some (fun k => (e k / rsum e n)%R, u)
            | None => None
            end
      end
  end.

(** 605-610: the state for the chosen index. *)
Definition select_random_localized_state (same : basis -> basis -> bool) (eigh : eigh_fn) (idx : nat) (s : state_list)
  : option vector :=
  match selection same eigh s with
  | Some (_, u) =>
      if idx <? bsize (slist s) then
        get_weighted_state_vector s
          {| vbasis := slist s;
             vdata := {| ashape := [bsize (slist s)]; aflat := fun j => Cdiv (u idx j) (RtoC (sqrt 2)) |} |}
      else None
  | None => None
  end.

(** qutip.ssesolve: for the number of the call, the initial coefficients, the times and the
    step, the coefficients of every realisation at every time. *)
Definition sse_solver := nat -> (nat -> C) -> (nat -> R) -> R -> nat -> nat -> nat -> C.

(** 655-669: one round of the loop.  In the list basis of the result the time axis only
    counts by its size. *)
Definition localized_step (same : basis -> basis -> bool) (eigh : eigh_fn) (solve : sse_solver) (hb : basis)
    (n_realizations : nat) (tb : time_basis) (call idx : nat) (state : vector) : option vector :=
  match dt tb with
  | None => None
  | Some h =>
      let two := {| tn := 2; tstep := tstep tb; toffset := 0; tspan := h |} in
      match times two, fundamental_dt two with
      | Some ts, Some small =>
          let result := ravel_array (array3 n_realizations 2 (bsize hb)
            (solve call (aflat (vdata state)) (fun i => nth i ts 0%R) small)) in
          match get_state_along_axis [BFund n_realizations; BFund 2] hb result [1] (Some [1]) with
          | Some s => select_random_localized_state same eigh idx s
          | None => None
          end
      | _, _ => None
      end
  end.

(** 651-671: the states of one trajectory, one per time; [call t] and [idx t] are the number
    of the call and the choice made in round [t]. *)
Fixpoint localized_trajectory same eigh solve hb n_realizations tb (call idx : nat -> nat) (rounds t : nat) (state : vector)
  : option (list vector) :=
  match rounds with
  | 0 => Some []
  | S rounds =>
      match localized_step same eigh solve hb n_realizations tb (call t) (idx t) state with
      | None => None
      | Some v =>
          match localized_trajectory same eigh solve hb n_realizations tb call idx rounds (S t) v with
          | None => None
          | Some l => Some (v :: l)
          end
      end
  end.

(** 631-678 [solve_stochastic_schrodinger_equation_localized]: the data over trajectories,
    times and coefficients. *)
Definition solve_localized same eigh solve hb n_trajectories n_realizations tb (idx : nat -> nat -> nat) (initial : vector)
  : option ndarray :=
  if bsize hb =? bsize (vbasis initial) then
    match all_some (map (fun r => localized_trajectory same eigh solve hb n_realizations tb
            (fun t => r * tn tb + t) (idx r) (tn tb) 0 initial) (seq 0 n_trajectories)) with
    | Some l =>
        Some (ravel_array (array3 n_trajectories (tn tb) (bsize hb)
          (fun r t k => aflat (vdata (nth t (nth r l []) initial)) k)))
    | None => None
    end
  else None.
