(** Model of what dynamics/stochastic_schrodinger/solve.py hands to the solvers of the
    stochastic Schroedinger equation (qutip.ssesolve, solve_sse and solve_sse_banded, which are
    outside of the package) and of its collapse operators from a function.  No proofs here. *)
From Coq Require Import Reals.
From Verif Require Import ZLib Csum DFT NumPy Index Basis Operator Reduce StateList TimeBasis Dynamics.
Local Open Scope nat_scope.

(** [o["data"].reshape(o["basis"].shape)]. *)
Definition op_matrix (o : operator) : option (nat -> nat -> C) :=
  option_map at2 (reshape (odata o) [bsize (orow o); bsize (ocol o)]).
Definition scaled (s : R) (a : nat -> nat -> C) : nat -> nat -> C := fun r c => Cdiv (a r c) (RtoC s).

(** A call of a solver: state, Hamiltonian, collapse operators and SimulationConfig. *)
Record sse_job := {
  job_state : nat -> C; job_h : nat -> nat -> C; job_ops : list (nat -> nat -> C);
  job_n : nat; job_step : nat; job_dt : R; job_trajectories : nat; job_realizations : nat }.

(** 362-413 [solve_stochastic_schrodinger_equation_rust]: the call of solve_sse. *)
Definition rust_job (hbar : R) (initial : vector) (tb : time_basis) (h : operator) (ops : list operator)
    (n_trajectories n_realizations : nat) : option sse_job :=
  match op_matrix h, all_some (map op_matrix ops), dt tb with
  | Some a, Some l, Some d =>
      Some {| job_state := aflat (vdata initial); job_h := scaled hbar a; job_ops := map (scaled (sqrt hbar)) l;
              job_n := tn tb; job_step := tstep tb; job_dt := d;
              job_trajectories := n_trajectories; job_realizations := n_realizations |}
  | _, _, _ => None
  end.

(** 267-334 [solve_stochastic_schrodinger_equation]: Hamiltonian, collapse operators, times
    and step handed to qutip.ssesolve. *)
Record qutip_job := { q_state : nat -> C; q_h : nat -> nat -> C; q_ops : list (nat -> nat -> C); q_times : list R; q_dt : R }.
Definition solve_qutip (hbar : R) (initial : vector) (tb : time_basis) (h : operator) (ops : list operator) : option qutip_job :=
  match op_matrix h, all_some (map op_matrix ops), times tb, fundamental_dt tb with
  | Some a, Some l, Some ts, Some d =>
      Some {| q_state := aflat (vdata initial); q_h := scaled hbar a; q_ops := map (scaled hbar) l; q_times := ts; q_dt := d |}
  | _, _, _, _ => None
  end.

(** [np.linalg.norm] of a matrix; [np.max], which raises for an empty list. *)
Definition matrix_norm (n m : nat) (a : nat -> nat -> C) : R := sqrt (rsum (fun i => rsum (fun j => Cnorm2 (a i j)) m) n).
Definition np_max (l : list R) : option R :=
  match l with x :: l => Some (fold_left Rmax l x) | [] => None end.
Definition op_norm (o : operator) : option R :=
  option_map (matrix_norm (bsize (orow o)) (bsize (ocol o))) (op_matrix o).

(** 489-574 [solve_stochastic_schrodinger_equation_rust_banded]: the call of
    solve_sse_banded.  [r_threshold / dt] raises when dt is zero, as it is for collapse
    operators that all vanish; the printed duration is not modelled. *)
Record banded_job := {
  bj_state : nat -> C; bj_h : list (list C) * list nat; bj_ops : list (list (list C) * list nat);
  bj_n : nat; bj_step : nat; bj_dt : R; bj_trajectories : nat; bj_realizations : nat }.
Definition banded_solve (same : basis -> basis -> bool) (hbar r_threshold : R) (initial : vector) (tb : time_basis)
    (h : operator) (ops : list operator) (n_trajectories n_realizations : nat) : option banded_job :=
  match all_some (map op_norm ops) with
  | None => None
  | Some norms =>
      match np_max norms, fundamental_dt tb with
      | Some max_norm, Some h0 =>
          let d := (h0 * (max_norm * max_norm) / hbar)%R in
          match all_some (map (fun o => match convert_operator_to_basis same o (orow h) (ocol h) with
                                        | Some o => op_matrix o | None => None end) ops) with
          | None => None
          | Some converted =>
              if Req_EM_T d 0 then None
              else
                let n := bsize (orow h) in
                match op_matrix h, convert_vector_to same initial (orow h) with
                | Some a, Some psi =>
                    Some {| bj_state := aflat (vdata psi);
                            bj_h := get_banded_operator n (scaled (max_norm * max_norm) a) (r_threshold / d);
                            bj_ops := map (fun b => get_banded_operator n (scaled max_norm b) (r_threshold / d)) converted;
                            bj_n := tn tb; bj_step := tstep tb; bj_dt := d;
                            bj_trajectories := n_trajectories; bj_realizations := n_realizations |}
                | _, _ => None
                end
          end
      | _, _ => None
      end
  end.

(** 176-240 [get_collapse_operators_from_function]: [f n0 n1 d] is a_function(n0, n1, (0, 0),
    shift d).  Every operator is a single number in an array of shape [shape] (not of the
    shape of the basis); writing out of range raises. *)
Definition hop_target (n0 n1 nb i b d : nat) : nat :=
  let i0 := Z.of_nat (i / nb / n1) in
  let j0 := Z.of_nat ((i / nb) mod n1) in
  let i1 := Z.to_nat ((i0 + Z.of_nat (d / 3) - 1) mod Z.of_nat n0) in
  let j1 := Z.to_nat ((j0 + Z.of_nat (d mod 3) - 1) mod Z.of_nat n1) in
  (i1 * n1 + j1) * nb + b.
Definition collapse_entry (n0 n1 nb : nat) (f : nat -> nat -> nat -> R) (i b d : nat) : option ndarray :=
  let j := hop_target n0 n1 nb i b d in
  if (i <? n0) && (j <? n1)
  then Some (ravel_array (array2 n0 n1 (fun r c => if (r =? i) && (c =? j) then RtoC (f (i mod nb) b d) else RtoC 0%R)))
  else None.
Definition get_collapse_operators_from_function (n0 n1 nb : nat) (f : nat -> nat -> nat -> R) : option (list ndarray) :=
  all_some (flat_map (fun i => flat_map (fun b => map (collapse_entry n0 n1 nb f i b) (seq 0 9)) (seq 0 nb))
              (seq 0 (n0 * n1 * nb))).
