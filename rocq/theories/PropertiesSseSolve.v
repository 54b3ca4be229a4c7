(** What the solvers of the stochastic Schroedinger equation are handed (C108). *)
From Coq Require Import Reals Psatz List.
From Coquelicot Require Import Coquelicot.
From Verif Require Import ZLib Csum DFT NumPy Index Basis SpecBasis Operator SpecOperator OperatorProofs2 BasisProofs3 Reduce StateList TimeBasis TimeProofs Dynamics SpecDynamics SseSolve SpecSseSolve SseSolveProofs SseSolveFacts SseSolveFacts2.
Import ListNotations.
Local Open Scope R_scope.
Local Open Scope C_scope.

(** Two states, a real Hamiltonian and a jump from the second state to the first, with four
    times three steps apart. *)
Definition two_states (f : nat -> nat -> C) : operator := {| orow := BFund 2; ocol := BFund 2; odata := ravel_array (array2 2 2 f) |}.
Definition ex_h : operator := two_states (fun r c => RtoC (INR (r + c))).
Definition ex_jump : operator := two_states (fun r c => if Nat.eqb r 0 && Nat.eqb c 1 then RtoC 3 else 0).
Definition ex_tb : time_basis := {| tn := 4; tstep := 3; toffset := 0; tspan := 2%R |}.
Definition ex_state : vector := {| vbasis := BFund 2; vdata := {| ashape := [2%nat]; aflat := fun i => if Nat.eqb i 0 then 1 else 0 |} |}.
Example ex_sse : square 2 ex_h /\ (0 < tspan ex_tb)%R /\ (0 < tn ex_tb)%nat /\ (0 < tstep ex_tb)%nat /\
  Forall (fun o => op_wf o /\ compatible (orow o) (orow ex_h) /\ compatible (ocol o) (ocol ex_h)) [ex_jump] /\
  Exists (fun o => exists i j, (i < bsize (orow o))%nat /\ (j < bsize (ocol o))%nat /\ op_entry o i j <> 0) [ex_jump] /\
  exists psi', convert_vector_to (fun _ _ => false) ex_state (orow ex_h) = Some psi'.
Proof.
  split; [repeat split|]. split; [cbn; lra|]. split; [cbn; lia|]. split; [cbn; lia|].
  split; [constructor; [|constructor]; split; [reflexivity|]; split; apply compatible_refl|].
  split; [left; exists 0%nat, 1%nat; split; [cbn; lia|]; split; [cbn; lia|]; cbn; intros E; apply RtoC_inj in E; lra|].
  eexists. reflexivity.
Qed.

(** The banded solver, for a Hamiltonian and collapse operators given in any bases of the same
    space, at least one of them not zero: with threshold zero every Euler step of what it is
    handed is a step of the physical equation by the fundamental time step, for every state and
    noise.  In general no element of the Hamiltonian times the step changes by more than the
    threshold, and those of the operators times the root of the step by no more than threshold
    over that root.  The largest operator has norm one. *)
Theorem C108_banded_step :
  forall same hbar thr initial tb h ops nt nr n psi',
  (0 < hbar)%R -> (0 < tspan tb)%R -> (0 < tn tb)%nat -> (0 < tstep tb)%nat -> square n h ->
  Forall (fun o => op_wf o /\ compatible (orow o) (orow h) /\ compatible (ocol o) (ocol h)) ops ->
  Exists (fun o => exists i j, (i < bsize (orow o))%nat /\ (j < bsize (ocol o))%nat /\ op_entry o i j <> 0) ops ->
  convert_vector_to same initial (orow h) = Some psi' -> (0 <= thr)%R ->
  exists job ops' m,
    banded_solve same hbar thr initial tb h ops nt nr = Some job /\
    Forall2 (fun o o' => convert_operator_to_basis same o (orow h) (ocol h) = Some o') ops ops' /\
    (0 < m)%R /\ Forall (fun o => (matrix_norm (bsize (orow o)) (bsize (ocol o)) (op_entry o) <= m)%R) ops /\
    Exists (fun o => matrix_norm (bsize (orow o)) (bsize (ocol o)) (op_entry o) = m) ops /\
    bj_state job = aflat (vdata psi') /\ bj_n job = tn tb /\ bj_step job = tstep tb /\ bj_trajectories job = nt /\ bj_realizations job = nr /\
    let h0 := (tspan tb / INR (tn tb * tstep tb))%R in
    bj_dt job = (h0 * (m * m) / hbar)%R /\ (0 < bj_dt job)%R /\
    (forall r c, (r < n)%nat -> (c < n)%nat ->
      let z := RtoC (bj_dt job) * from_bands n (bj_h job) r c in let w := RtoC h0 * (op_entry h r c / RtoC hbar) in
      (Rabs (fst z - fst w) <= thr)%R /\ (Rabs (snd z - snd w) <= thr)%R) /\
    Forall2 (fun b o' => forall r c, (r < n)%nat -> (c < n)%nat ->
      let z := RtoC (sqrt (bj_dt job)) * from_bands n b r c in let w := RtoC (sqrt h0) * (op_entry o' r c / RtoC (sqrt hbar)) in
      (Rabs (fst z - fst w) <= thr / sqrt (bj_dt job))%R /\ (Rabs (snd z - snd w) <= thr / sqrt (bj_dt job))%R) (bj_ops job) ops' /\
    (thr = 0%R -> forall xi psi r, (r < n)%nat ->
      euler_step n (from_bands n (bj_h job)) (map (from_bands n) (bj_ops job)) (bj_dt job) xi psi r =
      physical_step hbar n (op_entry h) (map op_entry ops') h0 xi psi r).
Proof. exact banded_step. Qed.
Print Assumptions C108_banded_step.

(** The default, no collapse operators, raises in the banded solver; so do operators that all
    vanish. *)
Theorem C108_banded_raises :
  forall same hbar thr initial tb h nt nr,
  banded_solve same hbar thr initial tb h [] nt nr = None /\
  forall ops, Forall (fun o => op_wf o /\ forall i j, (i < bsize (orow o))%nat -> (j < bsize (ocol o))%nat -> op_entry o i j = 0) ops ->
    banded_solve same hbar thr initial tb h ops nt nr = None.
Proof. intros. split; [exact (banded_no_operators same hbar thr initial tb h nt nr)|]. intros ops. exact (banded_zero_operators same hbar thr initial tb h ops nt nr). Qed.
Print Assumptions C108_banded_raises.

(** The dense solver is handed the physical operators, but steps as long as the spacing of
    the times, of which it makes [tstep] between two outputs: it follows the requested times
    exactly when the step of the time basis is one.  The banded one always does. *)
Theorem C108_dense_times :
  forall hbar initial tb h ops nt nr n, (0 < hbar)%R -> (0 < tspan tb)%R -> (0 < tn tb)%nat -> (0 < tstep tb)%nat -> square n h -> Forall op_wf ops ->
  exists job ts spacing, rust_job hbar initial tb h ops nt nr = Some job /\ job_state job = aflat (vdata initial) /\
    job_n job = tn tb /\ job_trajectories job = nt /\ job_realizations job = nr /\
    times tb = Some ts /\ (forall i d, (S i < tn tb)%nat -> (nth (S i) ts d - nth i ts d = spacing)%R) /\
    (forall xi psi r, euler_step n (job_h job) (job_ops job) (job_dt job) xi psi r = physical_step hbar n (op_entry h) (map op_entry ops) spacing xi psi r) /\
    (INR (job_step job) * job_dt job = INR (tstep tb) * spacing)%R /\
    ((INR (job_step job) * job_dt job)%R = spacing <-> tstep tb = 1%nat) /\
    forall same thr psi' job' ops', banded_solve same hbar thr initial tb h ops' nt nr = Some job' -> (0 <= thr)%R ->
      Forall (fun o => op_wf o /\ compatible (orow o) (orow h) /\ compatible (ocol o) (ocol h)) ops' ->
      Exists (fun o => exists i j, (i < bsize (orow o))%nat /\ (j < bsize (ocol o))%nat /\ op_entry o i j <> 0) ops' ->
      convert_vector_to same initial (orow h) = Some psi' ->
      exists m, (0 < m)%R /\ (INR (bj_step job') * (bj_dt job' * hbar / (m * m)))%R = spacing.
Proof. exact dense_times. Qed.
Print Assumptions C108_dense_times.

(** qutip is handed collapse operators divided by hbar instead of its root: all jump rates
    are wrong by the factor 1 / hbar. *)
Theorem C108_qutip_rates_refuted :
  forall hbar initial tb h ops, (0 < hbar)%R -> (0 < tn tb)%nat -> (0 < tstep tb)%nat -> op_wf h -> Forall op_wf ops ->
  exists q ts, solve_qutip hbar initial tb h ops = Some q /\ times tb = Some ts /\ q_times q = ts /\ q_dt q = (tspan tb / INR (tn tb * tstep tb))%R /\
    q_state q = aflat (vdata initial) /\ (forall r c, q_h q r c = op_entry h r c / RtoC hbar) /\
    (forall r c, jump_rate (q_ops q) r c = (jump_rate (map (fun (L : nat -> nat -> C) a b => (L a b / RtoC (sqrt hbar))%C) (map op_entry ops)) r c / hbar)%R) /\
    (forall r c, jump_rate (q_ops q) r c = jump_rate (map (fun L a b => L a b / RtoC (sqrt hbar)) (map op_entry ops)) r c <->
       hbar = 1%R \/ jump_rate (map op_entry ops) r c = 0%R).
Proof. exact qutip_rates_differ. Qed.
Print Assumptions C108_qutip_rates_refuted.

(** Collapse operators from a function: the arrays have the shape of the lattice instead of
    that of the operators, so any simulation with more than one state raises; the single state
    gives nine operators of one number. *)
Theorem C108_collapse_from_function :
  (forall n0 n1 nb f, (1 < n0 * n1 * nb)%nat -> get_collapse_operators_from_function n0 n1 nb f = None) /\
  (forall n0 n1 nb f, (n0 * n1 * nb = 0)%nat -> get_collapse_operators_from_function n0 n1 nb f = Some []) /\
  forall f, exists ops, get_collapse_operators_from_function 1 1 1 f = Some ops /\ length ops = 9%nat /\
    forall d, (d < 9)%nat -> ashape (nth d ops {| ashape := []; aflat := fun _ => 0 |}) = [1%nat] /\
      aflat (nth d ops {| ashape := []; aflat := fun _ => 0 |}) 0%nat = RtoC (f 0%nat 0%nat d).
Proof. split; [intros; apply from_function_raises; lia|]. split; [exact from_function_empty|exact from_function_one]. Qed.
Print Assumptions C108_collapse_from_function.
