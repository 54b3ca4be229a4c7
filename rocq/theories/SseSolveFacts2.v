(** The steps and times of the three solvers. *)
From Coq Require Import Reals Psatz List.
From Coquelicot Require Import Coquelicot.
From Verif Require Import ZLib Csum DFT NumPy Index Basis SpecBasis Operator SpecOperator OperatorProofs2 BasisProofs3 Reduce StateList TimeBasis TimeProofs Dynamics SpecDynamics SseSolve SpecSseSolve SseSolveProofs SseSolveFacts.
Import ListNotations.
Local Open Scope R_scope.
Local Open Scope C_scope.

Lemma dense_times :
  forall hbar initial tb h ops nt nr n, (0 < hbar)%R -> (0 < tspan tb)%R -> (0 < tn tb)%nat -> (0 < tstep tb)%nat -> square n h -> Forall op_wf ops ->
  exists job ts spacing, rust_job hbar initial tb h ops nt nr = Some job /\ job_state job = aflat (vdata initial) /\
    job_n job = tn tb /\ job_trajectories job = nt /\ job_realizations job = nr /\
    times tb = Some ts /\ (forall i d, (S i < tn tb)%nat -> (nth (S i) ts d - nth i ts d = spacing)%R) /\
    (forall xi psi r, euler_step n (job_h job) (job_ops job) (job_dt job) xi psi r = physical_step hbar n (op_entry h) (map op_entry ops) spacing xi psi r) /\
    (INR (job_step job) * job_dt job = INR (tstep tb) * spacing)%R /\
    ((INR (job_step job) * job_dt job)%R = spacing <-> tstep tb = 1%nat) /\
    forall same thr psi' job' ops', banded_solve same hbar thr initial tb h ops' nt nr = Some job' -> (0 <= thr)%R ->
      Forall (fun o => op_wf o /\ compatible (orow o) (orow h) /\ compatible (ocol o) (ocol h)) ops' ->
      Exists (fun o => exists i j, (i < bsize (orow o))%nat /\ (j < bsize (ocol o))%nat /\ op_entry o i j <> 0) ops' ->
      convert_vector_to same initial (orow h) = Some psi' ->
      exists m, (0 < m)%R /\ (INR (bj_step job') * (bj_dt job' * hbar / (m * m)))%R = spacing.
Proof.
  intros hbar initial tb h ops nt nr n Hb Hsp Hn Hs Hh F. destruct (times_spec tb Hn Hs) as [ts [E [L [V [hh [small [E1 [E2 [E3 [E4 D]]]]]]]]]].
  rewrite (dt_some tb Hn) in E1. injection E1 as E1.
  eexists. exists ts, (tspan tb / INR (tn tb))%R. split; [apply rust_spec; [exact Hn|apply Hh|exact F]|].
  split; [reflexivity|]. split; [reflexivity|]. split; [reflexivity|]. split; [reflexivity|]. split; [exact E|].
  split; [intros; rewrite E1; apply D; assumption|]. split; [reflexivity|]. split; [reflexivity|].
  assert (P : (0 < tspan tb / INR (tn tb))%R) by (apply Rdiv_lt_0_compat; [exact Hsp|apply lt_0_INR; exact Hn]).
  split.
  { cbn [job_step job_dt]. split; [|intros ->; cbn [INR]; ring]. intros Q. apply INR_eq. cbn [INR]. apply (Rmult_eq_reg_r (tspan tb / INR (tn tb))); lra. }
  intros same thr psi' job' ops' Ej Ht Ho Hz Hp. destruct (banded_step same hbar thr initial tb h ops' nt nr n psi' Hb Hsp Hn Hs Hh Ho Hz Hp Ht) as [job2 [ops2 [m [Ej2 [_ [Pm [_ [_ [_ [_ [Es [_ [_ [Ed _]]]]]]]]]]]]]].
  rewrite Ej in Ej2. injection Ej2 as <-. exists m. split; [exact Pm|]. rewrite Es, Ed, mult_INR.
  assert (0 < INR (tn tb))%R by (apply lt_0_INR; exact Hn). assert (0 < INR (tstep tb))%R by (apply lt_0_INR; exact Hs). field. repeat split; lra.
Qed.

Lemma qutip_rates_differ :
  forall hbar initial tb h ops, (0 < hbar)%R -> (0 < tn tb)%nat -> (0 < tstep tb)%nat -> op_wf h -> Forall op_wf ops ->
  exists q ts, solve_qutip hbar initial tb h ops = Some q /\ times tb = Some ts /\ q_times q = ts /\ q_dt q = (tspan tb / INR (tn tb * tstep tb))%R /\
    q_state q = aflat (vdata initial) /\ (forall r c, q_h q r c = op_entry h r c / RtoC hbar) /\
    (forall r c, jump_rate (q_ops q) r c = (jump_rate (map (fun (L : nat -> nat -> C) a b => (L a b / RtoC (sqrt hbar))%C) (map op_entry ops)) r c / hbar)%R) /\
    (forall r c, jump_rate (q_ops q) r c = jump_rate (map (fun L a b => L a b / RtoC (sqrt hbar)) (map op_entry ops)) r c <->
       hbar = 1%R \/ jump_rate (map op_entry ops) r c = 0%R).
Proof.
  intros hbar initial tb h ops Hb Hn Hs W F. destruct (qutip_spec hbar initial tb h ops Hn Hs W F) as [ts [Et E]].
  eexists. exists ts. split; [exact E|]. split; [exact Et|]. split; [reflexivity|]. split; [reflexivity|]. split; [reflexivity|]. split; [reflexivity|].
  cbn [q_ops]. split; [intros; apply qutip_rates; exact Hb|]. intros r c.
  assert (P : (0 < sqrt hbar)%R) by (apply sqrt_lt_R0; exact Hb). rewrite !jump_rate_scaled by lra. rewrite sqrt_sqrt by lra. split.
  - intros Q. destruct (Req_dec (jump_rate (map op_entry ops) r c) 0) as [Z|Z]; [right; exact Z|left].
    apply (Rmult_eq_reg_r (jump_rate (map op_entry ops) r c)); [|exact Z]. apply (f_equal (fun x => (x * (hbar * hbar))%R)) in Q.
    replace (jump_rate (map op_entry ops) r c / (hbar * hbar) * (hbar * hbar))%R with (jump_rate (map op_entry ops) r c) in Q by (field; lra).
    replace (jump_rate (map op_entry ops) r c / hbar * (hbar * hbar))%R with (jump_rate (map op_entry ops) r c * hbar)%R in Q by (field; lra). lra.
  - intros [->|Z]; [field|rewrite Z; unfold Rdiv; ring].
Qed.
