(** Times, qutip's operators, raising cases and collapse operators from a function. *)
From Coq Require Import Reals Psatz List.
From Coquelicot Require Import Coquelicot.
From Verif Require Import ZLib Csum DFT NumPy Index Basis SpecBasis Operator SpecOperator OperatorProofs OperatorProofs2 Reduce StateList TimeBasis Dynamics SpecDynamics SseSolve SpecSseSolve SseSolveProofs.
Import ListNotations.
Local Open Scope R_scope.
Local Open Scope C_scope.

Lemma qutip_spec hbar initial tb h ops : (0 < tn tb)%nat -> (0 < tstep tb)%nat -> op_wf h -> Forall op_wf ops ->
  exists ts, times tb = Some ts /\ solve_qutip hbar initial tb h ops = Some
    {| q_state := aflat (vdata initial); q_h := fun r c => op_entry h r c / RtoC hbar;
       q_ops := map (fun L r c => L r c / RtoC hbar) (map op_entry ops); q_times := ts; q_dt := (tspan tb / INR (tn tb * tstep tb))%R |}.
Proof.
  intros Hn Hs W F. unfold solve_qutip. destruct (op_matrix_some h W) as [a [-> ->]]. rewrite (op_matrices ops F). unfold times. rewrite (fundamental_dt_some tb Hn Hs).
  unfold nt_points, arange. destruct (Z.eqb_spec (Z.of_nat (tstep tb)) 0) as [Z|_]; [lia|]. eexists. split; reflexivity.
Qed.
Lemma Cnorm2_div z (x : R) : x <> 0%R -> Cnorm2 (z / RtoC x) = (Cnorm2 z / (x * x))%R.
Proof.
  intros H. unfold Cdiv, Rdiv. rewrite <- RtoC_inv by exact H. rewrite Cnorm2_mult. unfold Cnorm2 at 2. cbn [fst snd RtoC]. field. exact H.
Qed.
Lemma jump_rate_scaled (s : R) Ls r c : s <> 0%R -> jump_rate (map (fun L a b => L a b / RtoC s) Ls) r c = (jump_rate Ls r c / (s * s))%R.
Proof.
  intros H. unfold jump_rate. induction Ls as [|L Ls IH]; cbn [map fold_right]; [field; exact H|]. rewrite IH, Cnorm2_div by exact H. field. exact H.
Qed.
Lemma qutip_rates hbar Ls r c : (0 < hbar)%R ->
  jump_rate (map (fun L a b => L a b / RtoC hbar) Ls) r c = (jump_rate (map (fun (L : nat -> nat -> C) a b => (L a b / RtoC (sqrt hbar))%C) Ls) r c / hbar)%R.
Proof.
  intros H. assert (P : (0 < sqrt hbar)%R) by (apply sqrt_lt_R0; exact H). rewrite !jump_rate_scaled by lra. rewrite sqrt_sqrt by lra. field. lra.
Qed.

Lemma banded_no_operators same hbar thr initial tb h nt nr : banded_solve same hbar thr initial tb h [] nt nr = None.
Proof. reflexivity. Qed.
Lemma rsum_const_zero n : rsum (fun _ => 0%R) n = 0%R.
Proof. induction n as [|n IH]; [reflexivity|]. cbn [rsum]. rewrite IH. ring. Qed.
Lemma zero_norm n m (a : nat -> nat -> C) : (forall i j, (i < n)%nat -> (j < m)%nat -> a i j = 0) -> matrix_norm n m a = 0%R.
Proof.
  intros H. unfold matrix_norm. rewrite (rsum_ext _ (fun _ => 0%R)); [rewrite rsum_const_zero; apply sqrt_0|]. intros i Hi.
  rewrite (rsum_ext _ (fun _ => 0%R)); [apply rsum_const_zero|]. intros j Hj. rewrite H by assumption. unfold Cnorm2. cbn. ring.
Qed.
Lemma banded_zero_operators same hbar thr initial tb h ops nt nr :
  Forall (fun o => op_wf o /\ forall i j, (i < bsize (orow o))%nat -> (j < bsize (ocol o))%nat -> op_entry o i j = 0) ops ->
  banded_solve same hbar thr initial tb h ops nt nr = None.
Proof.
  intros F. unfold banded_solve. assert (W : Forall op_wf ops) by (eapply Forall_impl; [|exact F]; intros o H; apply H). rewrite (norms_some ops W).
  set (norms := map _ ops). destruct (np_max norms) as [m|] eqn:Em; [|reflexivity]. destruct (np_max_spec _ _ Em) as [_ Im].
  assert (Z : m = 0%R). { unfold norms in Im. apply in_map_iff in Im as [o [<- Io]]. rewrite Forall_forall in F. apply zero_norm. apply (F o Io). }
  destruct (fundamental_dt tb) as [h0|]; [|reflexivity]. cbv zeta. rewrite Z. destruct (all_some _); [|reflexivity].
  destruct (Req_EM_T _ 0) as [_|N]; [reflexivity|]. exfalso. apply N. unfold Rdiv. ring.
Qed.

(** ** Collapse operators from a function *)
Lemma all_some_none {A} (l : list (option A)) : In None l -> all_some l = None.
Proof. induction l as [|x l IH]; [contradiction|]. intros [->|H]; [reflexivity|]. cbn [all_some]. rewrite (IH H). destruct x; reflexivity. Qed.
Lemma from_function_raises n0 n1 nb f : (0 < n0 * n1 * nb)%nat -> (1 < n0 * n1 * nb)%nat -> get_collapse_operators_from_function n0 n1 nb f = None.
Proof.
  intros P P1. unfold get_collapse_operators_from_function. apply all_some_none.
  assert (K : forall i b d, (i < n0 * n1 * nb)%nat -> (b < nb)%nat -> (d < 9)%nat -> collapse_entry n0 n1 nb f i b d = None ->
    In None (flat_map (fun i => flat_map (fun b => map (collapse_entry n0 n1 nb f i b) (seq 0 9)) (seq 0 nb)) (seq 0 (n0 * n1 * nb)))).
  { intros i b d Hi Hb Hd E. apply in_flat_map. exists i. split; [apply in_seq; lia|]. apply in_flat_map. exists b. split; [apply in_seq; lia|].
    apply in_map_iff. exists d. split; [exact E|apply in_seq; lia]. }
  assert (nb <> 0)%nat by nia. assert (n0 <> 0)%nat by nia. assert (n1 <> 0)%nat by nia.
  destruct (Nat.eq_dec (n1 * nb) 1) as [E1|E1].
  - assert (En : n1 = 1%nat) by nia. assert (Eb : nb = 1%nat) by nia. subst n1 nb. assert (2 <= n0)%nat by nia.
    apply (K 0%nat 0%nat 7%nat); [lia|lia|lia|]. unfold collapse_entry, hop_target.
    change (7 / 3)%nat with 2%nat. change (7 mod 3)%nat with 1%nat. rewrite !Nat.div_1_r, Nat.mod_1_r.
    replace (Z.of_nat 0 + Z.of_nat 2 - 1)%Z with 1%Z by lia. rewrite Z.mod_small by lia. rewrite Z.mod_1_r. change (Z.to_nat 1) with 1%nat. cbn [Z.to_nat].
    replace ((1 * 1 + 0) * 1 + 0)%nat with 1%nat by lia. change (1 <? 1)%nat with false. rewrite Bool.andb_false_r. reflexivity.
  - apply (K (n0 * n1 * nb - 1)%nat 0%nat 0%nat); [lia|lia|lia|]. unfold collapse_entry. destruct (Nat.ltb_spec (n0 * n1 * nb - 1) n0) as [L|L]; [exfalso; nia|reflexivity].
Qed.
Lemma from_function_one f : exists ops, get_collapse_operators_from_function 1 1 1 f = Some ops /\ length ops = 9%nat /\
  forall d, (d < 9)%nat -> ashape (nth d ops {| ashape := []; aflat := fun _ => 0 |}) = [1%nat] /\ aflat (nth d ops {| ashape := []; aflat := fun _ => 0 |}) 0%nat = RtoC (f 0%nat 0%nat d).
Proof.
  eexists. split; [reflexivity|]. split; [reflexivity|]. intros d Hd. do 9 (destruct d as [|d]; [split; reflexivity|]). lia.
Qed.
Lemma from_function_empty n0 n1 nb f : (n0 * n1 * nb = 0)%nat -> get_collapse_operators_from_function n0 n1 nb f = Some [].
Proof. intros H. unfold get_collapse_operators_from_function. rewrite H. reflexivity. Qed.
