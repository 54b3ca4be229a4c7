(** Scaling of the stochastic Schroedinger equation and the jobs of the solvers. *)
From Coq Require Import Reals Psatz List.
From Coquelicot Require Import Coquelicot.
From Verif Require Import ZLib Csum DFT NumPy Index Basis SpecBasis Operator SpecOperator OperatorProofs OperatorProofs2 Reduce StateList TimeBasis Dynamics SpecDynamics DynamicsProofs6 SseSolve SpecSseSolve.
Import ListNotations.
Local Open Scope R_scope.
Local Open Scope C_scope.

(** ** The equation only depends on the Hamiltonian times h and the operators times the root *)
Section Scaling.
  Variable n : nat.
  Definition scaled_same (s s' : R) (L L' : nat -> nat -> C) : Prop :=
    forall r c, (r < n)%nat -> (c < n)%nat -> RtoC s * L r c = RtoC s' * L' r c.
  Lemma act_scaled s s' L L' psi r : scaled_same s s' L L' -> (r < n)%nat -> RtoC s * act n L psi r = RtoC s' * act n L' psi r.
  Proof using n.
    intros H Hr. unfold act. rewrite <- !csum_scal_l. apply csum_ext. intros c Hc. rewrite !Cmult_assoc, H by assumption. reflexivity.
  Qed.
  Lemma expectation_scaled s s' L L' psi : scaled_same s s' L L' -> RtoC s * expectation n L psi = RtoC s' * expectation n L' psi.
  Proof using n.
    intros H. unfold expectation. rewrite <- !csum_scal_l. apply csum_ext. intros r Hr.
    transitivity (Cconj (psi r) * (RtoC s * act n L psi r)); [ring|]. rewrite (act_scaled s s' L L' psi r H Hr). ring.
  Qed.
  Lemma conj_scaled (s s' : R) a b : RtoC s * a = RtoC s' * b -> RtoC s * Cconj a = RtoC s' * Cconj b.
  Proof using Type.
    intros H. apply (f_equal Cconj) in H. rewrite !Cconj_mult in H.
    assert (E : forall x : R, Cconj (RtoC x) = RtoC x) by (intros x; unfold Cconj, RtoC; cbn; f_equal; ring). rewrite !E in H. exact H.
  Qed.
  Lemma adjoint_scaled s s' L L' psi r : scaled_same s s' L L' -> (r < n)%nat ->
    RtoC s * RtoC s * act_adjoint n L (act n L psi) r = RtoC s' * RtoC s' * act_adjoint n L' (act n L' psi) r.
  Proof using n.
    intros H Hr. unfold act_adjoint. rewrite <- !csum_scal_l. apply csum_ext. intros c Hc.
    transitivity ((RtoC s * Cconj (L c r)) * (RtoC s * act n L psi c)); [ring|].
    rewrite (conj_scaled s s' _ _ (H c r Hc Hr)), (act_scaled s s' L L' psi c H Hc). ring.
  Qed.
  Lemma collapse_scaled h h' Ls Ls' : 0 <= h -> 0 <= h' -> Forall2 (scaled_same (sqrt h) (sqrt h')) Ls Ls' ->
    forall xi psi r, (r < n)%nat -> collapse_terms n Ls h xi psi r = collapse_terms n Ls' h' xi psi r.
  Proof using n.
    intros Hh Hh' F. induction F as [|L L' Ls Ls' H F IH]; intros xi psi r Hr; [reflexivity|]. cbn [collapse_terms].
    rewrite (IH _ psi r Hr). f_equal.
    assert (Q : RtoC h = RtoC (sqrt h) * RtoC (sqrt h)) by (rewrite <- RtoC_mult, sqrt_sqrt by exact Hh; reflexivity).
    assert (Q' : RtoC h' = RtoC (sqrt h') * RtoC (sqrt h')) by (rewrite <- RtoC_mult, sqrt_sqrt by exact Hh'; reflexivity).
    rewrite Q, Q'. set (s := RtoC (sqrt h)) in *. set (s' := RtoC (sqrt h')) in *.
    pose proof (act_scaled _ _ _ _ psi r H Hr) as E1. pose proof (expectation_scaled _ _ _ _ psi H) as E2.
    pose proof (conj_scaled _ _ _ _ E2) as E3. pose proof (adjoint_scaled _ _ _ _ psi r H Hr) as E4. fold s s' in E1, E2, E3, E4.
    set (e := expectation n L psi) in *. set (e' := expectation n L' psi) in *.
    set (a := act n L psi r) in *. set (a' := act n L' psi r) in *.
    set (b := act_adjoint n L (act n L psi) r) in *. set (b' := act_adjoint n L' (act n L' psi) r) in *.
    transitivity ((s * Cconj e) * (s * a) - RtoC (/ 2) * (s * s * b) - RtoC (/ 2) * (s * Cconj e) * (s * e) * psi r + xi 0%nat * (s * a - s * e * psi r)); [ring|].
    rewrite E1, E2, E3, E4. ring.
  Qed.
  Lemma euler_scaled h h' H H' Ls Ls' : 0 <= h -> 0 <= h' -> scaled_same h h' H H' -> Forall2 (scaled_same (sqrt h) (sqrt h')) Ls Ls' ->
    forall xi psi r, (r < n)%nat -> euler_step n H Ls h xi psi r = euler_step n H' Ls' h' xi psi r.
  Proof using n.
    intros Hh Hh' HH F xi psi r Hr. unfold euler_step. rewrite (collapse_scaled h h' Ls Ls' Hh Hh' F xi psi r Hr).
    assert (E : RtoC h * Ci * act n H psi r = RtoC h' * Ci * act n H' psi r).
    { transitivity (Ci * (RtoC h * act n H psi r)); [ring|]. rewrite (act_scaled h h' H H' psi r HH Hr). ring. }
    rewrite E. reflexivity.
  Qed.
End Scaling.

(** ** The jobs *)
Lemma op_matrix_some o : op_wf o -> exists a, op_matrix o = Some a /\ a = op_entry o.
Proof.
  intros W. unfold op_matrix. rewrite (op_reshape o W). eexists. split; reflexivity.
Qed.
Lemma all_some_total {A B} (f : A -> option B) (P : A -> B -> Prop) l : Forall (fun x => exists y, f x = Some y /\ P x y) l ->
  exists ys, all_some (map f l) = Some ys /\ Forall2 P l ys.
Proof.
  intros F. induction F as [|x l [y [E H]] F [ys [Es IH]]]; [exists []; split; [reflexivity|constructor]|].
  exists (y :: ys). cbn [map all_some]. rewrite E, Es. split; [reflexivity|constructor; assumption].
Qed.
Lemma Forall2_map_eq {A B} (f : A -> B) l ys : Forall2 (fun x y => y = f x) l ys -> ys = map f l.
Proof. intros F. induction F as [|x y l ys E F IH]; [reflexivity|]. cbn. rewrite E, IH. reflexivity. Qed.
Lemma op_matrices ops : Forall op_wf ops -> all_some (map op_matrix ops) = Some (map op_entry ops).
Proof.
  intros F. destruct (all_some_total op_matrix (fun o a => a = op_entry o) ops) as [ys [E H]].
  { eapply Forall_impl; [|exact F]. intros o W. exact (op_matrix_some o W). }
  rewrite E, (Forall2_map_eq _ _ _ H). reflexivity.
Qed.

Lemma dt_some tb : (0 < tn tb)%nat -> dt tb = Some (tspan tb / INR (tn tb))%R.
Proof. intros H. unfold dt. destruct (Nat.eqb_spec (tn tb) 0); [lia|reflexivity]. Qed.
Lemma fundamental_dt_some tb : (0 < tn tb)%nat -> (0 < tstep tb)%nat -> fundamental_dt tb = Some (tspan tb / INR (tn tb * tstep tb))%R.
Proof. intros H H'. unfold fundamental_dt, tfund. destruct (Nat.eqb_spec (tn tb * tstep tb) 0); [nia|reflexivity]. Qed.

Lemma rust_spec hbar initial tb h ops nt nr : (0 < tn tb)%nat -> op_wf h -> Forall op_wf ops ->
  rust_job hbar initial tb h ops nt nr = Some
    {| job_state := aflat (vdata initial); job_h := fun r c => op_entry h r c / RtoC hbar;
       job_ops := map (fun L r c => L r c / RtoC (sqrt hbar)) (map op_entry ops);
       job_n := tn tb; job_step := tstep tb; job_dt := (tspan tb / INR (tn tb))%R; job_trajectories := nt; job_realizations := nr |}.
Proof.
  intros Hn W F. unfold rust_job. destruct (op_matrix_some h W) as [a [-> ->]]. rewrite (op_matrices ops F), (dt_some tb Hn). reflexivity.
Qed.

(** Frobenius norms. *)
Lemma matrix_norm_nonneg n m a : 0 <= matrix_norm n m a.
Proof. apply sqrt_pos. Qed.
Lemma fold_max_ge l : forall x, x <= fold_left Rmax l x /\ Forall (fun y => y <= fold_left Rmax l x) l.
Proof.
  induction l as [|y l IH]; intros x; cbn [fold_left]; [split; [lra|constructor]|]. destruct (IH (Rmax x y)) as [H1 H2].
  pose proof (Rmax_l x y). pose proof (Rmax_r x y). split; [lra|]. constructor; [lra|exact H2].
Qed.
Lemma fold_max_in l : forall x, fold_left Rmax l x = x \/ In (fold_left Rmax l x) l.
Proof.
  induction l as [|y l IH]; intros x; cbn [fold_left]; [left; reflexivity|]. destruct (IH (Rmax x y)) as [H|H]; [|right; right; exact H].
  rewrite H. unfold Rmax. destruct (Rle_dec x y); [right; left; reflexivity|left; reflexivity].
Qed.
Lemma np_max_spec l m : np_max l = Some m -> Forall (fun y => y <= m) l /\ In m l.
Proof.
  destruct l as [|x l]; [discriminate|]. cbn [np_max]. intros E. injection E as <-. destruct (fold_max_ge l x) as [H1 H2]. split; [constructor; assumption|].
  destruct (fold_max_in l x) as [H|H]; [left; symmetry; exact H|right; exact H].
Qed.

Lemma norms_some ops : Forall op_wf ops -> all_some (map op_norm ops) = Some (map (fun o => matrix_norm (bsize (orow o)) (bsize (ocol o)) (op_entry o)) ops).
Proof.
  intros F. destruct (all_some_total op_norm (fun o x => x = matrix_norm (bsize (orow o)) (bsize (ocol o)) (op_entry o)) ops) as [ys [E H]].
  { eapply Forall_impl; [|exact F]. intros o W. unfold op_norm. destruct (op_matrix_some o W) as [a [-> ->]]. eexists. split; reflexivity. }
  rewrite E. f_equal. exact (Forall2_map_eq _ _ _ H).
Qed.
Lemma rsum_ge_term f n i : (i < n)%nat -> (forall k, (k < n)%nat -> (0 <= f k)%R) -> (f i <= rsum f n)%R.
Proof.
  intros Hi H. induction n as [|n IH]; [lia|]. cbn [rsum]. destruct (Nat.eq_dec i n) as [->|N].
  - assert ((0 <= rsum f n)%R) by (apply rsum_nonneg; intros; apply H; lia). lra.
  - pose proof (IH ltac:(lia) ltac:(intros; apply H; lia)). pose proof (H n ltac:(lia)). lra.
Qed.
Lemma matrix_norm_entry n m (a : nat -> nat -> C) i j : (i < n)%nat -> (j < m)%nat -> a i j <> 0 -> (0 < matrix_norm n m a)%R.
Proof.
  intros Hi Hj H. apply sqrt_lt_R0. assert (P : (0 < Cnorm2 (a i j))%R).
  { destruct (Rle_lt_or_eq_dec 0 (Cnorm2 (a i j)) (Cnorm2_nonneg _)) as [Q|Q]; [exact Q|]. exfalso. apply H. clear H. revert Q. generalize (a i j). intros [x y] Q.
    unfold Cnorm2 in Q. cbn [fst snd] in Q. assert (X : x = 0%R) by nra. assert (Y : y = 0%R) by nra. rewrite X, Y. reflexivity. }
  eapply Rlt_le_trans; [exact P|]. eapply Rle_trans; [|apply (rsum_ge_term (fun i => rsum (fun j => Cnorm2 (a i j)) m) n i Hi)].
  - apply (rsum_ge_term (fun j => Cnorm2 (a i j)) m j Hj). intros; apply Cnorm2_nonneg.
  - intros; apply rsum_nonneg. intros; apply Cnorm2_nonneg.
Qed.
Lemma np_max_some (l : list R) : l <> [] -> exists m, np_max l = Some m.
Proof. destruct l; [contradiction|]. intros _. eexists. reflexivity. Qed.

Lemma Forall2_weaken {A B} (P Q : A -> B -> Prop) l l' : (forall x y, P x y -> Q x y) -> Forall2 P l l' -> Forall2 Q l l'.
Proof. intros H F. induction F; constructor; auto. Qed.
Section Banded.
  Variables (same : basis -> basis -> bool) (hbar thr : R) (initial : vector) (tb : time_basis) (h : operator) (ops : list operator) (nt nr n : nat).
  Hypothesis Hhbar : (0 < hbar)%R.
  Hypothesis Hspan : (0 < tspan tb)%R.
  Hypothesis Hn : (0 < tn tb)%nat.
  Hypothesis Hs : (0 < tstep tb)%nat.
  Hypothesis Hh : square n h.
  Hypothesis Hops : Forall (fun o => op_wf o /\ compatible (orow o) (orow h) /\ compatible (ocol o) (ocol h)) ops.
  Hypothesis Hnz : Exists (fun o => exists i j, (i < bsize (orow o))%nat /\ (j < bsize (ocol o))%nat /\ op_entry o i j <> 0) ops.
  Variable psi' : vector.
  Hypothesis Hpsi : convert_vector_to same initial (orow h) = Some psi'.
  Notation h0 := (tspan tb / INR (tn tb * tstep tb))%R.
  Lemma h0_pos : (0 < h0)%R.
  Proof using Hspan Hn Hs. apply Rdiv_lt_0_compat; [exact Hspan|]. apply lt_0_INR. nia. Qed.
  Lemma banded_spec : exists job ops' m,
    banded_solve same hbar thr initial tb h ops nt nr = Some job /\
    Forall2 (fun o o' => convert_operator_to_basis same o (orow h) (ocol h) = Some o') ops ops' /\
    (0 < m)%R /\ Forall (fun o => (matrix_norm (bsize (orow o)) (bsize (ocol o)) (op_entry o) <= m)%R) ops /\
    Exists (fun o => matrix_norm (bsize (orow o)) (bsize (ocol o)) (op_entry o) = m) ops /\
    job = {| bj_state := aflat (vdata psi'); bj_h := get_banded_operator n (scaled (m * m) (op_entry h)) (thr / (h0 * (m * m) / hbar));
             bj_ops := map (fun b => get_banded_operator n (scaled m b) (thr / (h0 * (m * m) / hbar))) (map op_entry ops');
             bj_n := tn tb; bj_step := tstep tb; bj_dt := (h0 * (m * m) / hbar)%R; bj_trajectories := nt; bj_realizations := nr |}.
  Proof using Hhbar Hspan Hn Hs Hh Hops Hnz Hpsi.
    assert (W : Forall op_wf ops) by (eapply Forall_impl; [|exact Hops]; intros o H; apply H).
    assert (N : ops <> []) by (intros E; rewrite E in Hnz; inversion Hnz).
    set (norms := map (fun o => matrix_norm (bsize (orow o)) (bsize (ocol o)) (op_entry o)) ops).
    destruct (np_max_some norms) as [m Em]. { unfold norms. destruct ops; [contradiction|discriminate]. }
    destruct (np_max_spec norms m Em) as [Le Im].
    assert (Pm : (0 < m)%R).
    { apply Exists_exists in Hnz as [o [Io [i [j [Hi [Hj Ho]]]]]]. rewrite Forall_forall in Le.
      eapply Rlt_le_trans; [exact (matrix_norm_entry _ _ _ i j Hi Hj Ho)|]. apply Le. unfold norms. apply (in_map (fun o => matrix_norm (bsize (orow o)) (bsize (ocol o)) (op_entry o))). exact Io. }
    destruct (all_some_total (fun o => convert_operator_to_basis same o (orow h) (ocol h)) (fun o o' => convert_operator_to_basis same o (orow h) (ocol h) = Some o' /\ op_wf o') ops) as [ops' [E' F']].
    { eapply Forall_impl; [|exact Hops]. intros o [Wo [C1 C2]]. destruct (convert_operator_spec same o _ _ Wo C1 C2) as [F [r [_ [Er [Wr _]]]]]. exists r. split; [exact Er|]. split; [exact Er|exact Wr]. }
    assert (Ec : all_some (map (fun o => match convert_operator_to_basis same o (orow h) (ocol h) with Some o => op_matrix o | None => None end) ops) = Some (map op_entry ops')).
    { clear - F'. induction F' as [|o o' l l' [E W] F IH]; [reflexivity|]. cbn [map all_some]. rewrite E. destruct (op_matrix_some o' W) as [a [-> ->]]. rewrite IH. reflexivity. }
    assert (Pd : (0 < h0 * (m * m) / hbar)%R) by (apply Rdiv_lt_0_compat; [apply Rmult_lt_0_compat; [exact h0_pos|nra]|exact Hhbar]).
    eexists. exists ops', m. split.
    { unfold banded_solve. rewrite (norms_some ops W). fold norms. rewrite Em, (fundamental_dt_some tb Hn Hs). cbv zeta. rewrite Ec.
      destruct (Req_EM_T _ 0) as [Z|_]; [exfalso; lra|]. destruct Hh as [Wh [Hr Hc]]. destruct (op_matrix_some h Wh) as [a [-> ->]]. rewrite Hpsi, Hr. reflexivity. }
    split; [eapply Forall2_weaken; [|exact F']; intros o o' H; apply H|]. split; [exact Pm|].
    split; [unfold norms in Le; rewrite Forall_map in Le; exact Le|].
    split; [unfold norms in Im; apply in_map_iff in Im as [o [Eo Io]]; apply Exists_exists; exists o; split; assumption|reflexivity].
  Qed.
  Lemma root_dt m : (0 < m)%R -> (sqrt (h0 * (m * m) / hbar) = sqrt h0 * m / sqrt hbar)%R.
  Proof using Hhbar Hspan Hn Hs.
    intros Pm. pose proof h0_pos as P0. unfold Rdiv at 1. rewrite sqrt_mult_alt by nra. rewrite sqrt_mult_alt by lra. rewrite sqrt_square by lra.
    unfold Rdiv at 2. f_equal. rewrite <- inv_sqrt_depr by exact Hhbar. reflexivity.
  Qed.
  Lemma scaled_h m r c : (0 < m)%R ->
    RtoC (h0 * (m * m) / hbar) * scaled (m * m) (op_entry h) r c = RtoC h0 * (op_entry h r c / RtoC hbar).
  Proof using Hhbar Hspan Hn Hs.
    intros Pm. unfold scaled. assert (RtoC m <> 0) by (intros E; apply RtoC_inj in E; lra). assert (RtoC hbar <> 0) by (intros E; apply RtoC_inj in E; lra).
    rewrite RtoC_div, RtoC_mult, !RtoC_mult by lra. field. split; assumption.
  Qed.
  Lemma scaled_op m (L : nat -> nat -> C) r c : (0 < m)%R ->
    RtoC (sqrt (h0 * (m * m) / hbar)) * scaled m L r c = RtoC (sqrt h0) * (L r c / RtoC (sqrt hbar)).
  Proof using Hhbar Hspan Hn Hs.
    intros Pm. rewrite (root_dt m Pm). unfold scaled. assert (P : (0 < sqrt hbar)%R) by (apply sqrt_lt_R0; exact Hhbar).
    assert (RtoC m <> 0) by (intros E; apply RtoC_inj in E; lra). assert (RtoC (sqrt hbar) <> 0) by (intros E; apply RtoC_inj in E; lra).
    rewrite RtoC_div, RtoC_mult by lra. field. split; assumption.
  Qed.
End Banded.
Lemma banded_exact n a r c : (r < n)%nat -> (c < n)%nat -> from_bands n (get_banded_operator n a 0) r c = a r c.
Proof.
  intros Hr Hc. destruct (banded_error n a 0 r c (Rle_refl 0) Hr Hc) as [E1 E2].
  pose proof (Rabs_pos (fst (from_bands n (get_banded_operator n a 0) r c) - fst (a r c))). pose proof (Rabs_pos (snd (from_bands n (get_banded_operator n a 0) r c) - snd (a r c))).
  assert (Z : forall x, (Rabs x <= 0)%R -> x = 0%R) by (intros x Hx; pose proof (Rabs_pos x); apply Rabs_eq_0; lra).
  apply Z in E1, E2. apply injective_projections; lra.
Qed.
Lemma fst_real_mult (x : R) (z : C) : fst (RtoC x * z) = (x * fst z)%R /\ snd (RtoC x * z) = (x * snd z)%R.
Proof. destruct z as [a b]. unfold Cmult, RtoC. cbn [fst snd]. split; ring. Qed.
Lemma scaled_error (x : R) (z w : C) e : (0 <= x)%R -> (Rabs (fst z - fst w) <= e)%R /\ (Rabs (snd z - snd w) <= e)%R ->
  (Rabs (fst (RtoC x * z)%C - fst (RtoC x * w)%C) <= x * e)%R /\ (Rabs (snd (RtoC x * z)%C - snd (RtoC x * w)%C) <= x * e)%R.
Proof.
  intros Hx [H1 H2]. destruct (fst_real_mult x z) as [-> ->]. destruct (fst_real_mult x w) as [-> ->].
  rewrite <- !Rmult_minus_distr_l, !Rabs_mult, (Rabs_right x) by lra. split; apply Rmult_le_compat_l; assumption.
Qed.

Lemma banded_step same hbar thr initial tb h ops nt nr n psi' :
  (0 < hbar)%R -> (0 < tspan tb)%R -> (0 < tn tb)%nat -> (0 < tstep tb)%nat -> square n h ->
  Forall (fun o => op_wf o /\ compatible (orow o) (orow h) /\ compatible (ocol o) (ocol h)) ops ->
  Exists (fun o => exists i j, (i < bsize (orow o))%nat /\ (j < bsize (ocol o))%nat /\ op_entry o i j <> 0) ops ->
  convert_vector_to same initial (orow h) = Some psi' -> (0 <= thr)%R ->
  exists job ops' m,
    banded_solve same hbar thr initial tb h ops nt nr = Some job /\
    Forall2 (fun o o' => convert_operator_to_basis same o (orow h) (ocol h) = Some o') ops ops' /\
    (0 < m)%R /\ Forall (fun o => (matrix_norm (bsize (orow o)) (bsize (ocol o)) (op_entry o) <= m)%R) ops /\
    Exists (fun o => matrix_norm (bsize (orow o)) (bsize (ocol o)) (op_entry o) = m) ops /\
    bj_state job = aflat (vdata psi') /\ bj_n job = tn tb /\ bj_step job = tstep tb /\ bj_trajectories job = nt /\ bj_realizations job = nr /\
    let h0 := (tspan tb / INR (tn tb * tstep tb))%R in
    bj_dt job = (h0 * (m * m) / hbar)%R /\ (0 < bj_dt job)%R /\
    (forall r c, (r < n)%nat -> (c < n)%nat ->
      let z := RtoC (bj_dt job) * from_bands n (bj_h job) r c in let w := RtoC h0 * (op_entry h r c / RtoC hbar) in
      (Rabs (fst z - fst w) <= thr)%R /\ (Rabs (snd z - snd w) <= thr)%R) /\
    Forall2 (fun b o' => forall r c, (r < n)%nat -> (c < n)%nat ->
      let z := RtoC (sqrt (bj_dt job)) * from_bands n b r c in let w := RtoC (sqrt h0) * (op_entry o' r c / RtoC (sqrt hbar)) in
      (Rabs (fst z - fst w) <= thr / sqrt (bj_dt job))%R /\ (Rabs (snd z - snd w) <= thr / sqrt (bj_dt job))%R) (bj_ops job) ops' /\
    (thr = 0%R -> forall xi psi r, (r < n)%nat ->
      euler_step n (from_bands n (bj_h job)) (map (from_bands n) (bj_ops job)) (bj_dt job) xi psi r =
      physical_step hbar n (op_entry h) (map op_entry ops') h0 xi psi r).
Proof.
  intros Hb Hsp Hn Hs Hh Hops Hnz Hpsi Ht.
  destruct (banded_spec same hbar thr initial tb h ops nt nr n Hb Hsp Hn Hs Hh Hops Hnz psi' Hpsi) as [job [ops' [m [E [F [Pm [Le [Ex ->]]]]]]]].
  eexists. exists ops', m. split; [exact E|]. split; [exact F|]. split; [exact Pm|]. split; [exact Le|]. split; [exact Ex|].
  cbn [bj_state bj_n bj_step bj_trajectories bj_realizations bj_dt bj_h bj_ops]. split; [reflexivity|]. split; [reflexivity|]. split; [reflexivity|]. split; [reflexivity|]. split; [reflexivity|].
  cbv zeta. set (h0 := (tspan tb / INR (tn tb * tstep tb))%R) in *. pose proof (h0_pos tb Hsp Hn Hs) as P0. fold h0 in P0.
  set (d := (h0 * (m * m) / hbar)%R). assert (Pd : (0 < d)%R) by (apply Rdiv_lt_0_compat; [apply Rmult_lt_0_compat; [exact P0|nra]|exact Hb]).
  split; [reflexivity|]. split; [exact Pd|].
  assert (Sh : forall r c, RtoC d * scaled (m * m) (op_entry h) r c = RtoC h0 * (op_entry h r c / RtoC hbar)) by (intros; apply (scaled_h hbar tb h Hb Hsp Hn Hs m r c Pm)).
  assert (So : forall L r c, RtoC (sqrt d) * scaled m L r c = RtoC (sqrt h0) * (L r c / RtoC (sqrt hbar))) by (intros; apply (scaled_op hbar tb Hb Hsp Hn Hs m L r c Pm)).
  assert (Tp : (0 <= thr / d)%R) by (apply Rmult_le_pos; [exact Ht|left; apply Rinv_0_lt_compat; exact Pd]).
  assert (Qd : (0 < sqrt d)%R) by (apply sqrt_lt_R0; exact Pd). assert (Q2 : (sqrt d * sqrt d = d)%R) by (apply sqrt_sqrt; lra).
  split.
  { intros r c Hr Hc. rewrite <- Sh. replace thr with (d * (thr / d))%R at 2 4 by (field; lra). apply scaled_error; [lra|]. apply banded_error; assumption. }
  split.
  { rewrite map_map. clear - So Tp Qd Q2. induction ops' as [|o l IH]; [constructor|]. cbn [map]. constructor; [|exact IH]. intros r c Hr Hc. rewrite <- So.
    replace (thr / sqrt d)%R with (sqrt d * (thr / d))%R by (rewrite <- Q2 at 2; field; lra). apply scaled_error; [lra|]. apply banded_error; assumption. }
  intros T0 xi psi r Hr. unfold physical_step. apply euler_scaled; [lra|lra| | |exact Hr].
  - intros x y Hx Hy. rewrite T0. replace (0 / d)%R with 0%R by (field; lra). rewrite banded_exact by assumption. apply Sh.
  - rewrite !map_map. clear - So Pd T0. induction ops' as [|o l IH]; [constructor|]. cbn [map]. constructor; [|exact IH]. intros x y Hx Hy.
    rewrite T0. replace (0 / d)%R with 0%R by (field; lra). rewrite banded_exact by assumption. apply So.
Qed.

