(** Expectation values along solutions of the Schrodinger equation. *)
From Coq Require Import Reals Psatz.
From Coquelicot Require Import Coquelicot.
From Verif Require Import ZLib Csum DFT NumPy Basis SpecBasis BasisProofs BasisProofs2 BasisProofs3 Operator SpecOperator SpecMatrix LinAlg OperatorProofs
  OperatorProofs2 OperatorProofs3 Localize SpecLocalize LocalizeProofs3 SpecHamiltonian Dynamics SpecDynamics DynamicsProofs2 DynamicsProofs5 SupercellDynamics.
Local Open Scope R_scope.
Local Open Scope C_scope.

Lemma cderivative_conj f t l : cderivative f t l -> cderivative (fun s => Cconj (f s)) t (Cconj l).
Proof. intros [D1 D2]. split; cbn [Cconj fst snd]; [exact D1|]. apply @is_derive_opp. exact D2. Qed.
Lemma cderivative_mult f g t a b : cderivative f t a -> cderivative g t b -> cderivative (fun s => f s * g s) t (a * g t + f t * b).
Proof.
  intros [F1 F2] [G1 G2]. split; cbn [Cmult Cplus fst snd].
  - evar_last. { apply @is_derive_minus; (apply @is_derive_mult; [eassumption|eassumption|intros; apply Rmult_comm]). }
    unfold minus, plus, opp, mult. cbn. ring.
  - evar_last. { apply @is_derive_plus; (apply @is_derive_mult; [eassumption|eassumption|intros; apply Rmult_comm]). }
    unfold plus, mult. cbn. ring.
Qed.
Lemma cderivative_zero_constant f : (forall t, cderivative f t 0) -> forall s t, f s = f t.
Proof.
  intros H.
  assert (K : forall s t, (s < t)%R -> f s = f t).
  { intros s t L. apply injective_projections.
    - apply (eq_is_derive (fun u => fst (f u)) s t); [|exact L]. intros u _. exact (proj1 (H u)).
    - apply (eq_is_derive (fun u => snd (f u)) s t); [|exact L]. intros u _. exact (proj2 (H u)). }
  intros s t. destruct (Rtotal_order s t) as [L|[->|L]]; [apply K; exact L|reflexivity|symmetry; apply K; exact L].
Qed.

Lemma choice_below n (P : nat -> C -> Prop) : (forall x, (x < n)%nat -> exists d, P x d) -> exists d, forall x, (x < n)%nat -> P x (d x).
Proof.
  induction n as [|n IH]; intros H; [exists (fun _ => 0); intros; lia|].
  destruct IH as [d Hd]; [intros x Hx; apply H; lia|]. destruct (H n ltac:(lia)) as [e Hn].
  exists (fun x => if Nat.eqb x n then e else d x). intros x Hx. destruct (Nat.eqb_spec x n) as [->|N]; [exact Hn|apply Hd; lia].
Qed.

(** The commutator H A - A H. *)
Lemma ehrenfest_algebra n H A (u d : nat -> C) (c : C) : hermitian n H ->
  (forall x, (x < n)%nat -> d x = c * csum (fun y => H x y * u y) n) -> Cconj c = - c ->
  csum (fun i => csum (fun j => A i j * (Cconj (d i) * u j + Cconj (u i) * d j)) n) n =
  - c * matrix_element n u (fun i j => matmul n H A i j - matmul n A H i j) u.
Proof.
  intros Hh Hd Hc. unfold matrix_element, inner_product, matmul.
  transitivity (- c * (csum (fun i => csum (fun j => csum (fun k => Cconj (u i) * (H i k * A k j) * u j) n) n) n -
     csum (fun i => csum (fun j => csum (fun k => Cconj (u i) * (A i k * H k j) * u j) n) n) n)).
  - rewrite (csum_ext _ (fun i => csum (fun j => A i j * (Cconj (d i) * u j)) n + csum (fun j => A i j * (Cconj (u i) * d j)) n)).
    2:{ intros i _. rewrite <- csum_plus. apply csum_ext. intros; ring. }
    rewrite csum_plus.
    assert (X1 : csum (fun i => csum (fun j => A i j * (Cconj (d i) * u j)) n) n =
      - c * csum (fun i => csum (fun j => csum (fun k => Cconj (u i) * (H i k * A k j) * u j) n) n) n).
    { transitivity (- c * csum (fun k => csum (fun i => csum (fun j => Cconj (u i) * (H i k * A k j) * u j) n) n) n).
      - rewrite <- csum_scal_l. apply csum_ext. intros k Hk. rewrite csum_swap, <- csum_scal_l. apply csum_ext. intros j Hj.
        rewrite (Hd k Hk), Cconj_mult, Hc, Cconj_csum.
        transitivity (- c * (csum (fun y => Cconj (H k y * u y)) n * (A k j * u j))); [ring|]. f_equal. rewrite <- csum_scal_r.
        apply csum_ext. intros i Hi. pose proof (Hh i k Hi Hk) as Q. unfold adjoint in Q. rewrite Cconj_mult, Q. ring.
      - f_equal. rewrite csum_swap. apply csum_ext. intros i _. apply csum_swap. }
    assert (X2 : csum (fun i => csum (fun j => A i j * (Cconj (u i) * d j)) n) n =
      c * csum (fun i => csum (fun j => csum (fun k => Cconj (u i) * (A i k * H k j) * u j) n) n) n).
    { rewrite <- csum_scal_l. apply csum_ext. intros i Hi. rewrite (csum_swap (fun j k => Cconj (u i) * (A i k * H k j) * u j)), <- csum_scal_l.
      apply csum_ext. intros k Hk. rewrite (Hd k Hk).
      transitivity (c * (A i k * Cconj (u i) * csum (fun y => H k y * u y) n)); [ring|]. f_equal. rewrite <- csum_scal_l. apply csum_ext. intros; ring. }
    rewrite X1, X2. ring.
  - f_equal. rewrite <- csum_minus. apply csum_ext. intros i _. rewrite <- csum_minus, <- csum_scal_l. apply csum_ext. intros j _.
    rewrite <- csum_minus. rewrite <- csum_minus, <- csum_scal_r, <- csum_scal_l. apply csum_ext. intros; ring.
Qed.

Section Observables.
  Variable same : basis -> basis -> bool.
  Hypothesis Hsame : identity_test same.
  Variables (eigh : eigh_fn) (b : basis) (h : operator) (hbar : R).
  Hypothesis He : eigh_ok eigh.
  Hypothesis Hw : bwf b.
  Hypothesis Ho : explicit_orthonormal b.
  Hypothesis Hwf : op_wf h.
  Hypothesis Hr : orow h = b.
  Hypothesis Hc : ocol h = b.
  Hypothesis Hh : hermitian (bsize b) (op_entry h).
  Hypothesis Hb : hbar <> 0%R.
  Let n := bsize b.

  Lemma h_square : square n h. Proof using Hwf Hr Hc. split; [exact Hwf|]. rewrite Hr, Hc. split; reflexivity. Qed.

  Lemma ehrenfest : exists U : (nat -> C) -> R -> nat -> C,
    (forall psi nt times, exists out, solve_schrodinger_equation_decomposition eigh hbar psi nt times h = Some out /\
       ashape out = [nt; n] /\ forall s x, (s < nt)%nat -> (x < n)%nat -> at2 out s x = U psi (times s) x) /\
    (forall psi x, (x < n)%nat -> U psi 0%R x = psi x) /\
    forall a psi, op_wf a -> orow a = b -> ocol a = b -> exists p x c, get_commutator h a = Some p /\
      (forall t, calculate_expectation same a b (U psi t) = Some (x t)) /\
      (forall t, calculate_expectation same p b (U psi t) = Some (c t)) /\
      forall t, cderivative x t (Ci / RtoC hbar * c t).
  Proof.
    pose proof (bsize_pos b Hw) as Pn. fold n in Pn.
    destruct (schrodinger_spec eigh n h hbar He Pn h_square Hh Hb) as [U [U1 [U2 [_ [_ [_ U3]]]]]].
    exists U. split; [exact U1|]. split; [exact U2|]. intros a psi Wa Ra Ca.
    assert (Sa : square n a) by (split; [exact Wa|rewrite Ra, Ca; split; reflexivity]).
    destruct (commutator_spec n h a h_square Sa) as [p [Ep [Rp [Cp [Sp Vp]]]]].
    exists p, (fun t => matrix_element n (U psi t) (op_entry a) (U psi t)), (fun t => matrix_element n (U psi t) (op_entry p) (U psi t)).
    split; [exact Ep|]. split; [intros t; apply expectation_spec; assumption|].
    split; [intros t; apply expectation_spec; try assumption; [apply Sp|rewrite Rp; exact Hr|rewrite Cp; exact Ca]|].
    intros t. destruct (choice_below n (fun x d => cderivative (fun s => U psi s x) t d /\ Ci * RtoC hbar * d = applied n (op_entry h) (U psi t) x)
      (fun x Hx => U3 psi t x Hx)) as [d Hd].
    assert (Hd2 : forall x, (x < n)%nat -> d x = - Ci / RtoC hbar * csum (fun y => op_entry h x y * U psi t y) n).
    { intros x Hx. destruct (Hd x Hx) as [_ Q]. unfold applied in Q. rewrite <- Q.
      assert (Hz : RtoC hbar <> 0) by (intros Z; apply Hb; apply RtoC_inj in Z; exact Z).
      transitivity (- (Ci * Ci) * d x * (RtoC hbar * / RtoC hbar)); [|unfold Cdiv; ring].
      rewrite Cinv_r by exact Hz. replace (Ci * Ci) with (- RtoC 1) by (unfold Ci; apply injective_projections; cbn; ring). ring. }
    assert (Hcc : Cconj (- Ci / RtoC hbar) = - (- Ci / RtoC hbar)).
    { unfold Cdiv. rewrite <- RtoC_inv by exact Hb. rewrite Cconj_mult, Cconj_RtoC.
      unfold Ci. apply injective_projections; cbn; ring. }
    pose proof (ehrenfest_algebra n (op_entry h) (op_entry a) (U psi t) d _ Hh Hd2 Hcc) as X.
    assert (Ez : Ci / RtoC hbar * matrix_element n (U psi t) (op_entry p) (U psi t) =
      csum (fun i => csum (fun j => op_entry a i j * (Cconj (d i) * U psi t j + Cconj (U psi t i) * d j)) n) n).
    { rewrite X. f_equal; [unfold Cdiv; ring|]. unfold matrix_element, inner_product. apply csum_ext. intros i Hi. f_equal. apply csum_ext. intros j Hj.
      rewrite (Vp i j Hi Hj). reflexivity. }
    rewrite Ez. eapply cderivative_ext.
    2:{ apply (cderivative_csum (fun i s => csum (fun j => op_entry a i j * (Cconj (U psi s i) * U psi s j)) n)). intros i Hi.
        apply (cderivative_csum (fun j s => op_entry a i j * (Cconj (U psi s i) * U psi s j))). intros j Hj.
        apply cderivative_scal. apply cderivative_mult; [apply cderivative_conj|]; apply Hd; assumption. }
    intros s. cbv beta. unfold matrix_element, inner_product. apply csum_ext. intros i Hi. rewrite <- csum_scal_l. apply csum_ext. intros; ring.
  Qed.

  Lemma conserved a psi nt times : op_wf a -> orow a = b -> ocol a = b ->
    (forall i j, (i < n)%nat -> (j < n)%nat -> matmul n (op_entry h) (op_entry a) i j = matmul n (op_entry a) (op_entry h) i j) ->
    exists out x, solve_schrodinger_equation_decomposition eigh hbar psi nt times h = Some out /\ ashape out = [nt; n] /\
      calculate_expectation same a b psi = Some x /\
      forall s, (s < nt)%nat -> calculate_expectation same a b (at2 out s) = Some x.
  Proof.
    intros Wa Ra Ca Hcomm. destruct ehrenfest as [U [U1 [U2 U3]]]. destruct (U1 psi nt times) as [out [Eo [So Vo]]].
    destruct (U3 a psi Wa Ra Ca) as [p [x [c [Ep [Ex [Ec Dx]]]]]].
    assert (Sa : square n a) by (split; [exact Wa|rewrite Ra, Ca; split; reflexivity]).
    destruct (commutator_spec n h a h_square Sa) as [p' [Ep' [Rp [Cp [Sp Vp]]]]]. rewrite Ep in Ep'. injection Ep' as <-.
    assert (Zc : forall t, c t = 0).
    { intros t. pose proof (Ec t) as E. rewrite expectation_spec in E; try assumption; [|apply Sp|rewrite Rp; exact Hr|rewrite Cp; exact Ca].
      injection E as <-. unfold matrix_element, inner_product. rewrite (csum_ext _ (fun _ => 0)); [apply csum_zero|]. intros i Hi.
      rewrite (csum_ext _ (fun _ => 0)); [rewrite csum_zero; ring|]. intros j Hj. fold n in Hi, Hj. rewrite (Vp i j Hi Hj), (Hcomm i j Hi Hj). ring. }
    assert (K : forall t, x t = x 0%R).
    { intros t. apply cderivative_zero_constant. intros s. pose proof (Dx s) as D. rewrite Zc, Cmult_0_r in D. exact D. }
    assert (Q : forall u v, (forall i, (i < n)%nat -> u i = v i) -> calculate_expectation same a b u = calculate_expectation same a b v).
    { intros u v E. rewrite !expectation_spec by assumption. f_equal. unfold matrix_element. apply inner_ext; [exact E|]. intros i Hi.
      apply csum_ext. intros j Hj. rewrite (E j Hj). reflexivity. }
    exists out, (x 0%R). split; [exact Eo|]. split; [exact So|]. split.
    - rewrite <- (Ex 0%R). apply Q. intros i Hi. symmetry. apply U2. exact Hi.
    - intros s Hs. rewrite <- (K (times s)), <- (Ex (times s)). apply Q. intros i Hi. apply Vo; assumption.
  Qed.

  (** The energy and its square. *)
  Lemma energy_conserved psi nt times :
    exists out x, solve_schrodinger_equation_decomposition eigh hbar psi nt times h = Some out /\
      calculate_expectation same h b psi = Some x /\ forall s, (s < nt)%nat -> calculate_expectation same h b (at2 out s) = Some x.
  Proof.
    destruct (conserved h psi nt times Hwf Hr Hc) as [out [x [E [_ X]]]]; [reflexivity|]. exists out, x. auto.
  Qed.
End Observables.

(** Occupations of eigenvectors. *)
Lemma occupation_conserved eigh n h hbar e (b : nat -> C) : eigh_ok eigh -> (0 < n)%nat -> square n h -> hermitian n (op_entry h) -> hbar <> 0%R ->
  (forall i, (i < n)%nat -> csum (fun j => op_entry h i j * b j) n = RtoC e * b i) ->
  forall psi nt times, exists out, solve_schrodinger_equation_decomposition eigh hbar psi nt times h = Some out /\
    forall s, (s < nt)%nat -> Cnorm2 (inner_product n b (at2 out s)) = Cnorm2 (inner_product n b psi).
Proof.
  intros He Hn Hs Hh Hb Ev psi nt times. destruct (evolved_component eigh n h hbar e b He Hn Hs Hh Hb Ev psi nt times) as [out [E [_ X]]].
  exists out. split; [exact E|]. intros s Hs'. destruct (X s Hs') as [Y _]. rewrite Y, phase_eq by exact Hb.
  rewrite Cnorm2_mult. assert (Q : Cnorm2 (cexp (rotation hbar e * RtoC (times s))) = 1%R); [|rewrite Q; ring].
  apply RtoC_inj. rewrite <- (cexp_imaginary _ (rotation_fst hbar e (times s))). rewrite <- Cconj_mult_self. ring.
Qed.

(** An operator that commutes with the example of a Hamiltonian, and is not a multiple of it. *)
Definition exchange : operator :=
  {| orow := BFund 2; ocol := BFund 2;
     odata := {| ashape := [4%nat]; aflat := fun k => match k with 1%nat => Ci | 2%nat => - Ci | _ => RtoC 0 end |} |}.
Lemma exchange_commutes : bwf (BFund 2) /\ explicit_orthonormal (BFund 2) /\ op_wf coupled /\ orow coupled = BFund 2 /\ ocol coupled = BFund 2 /\
  hermitian (bsize (BFund 2)) (op_entry coupled) /\ op_wf exchange /\ orow exchange = BFund 2 /\ ocol exchange = BFund 2 /\
  forall i j, (i < 2)%nat -> (j < 2)%nat -> matmul 2 (op_entry coupled) (op_entry exchange) i j = matmul 2 (op_entry exchange) (op_entry coupled) i j.
Proof.
  split; [cbn; lia|]. split; [cbn; exact I|]. split; [apply coupled_state|]. split; [reflexivity|]. split; [reflexivity|]. split; [apply coupled_state|].
  split; [reflexivity|]. split; [reflexivity|]. split; [reflexivity|].
  intros i j Hi Hj. unfold matmul, op_entry. destruct i as [|[|i]]; [| |lia]; (destruct j as [|[|j]]; [| |lia]); cbn; apply injective_projections; cbn; ring.
Qed.
