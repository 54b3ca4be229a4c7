(** Proofs about probabilities, scattering functions and rate decompositions. *)
From Coq Require Import Reals Psatz.
From Coquelicot Require Import Coquelicot.
From Verif Require Import ZLib Csum DFT NumPy Index IndexProofs LinAlg Spectral HamiltonianProofs2 HamiltonianProofs3 Basis SpecBasis Operator SpecOperator OperatorProofs Kernel Reduce
  SpecHamiltonian Dynamics SpecDynamics DynamicsProofs DynamicsProofs2 DynamicsProofs3 DynamicsProofs7 DynamicsFacts Incoherent SpecIncoherent.
Local Open Scope R_scope.
Local Open Scope C_scope.

Section RateMatrix.
  Context (n : nat) (m : operator) (b : site_basis) (mx : held) (eig : eig_fn) (solve : solve_fn).
  Context (Hn : (0 < n)%nat) (Hsq : square n m) (Hr : rates n (op_entry m)) (Hmx : rate_matrix n m b mx).
  Context (Heig : eig_diagonalises eig n (held_entry n mx)) (Hsolve : solve_ok solve).

  Lemma rate_eigenstates : exists es W, eigenstates_of eig mx = Some (b, es) /\ es_size es = n /\
    (forall k i, (k < n)%nat -> (i < n)%nat -> applied n (held_entry n mx) (es_state es k) i = es_value es k * es_state es k i) /\
    inverse_matrices n (fun i k => es_state es k i) W /\
    (forall k, (k < n)%nat -> (fst (es_value es k) < 0)%R \/ es_value es k = 0).
  Proof using Hn Hsq Hr Hmx Heig.
    destruct Hmx as [Hb [Hbas [M [A' [EM Ed]]]]].
    destruct (m_matrix_spec m n Hsq) as [M0 [A0 [E0 [SqM _]]]].
    assert (EqM : M0 = M) by congruence. subst M0. destruct SqM as [WM [RM CM]].
    assert (Ent : forall i j, held_entry n mx i j = op_entry M i j).
    { intros i j. unfold held_entry, op_entry. rewrite Ed, CM. reflexivity. }
    assert (He : eig_diagonalises eig n (op_entry M)).
    { intros B HB. apply Heig. intros i j Hi Hj. rewrite Ent. apply HB; assumption. }
    destruct (eigenstates_spec n m M A' eig Hn Hsq Hr EM He) as [es [W [E1 [E2 [E3 [E4 [E5 _]]]]]]].
    exists es, W. split.
    { unfold eigenstates_of, as_matrix. rewrite Hbas. cbn [sb_item nth_error]. rewrite Ed, Hb.
      unfold calculate_tunnelling_eigenstates in *. cbn [orow ocol odata bsize]. rewrite RM, CM in E1. rewrite E1. reflexivity. }
    split; [exact E2|]. split; [|split; [exact E4|exact E5]].
    intros k i Hk Hi. rewrite <- (E3 k i Hk Hi). apply csum_ext. intros j _. rewrite Ent. reflexivity.
  Qed.

  Lemma simulated initial : ashape (hdata initial) = [n] -> exists p : R -> nat -> C,
    (forall nt times, exists out, simulation_state eig solve mx initial nt times = Some out /\
       hbasis out = Stacked [Axis nt; Stacked [b; b]] /\ ashape (hdata out) = [nt; n] /\
       forall s i, (s < nt)%nat -> (i < n)%nat -> at2 (hdata out) s i = p (times s) i) /\
    (forall i, (i < n)%nat -> p 0%R i = aflat (hdata initial) i) /\
    (distribution n (aflat (hdata initial)) -> forall t, (0 <= t)%R -> distribution n (p t)).
  Proof using Hn Hsq Hr Hmx Heig Hsolve.
    intros Hi. destruct rate_eigenstates as [es [W [E1 [E2 [E3 [E4 E5]]]]]].
    destruct Hmx as [Hb [Hbas [M [A' [EM Ed]]]]].
    destruct (m_matrix_spec m n Hsq) as [M0 [A0 [E0 [SqM _]]]].
    assert (EqM : M0 = M) by congruence. subst M0. destruct SqM as [WM [RM CM]].
    assert (Ent : forall i j, held_entry n mx i j = op_entry M i j).
    { intros i j. unfold held_entry, op_entry. rewrite Ed, CM. reflexivity. }
    assert (E3' : forall k i, (k < n)%nat -> (i < n)%nat -> applied n (op_entry M) (es_state es k) i = es_value es k * es_state es k i).
    { intros k i Hk Hi'. rewrite <- (E3 k i Hk Hi'). apply csum_ext. intros j _. rewrite Ent. reflexivity. }
    destruct (decomposition n solve Hsolve es W E2 E4 (aflat (hdata initial))) as [c [D1 D2]].
    exists (evolve n es c). split; [|split].
    - intros nt times. unfold simulation_state. rewrite E1. unfold simulation_of_eigenstates. rewrite Hi, E2, Nat.eqb_refl.
      unfold get_tunnelling_simulation_state. rewrite D1, E2. eexists. split; [reflexivity|]. cbn [hbasis hdata].
      split; [reflexivity|]. split; [reflexivity|]. intros s i Hs Hi'. rewrite at2_array2 by assumption. reflexivity.
    - apply (evolve_0 n es c _ D2).
    - intros Hd t Ht. apply (evolve_distribution n m M A' Hsq Hr EM es E3' c _ t D2 Hd Ht).
  Qed.

  Lemma probabilities_at_times initial nt times : diagonal_on b initial -> distribution n (aflat (hdata initial)) ->
    (forall s, (s < nt)%nat -> (0 <= times s)%R) ->
    exists states p, simulation_state eig solve mx initial nt times = Some states /\
      density_matrix_list_as_probabilities states = Some p /\
      hbasis p = Stacked [Axis nt; b] /\ ashape (hdata p) = [nt; n] /\
      forall s, (s < nt)%nat -> distribution n (at2 (hdata p) s) /\
        (forall i, (i < n)%nat -> at2 (hdata p) s i = at2 (hdata states) s i) /\
        (times s = 0%R -> forall i, (i < n)%nat -> at2 (hdata p) s i = aflat (hdata initial) i).
  Proof using Hn Hsq Hr Hmx Heig Hsolve.
    intros [_ Hi] Hd Ht. assert (Hb : sb_n b = n) by apply Hmx. rewrite Hb in Hi.
    destruct (simulated initial Hi) as [p [P1 [P2 P3]]]. destruct (P1 nt times) as [out [O1 [O2 [O3 O4]]]].
    exists out, {| hbasis := Stacked [Axis nt; b]; hdata := np_real (hdata out) |}.
    split; [exact O1|]. split. { unfold density_matrix_list_as_probabilities. rewrite O2. reflexivity. }
    cbn [hbasis hdata]. split; [reflexivity|]. split; [exact O3|]. intros s Hs.
    pose proof (P3 Hd (times s) (Ht s Hs)) as [Q1 Q2].
    assert (E : forall i, (i < n)%nat -> at2 (np_real (hdata out)) s i = at2 (hdata out) s i).
    { intros i Hi'. unfold at2, np_real. cbn [ashape aflat]. fold (at2 (hdata out) s i). rewrite (O4 s i Hs Hi').
      destruct (Q1 i Hi') as [Z _]. destruct (p (times s) i) as [a c]. cbn in *. subst c. reflexivity. }
    split; [|split; [exact E|]].
    - split.
      + intros i Hi'. rewrite (E i Hi'), (O4 s i Hs Hi'). apply Q1. exact Hi'.
      + rewrite <- Q2. apply csum_ext. intros i Hi'. rewrite (E i Hi'). apply O4; assumption.
    - intros Z i Hi'. rewrite (E i Hi'), (O4 s i Hs Hi'), Z. apply P2. exact Hi'.
  Qed.

  (** With the initial occupations in the basis of the states the scattering function exists. *)
  Lemma isf_repaired inv n0 n1 bd initial nt times dk : b = Stacked [Axis n0; Axis n1; Bands bd] ->
    diagonal_on b initial -> distribution n (aflat (hdata initial)) -> (forall s, (s < nt)%nat -> (0 <= times s)%R) ->
    exists states p isf, simulation_state eig solve mx initial nt times = Some states /\
      density_matrix_list_as_probabilities states = Some p /\
      isf_of_occupations inv {| hbasis := b; hdata := hdata (density_matrix_as_probability initial) |} p dk = Some isf /\
      calculate_isf_approximate_locations bd n0 n1 inv (fun x => fst (aflat (hdata initial) x)) (fun s x => fst (at2 (hdata p) s x)) dk = Some isf /\
      (forall s, (s < nt)%nat -> (Cmod (isf s) <= 1)%R) /\
      (dk 0%nat = 0%R -> dk 1%nat = 0%R -> forall s, (s < nt)%nat -> isf s = 1).
  Proof using Hn Hsq Hr Hmx Heig Hsolve.
    intros Eb Hi Hd Ht. destruct (probabilities_at_times initial nt times Hi Hd Ht) as [st [p [P1 [P2 [P3 [P4 P5]]]]]].
    assert (Hb : sb_n b = n) by apply Hmx. destruct Hi as [_ Hi]. rewrite Hb in Hi.
    assert (Nb : n = nprod [n0; n1; band_count bd]) by (rewrite <- Hb, Eb; reflexivity).
    set (ini := fun x => fst (aflat (hdata initial) x)). set (fin := fun s x => fst (at2 (hdata p) s x)).
    assert (Tot : rsum ini n = 1%R). { destruct Hd as [_ Hd]. unfold ini. rewrite <- fst_csum, Hd. reflexivity. }
    destruct (calculate_isf_approximate_locations bd n0 n1 inv ini fin dk) as [isf|] eqn:E.
    2:{ apply isf_none in E. rewrite <- Nb, Tot in E. lra. }
    exists st, p, isf. split; [exact P1|]. split; [exact P2|].
    assert (Fin : forall s, (s < nt)%nat -> rsum (fin s) n = 1%R).
    { intros s Hs. destruct (P5 s Hs) as [[_ D] _]. unfold fin. rewrite <- fst_csum, D. reflexivity. }
    split; [|split; [exact E|split]].
    - unfold isf_of_occupations. cbn [hbasis hdata]. rewrite Eb. cbn [sb_item nth_error sb_n].
      unfold density_matrix_as_probability. cbn [hdata]. rewrite <- Nb.
      rewrite reshape_some by (unfold np_real; cbn [ashape]; rewrite Hi; reflexivity).
      rewrite P3. cbn [sb_shape map sb_n]. rewrite Hb. rewrite reshape_some by (rewrite P4; reflexivity). rewrite Nat.eqb_refl.
      cbn [aflat np_real]. rewrite <- E. unfold fin, ini.
      assert (X : {| ashape := [nt; n]; aflat := aflat (hdata p) |} = hdata p) by (rewrite <- P4; destruct (hdata p); reflexivity).
      rewrite X. reflexivity.
    - intros s Hs. apply (isf_bound bd n0 n1 inv ini fin dk isf s E).
      + intros x Hx. rewrite <- Nb in Hx. destruct (P5 s Hs) as [[D _] _]. apply D. exact Hx.
      + rewrite <- Nb. apply Fin. exact Hs.
    - intros Z0 Z1 s Hs. rewrite (isf_still bd n0 n1 inv ini fin dk isf s E Z0 Z1), <- Nb, (Fin s Hs). reflexivity.
  Qed.

  Lemma rate_decomposition initial : diagonal_on b initial -> exists e c (lam : nat -> C),
    get_rate_decomposition eig solve mx initial = Some (e, c) /\ ashape e = [n; n] /\ ashape c = [n] /\
    (forall k, (k < n)%nat -> (fst (lam k) < 0)%R \/ lam k = 0) /\
    (forall k i, (k < n)%nat -> (i < n)%nat -> applied n (held_entry n mx) (at2 e k) i = lam k * at2 e k i) /\
    (forall k, (k < n)%nat -> exists i, (i < n)%nat /\ at2 e k i <> 0) /\
    (forall i, (i < n)%nat -> csum (fun k => aflat c k * at2 e k i) n = aflat (hdata initial) i) /\
    forall nt times, exists out, simulation_state eig solve mx initial nt times = Some out /\
      forall s i, (s < nt)%nat -> (i < n)%nat ->
        at2 (hdata out) s i = csum (fun k => aflat c k * cexp (lam k * RtoC (times s)) * at2 e k i) n.
  Proof using Hn Hsq Hr Hmx Heig Hsolve.
    intros [_ Hi]. assert (Hb : sb_n b = n) by apply Hmx. rewrite Hb in Hi.
    destruct rate_eigenstates as [es [W [E1 [E2 [E3 [E4 E5]]]]]].
    destruct (decomposition n solve Hsolve es W E2 E4 (aflat (hdata initial))) as [c [D1 D2]].
    assert (A : forall k i, (k < n)%nat -> (i < n)%nat -> at2 (array2 n n (es_state es)) k i = es_state es k i) by (intros; apply at2_array2; assumption).
    exists (array2 n n (es_state es)), {| ashape := [n]; aflat := c |}, (es_value es).
    split. { unfold get_rate_decomposition. rewrite E1, Hi, E2, Nat.eqb_refl, D1. reflexivity. }
    split; [reflexivity|]. split; [reflexivity|]. split; [exact E5|]. split; [|split; [|split]].
    - intros k i Hk Hi'. rewrite A by assumption. rewrite <- (E3 k i Hk Hi'). apply csum_ext. intros j Hj. rewrite A by assumption. reflexivity.
    - intros k Hk. destruct (nonzero_dec n (es_state es k)) as [[i [Hi' Hv]]|Hz].
      + exists i. split; [exact Hi'|]. rewrite A by assumption. exact Hv.
      + exfalso. destruct E4 as [_ E4]. specialize (E4 k k Hk Hk). unfold matmul in E4.
        rewrite csum_zero_ext in E4. { rewrite cdelta_refl in E4. apply (f_equal fst) in E4. cbn in E4. lra. }
        intros i Hi'. rewrite Hz by assumption. ring.
    - intros i Hi'. rewrite <- (D2 i Hi'). apply csum_ext. intros k Hk. rewrite A by assumption. reflexivity.
    - intros nt times. unfold simulation_state. rewrite E1. unfold simulation_of_eigenstates. rewrite Hi, E2, Nat.eqb_refl.
      unfold get_tunnelling_simulation_state. rewrite D1, E2. eexists. split; [reflexivity|]. cbn [hdata].
      intros s i Hs Hi'. rewrite at2_array2 by assumption. apply csum_ext. intros k Hk. rewrite A by assumption. reflexivity.
  Qed.
End RateMatrix.

(** ** What raises *)
Lemma isf_at_times_raises eig solve inv m initial nt times dk x y : hbasis initial = Stacked [x; y] ->
  calculate_isf_at_times eig solve inv m initial nt times dk = None.
Proof.
  intros H. unfold calculate_isf_at_times. destruct (simulation_state _ _ _ _ _ _) as [st|]; [|reflexivity].
  destruct (density_matrix_list_as_probabilities st); [|reflexivity]. unfold isf_of_occupations, density_matrix_as_probability.
  cbn [hbasis]. rewrite H. reflexivity.
Qed.
Lemma averaged_raises eig solve m x y : hbasis m = Stacked [x; y] -> averaged_isf_occupations eig solve m = None.
Proof.
  intros H. unfold averaged_isf_occupations. destruct (eigenstates_of eig m) as [[b es]|]; [|reflexivity].
  destruct (equilibrium_of solve b es); [|reflexivity]. destruct (sum_first_axes _); [|reflexivity]. rewrite H. reflexivity.
Qed.
Lemma initial_state_raises eig m nt x y : hbasis m = Stacked [x; y] -> initial_state_isf_shape eig m nt = None.
Proof.
  intros H. unfold initial_state_isf_shape. destruct (eigenstates_of eig m); [|reflexivity]. rewrite H. reflexivity.
Qed.
Lemma jump_raises m x y : hbasis m = Stacked [x; y] -> get_jump_matrix_from_a_matrix m = None.
Proof. intros H. unfold get_jump_matrix_from_a_matrix. rewrite H. reflexivity. Qed.
Lemma resample_raises m n0 n1 nb x y : hbasis m = Stacked [x; y] -> resample_tunnelling_a_matrix m n0 n1 nb = None.
Proof. intros H. unfold resample_tunnelling_a_matrix. rewrite (jump_raises m x y H). reflexivity. Qed.
(** The basis of one side does not help either. *)
Lemma jump_raises_flat m : (forall a, sb_item (hbasis m) 0 = Some a -> sb_item a 2 = None) -> get_jump_matrix_from_a_matrix m = None.
Proof.
  intros H. unfold get_jump_matrix_from_a_matrix. destruct (sb_item (hbasis m) 2); [|reflexivity].
  destruct (sb_shape (hbasis m)) as [sh|]; [|reflexivity]. destruct (reshape _ _); [|reflexivity].
  destruct (sh ++ sh) as [|d0 [|d1 [|d2 [|d3 [|d4 [|d5 [|]]]]]]]; try reflexivity.
  destruct (all_some _); [|reflexivity]. destruct (sb_item (hbasis m) 0) as [a|]; [|reflexivity].
  destruct (sb_item (hbasis m) 1); [|reflexivity]. rewrite (H a eq_refl). reflexivity.
Qed.
Lemma sum_of_density b d : diagonal_on b d -> (2 <= sb_n b)%nat -> sum_first_axes (density_matrix_as_probability d) = None.
Proof.
  intros [Hb Hs] H. unfold sum_first_axes, density_matrix_as_probability. cbn [hbasis hdata]. rewrite Hb. cbn [sb_shape map].
  unfold np_sum, reshape, np_real. cbn [ashape]. rewrite Hs. cbn [nprod].
  destruct (Nat.eqb_spec (sb_n b * 1) (sb_n b * (sb_n b * 1))) as [E|E]; [exfalso; nia|reflexivity].
Qed.
Lemma sum_of_density_one b d : diagonal_on b d -> sb_n b = 1%nat ->
  exists s, sum_first_axes (density_matrix_as_probability d) = Some s /\ aflat s 0%nat = RtoC (fst (aflat (hdata d) 0%nat)).
Proof.
  intros [Hb Hs] H. unfold sum_first_axes, density_matrix_as_probability. cbn [hbasis hdata]. rewrite Hb. cbn [sb_shape map].
  rewrite H in *. unfold np_sum, reshape, np_real. cbn [ashape]. rewrite Hs. cbn [nprod Nat.mul Nat.add Nat.eqb].
  eexists. split; [reflexivity|]. change (Z.to_nat 0) with 0%nat. change (Z.to_nat 1) with 1%nat. cbn. unfold stack. cbn [ravel nprod Nat.mul Nat.add]. rewrite !Cplus_0_l. reflexivity.
Qed.
