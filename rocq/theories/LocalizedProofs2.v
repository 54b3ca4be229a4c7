(** The rounds of the localised solver. *)
From Coq Require Import Reals Lra Lia Psatz List.
From Verif Require Import ZLib Csum DFT NumPy Index Spec Basis SpecBasis Operator SpecOperator OperatorProofs SpecMatrix LinAlg
  Reduce SpecReduce Localize SpecLocalize LocalizeProofs3 StateList SpecWavepacket SpecStateList StateListProofs StateListProofs2 StateListProofs3
  SelectProofs TimeBasis TimeProofs LocalizedSSE SpecLocalized LocalizedProofs.
Import ListNotations.
Local Open Scope R_scope.
Local Open Scope C_scope.

Lemma Cnorm2_mul a b : Cnorm2 (a * b) = (Cnorm2 a * Cnorm2 b)%R.
Proof. unfold Cnorm2, Cmult. cbn. ring. Qed.
Lemma norm2_scale n z f : norm2 n (fun x => z * f x) = (Cnorm2 z * norm2 n f)%R.
Proof. unfold norm2. rewrite <- LatticeProofs.rsum_scal_l. apply rsum_ext. intros x _. apply Cnorm2_mul. Qed.

(** Two states which differ by a phase only. *)
Lemma phase_choice same eigh s c : identity_test same -> bwf (sbasis s) -> explicit_orthonormal (sbasis s) -> well_formed_list s ->
  eigh_ok eigh -> bsize (slist s) = 2%nat -> Cnorm2 c = 1%R ->
  (forall x, (x < bsize (sbasis s))%nat -> state_of s 1 x = c * state_of s 0 x) -> (0 < norm2 (bsize (sbasis s)) (state_of s 0))%R ->
  exists p u, selection same eigh s = Some (p, u) /\ forall k, (k < 2)%nat ->
    (p k = 0%R \/ p k = 1%R) /\
    (p k <> 0%R -> exists v z, select_random_localized_state same eigh k s = Some v /\ Cnorm2 z = 1%R /\
       is_vector v (sbasis s) (fun x => z * state_of s 0 x)).
Proof.
  intros Hs Hb Ho Hw He H2 Hc H1 P0. set (m := bsize (sbasis s)) in *. set (psi := state_of s) in *. set (q := norm2 m (psi 0%nat)) in *.
  assert (T : total_norm s = (2 * q)%R).
  { unfold total_norm. rewrite H2. cbn [rsum]. fold m psi. fold (norm2 m (psi 0%nat)) (norm2 m (psi 1%nat)). fold q.
    replace (norm2 m (psi 1%nat)) with q; [ring|]. transitivity (norm2 m (fun x => c * psi 0%nat x)); [rewrite norm2_scale, Hc; fold q; ring|].
    unfold norm2. apply rsum_ext. intros x Hx. rewrite H1 by exact Hx. reflexivity. }
  destruct (choice_spec same eigh s Hs Hb Ho Hw ltac:(lia) He ltac:(lra)) as [p [u [E [PP [PS [phi [V [W [O [N _]]]]]]]]]].
  rewrite H2 in PP, PS, V, W, O, N. fold m psi in V, W, O, N. rewrite T in N. exists p, u. split; [exact E|].
  assert (A : forall k, (k < 2)%nat -> exists z, (forall x, (x < m)%nat -> phi k x = z * psi 0%nat x) /\ Cnorm2 z = p k).
  { intros k Hk. destruct (W k Hk) as [w Hw']. exists (w 0%nat + w 1%nat * c). 
    assert (Z : forall x, (x < m)%nat -> phi k x = (w 0%nat + w 1%nat * c) * psi 0%nat x).
    { intros x Hx. rewrite Hw' by exact Hx. cbn [csum]. rewrite H1 by exact Hx. ring. }
    split; [exact Z|]. assert (Q := N k Hk). replace (norm2 m (phi k)) with (norm2 m (fun x => (w 0%nat + w 1%nat * c) * psi 0%nat x)) in Q.
    2:{ unfold norm2. apply rsum_ext. intros x Hx. rewrite Z by exact Hx. reflexivity. }
    rewrite norm2_scale in Q. fold q in Q. apply (Rmult_eq_reg_r q); [|lra]. rewrite Q. field. }
  destruct (A 0%nat ltac:(lia)) as [z0 [Z0 Q0]]. destruct (A 1%nat ltac:(lia)) as [z1 [Z1 Q1]].
  assert (D := O 0%nat 1%nat ltac:(lia) ltac:(lia) ltac:(lia)). unfold inner_product in D.
  assert (D' : Cconj z0 * z1 * RtoC q = 0).
  { rewrite <- D. unfold q, norm2. rewrite <- csum_RtoC, <- csum_scal_l. apply csum_ext. intros x Hx. rewrite Z0, Z1 by exact Hx.
    rewrite Cconj_mult, <- Cconj_mult_self. ring. }
  cbn [rsum] in PS. assert (PR : (p 0%nat * p 1%nat = 0)%R).
  { rewrite <- Q0, <- Q1. assert (G : Cnorm2 (Cconj z0 * z1 * RtoC q) = 0%R) by (rewrite D'; unfold Cnorm2; cbn; ring).
    rewrite !Cnorm2_mul in G. assert (Cnorm2 (RtoC q) <> 0%R) by (unfold Cnorm2, RtoC; cbn; nra).
    replace (Cnorm2 (Cconj z0)) with (Cnorm2 z0) in G by (unfold Cnorm2, Cconj; cbn; ring). apply Rmult_integral in G. destruct G; [assumption|contradiction]. }
  assert (PZ : forall k, (k < 2)%nat -> p k = 0%R \/ p k = 1%R).
  { intros k Hk. apply Rmult_integral in PR. destruct k as [|[|]]; [| |lia]; destruct PR; [left; assumption|right; lra|right; lra|left; assumption]. }
  intros k Hk. split; [apply PZ; exact Hk|]. intros Hp. destruct (V k Hk) as [v [Ev [B1 [B2 B3]]]]. destruct (A k Hk) as [z [Zk Qk]].
  exists v, z. split; [exact Ev|]. split; [destruct (PZ k Hk); [contradiction|congruence]|].
  split; [exact B1|]. split; [exact B2|]. intros x Hx. rewrite B3 by exact Hx. apply Zk. exact Hx.
Qed.

(** One round. *)
Lemma two_times tb : (0 < tn tb)%nat -> (0 < tstep tb)%nat -> exists h ts small, dt tb = Some h /\ h = (tspan tb / INR (tn tb))%R /\
  times {| tn := 2; tstep := tstep tb; toffset := 0; tspan := h |} = Some ts /\
  fundamental_dt {| tn := 2; tstep := tstep tb; toffset := 0; tspan := h |} = Some small /\
  length ts = 2%nat /\ nth 0 ts 0%R = 0%R /\ nth 1 ts 0%R = (h / 2)%R /\ small = (h / 2 / INR (tstep tb))%R.
Proof.
  intros Hn Hp. assert (Sp : (0 < INR (tstep tb))%R) by (apply lt_0_INR; exact Hp).
  unfold dt. rewrite (proj2 (Nat.eqb_neq (tn tb) 0)) by lia. set (h := (tspan tb / INR (tn tb))%R).
  destruct (times_spec {| tn := 2; tstep := tstep tb; toffset := 0; tspan := h |} ltac:(cbn; lia) Hp) as [ts [E [L [V [h2 [small [E2 [E3 [R1 [R2 _]]]]]]]]]].
  cbn [tn tstep toffset tspan] in *. exists h, ts, small. repeat (split; [first [reflexivity|assumption]|]). split.
  - rewrite V by lia. cbn [INR]. rewrite Rmult_0_l, Rplus_0_l. field. lra.
  - split; [rewrite V by lia; cbn [INR]; field; lra|]. cbn [INR] in R2. rewrite R2, R1. field. lra.
Qed.

Lemma step_states same eigh solve hb nr tb call idx state : (0 < tn tb)%nat -> (0 < tstep tb)%nat -> (1 < nr)%nat -> (0 < bsize hb)%nat ->
  exists s ts, localized_step same eigh solve hb nr tb call idx state = select_random_localized_state same eigh idx s /\
    slist s = BTuple [BFund 2] /\ sbasis s = hb /\ well_formed_list s /\
    length ts = 2%nat /\ nth 0 ts 0%R = 0%R /\ nth 1 ts 0%R = (tspan tb / INR (tn tb) / 2)%R /\
    forall i x, (i < 2)%nat -> (x < bsize hb)%nat ->
      state_of s i x = solve call (aflat (vdata state)) (fun i => nth i ts 0%R) (tspan tb / INR (tn tb) / 2 / INR (tstep tb))%R 1%nat i x.
Proof.
  intros Hn Hp Hr Hb. destruct (two_times tb Hn Hp) as [h [ts [small [E1 [Eh [E2 [E3 [L [T0 [T1 Es]]]]]]]]]].
  unfold localized_step. rewrite E1, E2, E3.
  set (result := ravel_array (array3 nr 2 (bsize hb) (solve call (aflat (vdata state)) (fun i => nth i ts 0%R) small))).
  destruct (along_spec [BFund nr; BFund 2] hb result [1%nat] [1%nat]) as [s [E [B1 [B2 [W V]]]]].
  - cbn. repeat constructor; lia.
  - cbn. lia.
  - split; [repeat constructor; cbn; tauto|repeat constructor].
  - cbn. repeat constructor. exact Hr.
  - rewrite E. exists s, ts. subst h. split; [reflexivity|]. split; [exact B1|]. split; [exact B2|]. split; [exact W|].
    split; [exact L|]. split; [exact T0|]. split; [exact T1|]. intros i x Hi Hx.
    specialize (V [i] [1%nat; i]). cbn [map nth bsize] in V. 
    assert (V' := V ltac:(constructor; [exact Hi|constructor])). cbn [ravel] in V'. rewrite Nat.mul_1_r, Nat.add_0_r in V'.
    rewrite V'; [|split; [reflexivity|split; [intros j Hj; destruct j; [reflexivity|cbn in Hj; lia]|reflexivity]]|exact Hx].
    unfold row, result. cbn [ravel_array aflat].
    replace (ravel [nr; 2%nat] [1%nat; i] * bsize hb + x)%nat with ((1 * 2 + i) * bsize hb + x)%nat by (cbn; lia).
    rewrite array3_flat by assumption. rewrite Es. reflexivity.
Qed.

Lemma step_few_realizations same eigh solve hb nr tb call idx state : (nr <= 1)%nat ->
  localized_step same eigh solve hb nr tb call idx state = None.
Proof.
  intros Hr. unfold localized_step. destruct (dt tb) as [h|]; [|reflexivity]. destruct (times _) as [ts|]; [|reflexivity].
  destruct (fundamental_dt _) as [small|]; [|reflexivity]. unfold get_state_along_axis.
  destruct (nprod (map bsize [BFund nr; BFund 2]) =? 0)%nat; [reflexivity|]. destruct (nprod _ mod _ =? 0)%nat; [|reflexivity].
  replace (slice_ok _ _) with false; [reflexivity|]. cbn. destruct nr as [|[|]]; [reflexivity|reflexivity|lia].
Qed.

Lemma selection_ext same eigh s s' : slist s = slist s' -> sbasis s = sbasis s' -> sdata s = sdata s' -> selection same eigh s = selection same eigh s'.
Proof. destruct s, s'; cbn; intros -> -> ->; reflexivity. Qed.

(** The trajectory: every state is one round from the one before it. *)
Lemma trajectory_spec same eigh solve hb nr tb call idx : forall rounds t state l,
  localized_trajectory same eigh solve hb nr tb call idx rounds t state = Some l ->
  length l = rounds /\ forall i, (i < rounds)%nat ->
    localized_step same eigh solve hb nr tb (call (t + i)%nat) (idx (t + i)%nat) (nth i (state :: l) state) = Some (nth i l state).
Proof.
  induction rounds as [|rounds IH]; intros t state l E; cbn in E.
  - injection E as <-. split; [reflexivity|]. intros i Hi; lia.
  - destruct (localized_step _ _ _ _ _ _ _ _ _) as [v|] eqn:Es; [|discriminate].
    destruct (localized_trajectory _ _ _ _ _ _ _ _ _ _ _) as [l'|] eqn:El; [|discriminate]. injection E as <-.
    destruct (IH _ _ _ El) as [L V]. split; [cbn; rewrite L; reflexivity|]. intros [|i] Hi.
    + rewrite Nat.add_0_r. cbn. exact Es.
    + specialize (V i ltac:(lia)). replace (t + S i)%nat with (S t + i)%nat by lia.
      change (nth (S i) (state :: v :: l') state) with (nth i (v :: l') state). change (nth (S i) (v :: l') state) with (nth i l' state).
      rewrite (nth_indep (v :: l') state v) by (cbn; lia). rewrite (nth_indep l' state v) by lia. exact V.
Qed.

Lemma all_some_spec {A} (l : list (option A)) : forall out d, all_some l = Some out -> length out = length l /\ forall i, (i < length l)%nat -> nth i l None = Some (nth i out d).
Proof.
  induction l as [|x l IH]; intros out d E; cbn in E.
  - injection E as <-. split; [reflexivity|intros i Hi; cbn in Hi; lia].
  - destruct x as [a|]; [|discriminate]. destruct (all_some l) as [r|] eqn:Er; [|discriminate]. injection E as <-.
    destruct (IH r d eq_refl) as [L V]. split; [cbn; lia|]. intros [|i] Hi; [reflexivity|]. cbn. apply V. cbn in Hi. lia.
Qed.

Lemma solve_spec same eigh solve hb ntraj nr tb idx initial data :
  solve_localized same eigh solve hb ntraj nr tb idx initial = Some data ->
  nprod (ashape data) = (ntraj * tn tb * bsize hb)%nat /\
  forall r, (r < ntraj)%nat -> exists l, length l = tn tb /\
    (forall t, (t < tn tb)%nat -> localized_step same eigh solve hb nr tb (r * tn tb + t) (idx r t) (nth t (initial :: l) initial) = Some (nth t l initial)) /\
    forall t k, (t < tn tb)%nat -> (k < bsize hb)%nat -> aflat data ((r * tn tb + t) * bsize hb + k) = aflat (vdata (nth t l initial)) k.
Proof.
  unfold solve_localized. destruct (_ =? _)%nat; [|discriminate]. destruct (all_some _) as [l|] eqn:E; [|discriminate]. intros H. injection H as <-.
  split; [cbn; lia|]. intros r Hr. destruct (all_some_spec _ l [] E) as [L V]. rewrite map_length, seq_length in L, V.
  specialize (V r Hr). erewrite nth_indep in V by (rewrite map_length, seq_length; exact Hr). rewrite (map_nth _ _ 0%nat), seq_nth in V by exact Hr. cbn [Nat.add] in V.
  destruct (trajectory_spec _ _ _ _ _ _ _ _ _ _ _ _ V) as [L' T]. exists (nth r l []). split; [exact L'|]. split; [exact T|].
  intros t k Ht Hk. cbn [ravel_array aflat]. apply array3_flat; assumption.
Qed.

(** The solver succeeds if it is never given two states that are zero. *)
Lemma total_norm_pos s i x : (i < bsize (slist s))%nat -> (x < bsize (sbasis s))%nat -> state_of s i x <> 0 -> (0 < total_norm s)%R.
Proof.
  intros Hi Hx Hne. destruct (Rle_lt_or_eq_dec 0 (total_norm s) (trace_nonneg (bsize (slist s)) (bsize (sbasis s)) (state_of s))) as [P|Z]; [exact P|].
  exfalso. apply Hne. exact (trace_zero (bsize (slist s)) (bsize (sbasis s)) (state_of s) (eq_sym Z) i x Hi Hx).
Qed.

Section Succeeds.
  Variables (same : basis -> basis -> bool) (eigh : eigh_fn) (solve : sse_solver) (hb : basis) (nr : nat) (tb : time_basis).
  Context (Hs : identity_test same) (He : eigh_ok eigh) (Hb : bwf hb) (Ho : explicit_orthonormal hb) (Hn : (0 < tn tb)%nat) (Hp : (0 < tstep tb)%nat)
    (Hr : (1 < nr)%nat) (Hpos : (0 < bsize hb)%nat)
    (Hsolve : forall call psi ts small, exists i x, (i < 2)%nat /\ (x < bsize hb)%nat /\ solve call psi ts small 1%nat i x <> 0).

  Lemma step_succeeds call idx state : (idx < 2)%nat -> exists v, localized_step same eigh solve hb nr tb call idx state = Some v.
  Proof using Hs He Hb Ho Hn Hp Hr Hpos Hsolve.
    intros Hi. destruct (step_states same eigh solve hb nr tb call idx state Hn Hp Hr Hpos) as [s [ts [E [B1 [B2 [W [_ [_ [_ V]]]]]]]]].
    rewrite E. destruct (Hsolve call (aflat (vdata state)) (fun i => nth i ts 0%R) (tspan tb / INR (tn tb) / 2 / INR (tstep tb))%R) as [i [x [Li [Lx N]]]].
    rewrite <- (V i x Li Lx) in N. assert (L2 : bsize (slist s) = 2%nat) by (rewrite B1; reflexivity).
    rewrite <- B2 in Hb, Ho, Lx. assert (P := total_norm_pos s i x ltac:(lia) Lx N).
    destruct (choice_spec same eigh s Hs Hb Ho W ltac:(lia) He P) as [p [u [_ [_ [_ [phi [Q _]]]]]]].
    destruct (Q idx ltac:(lia)) as [v [Ev _]]. exists v. exact Ev.
  Qed.

  Lemma trajectory_succeeds call idx : (forall t, (idx t < 2)%nat) -> forall rounds t state,
    exists l, localized_trajectory same eigh solve hb nr tb call idx rounds t state = Some l.
  Proof using Hs He Hb Ho Hn Hp Hr Hpos Hsolve.
    intros Hi. induction rounds as [|rounds IH]; intros t state; cbn; [eexists; reflexivity|].
    destruct (step_succeeds (call t) (idx t) state (Hi t)) as [v ->]. destruct (IH (S t) v) as [l ->]. eexists; reflexivity.
  Qed.

  Lemma solve_succeeds ntraj idx initial : bsize (vbasis initial) = bsize hb -> (forall r t, (idx r t < 2)%nat) ->
    exists data, solve_localized same eigh solve hb ntraj nr tb idx initial = Some data.
  Proof using Hs He Hb Ho Hn Hp Hr Hpos Hsolve.
    intros E Hi. unfold solve_localized. rewrite E, Nat.eqb_refl.
    assert (A : forall l, exists out, all_some (map (fun r => localized_trajectory same eigh solve hb nr tb (fun t => (r * tn tb + t)%nat) (idx r) (tn tb) 0 initial) l) = Some out).
    { induction l as [|r l [out IH]]; cbn; [eexists; reflexivity|].
      destruct (trajectory_succeeds (fun t => (r * tn tb + t)%nat) (idx r) (Hi r) (tn tb) 0%nat initial) as [x ->]. rewrite IH. eexists; reflexivity. }
    destruct (A (seq 0 ntraj)) as [out ->]. eexists; reflexivity.
  Qed.
End Succeeds.
