(** Proofs about spline interpolation along an axis (C105). *)
From Coq Require Import Reals List ZArith Arith Lia Lra.
From Verif Require Import ZLib Csum DFT NumPy Spec SpecBasis Index IndexProofs IndexSum Basis Operator Reduce Hamiltonian Fourier SpecFourier FourierProofs OperatorProofs BlochEnergyProofs2 Uneven SpecUneven.
Import ListNotations.
Local Open Scope R_scope.
Local Open Scope nat_scope.

Lemma update_mid {A} (b : list A) x y r : update (length b) x (b ++ y :: r) = b ++ x :: r.
Proof. induction b as [|z b IH]; [reflexivity|]. cbn. now rewrite IH. Qed.
Lemma nth_mid {A} (b : list A) y r d : nth (length b) (b ++ y :: r) d = y.
Proof. rewrite app_nth2, Nat.sub_diag by lia. reflexivity. Qed.

Lemma swap_last_last b d : swap_last (length b) (b ++ [d]) = b ++ [d].
Proof.
  unfold swap_last. rewrite app_length. cbn [length]. replace (length b + 1 - 1) with (length b) by lia.
  now rewrite nth_mid, !update_mid, last_last.
Qed.
Lemma swap_last_mid b d mid l : swap_last (length b) (b ++ d :: mid ++ [l]) = b ++ l :: mid ++ [d].
Proof.
  unfold swap_last. rewrite nth_mid.
  replace (last (b ++ d :: mid ++ [l]) 0) with l by (rewrite (app_assoc b [d] (mid ++ [l]) : b ++ d :: mid ++ [l] = _), app_assoc, last_last; reflexivity).
  replace (length (b ++ d :: mid ++ [l]) - 1) with (length (b ++ d :: mid)) by (rewrite !app_length; cbn; rewrite app_length; cbn; lia).
  replace (b ++ d :: mid ++ [l]) with ((b ++ d :: mid) ++ [l]) by (rewrite <- app_assoc; reflexivity).
  rewrite update_mid. rewrite <- app_assoc. cbn. now rewrite update_mid.
Qed.

(** Every axis is the last one or comes before it. *)
Lemma axis_cases (l : list nat) a : a < length l ->
  (exists b d, l = b ++ [d] /\ length b = a) \/ (exists b d mid e, l = b ++ d :: mid ++ [e] /\ length b = a).
Proof.
  intros H. destruct (nth_split l 0 H) as [b [r [E L]]].
  destruct r as [|e r] using rev_ind; [left; exists b, (nth a l 0); now split|right].
  exists b, (nth a l 0), r, e. split; assumption.
Qed.

(** ** When the reshape is a view *)

Lemma strides_app p q : strides (p ++ q) = map (fun t => t * nprod q) (strides p) ++ strides q.
Proof. induction p as [|x p IH]; [reflexivity|]. cbn. now rewrite IH, nprod_app. Qed.

Definition pairs (shape : list nat) (K : nat) : list (nat * nat) :=
  filter (fun p => negb (fst p =? 1)) (combine shape (map (fun t => t * K) (strides shape))).

Definition block (F : list (nat * nat)) (P K : nat) : Prop :=
  (P = 1 /\ F = []) \/
  (1 < P /\ joined F = true /\ (exists s t r, F = (s, t) :: r /\ s * t = P * K) /\ (exists init s, F = init ++ [(s, K)])).

Lemma pairs_block shape K : Forall (fun n => 0 < n) shape -> block (pairs shape K) (nprod shape) K.
Proof.
  intros H. induction H as [|x shape Hx H IH]; [left; split; reflexivity|].
  unfold pairs. cbn [combine strides map filter fst]. destruct (x =? 1) eqn:E; cbn [negb].
  - apply Nat.eqb_eq in E. subst x. fold (pairs shape K). cbn [nprod]. rewrite Nat.mul_1_l. exact IH.
  - apply Nat.eqb_neq in E. fold (pairs shape K). right. change (nprod (x :: shape)) with (x * nprod shape).
    destruct IH as [[P F]|[P [J [[s [t [r [F ST]]]] [init [s' F']]]]]].
    + rewrite P, F. split; [lia|]. split; [reflexivity|]. split.
      * exists x, (1 * K), []. split; [reflexivity|lia].
      * exists [], x. cbn. now rewrite Nat.add_0_r.
    + split; [nia|]. split; [|split].
      * rewrite F in *. cbn [joined]. change ((nprod shape * K =? s * t) && joined ((s, t) :: r) = true). rewrite J, ST, Nat.eqb_refl. reflexivity.
      * exists x, (nprod shape * K), (pairs shape K). split; [reflexivity|lia].
      * exists ((x, nprod shape * K) :: init), s'. cbn. now rewrite F'.
Qed.

Lemma joined_app init s t s' t' r : joined ((init ++ [(s, t)]) ++ (s', t') :: r) = joined (init ++ [(s, t)]) && (t =? s' * t') && joined ((s', t') :: r).
Proof.
  induction init as [|[s1 t1] init IH]; [reflexivity|].
  destruct init as [|[s2 t2] init].
  - cbn [app joined]. rewrite andb_true_r. cbn [app joined] in IH. now rewrite IH, andb_assoc.
  - cbn [app] in *. cbn [joined] in *. rewrite IH, !andb_assoc. reflexivity.
Qed.

Lemma combine_app {A B} (a b : list A) (c d : list B) : length a = length c -> combine (a ++ b) (c ++ d) = combine a c ++ combine b d.
Proof. revert c. induction a as [|x a IH]; intros [|y c] H; try discriminate; [reflexivity|]. cbn. f_equal. apply IH. now injection H. Qed.
Lemma strides_length l : length (strides l) = length l. Proof. induction l; cbn; congruence. Qed.

Lemma view_last b n : Forall (fun k => 0 < k) b -> is_view (b ++ [n]) (length b) = true.
Proof.
  intros H. unfold is_view. rewrite swap_last_last, strides_app. cbn [strides nprod].
  replace (length b) with (length (map (fun t : nat => t * (n * 1)) (strides b))) at 1 by (rewrite map_length; apply strides_length).
  rewrite swap_last_last, !removelast_last.
  destruct (pairs_block b (n * 1) H) as [[P F]|[P [J _]]]; unfold pairs in *; [rewrite F; reflexivity|exact J].
Qed.

Lemma view_mid b n mid l : Forall (fun k => 0 < k) b -> Forall (fun k => 0 < k) mid -> 0 < n -> 0 < l ->
  is_view (b ++ n :: mid ++ [l]) (length b) = true <-> written b mid n l.
Proof.
  intros Hb Hm Hn Hl. unfold is_view. rewrite swap_last_mid, strides_app. cbn [strides]. rewrite strides_app. cbn [strides nprod].
  set (M := nprod (mid ++ [l])). set (K := n * M).
  replace (length b) with (length (map (fun t : nat => t * K) (strides b))) by (rewrite map_length; apply strides_length).
  rewrite swap_last_mid.
  replace (b ++ l :: mid ++ [n]) with ((b ++ l :: mid) ++ [n]) by (rewrite <- app_assoc; reflexivity).
  match goal with |- context [removelast (?x ++ 1 :: ?y ++ [M])] => replace (x ++ 1 :: y ++ [M]) with ((x ++ 1 :: y) ++ [M]) by (rewrite <- app_assoc; reflexivity) end.
  rewrite !removelast_last.
  rewrite combine_app by (rewrite map_length, strides_length; reflexivity). cbn [combine].
  rewrite filter_app. cbn [filter fst].
  change (filter (fun p : nat * nat => negb (fst p =? 1)) (combine b (map (fun t : nat => t * K) (strides b)))) with (pairs b K).
  replace (filter (fun p : nat * nat => negb (fst p =? 1)) (combine mid (map (fun t => t * (l * 1)) (strides mid)))) with (pairs mid l)
    by (unfold pairs; now rewrite Nat.mul_1_r).
  assert (EK : K = n * (nprod mid * l)). { unfold K, M. rewrite nprod_app. cbn. lia. }
  pose proof (pairs_block b K Hb) as B. pose proof (pairs_block mid l Hm) as Bm.
  unfold written. destruct (l =? 1) eqn:El; cbn [negb].
  - apply Nat.eqb_eq in El. subst l.
    destruct B as [[P F]|[P [J [_ [init [s F]]]]]].
    + rewrite F. cbn [app]. destruct Bm as [[Pm Fm]|[Pm [Jm _]]]; [rewrite Fm|rewrite Jm]; cbn; tauto.
    + destruct Bm as [[Pm Fm]|[Pm [Jm [[s0 [t0 [r [Fm ST]]]] _]]]].
      * rewrite Fm, app_nil_r, J. tauto.
      * rewrite F, Fm, joined_app, <- F, <- Fm, J, Jm, ST, EK, andb_true_r. cbn [andb]. rewrite Nat.eqb_eq. split; [intros E; right; right; nia|].
        intros [E|[E|E]]; [lia|lia|subst n; lia].
  - apply Nat.eqb_neq in El.
    assert (J2 : joined ((l, 1) :: pairs mid l) = true <-> nprod mid = 1).
    { destruct Bm as [[Pm Fm]|[Pm [Jm [[s0 [t0 [r [Fm ST]]]] _]]]].
      - rewrite Fm. cbn. tauto.
      - rewrite Fm. cbn [joined]. rewrite ST. rewrite andb_true_iff, Nat.eqb_eq. split; [intros [E _]; nia|lia]. }
    destruct B as [[P F]|[P [J [_ [init [s F]]]]]].
    + rewrite F. cbn [app]. rewrite J2. tauto.
    + rewrite F, joined_app, <- F, J, !andb_true_iff, J2, Nat.eqb_eq, EK. split.
      * intros [[_ E] E1]. rewrite E1 in *. split; [reflexivity|]. right. nia.
      * intros [E1 [E|E]]; [lia|]. rewrite E1, E. repeat split; lia.
Qed.

(** ** The values *)

Lemma row_in b d mid l n idx : in_shape idx (b ++ n :: mid ++ [l]) ->
  in_shape (removelast (swap_last (length b) idx)) (removelast (swap_last (length b) (b ++ d :: mid ++ [l]))) /\
  forall j, swap_last (length b) (removelast (swap_last (length b) idx) ++ [j]) = update (length b) j idx.
Proof.
  intros H. unfold in_shape in H. apply Forall2_app_inv_r in H. destruct H as [ib [r [Hb [Hr ->]]]].
  inversion Hr as [|x n' r' s Hx Hr' E1 E2]; subst. apply Forall2_app_inv_r in Hr'. destruct Hr' as [im [q [Hm [Hq ->]]]].
  inversion Hq as [|y l' q' s' Hy Hq' E1 E2]; subst. inversion Hq'; subst.
  assert (L : length b = length ib) by (symmetry; eapply in_shape_length; exact Hb).
  rewrite swap_last_mid, L, swap_last_mid.
  replace (ib ++ y :: im ++ [x]) with ((ib ++ y :: im) ++ [x]) by (rewrite <- app_assoc; reflexivity).
  replace (b ++ l :: mid ++ [d]) with ((b ++ l :: mid) ++ [d]) by (rewrite <- app_assoc; reflexivity).
  rewrite !removelast_last. split.
  - unfold in_shape. apply Forall2_app; [exact Hb|]. constructor; assumption.
  - intros j. rewrite <- app_assoc. cbn [app]. now rewrite swap_last_mid, update_mid.
Qed.
Lemma row_in_last b d n idx : in_shape idx (b ++ [n]) ->
  in_shape (removelast (swap_last (length b) idx)) (removelast (swap_last (length b) (b ++ [d]))) /\
  forall j, swap_last (length b) (removelast (swap_last (length b) idx) ++ [j]) = update (length b) j idx.
Proof.
  intros H. unfold in_shape in H. apply Forall2_app_inv_r in H. destruct H as [ib [r [Hb [Hr ->]]]].
  inversion Hr as [|x n' r' s Hx Hr' E1 E2]; subst. inversion Hr'; subst.
  assert (L : length b = length ib) by (symmetry; eapply in_shape_length; exact Hb).
  rewrite swap_last_last, L, swap_last_last, !removelast_last. split; [exact Hb|].
  intros j. now rewrite swap_last_last, update_mid.
Qed.
Lemma row_index shape n a idx : a < length shape -> in_shape idx (update a n shape) ->
  in_shape (removelast (swap_last a idx)) (removelast (swap_last a shape)) /\
  forall j, swap_last a (removelast (swap_last a idx) ++ [j]) = update a j idx.
Proof.
  intros Ha H. destruct (axis_cases shape a Ha) as [[b [d [E <-]]]|[b [d [mid [e [E <-]]]]]]; subst shape; rewrite update_mid in H.
  - exact (row_in_last b d n idx H).
  - exact (row_in b d mid e n idx H).
Qed.

Lemma spline_model spline memory shape points m old n axis a :
  names_axis (length shape) axis a -> 0 < m -> 0 < n -> m = nth a shape 0 -> spline_ok spline -> spline_defined spline m old ->
  exists out, interpolate_points_along_axis_spline spline memory shape points m old n axis = Some (update a n shape, out) /\
    forall idx, in_shape idx (update a n shape) ->
      if is_view (update a n shape) a
      then on_spline spline m old (column points a idx) (linspace (old 0) (old (m - 1)) n (nth a idx 0)) (out idx)
      else out idx = memory idx.
Proof.
  intros HA Hm Hn Em [Hloc _] Hdef. unfold interpolate_points_along_axis_spline.
  assert (Ea : python_index (length shape) axis = Some a /\ a < length shape).
  { unfold python_index. destruct HA as [[H ->]|[H E]].
    - rewrite (proj2 (Z.leb_le _ _)), (proj2 (Z.ltb_lt _ _)) by lia. cbn. split; [reflexivity|lia].
    - rewrite (proj2 (Z.leb_gt _ _)) by lia. cbn. rewrite (proj2 (Z.leb_le _ _)), (proj2 (Z.ltb_lt _ _)) by lia. cbn. split; [f_equal; lia|lia]. }
  destruct Ea as [Ea La]. rewrite Ea.
  rewrite <- Em. rewrite (proj2 (Nat.eqb_neq m 0)), (proj2 (Nat.eqb_neq n 0)) by lia. cbn [orb].
  set (rows := removelast (swap_last a shape)).
  set (row := fun i j => points (swap_last a (unravel rows i ++ [j]))).
  rewrite Nat.eqb_refl.
  set (f := fun i => match spline m old (row i) with Some s => s | None => fun _ => 0%R end).
  assert (EF : forall i, spline m old (row i) = Some (f i)).
  { intros i. unfold f. destruct (spline m old (row i)) eqn:E; [reflexivity|]. now apply Hdef in E. }
  assert (EA : all_some (map (fun i => spline m old (fun j => points (swap_last a (unravel rows i ++ [j])))) (seq 0 (nprod rows))) = Some (map f (seq 0 (nprod rows)))).
  { change (all_some (map (fun i => spline m old (row i)) (seq 0 (nprod rows))) = Some (map f (seq 0 (nprod rows)))).
    rewrite (map_ext _ (fun i => Some (f i)) EF). apply (all_some_map_some f). }
  rewrite EA.
  eexists. split; [reflexivity|]. intros idx Hidx. destruct (is_view (update a n shape) a); [|reflexivity].
  destruct (row_index shape n a idx La Hidx) as [Hin Hsw]. fold rows in Hin.
  pose proof (ravel_lt _ _ Hin) as Hlt. set (i := ravel rows (removelast (swap_last a idx))) in *.
  exists (f i). split.
  - rewrite <- EF. apply Hloc. intros j Hj. unfold column, row. unfold i. rewrite (unravel_ravel _ _ Hin), Hsw. reflexivity.
  - rewrite (nth_indep _ _ (f 0)) by (rewrite map_length, seq_length; exact Hlt). rewrite map_nth, seq_nth by exact Hlt. reflexivity.
Qed.

Lemma linspace_spot a b n k : k < n -> linspace a b n k = even_spot a b n k.
Proof.
  intros Hk. unfold linspace, even_spot. destruct (n =? 1) eqn:E1.
  - apply Nat.eqb_eq in E1. subst n. replace k with 0 by lia. cbn. unfold Rdiv. ring.
  - apply Nat.eqb_neq in E1. destruct (k =? n - 1) eqn:E2.
    + apply Nat.eqb_eq in E2. subst k. field. apply not_0_INR. lia.
    + field. apply not_0_INR. lia.
Qed.

Lemma in_shape_pos idx shape : in_shape idx shape -> Forall (fun k => 0 < k) shape.
Proof. intros H. induction H; constructor; [lia|assumption]. Qed.

Lemma spline_last spline memory before d points old n axis :
  names_axis (S (length before)) axis (length before) -> 0 < d -> 0 < n -> spline_ok spline -> spline_defined spline d old ->
  exists out, interpolate_points_along_axis_spline spline memory (before ++ [d]) points d old n axis = Some (before ++ [n], out) /\
    forall idx, in_shape idx (before ++ [n]) ->
      on_spline spline d old (column points (length before) idx) (even_spot (old 0) (old (d - 1)) n (nth (length before) idx 0)) (out idx).
Proof.
  intros HA Hd Hn Hok Hdef.
  destruct (spline_model spline memory (before ++ [d]) points d old n axis (length before)) as [out [E H]]; try assumption.
  - rewrite app_length. cbn. now rewrite Nat.add_1_r.
  - now rewrite nth_mid.
  - rewrite update_mid in *. exists out. split; [exact E|]. intros idx Hidx. specialize (H idx Hidx).
    pose proof (in_shape_pos _ _ Hidx) as HP. apply Forall_app in HP. rewrite (view_last before n (proj1 HP)) in H.
    rewrite <- linspace_spot; [exact H|].
    unfold in_shape in Hidx. apply Forall2_app_inv_r in Hidx. destruct Hidx as [ib [r [Hb [Hr ->]]]].
    inversion Hr; subst. assert (L : length before = length ib) by (symmetry; eapply in_shape_length; exact Hb).
    rewrite L, nth_mid. assumption.
Qed.

Lemma spline_mid spline memory before d middle l points old n axis :
  names_axis (length (before ++ d :: middle ++ [l])) axis (length before) -> 0 < d -> 0 < n -> spline_ok spline -> spline_defined spline d old ->
  exists out, interpolate_points_along_axis_spline spline memory (before ++ d :: middle ++ [l]) points d old n axis = Some (before ++ n :: middle ++ [l], out) /\
    (written before middle n l -> forall idx, in_shape idx (before ++ n :: middle ++ [l]) ->
      on_spline spline d old (column points (length before) idx) (even_spot (old 0) (old (d - 1)) n (nth (length before) idx 0)) (out idx)) /\
    (~ written before middle n l -> forall idx, in_shape idx (before ++ n :: middle ++ [l]) -> out idx = memory idx).
Proof.
  intros HA Hd Hn Hok Hdef.
  destruct (spline_model spline memory (before ++ d :: middle ++ [l]) points d old n axis (length before)) as [out [E H]]; try assumption.
  - now rewrite nth_mid.
  - rewrite update_mid in *. exists out. split; [exact E|].
    assert (V : forall idx, in_shape idx (before ++ n :: middle ++ [l]) -> is_view (before ++ n :: middle ++ [l]) (length before) = true <-> written before middle n l).
    { intros idx Hidx. pose proof (in_shape_pos _ _ Hidx) as HP. apply Forall_app in HP. destruct HP as [Hb HP]. inversion HP; subst.
      match goal with H : Forall _ (middle ++ [l]) |- _ => apply Forall_app in H; destruct H as [Hmid Hlst] end. inversion Hlst; subst. now apply view_mid. }
    split; intros W idx Hidx; specialize (H idx Hidx); specialize (V idx Hidx).
    + rewrite (proj2 V W) in H. rewrite <- linspace_spot; [exact H|].
      unfold in_shape in Hidx. apply Forall2_app_inv_r in Hidx. destruct Hidx as [ib [r [Hb [Hr ->]]]].
      inversion Hr; subst. assert (L : length before = length ib) by (symmetry; eapply in_shape_length; exact Hb).
      rewrite L, nth_mid. assumption.
    + destruct (is_view _ _); [tauto|exact H].
Qed.
