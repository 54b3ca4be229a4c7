(** Proofs about points drawn in a plane. *)
From Coq Require Import Reals Lra Lia Permutation.
From Verif Require Import ZLib Csum DFT NumPy Index IndexProofs AxesProofs Basis Lattice Hamiltonian SpecReal SpecHamiltonian StateList SpecStateList Brillouin
  Paths SpecPaths PathsProofs PathsProofs2 SpecBrillouin BrillouinProofs Spec StackedPlots SpecStackedPlots.
Local Open Scope R_scope.

(** ** Projected points *)

Section Pair.
  Variable nd : nat.
  Variable delta : nat -> nat -> R.
  Variables a b : nat.

  Lemma pair_none : projected_axes nd delta [] [a; b] = None <-> (nd <= a)%nat \/ (nd <= b)%nat \/ ~ independent nd (delta a) (delta b).
  Proof.
    rewrite axes_none. split.
    - intros [(x & [<-|[<-|[]]] & Hx)|(j & Hj & (k & K))]; [auto|auto|]. right. right. intros I. destruct j as [|[|j]]; cbn in Hj; try lia.
      + destruct (I 1 0) as [E _]; [|lra]. intros c Hc. specialize (K c Hc). cbn in K. rewrite K. ring.
      + destruct (I (k 0%nat) (-1)) as [_ E]; [|lra]. intros c Hc. specialize (K c Hc). cbn in K. rewrite K. ring.
    - intros [H|[H|H]]; [left; exists a; cbn; auto|left; exists b; cbn; auto|].
      right. apply Classical_Prop.NNPP. intros N. apply H. intros x y E.
      assert (Y : y = 0).
      { destruct (Req_dec y 0) as [|Y]; [assumption|]. exfalso. apply N. exists 1%nat. split; [cbn; lia|]. exists (fun _ => - x / y). intros c Hc. cbn.
        specialize (E c Hc). apply (Rmult_eq_reg_l y); [|exact Y]. transitivity (- x * delta a c); [lra|]. field. exact Y. }
      split; [|exact Y]. subst y. destruct (Req_dec x 0) as [|X]; [assumption|]. exfalso. apply N. exists 0%nat. split; [cbn; lia|]. exists (fun _ => 0). intros c Hc. cbn.
      specialize (E c Hc). rewrite Rmult_0_l, Rplus_0_r in E. apply Rmult_integral in E. destruct E; [contradiction|assumption].
  Qed.

  Lemma pair_frame es : projected_axes nd delta [] [a; b] = Some es -> exists e0 e1, es = [e0; e1] /\ frame nd (delta a) (delta b) e0 e1.
  Proof.
    intros G. destruct (axes_spec nd delta _ es G) as [L A Oo _ U D X]. cbn in L. destruct es as [|e0 [|e1 [|]]]; try discriminate.
    exists e0, e1. split; [reflexivity|]. cbn [length] in *.
    assert (O00 := Oo 0%nat 0%nat ltac:(cbn; lia) ltac:(cbn; lia)). assert (O11 := Oo 1%nat 1%nat ltac:(cbn; lia) ltac:(cbn; lia)). assert (O01 := Oo 0%nat 1%nat ltac:(cbn; lia) ltac:(cbn; lia)). cbn in O00, O11, O01.
    repeat split; try assumption. exists (dot nd e0 (delta a)), (dot nd e0 (delta b)), (dot nd e1 (delta b)).
    assert (D0 := D 0%nat ltac:(cbn; lia)). assert (D1 := D 1%nat ltac:(cbn; lia)). cbn in D0, D1.
    assert (U1 := U 1%nat 0%nat). cbn in U1.
    split; [exact D0|]. split; [exact D1|]. intros c Hc.
    assert (X0 := X 0%nat c ltac:(cbn; lia) Hc). assert (X1 := X 1%nat c ltac:(cbn; lia) Hc). cbn in X0, X1.
    rewrite U1 in X0 by lia. split; [rewrite X0 at 1; ring|rewrite X1 at 1; ring].
  Qed.

  Lemma drawn_list e0 e1 points : drawn_points (map (fun p => Some (map (fun e => np_dot nd e p) [e0; e1])) points) = Some (map (drawn nd e0 e1) points).
  Proof. induction points as [|p points IH]; [reflexivity|]. cbn [map drawn_points drawn_point] in *. rewrite IH. reflexivity. Qed.

  Lemma points_some points : (a < nd)%nat -> (b < nd)%nat -> independent nd (delta a) (delta b) ->
    exists e0 e1, frame nd (delta a) (delta b) e0 e1 /\
      plot_x_points_projected_2d nd delta (a, b) points = Some (map (drawn nd e0 e1) points).
  Proof.
    intros Ha Hb I. destruct (projected_axes nd delta [] [a; b]) as [es|] eqn:G.
    - destruct (pair_frame es G) as (e0 & e1 & -> & F). exists e0, e1. split; [exact F|].
      unfold plot_x_points_projected_2d, project_x_points_along_axes. cbn [fst snd]. rewrite G. cbn [option_map]. apply drawn_list.
    - apply pair_none in G. exfalso. destruct G as [G|[G|G]]; [lia|lia|contradiction].
  Qed.

  Lemma points_none points : ~ ((a < nd)%nat /\ (b < nd)%nat /\ independent nd (delta a) (delta b)) ->
    plot_x_points_projected_2d nd delta (a, b) points = None.
  Proof.
    intros N. unfold plot_x_points_projected_2d, project_x_points_along_axes. cbn [fst snd].
    replace (projected_axes nd delta [] [a; b]) with (@None (list (nat -> R))); [reflexivity|]. symmetry. apply pair_none.
    destruct (Nat.lt_ge_cases a nd); [|auto]. destruct (Nat.lt_ge_cases b nd); [|auto]. right. right. tauto.
  Qed.
End Pair.

Lemma frame_unique nd u v e0 e1 f0 f1 : frame nd u v e0 e1 -> frame nd u v f0 f1 -> forall p, drawn nd e0 e1 p = drawn nd f0 f1 p.
Proof.
  intros (E0 & E1 & E01 & x & y & z & Hx & Hz & E) (F0 & F1 & F01 & x' & y' & z' & Hx' & Hz' & F) p.
  assert (A : forall c, (c < nd)%nat -> x * e0 c = x' * f0 c) by (intros c Hc; destruct (E c Hc), (F c Hc); lra).
  assert (X2 : x * x = x' * x').
  { transitivity (dot nd (fun c => x * e0 c) (fun c => x * e0 c)).
    - rewrite dot_scale, dot_sym, dot_scale, E0. ring.
    - rewrite (dot_ext nd _ _ _ _ A A), dot_scale, dot_sym, dot_scale, F0. ring. }
  assert (X : x = x') by nra. subst x'.
  assert (A' : forall c, (c < nd)%nat -> e0 c = f0 c) by (intros c Hc; specialize (A c Hc); nra).
  assert (B : forall c, (c < nd)%nat -> v c = y' * e0 c + z' * f1 c) by (intros c Hc; destruct (F c Hc) as [_ ->]; rewrite A' by exact Hc; reflexivity).
  assert (Y : y = y').
  { transitivity (dot nd e0 v).
    - rewrite (dot_ext nd e0 e0 v (fun c => y * e0 c - (- z) * e1 c)); [|reflexivity|intros c Hc; destruct (E c Hc) as [_ ->]; ring].
      rewrite (dot_sub nd e0 (fun c => y * e0 c)), !dot_scale, E0, E01. ring.
    - rewrite (dot_ext nd e0 f0 v (fun c => y' * f0 c - (- z') * f1 c)); [|exact A'|intros c Hc; destruct (F c Hc) as [_ ->]; ring].
      rewrite (dot_sub nd f0 (fun c => y' * f0 c)), !dot_scale, F0, F01. ring. }
  subst y'.
  assert (C : forall c, (c < nd)%nat -> z * e1 c = z' * f1 c) by (intros c Hc; specialize (B c Hc); destruct (E c Hc); lra).
  assert (Z2 : z * z = z' * z').
  { transitivity (dot nd (fun c => z * e1 c) (fun c => z * e1 c)).
    - rewrite dot_scale, dot_sym, dot_scale, E1. ring.
    - rewrite (dot_ext nd _ _ _ _ C C), dot_scale, dot_sym, dot_scale, F1. ring. }
  assert (Zz : z = z') by nra. subst z'.
  assert (C' : forall c, (c < nd)%nat -> e1 c = f1 c) by (intros c Hc; specialize (C c Hc); nra).
  unfold drawn. f_equal; apply dot_ext; auto.
Qed.

(** ** Slices *)

Definition matches (sl : list (option nat)) (full : list nat) : Prop := Forall2 (fun s i => s = None \/ s = Some i) sl full.

Lemma fill_ok sl : forall shape rest, length sl = length shape -> slice_ok shape sl = true -> in_shape rest (sliced_shape shape sl) ->
  in_shape (fill_slice sl rest) shape /\ matches sl (fill_slice sl rest).
Proof.
  induction sl as [|[i|] sl IH]; intros [|n shape] rest L S H; try discriminate.
  - split; constructor.
  - cbn in *. apply andb_true_iff in S. destruct S as [S1 S2]. apply Nat.ltb_lt in S1. destruct (IH shape rest (eq_add_S _ _ L) S2 H) as [A B]. split; constructor; auto.
  - cbn in *. inversion H as [|r ? rest' ? Hr Hrest]; subst. destruct (IH shape rest' (eq_add_S _ _ L) S Hrest) as [A B]. split; constructor; auto.
Qed.

Lemma fill_surj sl : forall shape full, in_shape full shape -> matches sl full -> exists rest, in_shape rest (sliced_shape shape sl) /\ fill_slice sl rest = full.
Proof.
  induction sl as [|s sl IH]; intros shape full H M; inversion M as [|? i ? full' Hs M']; subst.
  - inversion H; subst. exists []. split; [constructor|reflexivity].
  - inversion H as [|? n ? shape' Hi H']; subst. destruct (IH shape' full' H' M') as (rest & A & B). destruct Hs as [->| ->].
    + exists (i :: rest). cbn. split; [constructor; assumption|rewrite B; reflexivity].
    + exists rest. cbn. split; [assumption|rewrite B; reflexivity].
Qed.

Lemma fill_inj sl : forall shape rest rest', length sl = length shape -> in_shape rest (sliced_shape shape sl) -> in_shape rest' (sliced_shape shape sl) ->
  fill_slice sl rest = fill_slice sl rest' -> rest = rest'.
Proof.
  induction sl as [|[i|] sl IH]; intros [|n shape] rest rest' L H H' E; try discriminate.
  - inversion H; inversion H'; reflexivity.
  - cbn in *. injection E as E. exact (IH shape rest rest' (eq_add_S _ _ L) H H' E).
  - cbn in *. inversion H as [|r ? r0 ? ? H0]; inversion H' as [|r' ? r0' ? ? H0']; subst. cbn in E. injection E as <- E. f_equal.
    exact (IH shape r0 r0' (eq_add_S _ _ L) H0 H0' E).
Qed.

(** The points of a slice that keeps the rows. *)
Lemma sliced_rows rows shape data sl : (0 < rows)%nat -> Forall (fun n => (0 < n)%nat) shape -> length sl = length shape -> slice_ok shape sl = true ->
  exists L points, sliced_points rows shape data (None :: sl) = Some points /\ length points = length L /\ NoDup L /\
    (forall full, In full L <-> in_shape full shape /\ matches sl full) /\
    forall j c, (j < length L)%nat -> (c < rows)%nat -> nth j points (fun _ => 0) c = data (c * nprod shape + ravel shape (nth j L []))%nat.
Proof.
  intros Hr Hp L S. unfold sliced_points. cbn [length]. rewrite L, Nat.sub_diag. cbn [repeat]. rewrite app_nil_r.
  cbn [sliced_shape slice_ok]. rewrite S. set (s := sliced_shape shape sl). cbn [nprod].
  assert (H1 : (rows * nprod s mod rows = 0)%nat) by (rewrite Nat.mul_comm; apply Nat.mod_mul; lia).
  assert (H2 : (rows * nprod s / rows = nprod s)%nat) by (rewrite Nat.mul_comm; apply Nat.div_mul; lia).
  replace (0 <? rows)%nat with true by (symmetry; apply Nat.ltb_lt; exact Hr). cbn [andb].
  rewrite H1, H2. cbn [Nat.eqb].
  assert (Hs : forall t, (t < nprod s)%nat -> in_shape (unravel s t) s) by (intros t Ht; apply unravel_in_shape; exact Ht).
  exists (map (fun j => fill_slice sl (unravel s j)) (seq 0 (nprod s))).
  match goal with |- exists points, Some ?p = _ /\ _ => exists p end. split; [reflexivity|]. rewrite !map_length. split; [reflexivity|]. split; [|split].
  - apply BrillouinProofs.NoDup_map_in; [|apply seq_NoDup]. intros x y Hx Hy E. apply in_seq in Hx, Hy.
    apply (fill_inj sl shape _ _ L) in E; [|apply Hs; lia|apply Hs; lia].
    rewrite <- (ravel_unravel s x), <- (ravel_unravel s y) by lia. rewrite E. reflexivity.
  - intros full. rewrite in_map_iff. split.
    + intros (j & <- & Hj). apply in_seq in Hj. apply fill_ok; [exact L|exact S|apply Hs; lia].
    + intros [A B]. destruct (fill_surj sl shape full A B) as (rest & C & D). exists (ravel s rest). rewrite unravel_ravel by exact C. split; [exact D|].
      apply in_seq. pose proof (ravel_lt s rest C). lia.
  - intros j c Hj Hc. rewrite seq_length in Hj.
    match goal with |- nth j (map ?g _) _ c = _ => rewrite (nth_indep _ _ (g 0%nat)) by (rewrite map_length, seq_length; exact Hj); rewrite (map_nth g) end.
    rewrite seq_nth by exact Hj. cbn [Nat.add].
    match goal with |- _ = data (_ + ravel shape (nth j (map ?g _) _))%nat => rewrite (nth_indep _ _ (g 0%nat)) by (rewrite map_length, seq_length; exact Hj); rewrite (map_nth g) end.
    rewrite seq_nth by exact Hj. cbn [Nat.add unravel fill_slice ravel].
    rewrite Nat.div_add_l, Nat.div_small, Nat.add_0_r by lia. rewrite (Nat.add_comm (c * nprod s)), Nat.mod_add, Nat.mod_small by lia. reflexivity.
Qed.

Lemma matches_nth (f : nat -> option nat) n : forall k full, length full = n ->
  (matches (map f (seq k n)) full <-> forall j, (j < n)%nat -> f (k + j)%nat = None \/ f (k + j)%nat = Some (nth j full 0%nat)).
Proof.
  induction n as [|n IH]; intros k [|i full] L; try discriminate; cbn [seq map].
  - split; [lia|constructor].
  - specialize (IH (S k) full (eq_add_S _ _ L)). split.
    + intros M. inversion M as [|? ? ? ? A B]; subst. intros [|j] Hj; [rewrite Nat.add_0_r; exact A|]. rewrite Nat.add_succ_r. apply IH; [exact B|lia].
    + intros H. constructor; [specialize (H 0%nat ltac:(lia)); rewrite Nat.add_0_r in H; exact H|]. apply IH. intros j Hj. specialize (H (S j) ltac:(lia)). rewrite Nat.add_succ_r in H. exact H.
Qed.

Lemma slice_ok_map (f : nat -> option nat) : forall shape k, (forall j i, (j < length shape)%nat -> f (k + j)%nat = Some i -> (i < nth j shape 0)%nat) ->
  slice_ok shape (map f (seq k (length shape))) = true.
Proof.
  induction shape as [|n shape IH]; intros k H; [reflexivity|]. cbn [length seq map slice_ok].
  assert (T : slice_ok shape (map f (seq (S k) (length shape))) = true).
  { apply IH. intros j i Hj E. apply (H (S j) i); [cbn; lia|]. rewrite Nat.add_succ_r. exact E. }
  destruct (f k) as [i|] eqn:E; [|exact T]. apply andb_true_iff. split; [|exact T]. apply Nat.ltb_lt. apply (H 0%nat i); [cbn; lia|]. rewrite Nat.add_0_r. exact E.
Qed.

Section Plane.
  Variables (shape : list nat) (axes idx : list nat).
  Let nd := length shape.
  Hypothesis Hn : NoDup axes.
  Hypothesis Ha : Forall (fun a => (a < nd)%nat) axes.
  Hypothesis Hi : in_shape idx (map (fun k => nth k shape 0%nat) (other_axes nd axes)).

  Lemma idx_length : (length idx + length axes = nd)%nat.
  Proof using Hn Ha Hi.
    pose proof (in_shape_length _ _ Hi) as L. rewrite map_length in L. rewrite L. clear Hi L.
    transitivity (length (other_axes nd axes ++ sorted_nat axes)).
    { rewrite app_length, (Permutation_length (sorted_nat_perm axes)). reflexivity. }
    rewrite <- (sorted_axes_filter nd axes Hn Ha). unfold other_axes.
    transitivity (length (seq 0 nd)); [|apply seq_length]. induction (seq 0 nd) as [|x l IH]; [reflexivity|]. cbn [filter].
    unfold memb in *. destruct (existsb (Nat.eqb x) axes); cbn [negb]; rewrite ?app_length in *; cbn [length]; lia.
  Qed.

  Lemma plane_slice : exists full0, length full0 = nd /\
    slice_ignoring_axes idx axes = map (fun k => if memb k axes then None else Some (nth k full0 0%nat)) (seq 0 nd) /\
    slice_ignoring_axes idx (0%nat :: map S axes) = None :: slice_ignoring_axes idx axes /\
    map (fun k => nth k full0 0%nat) (other_axes nd axes) = idx.
  Proof using Hn Ha Hi.
    destruct (full_index_exists nd axes idx (repeat 0%nat (length axes)) Hn Ha (repeat_length _ _) idx_length) as (full & F1 & _ & F3).
    exists full. split; [exact F1|]. assert (E := slice_ignoring_axes_spec nd axes idx full Hn Ha F3). split; [exact E|]. split; [|exact F3].
    rewrite E. rewrite (slice_ignoring_axes_spec (S nd) (0%nat :: map S axes) idx (0%nat :: full)).
    - cbn [seq map]. change (memb 0 (0%nat :: map S axes)) with true. cbv iota. f_equal. rewrite <- seq_shift, map_map. apply map_ext. intros k.
      assert (M : memb (S k) (0%nat :: map S axes) = memb k axes).
      { unfold memb. cbn. clear. induction axes as [|x l IH]; [reflexivity|]. cbn. rewrite IH. reflexivity. }
      rewrite M. reflexivity.
    - constructor; [intros X; apply in_map_iff in X; destruct X as (y & Y & _); discriminate|]. apply FinFun.Injective_map_NoDup; [intros x y; congruence|exact Hn].
    - constructor; [lia|]. apply Forall_forall. intros x X. apply in_map_iff in X. destruct X as (y & <- & Y). rewrite Forall_forall in Ha. specialize (Ha y Y). lia.
    - cbn [seq filter]. change (memb 0 (0%nat :: map S axes)) with true. cbn [negb]. rewrite <- F3. rewrite <- seq_shift.
      assert (G : forall l, map (fun k => nth k (0%nat :: full) 0%nat) (filter (fun k => negb (memb k (0%nat :: map S axes))) (map S l)) = map (fun k => nth k full 0%nat) (filter (fun k => negb (memb k axes)) l)); [|apply G].
      assert (M : forall k, memb (S k) (0%nat :: map S axes) = memb k axes).
      { intros k. unfold memb. cbn. clear. induction axes as [|x l IH]; [reflexivity|]. cbn. rewrite IH. reflexivity. }
      induction l as [|x l IH]; [reflexivity|]. cbn [map filter]. rewrite M. destruct (memb x axes); cbn [negb map]; [exact IH|f_equal; exact IH].
  Qed.

  Lemma plane_points rows data : (0 < rows)%nat -> Forall (fun n => (0 < n)%nat) shape ->
    exists L points, sliced_points rows shape data (slice_ignoring_axes idx (0%nat :: map S axes)) = Some points /\ length points = length L /\ NoDup L /\
    (forall full, In full L <-> in_shape full shape /\ map (fun k => nth k full 0%nat) (other_axes nd axes) = idx) /\
    forall j c, (j < length L)%nat -> (c < rows)%nat -> nth j points (fun _ => 0) c = data (c * nprod shape + ravel shape (nth j L []))%nat.
  Proof using Hn Ha Hi.
    intros Hr Hp. destruct plane_slice as (full0 & F1 & F2 & F3 & F4). rewrite F3.
    destruct (sliced_rows rows shape data (slice_ignoring_axes idx axes) Hr Hp) as (L & points & P1 & P2 & P3 & P4 & P5).
    { rewrite F2, map_length, seq_length. reflexivity. }
    { rewrite F2. apply slice_ok_map. intros j i Hj E. cbn [Nat.add] in E. destruct (memb j axes) eqn:M; [discriminate|]. injection E as <-.
      assert (O : In j (other_axes nd axes)).
      { unfold other_axes. apply filter_In. split; [apply in_seq; cbn; lia|]. unfold memb in M. rewrite M. reflexivity. }
      clear -Hi F4 O. rewrite <- F4 in Hi. clear F4. induction (other_axes nd axes) as [|x l IH]; [destruct O|]. cbn in Hi. inversion Hi; subst.
      destruct O as [->|O]; [assumption|auto]. }
    exists L, points. split; [exact P1|]. split; [exact P2|]. split; [exact P3|]. split; [|exact P5].
    intros full. rewrite P4. split; intros [A B]; (split; [exact A|]); pose proof (in_shape_length _ _ A) as Lf; change (length full = nd) in Lf.
    - rewrite F2 in B. rewrite (matches_nth _ _ 0%nat full Lf) in B. rewrite <- F4. apply map_ext_in. intros k Hk. unfold other_axes in Hk. apply filter_In in Hk. destruct Hk as [Hk Mk].
      apply in_seq in Hk. specialize (B k ltac:(lia)). cbn [Nat.add] in B. unfold memb in B. destruct (existsb (Nat.eqb k) axes); [discriminate|]. destruct B as [B|B]; [discriminate|]. congruence.
    - rewrite F2. apply (matches_nth _ _ 0%nat full Lf). intros k Hk. cbn [Nat.add]. destruct (memb k axes) eqn:M; [left; reflexivity|right]. f_equal.
      assert (O : In k (other_axes nd axes)).
      { unfold other_axes. apply filter_In. split; [apply in_seq; cbn; lia|]. unfold memb in M. rewrite M. reflexivity. }
      clear -B F4 O. rewrite <- F4 in B. clear F4. induction (other_axes nd axes) as [|x l IH]; [destruct O|]. cbn in B. injection B as B1 B2.
      destruct O as [->|O]; [congruence|auto].
  Qed.
End Plane.
