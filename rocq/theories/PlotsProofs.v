(** Slices and coordinates of plots. *)
From Coq Require Import Reals Lra Lia Psatz.
From Verif Require Import ZLib Csum DFT NumPy Index Spec IndexProofs AxesProofs Basis Lattice SpecReal LatticeProofs SpecHamiltonian SpecReduce StateList SpecStateList
  Hamiltonian Operator StateListProofs2 Brillouin Observables ObservablesProofs3 Paths SpecPaths PathsProofs PathsProofs2 PathsFacts VolumeBasis SpecVolumeBasis Plots SpecPlots.
Local Open Scope R_scope.

(** ** Slices *)
Section Slice.
  Variables (shape axs : list nat).
  Let nd := length shape.
  Hypothesis Hp : Forall (fun n => (0 < n)%nat) shape.
  Hypothesis Hg : good_axes nd axs.

  Let probe : ndarray := {| ashape := [nprod (map bsize (map BFund shape))]; aflat := fun _ => RtoC 0 |}.
  Lemma sizes_shape : map bsize (map BFund shape) = shape.
  Proof. rewrite map_map. rewrite <- (map_id shape) at 2. apply map_ext. reflexivity. Qed.

  Lemma slice_full idx : in_shape idx (remaining 0%nat axs shape) -> (length idx + length axs = nd)%nat /\
    (forall out, length out = length axs -> exists full, at_axes nd axs out idx full) /\
    (forall out full, in_shape out (map (fun a => nth a shape 0%nat) axs) -> at_axes nd axs out idx full -> in_shape full shape).
  Proof using Hp Hg.
    intros Hi. pose proof sizes_shape as E.
    assert (P : Forall (fun n => (0 < n)%nat) (map bsize (map BFund shape))) by (rewrite E; exact Hp).
    assert (D : nprod (ashape probe) = (nprod (map bsize (map BFund shape)) * bsize (BFund 1))%nat) by (cbn [ashape probe nprod bsize]; lia).
    assert (G : good_axes (length (map BFund shape)) axs) by (rewrite map_length; exact Hg).
    assert (I : in_shape idx (remaining 0%nat axs (map bsize (map BFund shape)))) by (rewrite E; exact Hi).
    assert (L : length (map BFund shape) = nd) by apply map_length.
    split; [|split].
    - rewrite <- L. exact (len_idx (map BFund shape) (BFund 1) probe axs idx P D G I).
    - intros out Ho. rewrite <- L. exact (full_exists (map BFund shape) (BFund 1) probe axs idx P D G I out Ho).
    - intros out full Ho Hf. rewrite <- L in Hf. pose proof (full_in_range (map BFund shape) (BFund 1) probe axs idx P D G I out full) as Q.
      rewrite E in Q. exact (Q Ho Hf).
  Qed.

  Lemma slice_fits_in_shape idx : in_shape idx (remaining 0%nat axs shape) -> slice_fits shape axs idx = true.
  Proof using Hp Hg.
    intros Hi. destruct (slice_full idx Hi) as (L & Ex & Rg). destruct Hg as [N F].
    assert (Z : in_shape (repeat 0%nat (length axs)) (map (fun a => nth a shape 0%nat) axs)).
    { clear -Hp F. fold nd in F. induction axs as [|a l IH]; cbn [repeat map length]; constructor.
      - inversion F; subst. rewrite Forall_forall in Hp. apply Hp, nth_In. assumption.
      - apply IH. inversion F; assumption. }
    destruct (Ex (repeat 0%nat (length axs)) (repeat_length _ _)) as [full Hf].
    pose proof (Rg _ _ Z Hf) as Hs. destruct Hf as (Lf & _ & Hr).
    assert (E : slice_ignoring_axes idx axs = map (fun k => if memb k axs then None else Some (nth k full 0%nat)) (seq 0 (length shape))).
    { apply (slice_ignoring_axes_spec (length shape) axs idx full N F). exact Hr. }
    unfold slice_fits. cbv zeta. rewrite E. apply andb_true_intro. split.
    - apply slice_ok_filter. intros k [_ Hk] _. rewrite Nat.sub_0_r. apply IndexProofs.in_shape_nth; [exact Hs|exact Hk].
    - apply Nat.eqb_eq. rewrite sliced_filter, map_length.
      rewrite (sorted_axes_filter (length shape) axs N F). apply Permutation.Permutation_length, sorted_nat_perm.
  Qed.

  Lemma list_insert_length {A} k (x : A) l : length (list_insert k x l) = S (length l).
  Proof. revert l. induction k as [|k IH]; intros [|y l]; cbn; try reflexivity. rewrite IH. reflexivity. Qed.
  Lemma insert_loop_length s (l : list (option nat)) : length (fold_left (fun sl axis => list_insert axis None sl) s l) = (length s + length l)%nat.
  Proof. revert l. induction s as [|a s IH]; intros l; [reflexivity|]. cbn [fold_left length]. rewrite IH, list_insert_length. lia. Qed.

  Definition nones (l : list (option nat)) : nat := length (filter (fun o => match o with None => true | Some _ => false end) l).
  Lemma nones_insert k l : nones (list_insert k None l) = S (nones l).
  Proof.
    revert l. induction k as [|k IH]; intros [|y l]; try reflexivity. cbn [list_insert]. unfold nones in *. cbn [filter].
    destruct y; cbn [length]; rewrite IH; reflexivity.
  Qed.
  Lemma nones_loop s l : nones (fold_left (fun sl axis => list_insert axis None sl) s l) = (length s + nones l)%nat.
  Proof. revert l. induction s as [|a s IH]; intros l; [reflexivity|]. cbn [fold_left length]. rewrite IH, nones_insert. lia. Qed.
  Lemma nones_some l : nones (map Some l) = 0%nat.
  Proof. induction l as [|x l IH]; [reflexivity|]. unfold nones in *. cbn. exact IH. Qed.
  Lemma sliced_length s : forall sh, slice_ok sh s = true -> (length s <= length sh)%nat /\ length (sliced_shape sh s) = (nones s + (length sh - length s))%nat.
  Proof.
    induction s as [|o s IH]; intros [|n sh] H; try discriminate; cbn [sliced_shape length].
    - split; [lia|reflexivity].
    - split; [lia|cbn; lia].
    - destruct o as [i|]; cbn [slice_ok] in H.
      + apply andb_prop in H. destruct (IH sh (proj2 H)) as (A & B). cbn [sliced_shape]. unfold nones in *. cbn [filter]. split; [lia|]. rewrite B. lia.
      + destruct (IH sh H) as (A & B). cbn [sliced_shape length]. unfold nones in *. cbn [filter length]. split; [lia|]. rewrite B. lia.
  Qed.

  Lemma slice_ok_reads (p : nat -> bool) (g : nat -> nat) sh : forall j, slice_ok sh (map (fun k => if p k then None else Some (g k)) (seq j (length sh))) = true ->
    forall k, (j <= k < j + length sh)%nat -> p k = false -> (g k < nth (k - j) sh 0)%nat.
  Proof.
    induction sh as [|n sh IH]; intros j H k Hk Pk; [cbn in Hk; lia|]. cbn [length seq map] in H.
    destruct (Nat.eq_dec k j) as [->|Nk].
    - rewrite Pk in H. cbn [slice_ok] in H. apply andb_prop in H. rewrite Nat.sub_diag. apply Nat.ltb_lt. exact (proj1 H).
    - replace (k - j)%nat with (S (k - S j)) by lia. cbn [nth]. apply (IH (S j)); [|cbn in Hk; lia|exact Pk].
      destruct (p j); cbn [slice_ok] in H; [exact H|apply andb_prop in H; exact (proj2 H)].
  Qed.

  Lemma slice_fits_iff idx : slice_fits shape axs idx = true <-> in_shape idx (remaining 0%nat axs shape).
  Proof using Hp Hg.
    split; [|apply slice_fits_in_shape]. unfold slice_fits. cbv zeta. intros H. apply andb_prop in H. destruct H as (A & B). apply Nat.eqb_eq in B.
    destruct (sliced_length _ _ A) as (L & E). rewrite B in E.
    assert (Ls : length (sorted_nat axs) = length axs) by apply Permutation.Permutation_length, sorted_nat_perm.
    unfold slice_ignoring_axes in L, E. rewrite nones_loop, nones_some, insert_loop_length, map_length, Ls in E. rewrite insert_loop_length, map_length, Ls in L.
    assert (Li : (length idx + length axs = nd)%nat) by (unfold nd; lia). destruct Hg as [N F].
    destruct (full_index_exists nd axs idx (repeat 0%nat (length axs)) N F (repeat_length _ _) Li) as (full & Lf & _ & Hr).
    assert (Es : slice_ignoring_axes idx axs = map (fun k => if memb k axs then None else Some (nth k full 0%nat)) (seq 0 (length shape))).
    { apply (slice_ignoring_axes_spec (length shape) axs idx full N F). exact Hr. }
    rewrite Es in A. pose proof (slice_ok_reads _ _ _ 0%nat A) as Q. rewrite <- Hr. unfold remaining, other_axes. fold nd.
    change (filter (fun k => negb (existsb (Nat.eqb k) axs)) (seq 0 nd)) with (filter (fun k => negb (memb k axs)) (seq 0 nd)).
    assert (K : forall k, In k (filter (fun k => negb (memb k axs)) (seq 0 nd)) -> (nth k full 0 < nth k shape 0)%nat).
    { intros k Hk. apply filter_In in Hk. destruct Hk as (Ik & Mk). apply in_seq in Ik. specialize (Q k). rewrite Nat.sub_0_r in Q. apply Q; [exact Ik|].
      destruct (memb k axs); [discriminate|reflexivity]. }
    revert K. generalize (filter (fun k => negb (memb k axs)) (seq 0 nd)). intros l K. induction l as [|k l IH]; cbn [map]; constructor.
    - apply K. left. reflexivity.
    - apply IH. intros k' Hk'. apply K. right. exact Hk'.
  Qed.
End Slice.

(** ** Projections on one and on two axes *)
Section Project.
  Variables (nd : nat) (vec : nat -> nat -> R).
  Local Notation zero := (fun _ : nat => 0%R).

  Definition nonzero (v : nat -> R) : Prop := exists c, (c < nd)%nat /\ v c <> 0.
  Definition independent (u v : nat -> R) : Prop := nonzero u /\ forall k : R, exists c, (c < nd)%nat /\ v c <> k * u c.

  Lemma norm_sqrt v : norm nd v = sqrt (rsum (fun c => v c ^ 2) nd).
  Proof. unfold norm. f_equal. apply rsum_ext. intros c _. ring. Qed.
  Lemma norm_positive v : nonzero v -> 0 < norm nd v.
  Proof. intros (c & Hc & Nz). exact (norm_pos nd v c Hc Nz). Qed.

  Lemma projected_one a es : projected_axes nd vec [] [a] = Some es -> forall p, np_dot nd (nth 0 es zero) p = along nd (vec a) p.
  Proof.
    unfold projected_axes. destruct (a <? nd)%nat; [|discriminate]. cbn [subtract_projections fold_left].
    destruct (Req_EM_T (norm nd (vec a)) 0) as [|Nz]; [discriminate|]. intros E. injection E as <-. intros p. cbn [nth app]. unfold along. rewrite <- norm_sqrt.
    unfold np_dot, Rdiv. rewrite <- LatticeProofs.rsum_scal_r. apply rsum_ext. intros c _. ring.
  Qed.
  Lemma projected_one_some a : (a < nd)%nat -> nonzero (vec a) -> exists es, projected_axes nd vec [] [a] = Some es.
  Proof.
    intros Ha Nz. unfold projected_axes. rewrite (proj2 (Nat.ltb_lt a nd) Ha). cbn [subtract_projections fold_left].
    destruct (Req_EM_T (norm nd (vec a)) 0) as [E|_]; [pose proof (norm_positive _ Nz); lra|]. eexists. reflexivity.
  Qed.
  Lemma projected_two_some a b : (a < nd)%nat -> (b < nd)%nat -> independent (vec a) (vec b) -> exists es, projected_axes nd vec [] [a; b] = Some es.
  Proof.
    intros Ha Hb (Nz & Ind). destruct (projected_axes nd vec [] [a; b]) as [es|] eqn:E; [eauto|]. exfalso. apply axes_none in E.
    destruct E as [(x & Ix & Hx)|(j & Hj & (k & K))].
    - destruct Ix as [<-|[<-|[]]]; lia.
    - cbn in Hj. destruct j as [|[|]]; [|..|lia].
      + destruct Nz as (c & Hc & Nc). apply Nc. exact (K c Hc).
      + destruct (Ind (k 0%nat)) as (c & Hc & Nc). apply Nc. specialize (K c Hc). cbn in K. rewrite K. ring.
  Qed.

  (** Coordinates of two points. *)
  Lemma projected_two a b es : projected_axes nd vec [] [a; b] = Some es ->
    (forall p q, (exists s t : R, forall c, (c < nd)%nat -> p c - q c = s * vec a c + t * vec b c) ->
       sqrt ((np_dot nd (nth 0 es zero) p - np_dot nd (nth 0 es zero) q) ^ 2 + (np_dot nd (nth 1 es zero) p - np_dot nd (nth 1 es zero) q) ^ 2) = distance nd p q) /\
    (forall p q (s : R), (forall c, (c < nd)%nat -> p c - q c = s * vec a c) ->
       np_dot nd (nth 0 es zero) p - np_dot nd (nth 0 es zero) q = s * sqrt (rsum (fun c => vec a c ^ 2) nd) /\
       np_dot nd (nth 1 es zero) p = np_dot nd (nth 1 es zero) q) /\
    (forall p q (s : R), 0 < s -> (forall c, (c < nd)%nat -> p c - q c = s * vec b c) -> np_dot nd (nth 1 es zero) q < np_dot nd (nth 1 es zero) p).
  Proof.
    intros E. pose proof (axes_spec nd vec [a; b] es E) as I. pose proof (inv_length _ _ _ _ I) as L. cbn [length] in L.
    destruct es as [|e0 [|e1 [|]]]; try discriminate. cbn [nth].
    assert (Sub : forall e p q, np_dot nd e p - np_dot nd e q = np_dot nd e (fun c => p c - q c)) by (intros e p q; symmetry; apply dot_sub).
    assert (Pr : forall p, project_x_points_along_axes nd vec [a; b] p = Some [np_dot nd e0 p; np_dot nd e1 p]).
    { intros p. unfold project_x_points_along_axes. rewrite E. reflexivity. }
    assert (Inn : forall d, (exists s t : R, forall c, (c < nd)%nat -> d c = s * vec a c + t * vec b c) -> np_dot nd e0 d * np_dot nd e0 d + np_dot nd e1 d * np_dot nd e1 d = dot nd d d).
    { intros d (s & t & D). destruct (project_inner nd vec [a; b] d d _ _ (Pr d) (Pr d)) as (_ & _ & Q).
      transitivity (list_dot [np_dot nd e0 d; np_dot nd e1 d] [np_dot nd e0 d; np_dot nd e1 d]); [cbn; ring|]. apply Q.
      exists (fun i => if Nat.eqb i 0 then s else t). intros c Hc. rewrite D by exact Hc. cbn. ring. }
    assert (Va : np_dot nd e1 (vec a) = 0 /\ np_dot nd e0 (vec a) = norm nd (vec a)).
    { destruct (project_triangular nd vec [a; b] 0 _ ltac:(cbn; lia) (Pr (vec a))) as (_ & P0 & P1). cbn [nth] in P0. specialize (P1 1%nat ltac:(lia)). cbn [nth] in P1.
      split; [exact P1|]. assert (Q := Inn (vec a) ltac:(exists 1, 0; intros; ring)). rewrite P1, <- norm_square in Q.
      pose proof (norm_nonneg nd (vec a)) as Nn. nra. }
    assert (Vb : 0 < np_dot nd e1 (vec b)).
    { destruct (project_triangular nd vec [a; b] 1 _ ltac:(cbn; lia) (Pr (vec b))) as (_ & P0 & _). exact P0. }
    split; [|split].
    - intros p q D. rewrite !Sub. unfold distance. f_equal. transitivity (dot nd (fun c => p c - q c) (fun c => p c - q c)).
      + rewrite <- Inn by exact D. ring.
      + unfold dot. apply rsum_ext. intros c _. ring.
    - intros p q s D. assert (Ex : forall e, np_dot nd e (fun c => p c - q c) = s * np_dot nd e (vec a)).
      { intros e. transitivity (dot nd e (fun c => s * vec a c)); [|apply dot_scale]. apply dot_ext; [reflexivity|exact D]. }
      split.
      + rewrite Sub, Ex, <- norm_sqrt. rewrite (proj2 Va). reflexivity.
      + apply Rminus_diag_uniq. rewrite Sub, Ex, (proj1 Va). ring.
    - intros p q s Hs D. apply Rminus_gt_0_lt. rewrite Sub.
      replace (np_dot nd e1 (fun c => p c - q c)) with (s * np_dot nd e1 (vec b)); [nra|]. symmetry. transitivity (dot nd e1 (fun c => s * vec b c)); [|apply dot_scale]. apply dot_ext; [reflexivity|exact D].
  Qed.
End Project.
