(** Projected points and distances along paths. *)
From Coq Require Import Reals Lra Lia Psatz.
From Verif Require TrajectoryProofs.
From Verif Require Import ZLib Csum DFT NumPy Index Spec IndexProofs AxesProofs Basis Lattice SpecReal LatticeProofs SpecHamiltonian SpecReduce StateList SpecStateList
  Brillouin DynamicsProofs OverlapProofs3 FourierProofs4 Paths SpecPaths PathsProofs.
Local Open Scope R_scope.

(** ** Projections *)
Definition spanned (nd : nat) (delta : nat -> nat -> R) (axes : list nat) (p : nat -> R) : Prop :=
  exists k : nat -> R, forall c, (c < nd)%nat -> p c = rsum (fun j => k j * delta (nth j axes 0%nat) c) (length axes).

Lemma list_dot_map {A} (d : A) (f g : A -> R) l : list_dot (map f l) (map g l) = rsum (fun i => f (nth i l d) * g (nth i l d)) (length l).
Proof. induction l as [|a l IH]; [reflexivity|]. cbn [map list_dot length]. rewrite rsum_shift, IH. reflexivity. Qed.

Section Projection.
  Variable nd : nat.
  Variable delta : nat -> nat -> R.
  Variable axes : list nat.
  Local Notation zero := (fun _ : nat => 0%R).

  Lemma expand_spanned es p : inv nd delta axes es -> spanned nd delta axes p ->
    forall c, (c < nd)%nat -> p c = rsum (fun i => dot nd (nth i es zero) p * nth i es zero c) (length es).
  Proof.
    intros [L A Oo _ U D X] (k & K). set (n := length axes) in *.
    assert (Dp : forall i, dot nd (nth i es zero) p = rsum (fun j => k j * dot nd (nth i es zero) (delta (nth j axes 0%nat))) n).
    { intros i. rewrite <- (dot_sum nd _ k (fun j => delta (nth j axes 0%nat))). apply dot_ext; [reflexivity|exact K]. }
    intros c Hc. rewrite K by exact Hc. rewrite L.
    transitivity (rsum (fun j => rsum (fun i => k j * dot nd (nth i es zero) (delta (nth j axes 0%nat)) * nth i es zero c) n) n).
    - apply rsum_ext. intros j Hj. pose proof (X j c Hj Hc) as E. transitivity (k j * rsum (fun i => dot nd (nth i es zero) (delta (nth j axes 0%nat)) * nth i es zero c) n); [rewrite <- E; reflexivity|]. rewrite <- LatticeProofs.rsum_scal_l. apply rsum_ext. intros i Hi. rewrite Rmult_assoc. reflexivity.
    - rewrite LatticeProofs.rsum_swap. apply rsum_ext. intros i Hi. rewrite Dp, <- LatticeProofs.rsum_scal_r. reflexivity.
  Qed.

  Lemma project_none p : project_x_points_along_axes nd delta axes p = None <->
    (exists a, In a axes /\ (nd <= a)%nat) \/ (exists j, (j < length axes)%nat /\ depends_on_earlier nd (fun i => delta (nth i axes 0%nat)) j).
  Proof.
    rewrite <- axes_none. unfold project_x_points_along_axes. destruct (projected_axes nd delta [] axes); cbn; split; intros; congruence.
  Qed.

  Lemma project_triangular j l : (j < length axes)%nat -> project_x_points_along_axes nd delta axes (delta (nth j axes 0%nat)) = Some l ->
    length l = length axes /\ 0 < nth j l 0 /\ forall i, (j < i)%nat -> nth i l 0 = 0.
  Proof.
    intros Hj. unfold project_x_points_along_axes. destruct (projected_axes nd delta [] axes) as [es|] eqn:G; [|discriminate].
    cbn [option_map]. intros E. injection E as <-. destruct (axes_spec nd delta axes es G) as [L A Oo _ U D X].
    rewrite map_length. split; [exact L|].
    assert (N : forall i, (i < length es)%nat -> nth i (map (fun e => np_dot nd e (delta (nth j axes 0%nat))) es) 0 = dot nd (nth i es zero) (delta (nth j axes 0%nat))).
    { intros i Hi. rewrite (nth_indep _ 0 (np_dot nd zero (delta (nth j axes 0%nat)))) by (rewrite map_length; exact Hi).
      rewrite (map_nth (fun e => np_dot nd e (delta (nth j axes 0%nat)))). reflexivity. }
    split.
    - rewrite N by lia. apply D, Hj.
    - intros i Hi. destruct (Nat.lt_ge_cases i (length es)).
      + rewrite N by assumption. apply U; lia.
      + apply nth_overflow. rewrite map_length. assumption.
  Qed.

  Lemma project_inner p q lp lq : project_x_points_along_axes nd delta axes p = Some lp -> project_x_points_along_axes nd delta axes q = Some lq ->
    length lp = length axes /\ list_dot lp lp <= dot nd p p /\ (spanned nd delta axes p -> list_dot lp lq = dot nd p q).
  Proof.
    unfold project_x_points_along_axes. destruct (projected_axes nd delta [] axes) as [es|] eqn:G; [|discriminate].
    cbn [option_map]. intros E E'. injection E as <-. injection E' as <-. pose proof (axes_spec nd delta axes es G) as I.
    pose proof I as [L A Oo _ U D X].
    rewrite map_length. split; [exact L|]. rewrite !(list_dot_map zero). change (np_dot nd) with (dot nd). split.
    - set (p' := fun c => rsum (fun i => dot nd (nth i es zero) p * nth i es zero c) (length es)).
      assert (D1 : forall i, (i < length es)%nat -> dot nd (nth i es zero) p' = dot nd (nth i es zero) p).
      { intros i Hi. unfold p'. rewrite (dot_sum nd _ (fun i => dot nd (nth i es zero) p) (fun i => nth i es zero)).
        rewrite (rsum_ext _ (fun j => dot nd (nth j es zero) p * (if Nat.eqb i j then 1 else 0))) by (intros j Hj; rewrite Oo by assumption; reflexivity).
        apply rsum_pick. exact Hi. }
      assert (D2 : forall q, dot nd q p' = rsum (fun i => dot nd (nth i es zero) p * dot nd (nth i es zero) q) (length es)).
      { intros r. unfold p'. rewrite (dot_sum nd _ (fun i => dot nd (nth i es zero) p) (fun i => nth i es zero)). apply rsum_ext. intros i Hi. rewrite (dot_sym nd r). reflexivity. }
      assert (P : 0 <= dot nd (fun c => p c - p' c) (fun c => p c - p' c)) by (apply rsum_nonneg; intros; apply Rle_0_sqr).
      rewrite dot_sub, !(dot_sym nd (fun c => p c - p' c)), !dot_sub in P. rewrite (dot_sym nd p' p), !D2 in P.
      rewrite (rsum_ext (fun i => dot nd (nth i es zero) p * dot nd (nth i es zero) p') (fun i => dot nd (nth i es zero) p * dot nd (nth i es zero) p)) in P
        by (intros i Hi; rewrite D1 by exact Hi; reflexivity).
      lra.
    - intros Sp. pose proof (expand_spanned es p I Sp) as Ex.
      rewrite (dot_sym nd p q), (dot_ext nd q q p _ (fun _ _ => eq_refl) Ex).
      rewrite (dot_sum nd _ (fun i => dot nd (nth i es zero) p) (fun i => nth i es zero)). apply rsum_ext. intros i Hi. rewrite (dot_sym nd q). reflexivity.
  Qed.
End Projection.

(** ** Coordinates of the points of a grid *)
Lemma rsum_support (f : nat -> R) n axes : NoDup axes -> Forall (fun a => (a < n)%nat) axes -> (forall a, (a < n)%nat -> ~ In a axes -> f a = 0) ->
  rsum f n = rsum (fun j => f (nth j axes 0%nat)) (length axes).
Proof.
  revert f. induction axes as [|a axes IH]; intros f N F Z.
  - cbn. rewrite (rsum_ext _ (fun _ => 0)); [apply rsum_const0|]. intros i Hi. apply Z; [exact Hi|intros []].
  - inversion N as [|? ? Na N']; inversion F as [|? ? Fa F']; subst. cbn [length]. rewrite rsum_shift. cbn [nth].
    rewrite (rsum_split_at f n a Fa). f_equal. rewrite (IH (fun j => if Nat.eqb a j then 0 else f j) N' F').
    + apply rsum_ext. intros j Hj. destruct (Nat.eqb_spec a (nth j axes 0%nat)) as [E|E]; [|reflexivity].
      exfalso. apply Na. rewrite E. apply nth_In. exact Hj.
    + intros b Hb Hn. destruct (Nat.eqb_spec a b) as [E|E]; [reflexivity|]. apply Z; [exact Hb|]. intros [X|X]; [congruence|contradiction].
Qed.

Lemma fundamental_points fshape delta x c : (x < nprod fshape)%nat ->
  fundamental_x_points fshape delta x c = lattice_point fshape delta (fun a => Z.of_nat (nth a (unravel fshape x) 0%nat)) c.
Proof.
  intros Hx. unfold fundamental_x_points, lattice_point. apply rsum_ext. intros a Ha. unfold dx_stacked, stacked_nx_points, meshgrid_ravel, flatten, nx_points.
  unfold Rdiv. ring.
Qed.

Section Coordinates.
  Variable shape : list nat.
  Variable delta : nat -> nat -> R.
  Variable axes : list nat.
  Let nd := length shape.
  Hypothesis Hp : Forall (fun n => (0 < n)%nat) shape.
  Hypothesis Hn : NoDup axes.
  Hypothesis Ha : Forall (fun a => (a < nd)%nat) axes.

  Definition at_point (full : list nat) : nat -> R := lattice_point shape delta (fun a => Z.of_nat (nth a full 0%nat)).

  Lemma coordinates_spec idx rows f : (length idx + length axes = nd)%nat ->
    get_x_coordinates_in_axes shape shape delta axes (Some idx) = Some (rows, f) ->
    rows = length axes /\
    forall full out, in_shape full shape -> at_axes nd axes out idx full -> length out = length axes ->
      project_x_points_along_axes nd delta axes (at_point full) = Some (map (fun r => f r out) (seq 0 rows)).
  Proof using Hp Hn Ha.
    intros Hi. unfold get_x_coordinates_in_axes. fold nd. destruct (projected_axes nd delta [] axes) as [es|] eqn:G; [|discriminate].
    assert (P : (0 < nprod shape)%nat) by (clear -Hp; induction Hp; cbn; nia).
    pose proof (inv_length _ _ _ _ (axes_spec nd delta axes es G)) as L.
    rewrite Nat.mod_mul by lia. replace (nprod shape =? 0)%nat with false by (symmetry; apply Nat.eqb_neq; lia). cbn [orb negb Nat.eqb].
    rewrite Nat.div_mul by lia. intros E. injection E as <- <-. split; [exact L|].
    intros full out Hf (At1 & At2 & At3) Ho. unfold project_x_points_along_axes. rewrite G. cbn [option_map]. f_equal.
    apply (nth_ext _ _ 0 0); [rewrite !map_length, seq_length; reflexivity|]. rewrite map_length. intros r Hr.
    rewrite (nth_indep _ 0 (np_dot nd (fun _ => 0) (at_point full))) by (rewrite map_length; exact Hr).
    rewrite (map_nth (fun e => np_dot nd e (at_point full))).
    match goal with |- _ = nth r (map ?g _) 0 => rewrite (nth_indep _ 0 (g 0%nat)) by (rewrite map_length, seq_length; exact Hr); rewrite (map_nth g) end.
    rewrite seq_nth by exact Hr. cbn [Nat.add].
    rewrite (get_data_in_axes_spec _ nd axes idx out full Hn Ha At1 Ho At2 At3).
    pose proof (ravel_lt shape full Hf) as Rl.
    replace ((r * nprod shape + ravel shape full) / nprod shape)%nat with r.
    2: { rewrite Nat.div_add_l, Nat.div_small by lia. lia. }
    replace ((r * nprod shape + ravel shape full) mod nprod shape)%nat with (ravel shape full).
    2: { rewrite Nat.add_comm, Nat.mod_add, Nat.mod_small by lia. reflexivity. }
    apply dot_ext; [reflexivity|]. intros c Hc. rewrite fundamental_points by exact Rl. unfold at_point. rewrite unravel_ravel by exact Hf. reflexivity.
  Qed.

  Lemma spanned_difference idx full full' out out' : at_axes nd axes out idx full -> at_axes nd axes out' idx full' ->
    spanned nd delta axes (fun c => at_point full c - at_point full' c).
  Proof using Hn Ha.
    intros (A1 & A2 & A3) (B1 & B2 & B3).
    set (z := fun a => IZR (Z.of_nat (nth a full 0%nat)) / INR (nth a shape 0%nat) - IZR (Z.of_nat (nth a full' 0%nat)) / INR (nth a shape 0%nat)).
    exists (fun j => z (nth j axes 0%nat)). intros c Hc. unfold at_point, lattice_point. fold nd.
    rewrite <- TrajectoryProofs.rsum_sub.
    rewrite (rsum_support _ nd axes Hn Ha).
    - apply rsum_ext. intros j Hj. unfold z. ring.
    - intros a Hb Hna. assert (E : nth a full 0%nat = nth a full' 0%nat).
      { assert (In a (other_axes nd axes)).
        { unfold other_axes. apply filter_In. split; [apply in_seq; lia|]. apply negb_true_iff. destruct (existsb (Nat.eqb a) axes) eqn:M; [|reflexivity].
          apply existsb_exists in M. destruct M as (b & B & E). apply Nat.eqb_eq in E. subst b. contradiction. }
        rewrite <- B3 in A3. clear -A3 H. revert A3. induction (other_axes nd axes) as [|b l IH]; [destruct H|]. cbn. intros E. injection E as E1 E2.
        destruct H as [->|H]; [exact E1|auto]. }
      rewrite E. ring.
  Qed.

  Lemma list_dot_sub nd' (es : list (nat -> R)) p q : map (fun e => np_dot nd' e (fun c => p c - q c)) es =
    map (fun r => fst r - snd r) (combine (map (fun e => np_dot nd' e p) es) (map (fun e => np_dot nd' e q) es)).
  Proof. induction es as [|e es IH]; [reflexivity|]. cbn. f_equal; [|exact IH]. apply dot_sub. Qed.

  (** Distances between the points of a plane are kept. *)
  Lemma coordinates_distance idx rows f : (length idx + length axes = nd)%nat ->
    get_x_coordinates_in_axes shape shape delta axes (Some idx) = Some (rows, f) ->
    forall full full' out out', in_shape full shape -> in_shape full' shape -> at_axes nd axes out idx full -> at_axes nd axes out' idx full' ->
      length out = length axes -> length out' = length axes ->
      sqrt (rsum (fun r => (f r out - f r out') ^ 2) rows) = distance nd (at_point full) (at_point full').
  Proof using Hp Hn Ha.
    intros Hi G full full' out out' Hf Hf' At At' Lo Lo'. destruct (coordinates_spec idx rows f Hi G) as (Er & C).
    pose proof (C full out Hf At Lo) as C1. pose proof (C full' out' Hf' At' Lo') as C2.
    unfold distance. f_equal.
    assert (Pd : project_x_points_along_axes nd delta axes (fun c => at_point full c - at_point full' c) = Some (map (fun r => f r out - f r out') (seq 0 rows))).
    { unfold project_x_points_along_axes in *. destruct (projected_axes nd delta [] axes) as [es|]; [|discriminate]. cbn [option_map] in *.
      injection C1 as C1. injection C2 as C2. f_equal. rewrite list_dot_sub, C1, C2. clear.
      induction (seq 0 rows) as [|a l IH]; [reflexivity|]. cbn. f_equal. exact IH. }
    destruct (project_inner nd delta axes _ _ _ _ Pd Pd) as (_ & _ & K).
    specialize (K (spanned_difference idx full full' out out' At At')). rewrite (list_dot_map 0%nat), seq_length in K.
    transitivity (rsum (fun i => (f (nth i (seq 0 rows) 0%nat) out - f (nth i (seq 0 rows) 0%nat) out') * (f (nth i (seq 0 rows) 0%nat) out - f (nth i (seq 0 rows) 0%nat) out')) rows).
    - apply rsum_ext. intros i Hi'. rewrite seq_nth by exact Hi'. cbn [Nat.add]. ring.
    - rewrite K. apply rsum_ext. intros. ring.
  Qed.
End Coordinates.
