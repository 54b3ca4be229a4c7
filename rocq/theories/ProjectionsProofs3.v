(** The exponential and gaussian states and evenly spaced points. *)
From Coq Require Import Reals Lra.
From Verif Require Spectral Polar.
From Verif Require Import BlochEnergyProofs2.
From Verif Require Import ZLib Csum DFT NumPy Spec Index IndexProofs Basis SpecBasis Operator SpecOperator OperatorProofs
  Reduce StateList SpecStateList Wavepacket SpecWavepacket Localize SpecLocalize SpecTightCell TightCell TightCellProofs TightCellProofs3 Projections SpecProjections LocalizeProofs4.
Local Open Scope R_scope.
Local Open Scope C_scope.

Lemma wrap_from_length s : forall ax i o, length i = length s -> length o = length s -> length (wrap_index_from ax s i o None) = length s.
Proof. induction s as [|n s IH]; intros ax [|a i] [|b o] L1 L2; try discriminate; [reflexivity|]. cbn [wrap_index_from length]. f_equal. apply IH; cbn in *; lia. Qed.
Lemma wrap_from_le s : forall ax i o, (length (wrap_index_from ax s i o None) <= length s)%nat.
Proof. induction s as [|n s IH]; intros ax [|a i] [|b o]; cbn [wrap_index_from length]; try lia. specialize (IH (S ax) i o). lia. Qed.

Lemma exponential_weight_raises nl n nfl nf F o x : exponential_weight nl n nfl nf F o x = None.
Proof.
  unfold exponential_weight. destruct (wrap_in_pair nl n o) as [p|]; [|reflexivity]. destruct (coordinates F p x) as [c|]; [|reflexivity].
  destruct c as [|c0 [|c1 [|c2 c]]]; try reflexivity. destruct p as [|p0 [|p1 [|p2 p]]]; reflexivity.
Qed.
Lemma exponential_raises same laxes saxes d idx origin : get_exponential_state same laxes saxes d idx origin = None.
Proof.
  unfold get_exponential_state. destruct (position_state _ _ _ _ _) as [[b v]|]; [|reflexivity].
  destruct (given_or_largest _ _ _); [|reflexivity]. rewrite exponential_weight_raises. reflexivity.
Qed.
Lemma exponential_decay_raises same laxes saxes d finish : localize_exponential_decay_projection same laxes saxes d finish = None.
Proof. unfold localize_exponential_decay_projection. rewrite exponential_raises. reflexivity. Qed.


Lemma Cconj_R' (r : R) : Cconj (RtoC r) = RtoC r.
Proof. apply injective_projections; cbn; ring. Qed.
Lemma map2_supercell a : forall b, map2 Nat.mul a b = supercell a b.
Proof. induction a as [|x a IH]; intros [|y b]; cbn; try reflexivity. rewrite IH. reflexivity. Qed.
Lemma supercell_length' a : forall b, length a = length b -> length (supercell a b) = length b.
Proof. exact (cells_length a). Qed.

Lemma gaussian_raises laxes saxes origin : length saxes <> 2%nat -> get_gaussian_states laxes saxes origin = None.
Proof.
  intros H. unfold get_gaussian_states. destruct (Nat.eqb_spec (length laxes) (length saxes)) as [El|]; [|reflexivity]. cbn [negb].
  rewrite map2_supercell. set (F := supercell (map bfund laxes) (map bfund saxes)).
  assert (LF : length F = length saxes) by (unfold F; rewrite supercell_length'; rewrite ?map_length; auto).
  destruct (match origin with Flat _ => _ | Stacked _ => _ end) as [o|]; [|reflexivity].
  replace (gaussian_weight _ _ F o (unravel F 0)) with (@None R); [reflexivity|]. symmetry.
  unfold gaussian_weight, wrap_in_pair. destruct o as [|o0 [|o1 o]]; try reflexivity. unfold coordinates.
  destruct (Nat.leb_spec (length F) (length [wrap_index o0 (Z.of_nat (bsize (BTuple laxes))) 0; wrap_index o1 (Z.of_nat (bsize (BTuple saxes))) 0])) as [L|]; [|reflexivity].
  set (c := wrap_index_around_origin _ _ _ _).
  assert (Lc : (length c <= length F)%nat) by (apply wrap_from_le).
  destruct c as [|c0 [|c1 [|]]]; try reflexivity. cbn [length] in *. lia.
Qed.

Section Two.
  Context (laxes saxes : list basis) (Ll : length laxes = 2%nat) (Ls : length saxes = 2%nat).
  Notation F := (supercell (map bfund laxes) (map bfund saxes)).
  Context (HF : Forall (fun n => (0 < n)%nat) F).
  Notation nl := (bsize (BTuple laxes)).
  Notation n := (bsize (BTuple saxes)).
  Context (Hnl : (0 < nl)%nat) (Hn : (0 < n)%nat).

  Let LF : length F = 2%nat.
  Proof. rewrite supercell_length'; rewrite !map_length; congruence. Qed.

  Lemma weight_spec p o x : length o = 2%nat -> wrapped_by [nl; n] o p -> in_shape x F ->
    exists y, in_window F p y /\ stands_for F y x /\ gaussian_weight nl n F o x = Some (exp (- (1 / 2) * spread [nl; n] p y))%R.
  Proof using Ll Ls HF Hnl Hn.
    intros Lo Hp Hx. destruct o as [|o0 [|o1 [|]]]; try discriminate. destruct p as [|p0 p]; [cbn in Hp; tauto|]. destruct p as [|p1 p]; [cbn in Hp; tauto|].
    destruct p as [|? ?]; [|cbn in Hp; tauto]. cbn [wrapped_by] in Hp. destruct Hp as [C0 [W0 [C1 [W1 _]]]].
    assert (E0 : wrap_index o0 (Z.of_nat nl) 0 = p0) by (apply wrap_fixed; [lia|lia|exact C0]).
    assert (E1 : wrap_index o1 (Z.of_nat n) 0 = p1) by (apply wrap_fixed; [lia|lia|exact C1]).
    unfold gaussian_weight, wrap_in_pair. rewrite E0, E1. unfold coordinates. cbn [length]. rewrite LF. cbn [Nat.leb].
    pose proof LF as LF0. revert LF0 HF Hx. clear LF. generalize F. intros F0 LF0 HF Hx.
    destruct F0 as [|f0 [|f1 [|]]]; try discriminate. inversion HF as [|? ? P0 HF1]; subst. inversion HF1 as [|? ? P1 _]; subst.
    inversion Hx as [|x0 ? x1 ? X0 Hx1]; subst. inversion Hx1 as [|x2 ? x3 ? X1 Hx2]; subst. inversion Hx2; subst.
    unfold wrap_index_around_origin. cbn [map wrap_index_from].
    exists [wrap_index (Z.of_nat x0) (Z.of_nat f0) (wrap_index o0 (Z.of_nat nl) 0); wrap_index (Z.of_nat x2) (Z.of_nat f1) (wrap_index o1 (Z.of_nat n) 0)].
    destruct (wrap_index_spec (Z.of_nat x0) (Z.of_nat f0) (wrap_index o0 (Z.of_nat nl) 0) ltac:(lia)) as [A0 B0].
    destruct (wrap_index_spec (Z.of_nat x2) (Z.of_nat f1) (wrap_index o1 (Z.of_nat n) 0) ltac:(lia)) as [A1 B1].
    split; [cbn [in_window]; repeat split; lia|]. split; [cbn [stands_for]; repeat split; assumption|].
    f_equal. f_equal. cbn [spread]. ring.
  Qed.

  Lemma wrapped_exists o : length o = 2%nat -> exists p, wrapped_by [nl; n] o p /\ length p = 2%nat.
  Proof using Hnl Hn.
    clear LF Ll Ls. intros Lo. destruct o as [|o0 [|o1 [|]]]; try discriminate.
    exists [wrap_index o0 (Z.of_nat nl) 0; wrap_index o1 (Z.of_nat n) 0].
    destruct (wrap_index_spec o0 (Z.of_nat nl) 0 ltac:(lia)) as [A0 B0]. destruct (wrap_index_spec o1 (Z.of_nat n) 0 ltac:(lia)) as [A1 B1].
    split; [|reflexivity]. cbn [wrapped_by]. repeat split; try assumption; lia.
  Qed.

  Lemma gaussian_spec origin o : point_at F origin o ->
    exists st p c, get_gaussian_states laxes saxes origin = Some st /\ slist st = BFund 1 /\ sbasis st = BTuple (map BFund F) /\ well_formed_list st /\
      wrapped_by [nl; n] o p /\ (0 < c)%R /\ gaussian_around F [nl; n] p c (aflat (sdata st)) /\
      inner_product (nprod F) (aflat (sdata st)) (aflat (sdata st)) = 1.
  Proof using Ll Ls HF Hnl Hn.
    intros Hp. assert (Lo : length o = 2%nat).
    { rewrite <- LF. destruct origin as [i|l]; cbn [point_at] in Hp; [destruct Hp as [x [Hx [_ ->]]]; rewrite map_length; exact (in_shape_length _ _ Hx)|].
      destruct Hp as [H ->]. exact H. }
    destruct (wrapped_exists o Lo) as [p [Wp Lp]].
    assert (Hw := fun x => weight_spec p o x Lo Wp).
    unfold get_gaussian_states. rewrite Ll, Ls, map2_supercell. cbn [Nat.eqb negb].
    assert (Eo : match origin with Stacked o0 => Some o0 | Flat i => match get_stacked_index F i with Some o0 => Some (map Z.of_nat o0) | None => None end end = Some o).
    { destruct origin as [i|l]; cbn [point_at] in Hp; [|destruct Hp as [_ ->]; reflexivity].
      destruct Hp as [x [Hx [-> ->]]]. unfold get_stacked_index. pose proof (ravel_lt F x Hx).
      replace ((0 <=? Z.of_nat (ravel F x))%Z && (Z.of_nat (ravel F x) <? Z.of_nat (nprod F))%Z)%bool with true
        by (symmetry; apply andb_true_intro; split; [apply Z.leb_le|apply Z.ltb_lt]; lia).
      rewrite Nat2Z.id, unravel_ravel by exact Hx. reflexivity. }
    rewrite Eo. pose proof (nprod_pos F HF) as PF.
    destruct (Hw (unravel F 0) ltac:(apply unravel_in_shape; exact PF)) as [y0 [_ [_ E0]]]. rewrite E0.
    set (value := fun t => match gaussian_weight nl n F o (unravel F t) with Some r => r | None => 0%R end).
    assert (Vp : forall t, (t < nprod F)%nat -> (0 < value t)%R).
    { intros t Ht. unfold value. destruct (Hw (unravel F t) ltac:(apply unravel_in_shape; exact Ht)) as [y [_ [_ Ey]]]. rewrite Ey. apply exp_pos. }
    set (Q := rsum (fun t => (value t * value t)%R) (nprod F)).
    assert (QP : (0 < Q)%R).
    { unfold Q. apply Rlt_le_trans with (value 0%nat * value 0%nat)%R; [specialize (Vp 0%nat PF); nra|].
      apply (Spectral.rsum_member (fun t => (value t * value t)%R)); [intros i Hi; specialize (Vp i Hi); nra|exact PF]. }
    assert (SP : (0 < sqrt Q)%R) by (apply sqrt_lt_R0; exact QP).
    do 3 eexists. split; [reflexivity|]. split; [reflexivity|]. split; [reflexivity|]. split.
    { unfold well_formed_list. cbn [sdata ashape nprod slist sbasis bsize]. rewrite map_bsize_Fund. lia. }
    split; [exact Wp|]. split; [exact (Rinv_0_lt_compat _ SP)|]. split.
    - intros x Hx. destruct (Hw x Hx) as [y [Iy [Sy Ey]]]. exists y. split; [exact Iy|]. split; [exact Sy|].
      cbn [sdata aflat]. rewrite unravel_ravel by exact Hx. rewrite Ey. f_equal. exact (Rmult_comm _ _).
    - cbn [sdata aflat]. unfold inner_product.
      transitivity (csum (fun t => RtoC ((value t * value t) * / Q)%R) (nprod F)).
      + apply csum_ext. intros t Ht. change (Cconj (RtoC (value t / sqrt Q)%R) * RtoC (value t / sqrt Q)%R = RtoC (value t * value t * / Q)%R). rewrite Cconj_R', <- RtoC_mult. f_equal.
        assert (QS : Q = (sqrt Q * sqrt Q)%R) by (symmetry; apply sqrt_sqrt; lra). rewrite QS at 3. unfold Rdiv. rewrite Rinv_mult. ring.
      + rewrite csum_RtoC. f_equal. transitivity (rsum (fun t => (/ Q * (value t * value t))%R) (nprod F)); [apply rsum_ext; intros t Ht; ring|]. rewrite Polar.rsum_scal_l. fold Q. field. lra.
  Qed.
End Two.

(** ** Evenly spaced points *)
Lemma even_fraction F : forall shape i, length F = length shape -> in_shape i shape ->
  fraction_point F shape i (map2 (fun p s => p / s)%nat (map2 Nat.mul F i) shape).
Proof.
  induction F as [|n F IH]; intros [|s shape] i L Hi; try discriminate; inversion Hi as [|a ? i' ? Ha Hi']; subst; [exact Logic.I|].
  cbn [map2 fraction_point]. split; [|apply IH; [cbn in L; lia|exact Hi']].
  pose proof (Nat.div_mod (n * a) s ltac:(lia)). pose proof (Nat.mod_upper_bound (n * a) s ltac:(lia)). nia.
Qed.
Lemma fraction_in F : forall shape i x, Forall (fun n => (0 < n)%nat) F -> in_shape i shape -> fraction_point F shape i x -> in_shape x F.
Proof.
  induction F as [|n F IH]; intros shape i x HF Hi Hx.
  - destruct x; [constructor|]. destruct shape, i; contradiction.
  - destruct shape as [|s shape]; [contradiction|]. destruct i as [|a i]; [contradiction|]. destruct x as [|b x]; [contradiction|]. cbn [fraction_point] in Hx. inversion HF; subst. inversion Hi; subst.
    constructor; [nia|]. apply (IH shape i); tauto.
Qed.
Lemma fraction_unique F : forall shape i x y, fraction_point F shape i x -> fraction_point F shape i y -> x = y.
Proof.
  induction F as [|n F IH]; intros shape i x y Hx Hy.
  - destruct x, y; [reflexivity| | |]; destruct shape, i; contradiction.
  - destruct shape as [|s shape]; [contradiction|]. destruct i as [|a i]; [contradiction|]. destruct x as [|b x]; [contradiction|]. cbn [fraction_point] in Hx.
    destruct y as [|c y]; cbn [fraction_point] in Hy; [tauto|]. f_equal; [nia|]. apply (IH shape i); tauto.
Qed.
Lemma fraction_injective F : forall shape i j x, Forall2 le shape F -> in_shape i shape -> in_shape j shape ->
  fraction_point F shape i x -> fraction_point F shape j x -> i = j.
Proof.
  induction F as [|n F IH]; intros shape i j x Hle Hi Hj Hx Hy.
  - inversion Hle; subst. inversion Hi; subst. inversion Hj; subst. reflexivity.
  - inversion Hle as [|s ? shape' ? L0 L1]; subst. inversion Hi as [|a ? i' ? A0 A1]; subst. inversion Hj as [|b ? j' ? B0 B1]; subst.
    destruct x as [|c x]; cbn [fraction_point] in Hx, Hy; [tauto|]. f_equal; [nia|]. apply (IH shape' i' j' x); tauto.
Qed.

Section Even.
  Context (laxes saxes : list basis) (Hl : length laxes = length saxes).
  Notation F := (supercell (map bfund laxes) (map bfund saxes)).
  Context (HF : Forall (fun n => (0 < n)%nat) F) (shape : list nat).

  Lemma even_spec : length shape = length saxes ->
    exists st, get_evenly_spaced_points laxes saxes shape = Some st /\
      slist st = BTuple (map BFund shape) /\ sbasis st = BTuple (map BFund F) /\ well_formed_list st /\
      forall i, in_shape i shape -> exists x, fraction_point F shape i x /\ in_shape x F /\ delta_at (nprod F) (ravel F x) (state_of st (ravel shape i)).
  Proof using Hl HF.
    intros Ls. unfold get_evenly_spaced_points. rewrite map2_supercell, Hl, Nat.eqb_refl. cbn [negb].
    assert (LF : length F = length shape) by (rewrite supercell_length'; rewrite ?map_length; congruence).
    rewrite LF, Nat.eqb_refl. cbn [negb andb].
    assert (P : forall t, (t < nprod shape)%nat -> fraction_point F shape (unravel shape t) (even_point F shape t) /\ in_shape (even_point F shape t) F).
    { intros t Ht. assert (Hi : in_shape (unravel shape t) shape) by (apply unravel_in_shape; exact Ht).
      assert (Q := even_fraction F shape _ LF Hi). fold (even_point F shape t) in Q. split; [exact Q|]. exact (fraction_in F shape _ _ HF Hi Q). }
    rewrite (map_ext_in _ (fun t => Some (ravel F (even_point F shape t)))).
    2:{ intros t Ht. apply in_seq in Ht. unfold get_flat_index. rewrite indices_raise_in_range by (apply P; lia). reflexivity. }
    rewrite all_some_map_some. eexists. split; [reflexivity|]. split; [reflexivity|]. split; [reflexivity|]. split.
    { unfold well_formed_list. cbn [sdata slist sbasis bsize]. rewrite !map_bsize_Fund. unfold ravel_array, array2. cbn [ashape nprod]. lia. }
    intros i Hi. pose proof (ravel_lt shape i Hi) as Ht. exists (even_point F shape (ravel shape i)). destruct (P _ Ht) as [P1 P2].
    rewrite unravel_ravel in P1 by exact Hi. split; [exact P1|]. split; [exact P2|].
    intros t Htt. unfold state_of, row. cbn [sdata sbasis bsize]. rewrite map_bsize_Fund.
    unfold ravel_array. cbn [aflat]. rewrite array2_flat by exact Htt.
    rewrite (nth_indep _ 0%nat (ravel F (even_point F shape 0))) by (rewrite map_length, seq_length; exact Ht).
    rewrite (map_nth (fun t => ravel F (even_point F shape t)) (seq 0 (nprod shape)) 0%nat). rewrite seq_nth by exact Ht. reflexivity.
  Qed.

  Lemma delta_inner n t t' f f' : (t < n)%nat -> (t' < n)%nat -> delta_at n t f -> delta_at n t' f' -> inner_product n f f' = cdelta t t'.
  Proof using.
    intros Ht Ht' H H'. unfold inner_product. rewrite (csum_single _ n t Ht).
    - rewrite H, H' by exact Ht. rewrite cdelta_refl. apply injective_projections; cbn; ring.
    - intros i Hi Hn. cbv beta. rewrite H by exact Hi. rewrite cdelta_neq by exact Hn. apply injective_projections; cbn; ring.
  Qed.

  Lemma even_orthonormal st : length shape = length saxes -> get_evenly_spaced_points laxes saxes shape = Some st -> Forall2 le shape F ->
    forall i j, (i < nprod shape)%nat -> (j < nprod shape)%nat -> inner_product (nprod F) (state_of st i) (state_of st j) = cdelta i j.
  Proof using Hl HF.
    intros Ls E Hle i j Hi Hj. destruct (even_spec Ls) as [st' [E' [_ [_ [_ H]]]]]. rewrite E in E'. injection E' as <-.
    assert (Si : in_shape (unravel shape i) shape) by (apply unravel_in_shape; exact Hi).
    assert (Sj : in_shape (unravel shape j) shape) by (apply unravel_in_shape; exact Hj).
    destruct (H _ Si) as [x [Fx [Ix Dx]]]. destruct (H _ Sj) as [y [Fy [Iy Dy]]]. rewrite ravel_unravel in Dx, Dy by assumption.
    rewrite (delta_inner (nprod F) (ravel F x) (ravel F y)) by (try assumption; apply ravel_lt; assumption).
    destruct (Nat.eq_dec i j) as [->|Hn].
    - rewrite (fraction_unique F shape _ x y Fx Fy), !cdelta_refl. reflexivity.
    - rewrite !cdelta_neq; [reflexivity|exact Hn|]. intros K. apply Hn.
      assert (Exy : x = y) by (rewrite <- (unravel_ravel F x Ix), <- (unravel_ravel F y Iy), K; reflexivity). subst y.
      rewrite <- (ravel_unravel shape i Hi), <- (ravel_unravel shape j Hj). f_equal. exact (fraction_injective F shape _ _ x Hle Si Sj Fx Fy).
  Qed.
End Even.

(** More points than the grid has along an axis: a point is taken twice. *)
Lemma even_repeat F : forall shape, Forall (fun n => (0 < n)%nat) F -> length F = length shape -> Forall (fun s => (0 < s)%nat) shape -> ~ Forall2 le shape F ->
  exists i j x, i <> j /\ in_shape i shape /\ in_shape j shape /\ fraction_point F shape i x /\ fraction_point F shape j x.
Proof.
  induction F as [|n F IH]; intros [|s shape] HF L Hs Hn; try discriminate.
  - exfalso. apply Hn. constructor.
  - inversion Hs as [|? ? S0 S1]; subst. inversion HF as [|? ? F0 F1]; subst.
    assert (Z : forall l, Forall (fun s => (0 < s)%nat) l -> in_shape (map (fun _ => 0%nat) l) l) by (induction 1; cbn; constructor; auto).
    destruct (Nat.le_gt_cases s n) as [Hle|Hgt].
    + destruct (IH shape F1 ltac:(cbn in L; lia) S1) as [i [j [x [Hd [Hi [Hj [Fi Fj]]]]]]]; [intros K; apply Hn; constructor; assumption|].
      exists (0%nat :: i), (0%nat :: j), (0%nat :: x). split; [congruence|]. split; [constructor; assumption|]. split; [constructor; assumption|].
      cbn [fraction_point]. split; (split; [nia|assumption]).
    + assert (Hi := Z shape S1). assert (Q := even_fraction F shape _ ltac:(cbn in L; lia) Hi).
      set (x := map2 _ _ _) in Q. exists (0%nat :: map (fun _ => 0%nat) shape), (1%nat :: map (fun _ => 0%nat) shape), (0%nat :: x).
      split; [congruence|]. split; [constructor; [lia|exact Hi]|]. split; [constructor; [lia|exact Hi]|]. cbn [fraction_point]. split; (split; [nia|exact Q]).
Qed.
Lemma even_twice laxes saxes shape st : length laxes = length saxes -> Forall (fun n => (0 < n)%nat) (supercell (map bfund laxes) (map bfund saxes)) ->
  length shape = length saxes -> Forall (fun s => (0 < s)%nat) shape -> ~ Forall2 le shape (supercell (map bfund laxes) (map bfund saxes)) ->
  get_evenly_spaced_points laxes saxes shape = Some st ->
  exists i j, (i < nprod shape)%nat /\ (j < nprod shape)%nat /\ i <> j /\
    inner_product (nprod (supercell (map bfund laxes) (map bfund saxes))) (state_of st i) (state_of st j) = 1.
Proof.
  intros Hl HF Ls Hs Hn E. set (F := supercell (map bfund laxes) (map bfund saxes)) in *.
  assert (LF : length F = length shape) by (unfold F; rewrite supercell_length'; rewrite ?map_length; congruence).
  destruct (even_repeat F shape HF LF Hs Hn) as [i [j [x [Hd [Hi [Hj [Fi Fj]]]]]]].
  destruct (even_spec laxes saxes Hl HF shape Ls) as [st' [E' [_ [_ [_ H]]]]]. rewrite E in E'. injection E' as <-. fold F in H.
  destruct (H _ Hi) as [x1 [F1 [I1 D1]]]. destruct (H _ Hj) as [x2 [F2 [I2 D2]]].
  assert (x1 = x) by (exact (fraction_unique F shape i _ _ F1 Fi)). assert (x2 = x) by (exact (fraction_unique F shape j _ _ F2 Fj)). subst x1 x2.
  exists (ravel shape i), (ravel shape j). split; [apply ravel_lt; exact Hi|]. split; [apply ravel_lt; exact Hj|]. split.
  - intros K. apply Hd. rewrite <- (unravel_ravel shape i Hi), <- (unravel_ravel shape j Hj), K. reflexivity.
  - rewrite (delta_inner (nprod F) (ravel F x) (ravel F x)) by (try assumption; apply ravel_lt; assumption). apply cdelta_refl.
Qed.
Lemma even_raises laxes saxes shape : length shape <> length saxes -> (0 < nprod shape)%nat -> get_evenly_spaced_points laxes saxes shape = None.
Proof.
  intros Hn Hp. unfold get_evenly_spaced_points. destruct (Nat.eqb_spec (length laxes) (length saxes)) as [El|]; [|reflexivity]. cbn [negb].
  rewrite map2_supercell. destruct (Nat.eqb_spec (length (supercell (map bfund laxes) (map bfund saxes))) (length shape)) as [K|].
  - rewrite supercell_length' in K; rewrite ?map_length in *; congruence.
  - cbn [negb andb]. apply Nat.ltb_lt in Hp. rewrite Hp. reflexivity.
Qed.
