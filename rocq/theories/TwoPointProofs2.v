(** Proofs about the localisation about a largest value: the points and the phases. *)
From Coq Require Import Reals Lra.
From Verif Require Import ZLib Csum DFT NumPy Index IndexProofs Spec SpecReal Basis SpecBasis BasisProofs BasisProofs2 BasisProofs3
  Operator SpecOperator OperatorProofs OperatorProofs2 Reduce Wavepacket SpecWavepacket WavepacketProofs2 Localize SpecLocalize LocalizeProofs LocalizeProofs4
  Lattice LatticeProofs Paths PathsProofs3 SpecBloch TightCell SpecTightCell TightCellProofs TightCellProofs2 TightCellProofs3
  Projections SpecProjections ProjectionsProofs ProjectionsProofs2 TwoPoint SpecTwoPoint TwoPointProofs.
Local Open Scope R_scope.
Local Open Scope C_scope.

Definition two_or_three (l : nat) : Prop := l = 2%nat \/ l = 3%nat.

Lemma corner_shape sz offset : two_or_three (length sz) -> exists n0 n1 rest r, sz = n0 :: n1 :: rest /\ (length rest <= 1)%nat /\
  [Z.of_nat n0 * fst offset; Z.of_nat n1 * snd offset; 0]%Z = (cell_corner sz offset ++ r)%list /\ length (cell_corner sz offset) = length sz.
Proof.
  intros H. destruct sz as [|n0 [|n1 rest]]; [destruct H; discriminate|destruct H; discriminate|].
  exists n0, n1, rest. destruct rest as [|n2 [|? ?]].
  - exists [0%Z]. repeat split. cbn. lia.
  - exists []. repeat split. cbn. lia.
  - destruct H; discriminate.
Qed.

Lemma mirror_spec s offset i0 m r : two_or_three (length s) -> Forall (fun n => (0 < n)%nat) s -> in_window s (cell_corner s offset) i0 ->
  get_x01_mirrored_index i0 = Some m -> mirrored s i0 (wrap_index_from 0 s m (cell_corner s offset ++ r) None).
Proof.
  intros H23 Hs W0 Em. destruct (corner_shape s offset H23) as [n0 [n1 [rest [r' [-> [Lr _]]]]]].
  destruct i0 as [|a [|b i0]]; [cbn in W0; contradiction|cbn in W0; tauto|]. cbn in Em. injection Em as <-.
  inversion Hs as [|? ? P0 Hs']; subst. inversion Hs' as [|? ? P1 Hs'']; subst.
  cbn [cell_corner app wrap_index_from mirrored]. split; [apply wrap_index_spec; lia|]. split; [apply wrap_index_spec; lia|].
  destruct rest as [|n2 [|? ?]].
  - cbn in W0. destruct i0; [destruct r; reflexivity|tauto].
  - cbn [cell_corner map in_window] in W0. destruct W0 as [_ [_ W0]]. destruct i0 as [|c i0]; [contradiction|]. destruct W0 as [W0 W].
    destruct i0; [|contradiction]. cbn [map app wrap_index_from]. f_equal. apply wrap_fixed; [inversion Hs''; subst; lia|exact W0|].
    exists 0%Z. ring.
  - cbn in Lr. lia.
Qed.
(** A point of the cell as a point of the supercell. *)
Lemma cell_of_supercell ls : forall s x, Forall (fun n => (0 < n)%nat) ls -> length ls = length s -> in_shape x s ->
  in_shape x (supercell ls s) /\ in_cell s x = x.
Proof.
  induction ls as [|l ls IH]; intros [|n s] x Hls L Ix; try discriminate.
  - inversion Ix; subst. split; [constructor|reflexivity].
  - inversion Ix as [|a ? x' ? Ha Ix']; subst. inversion Hls; subst. destruct (IH s x' ltac:(assumption) ltac:(cbn in L; lia) Ix') as [I1 I2].
    cbn [supercell in_cell]. split; [constructor; [nia|exact I1]|]. f_equal; [apply Nat.mod_small; exact Ha|exact I2].
Qed.

Section Points.
  Context (same : basis -> basis -> bool) (Hsame : identity_test same) (ls : list nat) (saxes : list basis).
  Context (Hls : Forall (fun n => (0 < n)%nat) ls) (Hw : bwf (BTuple saxes)) (He : explicit_orthonormal (BTuple saxes)).
  Context (Hl : length ls = length saxes).
  Notation ss := (map bfund saxes).
  Notation sz := (map bsize saxes).
  Notation N := (bsize (BTuple saxes)).
  Notation F := (supercell ls (map bfund saxes)).

  Let Hl2 : length ls = length ss.
  Proof. rewrite map_length. exact Hl. Qed.
  Let Hss : Forall (fun n => (0 < n)%nat) ss := fund_shape_pos saxes Hw.
  Let HF : Forall (fun n => (0 < n)%nat) F := cells_pos ls ss Hls Hss Hl2.
  Let LF : length F = length saxes.
  Proof. rewrite cells_length by exact Hl2. apply map_length. Qed.

  (** The points are those of the first largest value of the first sample, wrapped. *)
  Lemma points_exist d offset : two_or_three (length saxes) -> nprod (ashape d) = (nprod ls * N)%nat ->
    exists t0 r m, let o := (cell_corner sz offset ++ r)%list in
      let i0 := wrap_index_from 0 sz (map Z.of_nat (unravel F t0)) o None in
      largest_at (nprod F) (fun t => bloch_wave ls saxes d 0 (unravel F t)) t0 /\ length (cell_corner sz offset) = length saxes /\
      get_x01_mirrored_index i0 = Some m /\ length i0 = length saxes /\ length m = length saxes /\
      get_wavepacket_two_points same (map BFundT ls) saxes d offset = Some (i0, wrap_index_from 0 sz m o None).
  Proof using Hsame Hls Hw He Hl.
    intros H23 Hd. assert (Lz : length sz = length saxes) by apply map_length.
    destruct (corner_shape sz offset ltac:(rewrite Lz; exact H23)) as [n0 [n1 [rest [r [Ez [Lr [Er Lc]]]]]]].
    destruct (position_spec same Hsame ls saxes Hls Hw He Hl d 0 Hd) as [f [Ef Vf]].
    { split; [lia|]. assert (P := nprod_pos ls Hls). lia. }
    destruct (largest_spec ls saxes Hls Hw Hl f) as [t0 [Et Vt]].
    assert (Lu : length (map Z.of_nat (unravel F t0)) = length sz) by (rewrite map_length, (IndexProofs.unravel_length F t0), Lz; exact LF).
    set (o := (cell_corner sz offset ++ r)%list).
    assert (Lo : (length sz <= length o)%nat) by (unfold o; rewrite app_length, Lc; lia).
    assert (L0 := wrap_from_length sz 0 _ o None Lu Lo).
    set (i0 := wrap_index_from 0 sz (map Z.of_nat (unravel F t0)) o None) in *.
    assert (M : exists m, get_x01_mirrored_index i0 = Some m /\ length m = length i0).
    { rewrite Ez in L0. destruct i0 as [|a [|b i0]]; [discriminate|discriminate|]. eexists. split; reflexivity. }
    destruct M as [m [Em Lm]]. exists t0, r, m. cbv zeta. fold o. fold i0. split.
    { destruct Vt as [B V]. split; [exact B|]. intros t Ht. specialize (V t Ht).
      rewrite <- (ravel_unravel F t) in V by exact Ht. rewrite <- (ravel_unravel F t0) in V by exact B.
      rewrite !Vf in V by (apply unravel_in_shape; assumption). exact V. }
    split; [rewrite Lc; exact Lz|]. split; [exact Em|]. split; [rewrite L0; exact Lz|]. split; [rewrite Lm, L0; exact Lz|].
    unfold get_wavepacket_two_points. rewrite Ez at 1. rewrite Ef.
    replace (map bfund (map BFund F)) with F by (rewrite map_map; symmetry; apply map_id). rewrite Et.
    replace (length sz <=? 3)%nat with true by (symmetry; apply Nat.leb_le; rewrite Ez; cbn; lia).
    unfold wrap_index_around_origin. rewrite Er. fold o. fold i0. rewrite Em. reflexivity.
  Qed.

  Lemma wave_phase_spec d nx : nprod (ashape d) = (nprod ls * N)%nat -> length nx = length saxes ->
    exists p, wave_phase same (map BFundT ls) saxes d nx = Some p /\
      forall s, (s < nprod ls)%nat -> wave_at ls saxes (aflat d) s nx = RtoC (Cmod (wave_at ls saxes (aflat d) s nx)) * cis (p s).
  Proof using Hsame Hls Hw He Hl.
    intros Hd Lx. assert (P : point_at ss (Stacked nx) nx) by (split; [rewrite map_length; exact Lx|reflexivity]).
    unfold wave_phase. destruct (bloch_phase_spec same Hsame ls saxes Hls Hw He Hl d Hd _ _ P) as [b [Eb Vb]].
    destruct (global_phase_spec same Hsame ls saxes Hls Hw Hl d Hd _ _ P) as [g [Eg Vg]].
    rewrite Eb, Eg. eexists. split; [reflexivity|]. intros s Hs. cbv beta.
    specialize (Vb (unravel ls s) ltac:(apply unravel_in_shape; assumption)). specialize (Vg (unravel ls s) ltac:(apply unravel_in_shape; assumption)).
    cbv zeta in Vb. rewrite ravel_unravel in Vb, Vg by exact Hs. unfold wave_at. rewrite <- Vg.
    set (z := amplitude _ _ _) in *. rewrite Cmod_mult. replace (Cmod (cis (g s))) with 1%R.
    - rewrite Rmult_1_l, cis_plus. rewrite Vb at 1. ring.
    - symmetry. unfold cis, Cmod. cbn [fst snd]. rewrite <- sqrt_1. f_equal. assert (T := sin2_cos2 (g s)). unfold Rsqr in T. lra.
  Qed.

  Lemma wave_at_scale d out s nx c : (forall k, (k < N)%nat -> row N out s k = c * row N d s k) ->
    wave_at ls saxes out s nx = c * wave_at ls saxes d s nx.
  Proof using.
    intros H. unfold wave_at. rewrite (LocalizeProofs4.amplitude_ext _ _ _ _ H), amplitude_scal. ring.
  Qed.

  Lemma two_point_phases d offset alpha : two_or_three (length saxes) -> ashape d = [nprod ls; N] ->
    exists i0 i1 out, get_wavepacket_two_points same (map BFundT ls) saxes d offset = Some (i0, i1) /\
      localize_two_point_max same (map BFundT ls) saxes d offset alpha = Some out /\ ashape out = [nprod ls; N] /\
      forall s, (s < nprod ls)%nat -> exists theta delta sg : R,
        (forall k, (k < N)%nat -> row N (aflat out) s k = cis theta * row N (aflat d) s k) /\
        (- (PI / 4) <= delta < PI / 4)%R /\ (sg = 1 \/ sg = -1)%R /\
        wave_at ls saxes (aflat out) s i0 = RtoC (Cmod (wave_at ls saxes (aflat d) s i0)) * cis (alpha - delta) /\
        wave_at ls saxes (aflat out) s i1 = RtoC (sg * Cmod (wave_at ls saxes (aflat d) s i1)) * cis (alpha + delta).
  Proof using Hsame Hls Hw He Hl.
    intros H23 Sh. assert (Hd : nprod (ashape d) = (nprod ls * N)%nat) by (rewrite Sh; cbn [nprod]; lia).
    destruct (points_exist d offset H23 Hd) as [t0 [r [m [_ [Lc [Em [L0 [Lm E]]]]]]]]. cbv zeta in E.
    set (o := (cell_corner sz offset ++ r)%list) in *. set (i0 := wrap_index_from 0 sz (map Z.of_nat (unravel F t0)) o None) in *.
    assert (Lz : length sz = length saxes) by apply map_length.
    assert (L1 := wrap_from_length sz 0 m o None ltac:(rewrite Lz; exact Lm) ltac:(unfold o; rewrite app_length; lia)).
    set (i1 := wrap_index_from 0 sz m o None) in *. exists i0, i1.
    destruct (wave_phase_spec d i0 Hd L0) as [p0 [E0 V0]].
    destruct (wave_phase_spec d i1 Hd ltac:(rewrite L1; exact Lz)) as [p1 [E1 V1]].
    unfold localize_two_point_max. rewrite E, E0, E1. cbn [slices_newaxis ashape length Nat.leb firstn skipn app].
    assert (Sz : bsize (BTuple (map BFundT ls)) = nprod ls) by (cbn [bsize]; rewrite map_bsize_FundT; reflexivity). rewrite Sz.
    match goal with |- context [broadcast_op Cmult d {| ashape := _; aflat := ?f |}] => set (ph := f) end.
    destruct (times_column_matrix (nprod ls) N d ph Sh) as [out [Eo [So Vo]]].
    exists out. split; [reflexivity|]. split; [exact Eo|]. split; [exact So|]. intros s Hs.
    set (w := wrap_phases (p1 s - p0 s) (PI / 2)).
    assert (PP := PI_RGT_0). destruct (wrap_phases_spec (p1 s - p0 s) (PI / 2) ltac:(lra)) as [Bw [z Ew]]. fold w in Bw, Ew.
    destruct (cis_half_turn z) as [sg [Hsg Esg]].
    set (th := (- (p0 s + p1 s - p1 s + / 2 * w - alpha))%R).
    assert (Rw : forall k, (k < N)%nat -> row N (aflat out) s k = cis th * row N (aflat d) s k).
    { intros k Hk. unfold row. rewrite Vo by assumption. change (ph s) with (cis th). ring. }
    exists th, (/ 2 * w)%R, sg. split; [exact Rw|]. split; [lra|]. split; [exact Hsg|].
    rewrite !(wave_at_scale _ _ _ _ _ Rw). split.
    - rewrite (V0 s Hs) at 1. transitivity (RtoC (Cmod (wave_at ls saxes (aflat d) s i0)) * (cis th * cis (p0 s))); [ring|].
      rewrite <- cis_plus. f_equal. f_equal. unfold th. ring.
    - rewrite (V1 s Hs) at 1. transitivity (RtoC (Cmod (wave_at ls saxes (aflat d) s i1)) * (cis th * cis (p1 s))); [ring|].
      rewrite <- cis_plus. replace (th + p1 s)%R with ((alpha + / 2 * w) + - (IZR z * PI))%R by (unfold th; rewrite Ew; field).
      rewrite cis_plus, RtoC_mult.
      assert (Ei : cis (- (IZR z * PI)) = RtoC sg).
      { assert (Q : cis (IZR z * PI) * cis (- (IZR z * PI)) = 1) by (rewrite <- cis_plus; replace (IZR z * PI + - (IZR z * PI))%R with 0%R by ring; unfold cis; rewrite cos_0, sin_0; reflexivity).
        rewrite Esg in Q. destruct Hsg as [-> | ->].
        - rewrite Cmult_1_l in Q. exact Q.
        - transitivity (RtoC (-1) * (RtoC (-1) * cis (- (IZR z * PI)))); [rewrite Cmult_assoc, <- RtoC_mult; replace (-1 * -1)%R with 1%R by ring; ring|].
          rewrite Q. ring. }
      rewrite Ei. ring.
  Qed.

  (** Flat data: every row of the product holds the whole of the data. *)
  Lemma two_point_flat d offset alpha : two_or_three (length saxes) -> ashape d = [(nprod ls * N)%nat] ->
    exists out (theta : nat -> R), localize_two_point_max same (map BFundT ls) saxes d offset alpha = Some out /\
      ashape out = [nprod ls; (nprod ls * N)%nat] /\
      (forall s t, (s < nprod ls)%nat -> (t < nprod ls * N)%nat -> aflat out (s * (nprod ls * N) + t) = cis (theta s) * aflat d t) /\
      ((1 < nprod ls)%nat -> (0 < N)%nat -> reshape out [nprod ls; N] = None).
  Proof using Hsame Hls Hw He Hl.
    intros H23 Sh. assert (Hd : nprod (ashape d) = (nprod ls * N)%nat) by (rewrite Sh; cbn [nprod]; lia).
    destruct (points_exist d offset H23 Hd) as [t0 [r [m [_ [Lc [Em [L0 [Lm E]]]]]]]]. cbv zeta in E.
    set (o := (cell_corner sz offset ++ r)%list) in *. set (i0 := wrap_index_from 0 sz (map Z.of_nat (unravel F t0)) o None) in *.
    assert (Lz : length sz = length saxes) by apply map_length.
    assert (L1 := wrap_from_length sz 0 m o None ltac:(rewrite Lz; exact Lm) ltac:(unfold o; rewrite app_length; lia)).
    set (i1 := wrap_index_from 0 sz m o None) in *.
    destruct (wave_phase_spec d i0 Hd L0) as [p0 [E0 V0]].
    destruct (wave_phase_spec d i1 Hd ltac:(rewrite L1; exact Lz)) as [p1 [E1 V1]].
    unfold localize_two_point_max. rewrite E, E0, E1. cbn [slices_newaxis ashape length Nat.leb firstn skipn app].
    assert (Sz : bsize (BTuple (map BFundT ls)) = nprod ls) by (cbn [bsize]; rewrite map_bsize_FundT; reflexivity). rewrite Sz.
    set (ph := fun s : nat => (- (p0 s + p1 s - p1 s + / 2 * wrap_phases (p1 s - p0 s) (PI / 2) - alpha))%R).
    destruct (times_column_flat (nprod ls) (nprod ls * N)%nat d (fun s => cis (ph s)) Sh) as [out [Eo [So Vo]]].
    exists out, ph. split; [exact Eo|]. split; [exact So|]. split.
    - intros s t Hs Ht. rewrite Vo by assumption. ring.
    - intros H1 HN. unfold reshape. rewrite So. cbn [nprod]. destruct (Nat.eqb_spec (nprod ls * (nprod ls * N * 1)) (nprod ls * (N * 1))) as [E'|E']; [|reflexivity].
      exfalso. nia.
  Qed.

  (** In a basis with a state for every point the first point is a largest value. *)
  Lemma two_points_spec d offset : two_or_three (length saxes) -> sz = ss -> nprod (ashape d) = (nprod ls * N)%nat ->
    exists i0 i1, get_wavepacket_two_points same (map BFundT ls) saxes d offset = Some (i0, i1) /\
      in_window ss (cell_corner ss offset) i0 /\ in_window ss (cell_corner ss offset) i1 /\ mirrored ss i0 i1 /\
      forall nx, length nx = length ss -> (Cmod (wave_at ls saxes (aflat d) 0 nx) <= Cmod (wave_at ls saxes (aflat d) 0 i0))%R.
  Proof using Hsame Hls Hw He Hl.
    intros H23 Ez Hd. destruct (points_exist d offset H23 Hd) as [t0 [r [m [Vt [Lc [Em [L0 [Lm E]]]]]]]]. cbv zeta in E.
    rewrite Ez in *. set (o := (cell_corner ss offset ++ r)%list) in *.
    assert (Lz : length ss = length saxes) by apply map_length.
    assert (Lu : length (map Z.of_nat (unravel F t0)) = length ss) by (rewrite map_length, (IndexProofs.unravel_length F t0), Lz; exact LF).
    assert (W0 := wrap_from_window ss 0 _ (cell_corner ss offset) r Hss Lu ltac:(rewrite Lz; exact Lc)). fold o in W0.
    assert (C0 := wrap_from_cell ss 0 _ o Hss Lu ltac:(unfold o; rewrite app_length; lia)).
    assert (W1 := wrap_from_window ss 0 m (cell_corner ss offset) r Hss ltac:(rewrite Lz; exact Lm) ltac:(rewrite Lz; exact Lc)). fold o in W1.
    set (i0 := wrap_index_from 0 ss (map Z.of_nat (unravel F t0)) o None) in *. exists i0. eexists. split; [exact E|].
    split; [exact W0|]. split; [exact W1|]. split.
    - apply (mirror_spec ss offset i0 m r); [rewrite Lz; exact H23|exact Hss|exact W0|exact Em].
    - intros nx Lx. assert (S0 : (0 < nprod ls)%nat) by (apply nprod_pos; exact Hls).
      assert (Pl : forall y, length y = length ss -> Cmod (wave_at ls saxes (aflat d) 0 y) =
        Cmod (amplitude (BTuple saxes) (row N (aflat d) 0) (ravel ss (cell_point ss y)))).
      { intros y Ly. unfold wave_at. rewrite Cmod_mult.
        destruct (global_phase_spec same Hsame ls saxes Hls Hw Hl d Hd (Stacked y) y ltac:(split; [exact Ly|reflexivity])) as [g [_ Vg]].
        specialize (Vg (unravel ls 0) ltac:(apply unravel_in_shape; exact S0)). rewrite ravel_unravel in Vg by exact S0. rewrite <- Vg.
        replace (Cmod (cis (g 0%nat))) with 1%R; [ring|]. symmetry. unfold cis, Cmod. cbn [fst snd]. rewrite <- sqrt_1. f_equal.
        assert (T := sin2_cos2 (g 0%nat)). unfold Rsqr in T. lra. }
      rewrite (Pl nx Lx), (Pl i0) by (rewrite L0; symmetry; exact Lz). fold i0 in C0. rewrite C0.
      rewrite cell_point_in_cell by (rewrite (IndexProofs.unravel_length F t0), Lz; exact LF).
      destruct (cell_point_wrap ss nx Hss Lx) as [Ix _].
      (* a point of the supercell over the point of the cell *)
      assert (Xs : exists x, in_shape x F /\ in_cell ss x = cell_point ss nx).
      { exists (cell_point ss nx). exact (cell_of_supercell ls ss (cell_point ss nx) Hls Hl2 Ix). }
      destruct Xs as [x [Ixx Ex]]. rewrite <- Ex.
      destruct Vt as [Bt Vt]. specialize (Vt (ravel F x) ltac:(apply ravel_lt; exact Ixx)). cbv beta in Vt.
      rewrite unravel_ravel in Vt by exact Ixx.
      assert (Mw : forall y, in_shape y F -> Cmod (bloch_wave ls saxes d 0 y) =
        (Cmod (isqrt (nprod ls)) * Cmod (amplitude (BTuple saxes) (row N (aflat d) 0) (ravel ss (in_cell ss y))))%R).
      { intros y Iy. unfold bloch_wave. rewrite Nat.mod_small by exact S0. rewrite !Cmod_mult. rewrite Rmult_assoc. f_equal.
        assert (Ly := in_shape_length _ _ Iy). rewrite LF in Ly.
        destruct (global_phase_spec same Hsame ls saxes Hls Hw Hl d Hd (Stacked (map Z.of_nat y)) (map Z.of_nat y) ltac:(split; [rewrite map_length, Lz; exact Ly|reflexivity])) as [g [_ Vg]].
        specialize (Vg (unravel ls 0) ltac:(apply unravel_in_shape; exact S0)). rewrite ravel_unravel in Vg by exact S0. rewrite <- Vg.
        replace (Cmod (cis (g 0%nat))) with 1%R; [ring|]. symmetry. unfold cis, Cmod. cbn [fst snd]. rewrite <- sqrt_1. f_equal.
        assert (T := sin2_cos2 (g 0%nat)). unfold Rsqr in T. lra. }
      rewrite !Mw in Vt by (first [exact Ixx|apply unravel_in_shape; exact Bt]).
      apply Rmult_le_reg_l in Vt; [exact Vt|]. apply Cmod_gt_0. unfold isqrt. intros Q.
      apply RtoC_inj in Q. revert Q. apply Rgt_not_eq. try apply Rinv_0_lt_compat; try apply sqrt_lt_R0; apply lt_0_INR; exact S0.
  Qed.
End Points.

Lemma two_points_raise same laxes saxes d offset alpha : ~ two_or_three (length saxes) ->
  get_wavepacket_two_points same laxes saxes d offset = None /\ localize_two_point_max same laxes saxes d offset alpha = None.
Proof.
  intros H. assert (G : get_wavepacket_two_points same laxes saxes d offset = None).
  { unfold get_wavepacket_two_points, two_or_three in *. destruct saxes as [|a [|b [|c [|e r]]]]; cbn in H; try (exfalso; lia); try reflexivity.
    cbn [map length]. destruct (position_state _ _ _ _ _) as [[bb v]|]; [|reflexivity]. destruct (largest_value _ _); reflexivity. }
  split; [exact G|]. unfold localize_two_point_max. rewrite G. reflexivity.
Qed.
Lemma max_point_raises same laxes saxes d alpha : localize_max_point same laxes saxes d alpha = None.
Proof.
  unfold localize_max_point. destruct (position_state _ _ _ _ _) as [[b v]|]; [|reflexivity]. destruct (largest_value _ _); [|reflexivity].
  destruct (wave_phase _ _ _ _ _); reflexivity.
Qed.
