(** Proofs about the .win file. *)
From Coq Require Import Reals Lra.
From Verif Require Import ZLib Csum DFT NumPy Interp Index IndexProofs Spec Basis SpecBasis BasisProofs BasisProofs2 IndexSum Operator SpecOperator
  OperatorProofs OperatorProofs2 Wavepacket SpecWavepacket WavepacketProofs2 SpecMatrix Localize SpecLocalize LocalizeProofs3 LocalizeProofs4 LocalizeProofs5
  SeedProofs2 Lattice SpecReal LatticeProofs VolumeBasis SpecVolumeBasis VolumeBasisProofs Wannier SpecWannier WannierWin SpecWannierWin.
Local Open Scope R_scope.
Local Open Scope C_scope.

Lemma seq3_nth {A} (f : nat -> A) d i : (i < 3)%nat -> nth i (map f (seq 0 3)) d = f i.
Proof. intros H. destruct i as [|[|[|i]]]; try reflexivity. lia. Qed.

(** ** The unit cell *)
Lemma lattice_block_some n delta : length delta = n -> (0 < n <= 3)%nat -> Forall (fun v => length v = n) delta ->
  exists A, build_real_lattice_block delta = Some A /\
    forall i c, (i < 3)%nat -> (c < 3)%nat -> cell_at A i c =
      if ((i <? n) && (c <? n))%nat%bool then (nth c (nth i delta []) 0 * 10 ^ 10)%R else if Nat.eqb i c then 1%R else 0%R.
Proof.
  intros H Hn Hd. unfold build_real_lattice_block. rewrite H.
  assert (E : length (hd [] delta) = n).
  { destruct delta; [cbn in H; lia|]. inversion Hd; subst. assumption. }
  rewrite E. rewrite Nat.eqb_refl, Bool.orb_true_r. replace (n <=? 3)%nat with true by (symmetry; apply Nat.leb_le; lia).
  cbn [andb orb]. eexists. split; [reflexivity|]. intros i c Hi Hc. unfold cell_at. rewrite seq3_nth by exact Hi. rewrite seq3_nth by exact Hc.
  destruct (i <? n)%nat eqn:I; cbn [andb]; [|reflexivity]. destruct (c <? n)%nat eqn:C; [|reflexivity].
  apply Nat.ltb_lt in I, C. destruct (n =? 1)%nat eqn:N; [|reflexivity]. apply Nat.eqb_eq in N. replace c with 0%nat by lia. reflexivity.
Qed.

Lemma lattice_block_none delta m : (0 < length delta)%nat -> Forall (fun v => length v = m) delta ->
  (build_real_lattice_block delta = None <-> (3 < length delta)%nat \/ (m <> length delta /\ m <> 1%nat)).
Proof.
  intros H Hd. unfold build_real_lattice_block. set (n := length delta) in *.
  assert (E : length (hd [] delta) = m).
  { unfold n in *. destruct delta; [cbn in H; lia|]. inversion Hd; subst. reflexivity. }
  rewrite E. destruct (n <=? 3)%nat eqn:L; [apply Nat.leb_le in L|apply Nat.leb_gt in L; split; [left; lia|reflexivity]].
  replace (n =? 0)%nat with false by (symmetry; apply Nat.eqb_neq; lia). cbn [andb orb].
  destruct (m =? n)%nat eqn:M; cbn [orb].
  - apply Nat.eqb_eq in M. split; [discriminate|lia].
  - apply Nat.eqb_neq in M. destruct (m =? 1)%nat eqn:O'; [apply Nat.eqb_eq in O'|apply Nat.eqb_neq in O']; split; try discriminate; try lia; try reflexivity.
Qed.

(** Several vectors of one component: the cell written has no reciprocal. *)
Lemma lattice_block_flat delta : (1 < length delta <= 3)%nat -> Forall (fun v => length v = 1%nat) delta ->
  exists A, build_real_lattice_block delta = Some A /\ forall B, ~ reciprocal A B.
Proof.
  intros H Hd. unfold build_real_lattice_block. set (n := length delta) in *.
  assert (E : length (hd [] delta) = 1%nat).
  { unfold n in *. destruct delta; [cbn in H; lia|]. inversion Hd; subst. assumption. }
  rewrite E, Nat.eqb_refl, Bool.orb_true_r. replace (n <=? 3)%nat with true by (symmetry; apply Nat.leb_le; lia).
  cbn [andb]. eexists. split; [reflexivity|]. intros B HB.
  set (A := map _ (seq 0 3)) in HB.
  set (a := nth 0 (nth 0 delta []) 0%R). set (b := nth 0 (nth 1 delta []) 0%R).
  assert (V : forall i c, (i < 2)%nat -> (c < 3)%nat -> cell_at A i c =
     if (c <? n)%nat then ((if Nat.eqb i 0 then a else b) * 10 ^ 10)%R else 0%R).
  { intros i c Hi Hc. unfold cell_at, A. rewrite seq3_nth by lia. rewrite seq3_nth by exact Hc.
    replace (i <? n)%nat with true by (symmetry; apply Nat.ltb_lt; lia). cbn [andb].
    destruct (c <? n)%nat eqn:C'.
    - destruct i as [|[|i]]; [reflexivity|reflexivity|lia].
    - apply Nat.ltb_ge in C'. replace (i =? c)%nat with false by (symmetry; apply Nat.eqb_neq; lia). reflexivity. }
  set (g := fun j => rsum (fun c => (if (c <? n)%nat then 10 ^ 10 else 0) * B j c)%R 3).
  assert (G : forall i j, (i < 2)%nat -> (j < 3)%nat -> ((if Nat.eqb i 0 then a else b) * g j = if Nat.eqb i j then 2 * PI else 0)%R).
  { intros i j Hi Hj. rewrite <- (HB i j) by lia. unfold g, rsum. rewrite !V by lia.
    destruct (0 <? n)%nat, (1 <? n)%nat, (2 <? n)%nat; ring. }
  assert (P := PI_RGT_0). assert (G00 := G 0%nat 0%nat ltac:(lia) ltac:(lia)). assert (G01 := G 0%nat 1%nat ltac:(lia) ltac:(lia)).
  assert (G10 := G 1%nat 0%nat ltac:(lia) ltac:(lia)). assert (G11 := G 1%nat 1%nat ltac:(lia) ltac:(lia)). cbn [Nat.eqb] in *.
  assert (a * g 0%nat * (b * g 1%nat) = a * g 1%nat * (b * g 0%nat))%R by ring. rewrite G00, G11, G01, G10 in H0. nra.
Qed.

(** ** Wave vectors *)
Lemma cell_phase A B n point a : reciprocal A B -> (a < 3)%nat ->
  (forall i, (n <= i < 3)%nat -> nth i point 0%R = 0%R) ->
  rsum (fun c => wave_vector B point c * cell_at A a c)%R 3 = (2 * PI * nth a point 0)%R.
Proof.
  intros HB Ha Hp. transitivity (rsum (fun i => nth i point 0 * rsum (fun c => cell_at A a c * B i c) 3)%R 3).
  - unfold wave_vector, rsum. ring.
  - transitivity (rsum (fun i => nth i point 0 * (if Nat.eqb a i then 2 * PI else 0))%R 3).
    + apply rsum_ext. intros i Hi. rewrite (HB a i Ha Hi). reflexivity.
    + unfold rsum. destruct a as [|[|[|a]]]; cbn [Nat.eqb]; try ring. lia.
Qed.

Lemma rsum_three n (f : nat -> R) : (n <= 3)%nat -> (forall c, (n <= c < 3)%nat -> f c = 0%R) -> rsum f 3 = rsum f n.
Proof.
  intros H Z. destruct n as [|[|[|[|n]]]]; try lia; unfold rsum; rewrite ?(Z 0%nat), ?(Z 1%nat), ?(Z 2%nat) by lia; ring.
Qed.

Lemma win_wave A B n (delta : nat -> nat -> R) point : (n <= 3)%nat -> reciprocal A B ->
  (forall i c, (i < 3)%nat -> (c < 3)%nat -> cell_at A i c =
     if ((i <? n) && (c <? n))%nat%bool then (delta i c * 10 ^ 10)%R else if Nat.eqb i c then 1%R else 0%R) ->
  (forall i, (n <= i < 3)%nat -> nth i point 0%R = 0%R) ->
  (forall c, (n <= c < 3)%nat -> wave_vector B point c = 0%R) /\
  forall a, (a < n)%nat -> rsum (fun c => 10 ^ 10 * wave_vector B point c * delta a c)%R n = (2 * PI * nth a point 0)%R.
Proof.
  intros Hn HB HA Hp. assert (Z : forall c, (n <= c < 3)%nat -> wave_vector B point c = 0%R).
  { intros c Hc. assert (P := cell_phase A B n point c HB ltac:(lia) Hp). rewrite (Hp c) in P by exact Hc.
    transitivity (2 * PI * 0)%R; [|ring]. rewrite <- P.
    transitivity (rsum (fun d => rdelta c d * wave_vector B point d)%R 3).
    - symmetry. apply rsum_delta'. lia.
    - apply rsum_ext. intros d Hd. rewrite HA by lia. replace (c <? n)%nat with false by (symmetry; apply Nat.ltb_ge; lia).
      cbn [andb]. unfold rdelta. destruct (c =? d)%nat; ring. }
  split; [exact Z|]. intros a Ha. rewrite <- (cell_phase A B n point a HB ltac:(lia) Hp).
  rewrite (rsum_three n); [|exact Hn|].
  - apply rsum_ext. intros c Hc. rewrite HA by lia. replace (a <? n)%nat with true by (symmetry; apply Nat.ltb_lt; lia).
    replace (c <? n)%nat with true by (symmetry; apply Nat.ltb_lt; lia). cbn [andb]. ring.
  - intros c Hc. rewrite Z by exact Hc. ring.
Qed.

(** ** The file *)
Section Win.
  Context (same : basis -> basis -> bool) (Hsame : identity_test same).
  Context (bands : basis) (laxes : list basis) (saxes : list length_axis).
  Notation n := (length saxes).
  Context (Hn : (0 < n <= 3)%nat) (Hl : length laxes = n) (Hs : in_space n saxes).

  Lemma nth_delta i c : nth c (nth i (map la_delta saxes) []) 0%R = lattice_of saxes i c.
  Proof using. reflexivity. Qed.

  (** The file, for fractions [fr]. *)
  Lemma win_some fr setup o : sample_fractions same laxes = Some fr ->
    exists win, build_win_file same bands laxes saxes setup o = Some win /\ win_setup win = setup /\
      win_num_iter win = w_num_iter o /\ win_tolerance win = w_tolerance o /\ win_window win = w_window o /\
      win_projections win = has_projections o /\ win_num_wann win = bsize bands /\
      win_grid win = (map bsize laxes ++ repeat 1%nat (3 - n))%list /\ length (win_points win) = bsize (BTuple laxes) /\
      (forall j, (j < bsize (BTuple laxes))%nat -> forall a, (a < n)%nat -> nth a (nth j (win_points win) []) 0%R = fr a j) /\
      (forall j, (j < bsize (BTuple laxes))%nat -> forall a, (n <= a)%nat -> nth a (nth j (win_points win) []) 0%R = 0%R) /\
      forall i c, (i < 3)%nat -> (c < 3)%nat -> cell_at (win_cell win) i c =
        if ((i <? n) && (c <? n))%nat%bool then (lattice_of saxes i c * 10 ^ 10)%R else if Nat.eqb i c then 1%R else 0%R.
  Proof using Hn Hl Hs.
    intros Hf. unfold build_win_file. rewrite (delta_x_stacked_some n) by exact Hs.
    destruct (lattice_block_some n (map la_delta saxes)) as [A [EA VA]]; [apply map_length|exact Hn| |].
    { apply Forall_map. exact Hs. }
    rewrite EA. unfold build_k_points_block. rewrite Hf, Hl. replace (n <=? 3)%nat with true by (symmetry; apply Nat.leb_le; lia).
    eexists. split; [reflexivity|]. cbn [win_setup win_num_iter win_tolerance win_window win_projections win_num_wann win_grid win_points win_cell].
    do 7 (split; [reflexivity|]). split; [rewrite map_length, seq_length; reflexivity|].
    split; [|split; [|exact VA]].
    - intros j Hj a Ha. rewrite (nth_indep _ _ (map (fun a => if (a <? n)%nat then fr a 0%nat else 0%R) (seq 0 3)))
        by (rewrite map_length, seq_length; exact Hj).
      rewrite (map_nth (fun j => map (fun a => if (a <? n)%nat then fr a j else 0%R) (seq 0 3))), seq_nth by exact Hj.
      rewrite seq3_nth by lia. replace (a <? n)%nat with true by (symmetry; apply Nat.ltb_lt; lia). reflexivity.
    - intros j Hj a Ha. rewrite (nth_indep _ _ (map (fun a => if (a <? n)%nat then fr a 0%nat else 0%R) (seq 0 3)))
        by (rewrite map_length, seq_length; exact Hj).
      rewrite (map_nth (fun j => map (fun a => if (a <? n)%nat then fr a j else 0%R) (seq 0 3))), seq_nth by exact Hj.
      destruct (Nat.lt_ge_cases a 3) as [L|L].
      + rewrite seq3_nth by exact L. replace (a <? n)%nat with false by (symmetry; apply Nat.ltb_ge; lia). reflexivity.
      + apply nth_overflow. rewrite map_length, seq_length. exact L.
  Qed.

  Lemma grid_product : nprod (map bsize laxes ++ repeat 1%nat (3 - n)) = bsize (BTuple laxes).
  Proof using.
    assert (E : forall l k, nprod (l ++ repeat 1%nat k) = nprod l).
    { induction l as [|x l IH]; intros k; cbn [app nprod]; [induction k as [|k IHk]; cbn [repeat nprod]; [reflexivity|rewrite IHk; reflexivity]|rewrite IH; reflexivity]. }
    apply E.
  Qed.
End Win.
