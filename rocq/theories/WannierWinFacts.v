(** Wave vectors, grids and runs of Wannier90. *)
From Coq Require Import Reals Lra Ascii.
From Verif Require Import ZLib Csum DFT NumPy Interp Index IndexProofs Spec Basis SpecBasis BasisProofs BasisProofs2 IndexSum Operator SpecOperator
  OperatorProofs OperatorProofs2 Wavepacket SpecWavepacket WavepacketProofs2 SpecMatrix Localize SpecLocalize LocalizeProofs3 LocalizeProofs4 LocalizeProofs5 LocalizeFacts2
  SeedProofs2 Lattice SpecReal LatticeProofs VolumeBasis SpecVolumeBasis VolumeBasisProofs Wannier SpecWannier
  BlochEnergyProofs2 WannierProofs2 WannierProofs4 WannierProofs5 WannierWin SpecWannierWin WannierWinProofs.
Local Open Scope R_scope.
Local Open Scope C_scope.

Lemma win_vectors same bands laxes saxes setup o : identity_test same -> (0 < length saxes <= 3)%nat -> length laxes = length saxes ->
  in_space (length saxes) saxes -> bwf (BTuple laxes) -> Forall (fun b => is_transformed b = true) laxes ->
  exists win, build_win_file same bands laxes saxes setup o = Some win /\ win_setup win = setup /\
    win_projections win = has_projections o /\ win_num_wann win = bsize bands /\
    win_num_iter win = w_num_iter o /\ win_tolerance win = w_tolerance o /\ win_window win = w_window o /\
    win_grid win = (map bsize laxes ++ repeat 1%nat (3 - length laxes))%list /\
    nprod (win_grid win) = length (win_points win) /\
    forall s B, in_shape s (map bsize laxes) -> reciprocal (win_cell win) B ->
    let K := wave_vector B (nth (ravel (map bsize laxes) s) (win_points win) []) in
    (forall c, (length saxes <= c < 3)%nat -> K c = 0%R) /\
    forall a, (a < length saxes)%nat ->
      let b := nth a laxes (BFund 0) in
      exists f, (- Z.of_nat (bfund b) <= 2 * f < Z.of_nat (bfund b))%Z /\
        (forall x, bstate b (nth a s 0%nat) x = plane_wave (bfund b) f x) /\
        rsum (fun c => 10 ^ 10 * K c * lattice_of saxes a c)%R (length saxes) = (2 * PI * (IZR f / INR (bfund b)))%R.
Proof.
  intros Hsame Hn Hl Hs Hw Ht. destruct (sample_fractions_signed same laxes Hsame Hw Ht) as [fr [Ef Vf]].
  destruct (win_some same bands laxes saxes Hn Hl Hs fr setup o Ef) as [win [E [E1 [E2 [E3 [E4 [E5 [E6 [E7 [E8 [P1 [P2 A]]]]]]]]]]]].
  exists win. repeat (split; [assumption|]). split; [rewrite Hl; assumption|]. split; [rewrite E7, E8; apply grid_product|].
  intros s B Hin HB K. assert (Hj : (ravel (map bsize laxes) s < bsize (BTuple laxes))%nat) by (apply ravel_lt; exact Hin).
  destruct (win_wave (win_cell win) B (length saxes) (lattice_of saxes) (nth (ravel (map bsize laxes) s) (win_points win) [])) as [Z V];
    [lia|exact HB|exact A|intros i Hi; apply P2; [exact Hj|lia]|].
  split; [exact Z|]. intros a Ha b. destruct (Vf s a Hin ltac:(lia)) as [f [F1 [F2 F3]]]. fold b in F1, F2, F3.
  exists f. split; [exact F1|]. split; [exact F2|]. unfold K. rewrite V by exact Ha. rewrite P1 by (assumption || lia). rewrite F3. reflexivity.
Qed.

(** ** Samples on the full momentum grid *)
Lemma scal_rsum (t : R) (g : nat -> R) n : (t * rsum g n)%R = rsum (fun a => t * g a)%R n.
Proof. induction n as [|n IH]; cbn [rsum]; [ring|]. rewrite <- IH. ring. Qed.
Lemma plane_cells ls : forall s R, Forall (fun n => (0 < n)%nat) ls -> in_shape s ls -> length R = length ls ->
  plane ls (sample_freqs ls s) (map Z.of_nat R) =
  cis (rsum (fun a => INR (nth a R 0%nat) * (2 * PI * (IZR (freq (nth a ls 0%nat) (nth a s 0%nat)) / INR (nth a ls 0%nat))))%R (length ls)).
Proof.
  intros s R Hp Hin HR.
  assert (H1 : Forall (fun n => (0 < n)%nat) (map (fun _ => 1%nat) ls)) by (apply Forall_map, Forall_forall; intros; lia).
  assert (E : supercell ls (map (fun _ => 1%nat) ls) = ls) by (clear; induction ls as [|n ls IH]; cbn [map supercell]; [reflexivity|rewrite IH, Nat.mul_1_r; reflexivity]).
  assert (P := plane_phase ls (map (fun _ => 1%nat) ls) s (map Z.of_nat R) Hp H1 ltac:(rewrite map_length; reflexivity) Hin ltac:(rewrite !map_length; exact HR)).
  rewrite E in P. rewrite P. f_equal. rewrite map_length.
  transitivity (rsum (fun a => (2 * PI) * (IZR (freq (nth a ls 0%nat) (nth a s 0%nat)) / INR (nth a ls 0%nat) *
     (IZR (nth a (map Z.of_nat R) 0%Z) / INR (nth a (map (fun _ => 1%nat) ls) 0%nat))))%R (length ls)).
  - apply scal_rsum.
  - apply rsum_ext. intros a Ha. rewrite (nth_indep _ _ (Z.of_nat 0)) by (rewrite map_length; lia). rewrite map_nth, <- INR_IZR_INZ.
    replace (nth a (map (fun _ => 1%nat) ls) 0%nat) with 1%nat; [cbn; field|].
    + apply not_0_INR. assert (X := proj1 (Forall_nth _ _) Hp a 0%nat Ha). cbn in X. lia.
    + symmetry. rewrite (nth_indep _ _ 1%nat) by (rewrite map_length; exact Ha).
      exact (map_nth (fun _ => 1%nat) ls 1%nat a).
Qed.

Lemma map_bsize_T l : map bsize (map BFundT l) = l.
Proof. rewrite map_map. apply map_id. Qed.
Lemma nth_T ls a : (a < length ls)%nat -> nth a (map BFundT ls) (BFund 0) = BFundT (nth a ls 0%nat).
Proof. intros H. rewrite (nth_indep _ _ (BFundT 0)) by (rewrite map_length; exact H). apply map_nth. Qed.

Lemma win_momenta same bands ls saxes setup o : identity_test same -> (0 < length saxes <= 3)%nat -> length ls = length saxes ->
  in_space (length saxes) saxes -> Forall (fun n => (0 < n)%nat) ls ->
  exists win, build_win_file same bands (map BFundT ls) saxes setup o = Some win /\
    length (win_points win) = nprod ls /\
    (forall s a, in_shape s ls -> (a < length saxes)%nat ->
      nth a (nth (ravel ls s) (win_points win) []) 0%R = (IZR (freq (nth a ls 0%nat) (nth a s 0%nat)) / INR (nth a ls 0%nat))%R) /\
    forall s B, in_shape s ls -> reciprocal (win_cell win) B ->
    forall a, (a < length saxes)%nat ->
      rsum (fun c => 10 ^ 10 * wave_vector B (nth (ravel ls s) (win_points win) []) c * lattice_of saxes a c)%R (length saxes) =
      (2 * PI * (IZR (freq (nth a ls 0%nat) (nth a s 0%nat)) / INR (nth a ls 0%nat)))%R.
Proof.
  intros Hsame Hn Hl Hs Hp. destruct (sample_fractions_fundamental same ls Hsame Hp) as [fr [Ef Vf]].
  destruct (win_some same bands (map BFundT ls) saxes Hn ltac:(rewrite map_length; exact Hl) Hs fr setup o Ef)
    as [win [E [_ [_ [_ [_ [_ [_ [_ [E8 [P1 [P2 A]]]]]]]]]]]].
  assert (Hb : bsize (BTuple (map BFundT ls)) = nprod ls) by (cbn [bsize]; rewrite map_bsize_T; reflexivity).
  rewrite Hb in *. exists win. split; [exact E|]. split; [exact E8|].
  assert (V : forall s a, in_shape s ls -> (a < length saxes)%nat ->
      nth a (nth (ravel ls s) (win_points win) []) 0%R = (IZR (freq (nth a ls 0%nat) (nth a s 0%nat)) / INR (nth a ls 0%nat))%R).
  { intros s a Hin Ha. rewrite P1 by (assumption || (apply ravel_lt; exact Hin)).
    apply Vf; [exact Hin|lia|]. apply freq_is_freq. apply LocalizeProofs3.in_shape_nth; [exact Hin|lia]. }
  split; [exact V|]. intros s B Hin HB a Ha. rewrite <- V by assumption.
  destruct (win_wave (win_cell win) B (length saxes) (lattice_of saxes) (nth (ravel ls s) (win_points win) [])) as [_ W];
    [lia|exact HB|exact A|intros i Hi; apply P2; [apply ravel_lt; exact Hin|lia]|]. apply W. exact Ha.
Qed.

(** The waves are Bloch waves with the wave vectors of the file. *)
Lemma win_bloch same bands ls saxes setup o data : identity_test same -> (0 < length saxes <= 3)%nat -> length ls = length saxes ->
  in_space (length saxes) saxes -> Forall (fun n => (0 < n)%nat) ls -> bwf (stacked saxes) ->
  exists win, build_win_file same bands (map BFundT ls) saxes setup o = Some win /\
    forall s m B, (s < nprod ls)%nat -> reciprocal (win_cell win) B ->
    let F := supercell ls (fundamental_shape saxes) in
    forall x cells, in_shape x F -> length cells = length saxes ->
      bloch_wave ls (map la_basis saxes) data s m (ravel F (moved F (fundamental_shape saxes) cells x)) =
      cis (cells_phase saxes (wave_vector B (nth s (win_points win) [])) cells) * bloch_wave ls (map la_basis saxes) data s m (ravel F x).
Proof.
  intros Hsame Hn Hl Hs Hp Hw. destruct (win_momenta same bands ls saxes setup o Hsame Hn Hl Hs Hp) as [win [E [_ [_ V]]]].
  exists win. split; [exact E|]. intros s m B Hsl HB F x cells Hx Hc.
  assert (Hin := unravel_in_shape ls s Hsl).
  assert (Hss : Forall (fun n => (0 < n)%nat) (fundamental_shape saxes)).
  { unfold fundamental_shape. apply Forall_map. apply bwf_tuple in Hw. apply Forall_forall. intros a Ha. apply bfund_pos.
    exact (proj1 (Forall_forall _ _) Hw _ (in_map la_basis _ _ Ha)). }
  assert (Ls : length (fundamental_shape saxes) = length ls) by (unfold fundamental_shape; rewrite map_length; lia).
  assert (LF : length F = length ls) by (apply supercell_length; lia).
  assert (Lx : length x = length ls) by (apply in_shape_length in Hx; lia).
  assert (Hm : in_shape (moved F (fundamental_shape saxes) cells x) F) by (apply moved_in_shape; [lia|lia|exact Hx]).
  unfold bloch_wave. rewrite shape_bases. fold F. rewrite !unravel_ravel by assumption.
  unfold F in *. clear F. assert (Lf : length (sample_freqs ls (unravel ls s)) = length ls) by (apply sample_freqs_length, (in_shape_length _ _ Hin)).
  rewrite plane_moved by (try assumption; lia).
  rewrite in_cell_moved by (try assumption; lia).
  rewrite plane_cells by (try assumption; lia).
  replace (cells_phase saxes (wave_vector B (nth s (win_points win) [])) cells) with
    (rsum (fun a => INR (nth a cells 0%nat) * (2 * PI * (IZR (freq (nth a ls 0%nat) (nth a (unravel ls s) 0%nat)) / INR (nth a ls 0%nat))))%R (length ls)); [ring|].
  unfold cells_phase. rewrite Hl. apply rsum_ext. intros a Ha. f_equal.
  assert (X := V (unravel ls s) B Hin HB a Ha). rewrite ravel_unravel in X by exact Hsl. symmetry. exact X.
Qed.

(** ** The grid *)
Lemma frac_cong n (i j : Z) q : (0 < n)%nat -> (IZR i / INR n = IZR j / INR n + IZR q)%R -> Zcong (Z.of_nat n) i j.
Proof.
  intros Hn H. exists q. apply eq_IZR. rewrite plus_IZR, mult_IZR, <- INR_IZR_INZ.
  assert (P : INR n <> 0%R) by (apply not_0_INR; lia).
  transitivity (IZR i / INR n * INR n)%R; [field; exact P|]. rewrite H. field. exact P.
Qed.

Lemma win_grid_points same bands ls saxes setup o : identity_test same -> (0 < length saxes <= 3)%nat -> length ls = length saxes ->
  in_space (length saxes) saxes -> Forall (fun n => (0 < n)%nat) ls ->
  exists win, build_win_file same bands (map BFundT ls) saxes setup o = Some win /\
    win_grid win = (ls ++ repeat 1%nat (3 - length ls))%list /\
    forall m : nat -> Z, exists j, (j < nprod ls)%nat /\ is_grid_point ls m (nth j (win_points win) []) /\
      forall j', (j' < nprod ls)%nat -> is_grid_point ls m (nth j' (win_points win) []) -> j' = j.
Proof.
  intros Hsame Hn Hl Hs Hp. destruct (win_momenta same bands ls saxes setup o Hsame Hn Hl Hs Hp) as [win [E [_ [V _]]]].
  exists win. split; [exact E|]. split.
  { destruct (sample_fractions_fundamental same ls Hsame Hp) as [fr [Ef _]].
    destruct (win_some same bands (map BFundT ls) saxes Hn ltac:(rewrite map_length; exact Hl) Hs fr setup o Ef) as [win' [E' W]].
    rewrite E in E'. injection E' as <-. destruct W as [_ [_ [_ [_ [_ [_ [W _]]]]]]]. rewrite W, map_bsize_T, <- Hl. reflexivity. }
  intros m. set (s := map (fun a => Z.to_nat (m a mod Z.of_nat (nth a ls 0%nat))) (seq 0 (length ls))).
  assert (Pos : forall a, (a < length ls)%nat -> (0 < nth a ls 0)%nat) by (intros a Ha; exact (proj1 (Forall_nth _ _) Hp a 0%nat Ha)).
  assert (Ns : forall a, (a < length ls)%nat -> nth a s 0%nat = Z.to_nat (m a mod Z.of_nat (nth a ls 0%nat))).
  { intros a Ha. unfold s. rewrite (nth_indep _ _ (Z.to_nat (m 0%nat mod Z.of_nat (nth 0 ls 0%nat)))) by (rewrite map_length, seq_length; exact Ha).
    rewrite (map_nth (fun a => Z.to_nat (m a mod Z.of_nat (nth a ls 0%nat)))), seq_nth by exact Ha. reflexivity. }
  assert (Hin : in_shape s ls).
  { assert (L : length s = length ls) by (unfold s; rewrite map_length, seq_length; reflexivity).
    apply (BlochEnergyProofs2.Forall2_nth_intro lt 0%nat 0%nat); [exact L|]. intros a Ha. rewrite L in Ha. rewrite Ns by exact Ha. specialize (Pos a Ha).
    assert (B := Z.mod_pos_bound (m a) (Z.of_nat (nth a ls 0%nat)) ltac:(lia)). lia. }
  assert (FC : forall t a, in_shape t ls -> (a < length ls)%nat -> Zcong (Z.of_nat (nth a ls 0%nat)) (freq (nth a ls 0%nat) (nth a t 0%nat)) (Z.of_nat (nth a t 0%nat))).
  { intros t a Ht Ha. apply freq_cong. apply LocalizeProofs3.in_shape_nth; assumption. }
  exists (ravel ls s). split; [apply ravel_lt; exact Hin|]. split.
  - intros a Ha. rewrite V by (assumption || lia). specialize (Pos a Ha). destruct (FC s a Hin Ha) as [q Hq].
    rewrite Ns in Hq at 2 by exact Ha. assert (B := Z.mod_pos_bound (m a) (Z.of_nat (nth a ls 0%nat)) ltac:(lia)). rewrite Z2Nat.id in Hq by lia.
    assert (D := Z.div_mod (m a) (Z.of_nat (nth a ls 0%nat)) ltac:(lia)).
    exists (q - m a / Z.of_nat (nth a ls 0%nat))%Z. rewrite Hq.
    replace (m a mod Z.of_nat (nth a ls 0%nat) + q * Z.of_nat (nth a ls 0%nat))%Z with (m a + (q - m a / Z.of_nat (nth a ls 0%nat)) * Z.of_nat (nth a ls 0%nat))%Z by lia.
    rewrite plus_IZR, mult_IZR, <- INR_IZR_INZ. field. apply not_0_INR. lia.
  - intros j' Hj' HG. assert (Ht := unravel_in_shape ls j' Hj'). rewrite <- (ravel_unravel ls j') by exact Hj'. f_equal.
    assert (L1 := in_shape_length _ _ Ht). assert (L2 := in_shape_length _ _ Hin).
    apply (nth_ext _ _ 0%nat 0%nat); [lia|]. intros a Ha. assert (Ha' : (a < length ls)%nat) by lia.
    specialize (Pos a Ha'). destruct (HG a Ha') as [q Hq]. rewrite <- (ravel_unravel ls j') in Hq by exact Hj'. rewrite V in Hq by (assumption || lia).
    assert (C1 := frac_cong _ _ _ q Pos Hq).
    assert (C2 := FC _ a Ht Ha').
    assert (A1 := LocalizeProofs3.in_shape_nth _ _ a Ht Ha'). assert (A2 := LocalizeProofs3.in_shape_nth _ _ a Hin Ha').
    assert (C3 : Zcong (Z.of_nat (nth a ls 0%nat)) (Z.of_nat (nth a s 0%nat)) (m a)).
    { rewrite Ns by exact Ha'. assert (B := Z.mod_pos_bound (m a) (Z.of_nat (nth a ls 0%nat)) ltac:(lia)). rewrite Z2Nat.id by lia.
      assert (D := Z.div_mod (m a) (Z.of_nat (nth a ls 0%nat)) ltac:(lia)). exists (- (m a / Z.of_nat (nth a ls 0%nat)))%Z. lia. }
    destruct C1 as [q1 C1], C2 as [q2 C2], C3 as [q3 C3]. clear - C1 C2 C3 A1 A2.
    set (n := nth a ls 0%nat) in *. set (u := nth a (unravel ls j') 0%nat) in *. set (v := nth a s 0%nat) in *.
    assert (Z.of_nat u = Z.of_nat v + (q1 - q2 - q3) * Z.of_nat n)%Z by lia.
    assert ((q1 - q2 - q3) = 0)%Z by nia. nia.
Qed.
