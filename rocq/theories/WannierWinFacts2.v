(** The files of the second run and the localisation with their result. *)
From Coq Require Import Reals Lra Ascii.
From Verif Require Import ZLib Csum DFT NumPy Interp Index IndexProofs Spec Basis SpecBasis BasisProofs BasisProofs2 BasisProofs3 IndexSum Operator SpecOperator
  OperatorProofs OperatorProofs2 Wavepacket SpecWavepacket WavepacketProofs2 SpecMatrix Localize SpecLocalize LocalizeProofs3 LocalizeProofs4 LocalizeProofs5 LocalizeFacts2 LocalizeProofs7
  Lattice VolumeBasis SpecVolumeBasis VolumeBasisProofs Wannier SpecWannier
  WannierProofs2 WannierProofs4 WannierProofs5 WannierWin SpecWannierWin WannierWinProofs WannierWinFacts.
Local Open Scope R_scope.
Local Open Scope C_scope.

(** A truncated list basis: the grid in the file is not the grid of the samples. *)
Lemma truncated_grid same bands d n setup o : identity_test same ->
  exists win, build_win_file same bands [BTrans 2 5] [position_axis_of [d] n] setup o = Some win /\
    win_grid win = [2; 1; 1]%nat /\ length (win_points win) = 2%nat /\
    forall j, (j < 2)%nat -> ~ is_grid_point [2%nat] (fun _ => 1%Z) (nth j (win_points win) []).
Proof.
  intros Hsame. assert (Hw : bwf (BTuple [BTrans 2 5])) by (cbn; repeat split; lia).
  destruct (sample_fractions_signed same [BTrans 2 5] Hsame Hw ltac:(repeat constructor)) as [fr [Ef Vf]].
  destruct (win_some same bands [BTrans 2 5] [position_axis_of [d] n] ltac:(cbn; lia) eq_refl ltac:(repeat constructor) fr setup o Ef)
    as [win [E [_ [_ [_ [_ [_ [_ [E7 [E8 [P1 _]]]]]]]]]]].
  exists win. split; [exact E|]. split; [exact E7|]. split; [exact E8|].
  intros j Hj HG. destruct (HG 0%nat ltac:(cbn; lia)) as [q Hq]. cbn [nth] in Hq.
  rewrite (P1 j Hj 0%nat ltac:(cbn; lia)) in Hq.
  destruct (Vf [j] 0%nat ltac:(cbn; apply Forall2_cons; [exact Hj|apply Forall2_nil]) ltac:(cbn; lia)) as [f [_ [_ F]]].
  replace (ravel (map bsize [BTrans 2 5]) [j]) with j in F by (cbn; lia). rewrite F in Hq. cbn [nth bfund] in Hq.
  change (INR 5) with (1 + 1 + 1 + 1 + 1)%R in Hq. change (INR 2) with (1 + 1)%R in Hq.
  assert (X : (IZR (2 * f) = IZR (5 + 10 * q))%R).
  { rewrite plus_IZR, !mult_IZR. lra. }
  apply eq_IZR in X. lia.
Qed.

Section Files.
  Context (same : basis -> basis -> bool) (Hsame : identity_test same).
  Context (bands : basis) (laxes : list basis) (saxes : list length_axis) (data : ndarray).
  Notation n := (length saxes).
  Notation bases := (map la_basis saxes).
  Notation ns := (nprod (map bsize laxes)).
  Context (Hb : (0 < bsize bands)%nat) (Hn : (0 < n <= 3)%nat) (Hl : length laxes = n) (Hs : in_space n saxes).
  Context (Hlw : bwf (BTuple laxes)) (Hlt : Forall (fun b => is_transformed b = true) laxes).
  Context (Hw : bwf (stacked saxes)) (Ho : explicit_orthonormal (stacked saxes)).
  Context (Hd : nprod (ashape data) = (bsize bands * ns * bsize (stacked saxes))%nat).

  Lemma win_builds setup o : exists win, build_win_file same bands laxes saxes setup o = Some win /\ win_setup win = setup /\
    win_projections win = has_projections o /\ win_num_wann win = bsize bands.
  Proof using Hsame Hn Hl Hs Hlw Hlt.
    destruct (win_vectors same bands laxes saxes setup o Hsame Hn Hl Hs Hlw Hlt) as [win [E [E1 [E2 [E3 _]]]]]. exists win. auto.
  Qed.

  Lemma projections_written o (ignore : list nat) paxes states : w_ignore o = map Z.of_nat ignore ->
    bwf (BTuple paxes) -> explicit_orthonormal (BTuple paxes) ->
    map bfund paxes = supercell (map bsize laxes) (fundamental_shape saxes) ->
    nprod (ashape states) = (bsize (w_projections o) * bsize (BTuple paxes))%nat ->
    exists lines, write_amn_file same bands laxes bases data (w_ignore o) (w_projections o) (BTuple paxes) states =
        Some (bsize bands, ns, bsize (w_projections o), lines) /\
      projection_lines (map bsize laxes) bases data (bsize bands) (bsize (w_projections o)) paxes states lines.
  Proof using Hsame Hb Hn Hl Hw Ho Hd.
    intros Hi Pw Po Pf Pn. unfold write_amn_file. rewrite Hi. set (caxes := converted_axes (map Z.of_nat ignore) bases).
    assert (Hwf : Forall bwf bases) by (apply bwf_tuple; exact Hw).
    change (bsize (BTuple laxes)) with ns.
    rewrite reshape_some by (rewrite Hd; cbn [nprod]; unfold stacked; ring).
    destruct (proj2 (convert_some_iff same _ _) (caxes_compatible bases ignore)) as [F HF]. fold caxes in HF. rewrite HF.
    set (N := bsize (BTuple bases)). set (N' := bsize (BTuple caxes)). set (d := {| ashape := _ |}).
    set (cdata := ravel_array _).
    assert (Fc : map bfund caxes = map bfund bases) by apply caxes_fund.
    destruct (amn_spec same Hsame laxes caxes paxes (proj2 (bwf_tuple _) (caxes_wf bases ignore Hwf)) (caxes_orthonormal bases ignore Ho)
      ltac:(unfold caxes; rewrite caxes_length, map_length; exact Hl) Pw Po ltac:(rewrite Fc, shape_bases; exact Pf)
      (bsize bands) (bsize (w_projections o)) cdata states) as [lines [E [L V]]].
    - unfold cdata. cbn [ravel_array array2 ashape nprod]. fold N'. ring.
    - exact Pn.
    - exists lines. split; [exact E|]. split; [exact L|]. intros k m i Hk Hm Hi'. rewrite (V k m i Hk Hm Hi'). f_equal.
      rewrite Fc. apply csum_ext. intros x Hx. f_equal. f_equal. unfold bloch_wave. rewrite Fc. f_equal.
      assert (Hin : in_shape (in_cell (map bfund bases) (unravel (supercell (map bsize laxes) (map bfund bases)) x)) (map bfund bases)).
      { clear - Hw Hl Hx. assert (P : Forall (fun n => (0 < n)%nat) (map bfund bases)).
        { apply Forall_map. apply bwf_tuple in Hw. eapply Forall_impl; [|exact Hw]. intros a Ha. apply bfund_pos. exact Ha. }
        assert (U := unravel_in_shape _ _ Hx). assert (L := in_shape_length _ _ U).
        assert (Ll : length (map bsize laxes) = length (map bfund bases)) by (rewrite !map_length; exact Hl).
        rewrite supercell_length in L by exact Ll. rewrite Ll in L. revert L P. generalize (unravel (supercell (map bsize laxes) (map bfund bases)) x).
        generalize (map bfund bases). clear. induction l as [|m l IH]; intros [|y ys] L P; cbn in L; try lia; [constructor|].
        inversion P; subst. cbn [in_cell]. constructor; [apply Nat.mod_upper_bound; lia|]. apply IH; [lia|assumption]. }
      assert (Hx' := ravel_lt _ _ Hin).
      rewrite <- (convert_keeps same (BTuple bases) (BTuple caxes) F Hsame); try assumption.
      + unfold amplitude. apply csum_ext. intros t Ht. f_equal. unfold band_state at 1, row, cdata. cbn [ravel_array aflat].
        fold N' in Ht |- *. rewrite array2_flat by nia. reflexivity.
      + apply bwf_tuple, caxes_wf. exact Hwf.
      + apply caxes_keeps; assumption.
      + change (bfund (BTuple caxes)) with (nprod (map bfund caxes)). rewrite Fc. exact Hx'.
  Qed.

  (** All files of the second run. *)
  Lemma files_written o (ignore : list nat) n_tot entries nnkp : w_ignore o = map Z.of_nat ignore -> Forall (fun a => (a < 3)%nat) ignore ->
    w_symmetry o = None -> nnkp_file n_tot entries nnkp -> Forall (neighbour ns) entries ->
    (forall pb states, w_states o = Some (pb, states) -> exists paxes, pb = BTuple paxes /\ bwf pb /\ explicit_orthonormal pb /\
       map bfund paxes = supercell (map bsize laxes) (fundamental_shape saxes) /\
       nprod (ashape states) = (bsize (w_projections o) * bsize pb)%nat) ->
    exists win blocks amn, write_localization_files same bands laxes saxes data nnkp o = Some (win, (bsize bands, ns, n_tot, blocks), amn) /\
      build_win_file same bands laxes saxes false o = Some win /\
      Forall2 (overlap_block (bsize bands) bases ns data ignore) entries blocks /\
      (win_projections win = true <-> amn <> None) /\
      forall nw nk np lines, amn = Some (nw, nk, np, lines) ->
        nw = bsize bands /\ nk = ns /\ np = bsize (w_projections o) /\
        exists paxes states, w_states o = Some (BTuple paxes, states) /\
          projection_lines (map bsize laxes) bases data (bsize bands) np paxes states lines.
  Proof using Hsame Hb Hn Hl Hs Hlw Hlt Hw Ho Hd.
    intros Hi Hi3 Hy Hf He Hp. unfold write_localization_files.
    destruct (win_builds false o) as [win [E [_ [E2 _]]]]. rewrite E.
    change (bsize (BTuple laxes)) with ns.
    destruct (written_overlaps same bands ns bases data ignore Hsame (proj1 (bwf_tuple _) Hw) Ho n_tot entries nnkp Hb
       ltac:(rewrite map_length; lia) Hi3 Hd Hf He) as [blocks [Em Vm]].
    rewrite Hi, Em, Hy. cbn [build_dmn_file]. unfold has_projections in E2.
    destruct (w_states o) as [[pb states]|] eqn:W.
    - destruct (Hp pb states eq_refl) as [paxes [-> [P1 [P2 [P3 P4]]]]].
      destruct (projections_written o ignore paxes states Hi P1 P2 P3 P4) as [lines [El Vl]]. rewrite Hi in El. rewrite El.
      exists win, blocks, (Some (bsize bands, ns, bsize (w_projections o), lines)). split; [reflexivity|]. split; [reflexivity|]. split; [exact Vm|].
      split; [rewrite E2; split; [discriminate|reflexivity]|]. intros nw nk np ls H. injection H as <- <- <- <-.
      do 3 (split; [reflexivity|]). exists paxes, states. split; [reflexivity|exact Vl].
    - exists win, blocks, None. split; [reflexivity|]. split; [reflexivity|]. split; [exact Vm|].
      split; [rewrite E2; split; [discriminate|intros H; exfalso; apply H; reflexivity]|]. intros; discriminate.
  Qed.

  (** ** Localisation *)
  Context (float : text -> option R) (nnkp : nnkp_of) (u_mat : u_mat_of) (U : nat -> nat -> nat -> C).
  Context (Hk : answers_setup ns nnkp) (Hu : answers_files float ns (bsize bands) U u_mat).

  Lemma operator_read o (ignore : list nat) : w_ignore o = map Z.of_nat ignore -> Forall (fun a => (a < 3)%nat) ignore ->
    w_symmetry o = None ->
    (forall pb states, w_states o = Some (pb, states) -> exists paxes, pb = BTuple paxes /\ bwf pb /\ explicit_orthonormal pb /\
       map bfund paxes = supercell (map bsize laxes) (fundamental_shape saxes) /\
       nprod (ashape states) = (bsize (w_projections o) * bsize pb)%nat) ->
    exists file op, u_mat_file float ns (bsize bands) U file /\ localization_operator_from_u_mat_file float file = Some op /\
      get_localization_operator_wannier90 same float nnkp u_mat bands laxes saxes data (Some o) =
      Some (BTuple laxes, w_projections o, bands, op) /\ ashape op = [(ns * bsize bands * bsize bands)%nat] /\
      forall s i j, (s < ns)%nat -> (i < bsize bands)%nat -> (j < bsize bands)%nat ->
        at_sample (bsize bands) (bsize bands) op s j i = U s i j.
  Proof using All.
    intros Hi Hi3 Hy Hp. unfold get_localization_operator_wannier90.
    destruct (win_builds true o) as [win [E [E1 _]]]. rewrite E.
    destruct (Hk win E1) as [n_tot [entries [file [Ek [Fk Nk]]]]]. rewrite Ek.
    destruct (files_written o ignore n_tot entries file Hi Hi3 Hy Fk Nk Hp) as [win' [blocks [amn [Ef _]]]]. rewrite Ef.
    destruct (Hu (win', (bsize bands, ns, n_tot, blocks), amn)) as [ufile [Eu Fu]]. rewrite Eu.
    destruct (u_mat_spec float ns (bsize bands) U ufile Fu Hb) as [op [Eo [So Vo]]]. rewrite Eo.
    exists ufile, op. split; [exact Fu|]. split; [exact Eo|]. split; [reflexivity|]. split; [exact So|exact Vo].
  Qed.

  Lemma localized_states o (ignore : list nat) : w_ignore o = map Z.of_nat ignore -> Forall (fun a => (a < 3)%nat) ignore ->
    w_symmetry o = None -> bsize (w_projections o) = bsize bands ->
    (forall pb states, w_states o = Some (pb, states) -> exists paxes, pb = BTuple paxes /\ bwf pb /\ explicit_orthonormal pb /\
       map bfund paxes = supercell (map bsize laxes) (fundamental_shape saxes) /\
       nprod (ashape states) = (bsize (w_projections o) * bsize pb)%nat) ->
    (0 < ns)%nat ->
    exists w, localize_wavepacket_wannier90 same float nnkp u_mat bands laxes saxes data o = Some w /\
      forall s i k, (s < ns)%nat -> (i < bsize bands)%nat -> (k < bsize (stacked saxes))%nat ->
        band_state ns (bsize (stacked saxes)) w s i k =
        csum (fun l => U s l i * band_state ns (bsize (stacked saxes)) data s l k) (bsize bands).
  Proof using All.
    intros Hi Hi3 Hy Hq Hp Hns. destruct (operator_read o ignore Hi Hi3 Hy Hp) as [file [op [Fu [Eo [Eg _]]]]].
    unfold localize_wavepacket_wannier90. rewrite Eg, Hq. change (bsize (BTuple laxes)) with ns.
    destruct (read_localized float ns (bsize bands) U (bsize (stacked saxes)) file data Fu Hb Hns Hd) as [op' [w [Eo' [Ew [V _]]]]].
    rewrite Eo in Eo'. injection Eo' as <-. exists w. split; [exact Ew|exact V].
  Qed.

  (** Another number of projections than bands raises. *)
  Lemma other_projections_raise o (ignore : list nat) : w_ignore o = map Z.of_nat ignore -> Forall (fun a => (a < 3)%nat) ignore ->
    w_symmetry o = None -> bsize (w_projections o) <> bsize bands ->
    (forall pb states, w_states o = Some (pb, states) -> exists paxes, pb = BTuple paxes /\ bwf pb /\ explicit_orthonormal pb /\
       map bfund paxes = supercell (map bsize laxes) (fundamental_shape saxes) /\
       nprod (ashape states) = (bsize (w_projections o) * bsize pb)%nat) ->
    (0 < ns)%nat ->
    localize_wavepacket_wannier90 same float nnkp u_mat bands laxes saxes data o = None.
  Proof using All.
    intros Hi Hi3 Hy Hq Hp Hns. destruct (operator_read o ignore Hi Hi3 Hy Hp) as [file [op [_ [_ [Eg [So _]]]]]].
    unfold localize_wavepacket_wannier90. rewrite Eg. unfold localized_wavepackets. change (bsize (BTuple laxes)) with ns.
    unfold reshape. rewrite So. cbn [nprod].
    destruct (_ =? _)%nat eqn:X; [apply Nat.eqb_eq in X; exfalso; nia|reflexivity].
  Qed.
End Files.

Lemma symmetry_raises same float nnkp u_mat bands laxes saxes data o l : w_symmetry o = Some l ->
  get_localization_operator_wannier90 same float nnkp u_mat bands laxes saxes data (Some o) = None.
Proof.
  intros H. unfold get_localization_operator_wannier90. destruct (build_win_file _ _ _ _ _ _); [|reflexivity].
  destruct (nnkp _); [|reflexivity]. unfold write_localization_files. rewrite H. cbn [build_dmn_file].
  destruct (build_win_file _ _ _ _ _ _); [|reflexivity]. destruct (write_mmn_file _ _ _ _ _ _ _); reflexivity.
Qed.

(** No options. *)
Lemma default_same same float nnkp u_mat bands laxes saxes data :
  get_localization_operator_wannier90 same float nnkp u_mat bands laxes saxes data None =
  get_localization_operator_wannier90 same float nnkp u_mat bands laxes saxes data (Some (default_options (bsize bands))).
Proof. reflexivity. Qed.

(** ** Bands localised one at a time *)
Lemma individual_run same float nnkp u_mat bands laxes saxes data (U : nat -> nat -> nat -> nat -> C) : identity_test same ->
  let ns := nprod (map bsize laxes) in
  (0 < bsize bands)%nat -> (0 < length saxes <= 3)%nat -> length laxes = length saxes -> in_space (length saxes) saxes ->
  bwf (BTuple laxes) -> Forall (fun b => is_transformed b = true) laxes ->
  bwf (stacked saxes) -> explicit_orthonormal (stacked saxes) -> (0 < ns)%nat ->
  nprod (ashape data) = (bsize bands * ns * bsize (stacked saxes))%nat ->
  (forall b, (b < bsize bands)%nat -> answers_setup ns (nnkp b) /\ answers_files float ns 1 (U b) (u_mat b)) ->
  exists op w, localization_operator_individual_bands same float nnkp u_mat bands laxes saxes data = Some op /\
    localized_wavepackets (bsize bands) (bsize bands) ns op data = Some w /\
    forall s i k, (s < ns)%nat -> (i < bsize bands)%nat -> (k < bsize (stacked saxes))%nat ->
      band_state ns (bsize (stacked saxes)) w s i k = U i s 0%nat 0%nat * band_state ns (bsize (stacked saxes)) data s i k.
Proof.
  intros Hsame ns Hb Hn Hl Hs Hlw Hlt Hw Ho Hns Hd Ha. set (N := bsize (stacked saxes)) in *.
  destruct (into_iter_spec bands (ns * N) data Hb ltac:(rewrite Hd; ring)) as [ws [Ei [Li Vi]]].
  assert (R : forall b, (b < bsize bands)%nat -> exists r,
    get_localization_operator_wannier90 same float (nnkp b) (u_mat b) (BFund 1) laxes saxes (nth b ws data) (Some individual_options) = Some r /\
    ashape (snd r) = [ns] /\ forall s, (s < ns)%nat -> aflat (snd r) s = U b s 0%nat 0%nat).
  { intros b Hbb. destruct (Ha b Hbb) as [A1 A2].
    assert (Hnb : nth_error ws b = Some (nth b ws data)) by (apply nth_error_nth'; lia).
    destruct (Vi b _ Hnb) as [Sw _].
    destruct (operator_read same Hsame (BFund 1) laxes saxes (nth b ws data) ltac:(cbn; lia) Hn Hl Hs Hlw Hlt Hw Ho
      ltac:(rewrite Sw; cbn [nprod bsize]; fold N ns; ring) float (nnkp b) (u_mat b) (U b) A1 A2 individual_options [2%nat] eq_refl
      ltac:(repeat constructor) eq_refl ltac:(intros; discriminate)) as [file [op [_ [_ [E [So Vo]]]]]].
    exists (BTuple laxes, w_projections individual_options, BFund 1, op). split; [exact E|]. cbn [snd]. split.
    - rewrite So. cbn [bsize]. fold ns. f_equal. lia.
    - intros s Hsn. rewrite <- (Vo s 0%nat 0%nat Hsn ltac:(cbn; lia) ltac:(cbn; lia)). unfold at_sample. f_equal. cbn [bsize]. lia. }
  set (run := fun b => get_localization_operator_wannier90 same float (nnkp b) (u_mat b) (BFund 1) laxes saxes (nth b ws data) (Some individual_options)) in *.
  assert (X : forall m, (m <= bsize bands)%nat -> exists l, Forall2 (fun o r => o = Some r) (map run (seq 0 m)) l /\ length l = m /\
     forall b d, (b < m)%nat -> ashape (snd (nth b l d)) = [ns] /\ forall s, (s < ns)%nat -> aflat (snd (nth b l d)) s = U b s 0%nat 0%nat).
  { induction m as [|m IH]; intros Hm.
    - exists []. split; [constructor|]. split; [reflexivity|]. intros; lia.
    - destruct (IH ltac:(lia)) as [l [F [L V]]]. destruct (R m ltac:(lia)) as [r [E [Sr Vr]]]. exists (l ++ [r]). split.
      + rewrite seq_S, map_app. apply Forall2_app; [exact F|]. constructor; [exact E|constructor].
      + split; [rewrite app_length; cbn; lia|]. intros b d Hbm. destruct (Nat.eq_dec b m) as [->|Hne].
        * rewrite app_nth2 by lia. rewrite L, Nat.sub_diag. split; assumption.
        * rewrite app_nth1 by lia. apply V. lia. }
  destruct (X (bsize bands) (le_n _)) as [l [F [L V]]].
  set (dr := (BTuple [], BTuple [], BTuple [], {| ashape := []; aflat := fun _ : nat => 0 |})).
  destruct (individual_localized (bsize bands) ns N (map (fun r => snd r) l) data ltac:(rewrite map_length; exact L) Hb Hns) as [op [w [E1 [E2 V2]]]].
  - apply Forall_forall. intros o Hin. apply in_map_iff in Hin. destruct Hin as [r [<- Hin]].
    apply (In_nth _ _ dr) in Hin. destruct Hin as [b [Hb1 <-]]. apply V. lia.
  - exact Hd.
  - exists op, w. split; [|split; [exact E2|]].
    + unfold localization_operator_individual_bands. rewrite Ei, Li. fold run.
      change (map _ (seq 0 (bsize bands))) with (map run (seq 0 (bsize bands))).
      rewrite (all_some_Forall2 _ _ F). exact E1.
    + intros s i k Hss Hii Hkk. rewrite V2 by assumption. f_equal.
      change {| ashape := []; aflat := fun _ : nat => 0 |} with ((fun r => snd r) dr). rewrite map_nth. apply V; assumption.
Qed.

(** ** A concrete case: two samples, one or two bands *)
Definition ex_cell_axes : list length_axis := [{| la_basis := BTrunc 2 3; la_delta := [2; 1]%R |}; {| la_basis := BFund 2; la_delta := [0; 3]%R |}].
