(** Reading the nnkp file and the u.mat file. *)
From Coq Require Import Reals Ascii String.
From Verif Require Import ZLib Csum DFT NumPy Interp Index Basis Operator Reduce Wavepacket Localize SpecLocalize Wannier SpecWannier
  IndexProofs OperatorProofs WannierProofs.
Local Open Scope nat_scope.
Local Open Scope list_scope.

(** ** Searching the block *)
Lemma after_prefix_some p : forall s r, after_prefix p s = Some r -> s = p ++ r.
Proof.
  induction p as [|c p IH]; intros s r H; [injection H as ->; reflexivity|].
  destruct s as [|d s]; [discriminate|]. cbn [after_prefix] in H.
  destruct (Ascii.eqb_spec c d) as [->|_]; [|discriminate]. cbn [app]. f_equal. apply IH, H.
Qed.
Lemma after_prefix_app p : forall r, after_prefix p (p ++ r) = Some r.
Proof. induction p as [|c p IH]; intros r; [reflexivity|]. cbn [app after_prefix]. rewrite Ascii.eqb_refl. apply IH. Qed.

Lemma until_free c p body after : Forall (fun d => d <> c) body -> until (c :: p) (body ++ (c :: p) ++ after) = Some body.
Proof.
  induction 1 as [|d body Hd _ IH].
  - cbn [app until after_prefix]. rewrite Ascii.eqb_refl, after_prefix_app. reflexivity.
  - cbn [app until after_prefix]. destruct (Ascii.eqb_spec c d) as [E|_]; [congruence|].
    cbn [app] in IH. rewrite IH. reflexivity.
Qed.

Lemma lazy_free c p d body after : Forall (fun d => d <> c) body ->
  lazy_group (c :: p) ((d :: body) ++ (c :: p) ++ after) = Some (d :: body).
Proof.
  intros H. unfold lazy_group. change ((d :: body) ++ (c :: p) ++ after) with (d :: (body ++ (c :: p) ++ after)).
  cbn iota. rewrite (until_free c p body after H). reflexivity.
Qed.

(** A pattern whose first character occurs once is found at the first occurrence. *)
Lemma search_first c p closing before rest g : ~ In c p -> (forall a b, before <> a ++ (c :: p) ++ b) ->
  lazy_group closing rest = Some g ->
  search_group (c :: p) closing (before ++ (c :: p) ++ rest) = Some g.
Proof.
  intros Hc Hb Hg. induction before as [|d before IH].
  - cbn [app]. change (search_group (c :: p) closing (c :: p ++ rest)) with
      (match match after_prefix (c :: p) ((c :: p) ++ rest) with Some r => lazy_group closing r | None => None end with
       | Some g => Some g | None => search_group (c :: p) closing (p ++ rest) end).
    rewrite after_prefix_app, Hg. reflexivity.
  - assert (N : after_prefix (c :: p) ((d :: before) ++ (c :: p) ++ rest) = None).
    { destruct (after_prefix _ _) as [r|] eqn:E; [|reflexivity]. exfalso. apply after_prefix_some in E.
      destruct (Nat.le_gt_cases (length (c :: p)) (length (d :: before))) as [L|L].
      - apply (Hb [] (skipn (length (c :: p)) (d :: before))). cbn [app].
        rewrite <- (firstn_skipn (length (c :: p)) (d :: before)) at 1.
        change (c :: p ++ skipn (length (c :: p)) (d :: before)) with ((c :: p) ++ skipn (length (c :: p)) (d :: before)).
        f_equal. assert (F := f_equal (firstn (length (c :: p))) E).
        rewrite firstn_app, (proj2 (Nat.sub_0_le _ _) L), firstn_O, app_nil_r in F. rewrite F.
        rewrite firstn_app, Nat.sub_diag, firstn_O, app_nil_r, firstn_all. reflexivity.
      - assert (F := f_equal (fun l => nth_error l (length (d :: before))) E). cbn beta in F.
        rewrite nth_error_app2 in F by lia. rewrite Nat.sub_diag in F. cbn [app nth_error] in F.
        cbn [length nth_error app] in F. rewrite nth_error_app1 in F by (cbn in L; lia).
        apply Hc. symmetry in F. apply nth_error_In in F. exact F. }
    cbn [app search_group]. cbn [app] in N. rewrite N. apply IH. intros a b E. apply (Hb (d :: a) b). cbn [app]. f_equal. exact E.
Qed.

(** ** The nnkp file *)
Definition plain (c : ascii) := is_space c = true \/ c = "-"%char \/ exists d, d < 10 /\ c = ascii_of_nat (48 + d).
Lemma plain_not_e c : plain c -> c <> "e"%char.
Proof.
  intros [H|[->|[d [Hd ->]]]]; [intros ->; discriminate H|discriminate|].
  do 10 (destruct d as [|d]; [discriminate|]). lia.
Qed.

Lemma decimal_plain n t : decimal n t -> Forall plain t.
Proof.
  induction 1 as [d Hd|n t d H IH Hd].
  - constructor; [|constructor]. right; right; eauto.
  - apply Forall_app. split; [assumption|]. constructor; [|constructor]. right; right; eauto.
Qed.
Lemma integer_plain z t : integer z t -> Forall plain t.
Proof.
  destruct 1; [eapply decimal_plain; eassumption|]. constructor; [right; left; reflexivity|eapply decimal_plain; eassumption].
Qed.
Lemma blanks_plain n : Forall plain (repeat " "%char n).
Proof. induction n; constructor; [left; reflexivity|assumption]. Qed.
Lemma line_plain ws t : line_of_words ws t -> Forall (Forall plain) ws -> Forall plain t.
Proof.
  induction 1 as [n|n w m|n w ws t H IH Hn]; intros Hp.
  - apply blanks_plain.
  - inversion Hp; subst. rewrite !Forall_app. auto using blanks_plain.
  - inversion Hp; subst. change (" "%char :: t) with (repeat " "%char 1 ++ t). rewrite !Forall_app. auto using blanks_plain.
Qed.
Lemma integer_line_plain zs t : integer_line zs t -> Forall plain t.
Proof.
  intros [ws [H Hl]]. apply (line_plain ws t Hl). clear Hl; induction H; constructor; [eapply integer_plain; eassumption|assumption].
Qed.
Lemma lines_plain ls : Forall (Forall plain) ls -> Forall plain (file_of_lines ls).
Proof.
  induction 1 as [|l ls H _ IH]; [constructor|]. unfold file_of_lines. cbn [flat_map]. rewrite !Forall_app.
  repeat split; [assumption| |assumption]. constructor; [left; reflexivity|constructor].
Qed.
Lemma integer_line_no_break zs t : integer_line zs t -> no_break t.
Proof. intros [ws [H Hl]]. apply (line_no_break ws t Hl), proper_no_space, (integers_proper zs), H. Qed.

Lemma integer_line_core zs t : integer_line zs t -> 0 < length zs ->
  exists a core b c d, t = repeat " "%char a ++ core ++ repeat " "%char b /\ is_space c = false /\ is_space d = false /\
    (exists r, core = c :: r) /\ (exists r, core = r ++ [d]).
Proof.
  intros [ws [H Hl]] Hz. assert (P := integers_proper zs ws H). apply (line_core ws t Hl P).
  assert (L : length zs = length ws) by (clear - H; induction H; cbn; congruence). lia.
Qed.

Lemma file_of_lines_app a b : file_of_lines (a ++ b) = file_of_lines a ++ file_of_lines b.
Proof. unfold file_of_lines. apply flat_map_app. Qed.

(** The lines of the block, up to blanks at their ends. *)
Lemma block_lines count lines n entries k : integer_line [n] count -> Forall2 integer_line entries lines ->
  Forall (fun e => 0 < length e) entries ->
  exists count' lines', split_newline (strip (repeat " "%char k ++ [newline] ++ count ++ [newline] ++ file_of_lines lines)) =
      count' :: lines' /\ python_int count' = Some n /\ Forall2 (fun l l' => words l' = words l) lines lines'.
Proof.
  intros [ws [Hn Hw]] Hl Hlen. inversion Hn as [|? w ? ? Hi Hn']; subst. inversion Hn'; subst. clear Hn Hn'.
  assert (Pw := integer_proper n w Hi).
  assert (Eb : exists a b, count = repeat " "%char a ++ w ++ repeat " "%char b).
  { inversion Hw as [|n0 w0 m0|n0 w0 ws0 t0 H0 L0]; subst; [eauto|]. cbn in L0. lia. }
  destruct Eb as [a [b ->]]. clear Hw.
  assert (B : no_break (w ++ repeat " "%char b)).
  { apply no_break_app. split; [apply no_space_break, Pw|apply blanks_break]. }
  assert (SP : all_space (repeat " "%char k ++ [newline] ++ repeat " "%char a)).
  { rewrite !all_space_app. repeat split; apply blanks_space. }
  destruct (list_eq_dec (list_eq_dec ascii_dec) lines []) as [->|NL].
  - destruct (word_ends w Pw) as [[c [r [Hc Er]]] [d [q [Hd Eq]]]].
    exists w, []. split; [|split; [|constructor]].
    + cbn [file_of_lines flat_map]. rewrite app_nil_r.
      replace (repeat " "%char k ++ [newline] ++ (repeat " "%char a ++ w ++ repeat " "%char b) ++ [newline])
        with ((repeat " "%char k ++ [newline] ++ repeat " "%char a) ++ w ++ (repeat " "%char b ++ [newline]))
        by (rewrite <- !app_assoc; reflexivity).
      rewrite (strip_spec _ w _ c d); eauto.
      * apply (pieces_from_end w); apply no_space_break, Pw.
      * apply all_space_app. split; [apply blanks_space|reflexivity].
    + apply python_int_integer, Hi.
  - destruct (exists_last NL) as [init [last El]]. subst lines.
    apply Forall2_app_inv_r in Hl. destruct Hl as [e1 [e2 [H1 [H2 Ee]]]]. subst entries.
    inversion H2 as [|e ? e2' ? He He2]; subst. inversion He2; subst. clear H2 He2.
    apply Forall_app in Hlen. destruct Hlen as [_ Hlen]. inversion Hlen as [|? ? He0 _]; subst.
    destruct (integer_line_core e last He He0) as [a' [core [b' [c' [d' [E [Hc' [Hd' [[r' Er'] [q' Eq']]]]]]]]]].
    assert (BL := integer_line_no_break e last He). rewrite E in BL. apply no_break_app in BL. destruct BL as [BL1 BL].
    apply no_break_app in BL. destruct BL as [BL2 BL3].
    assert (BI : Forall no_break init).
    { clear - H1. induction H1; constructor; [eapply integer_line_no_break; eassumption|assumption]. }
    destruct (word_ends w Pw) as [[c [r [Hc Er]]] [d [q [Hd Eq]]]].
    exists (w ++ repeat " "%char b), (init ++ [repeat " "%char a' ++ core]). split; [|split].
    + set (mid := file_of_lines ((w ++ repeat " "%char b) :: init) ++ repeat " "%char a' ++ core).
      replace (repeat " "%char k ++ [newline] ++ (repeat " "%char a ++ w ++ repeat " "%char b) ++ [newline] ++ file_of_lines (init ++ [last]))
        with ((repeat " "%char k ++ [newline] ++ repeat " "%char a) ++ mid ++ (repeat " "%char b' ++ [newline])).
      * rewrite (strip_spec _ mid _ c d'); eauto.
        -- unfold mid. rewrite pieces_lines; [reflexivity|constructor; assumption|].
           apply no_break_app. split; assumption.
        -- apply all_space_app. split; [apply blanks_space|reflexivity].
        -- exists (r ++ repeat " "%char b ++ newline :: file_of_lines init ++ repeat " "%char a' ++ core).
           unfold mid, file_of_lines. cbn [flat_map]. rewrite Er, <- !app_assoc. cbn [app]. reflexivity.
        -- exists (file_of_lines ((w ++ repeat " "%char b) :: init) ++ repeat " "%char a' ++ q').
           unfold mid. rewrite Eq', <- !app_assoc. reflexivity.
      * unfold mid. rewrite E, file_of_lines_app. unfold file_of_lines. cbn [flat_map]. rewrite app_nil_r, <- !app_assoc.
        reflexivity.
    + apply (python_int_spaced n w 0 b Hi).
    + apply Forall2_app; [clear; induction init; constructor; [reflexivity|assumption]|].
      constructor; [|constructor]. rewrite E, app_assoc, words_trailing. reflexivity.
Qed.

Lemma parse_nnkp n entries file : nnkp_file n entries file -> Forall (fun e => length e = 5) entries ->
  parse_nnk_points_file file = Some (n, entries).
Proof.
  intros [before [rest [count [lines [after [E [Hb [[k ->] [Hc Hl]]]]]]]]] H5.
  destruct (block_lines count lines n entries k Hc Hl) as [count' [lines' [Ep [Ei Hw]]]].
  { eapply Forall_impl; [|exact H5]. cbn. intros; lia. }
  set (body := repeat " "%char k ++ [newline] ++ count ++ [newline] ++ file_of_lines lines) in *.
  assert (PB : Forall plain body).
  { unfold body. rewrite !Forall_app. repeat split.
    - apply blanks_plain.
    - constructor; [left; reflexivity|constructor].
    - apply (integer_line_plain [n]), Hc.
    - constructor; [left; reflexivity|constructor].
    - apply lines_plain. clear - Hl. induction Hl; constructor; [eapply integer_line_plain; eassumption|assumption]. }
  assert (PE : Forall (fun d => d <> "e"%char) body).
  { eapply Forall_impl; [|exact PB]. apply plain_not_e. }
  unfold parse_nnk_points_file.
  assert (S1 : search_group (txt "begin nnkpts") (txt "end nnkpts") file = Some body).
  { replace file with (before ++ txt "begin nnkpts" ++ (body ++ txt "end nnkpts" ++ after)).
    2:{ rewrite E. unfold body. rewrite <- !app_assoc. reflexivity. }
    apply (search_first "b" (txt "egin nnkpts")); [|exact Hb|].
    - cbn. intros H. repeat (destruct H as [H|H]; [discriminate|]). exact H.
    - destruct body as [|d body'] eqn:Eb; [destruct k; discriminate|].
      inversion PE; subst. apply (lazy_free "e" (txt "nd nnkpts")). assumption. }
  rewrite S1, Ep, Ei.
  rewrite (all_some_map _ lines' entries); [reflexivity|].
  clear - Hl Hw H5. revert lines' Hw H5. induction Hl as [|e l entries lines He _ IH]; intros lines' Hw H5.
  - inversion Hw; subst. constructor.
  - inversion Hw as [|? l' ? ls' Hl' Hw']; subst. inversion H5; subst. constructor; [|apply IH; assumption].
    destruct (integer_line_words e l He) as [ws [Hi [Ew _]]]. rewrite Hl', Ew.
    assert (L : length e = length ws) by (clear - Hi; induction Hi; cbn; congruence).
    rewrite firstn_all2 by lia. apply integers_parse, Hi.
Qed.

(** ** Slices *)
Lemma every_skip {A} step : forall (a : list A) skip l, length a <= skip -> every step skip (a ++ l) = every step (skip - length a) l.
Proof.
  induction a as [|x a IH]; intros skip l H; [cbn; rewrite Nat.sub_0_r; reflexivity|].
  destruct skip as [|skip]; [cbn in H; lia|]. cbn [app every length] in *. rewrite IH by lia. reflexivity.
Qed.

Lemma every_block {A} step (d : A) : forall b skip l, length b = step -> skip < step ->
  every step skip (b ++ l) = nth skip b d :: every step skip l.
Proof.
  intros b skip l Hb Hs.
  rewrite <- (firstn_skipn skip b) at 1. rewrite <- app_assoc, every_skip by (rewrite firstn_length; lia).
  rewrite firstn_length, Hb, Nat.min_l, Nat.sub_diag by lia.
  destruct (skipn skip b) as [|x r] eqn:E.
  { assert (L := skipn_length skip b). rewrite E in L. cbn in L. lia. }
  assert (X : nth skip b d = x).
  { rewrite <- (firstn_skipn skip b), app_nth2 by (rewrite firstn_length; lia).
    rewrite firstn_length, Hb, Nat.min_l, Nat.sub_diag, E by lia. reflexivity. }
  rewrite X. cbn [app every]. f_equal.
  assert (L := skipn_length skip b). rewrite E in L. cbn in L.
  rewrite every_skip by lia. f_equal. lia.
Qed.

Lemma every_blocks {A} step (d : A) (block : nat -> list A) skip ks : (forall s, length (block s) = step) -> skip < step ->
  every step skip (flat_map block ks) = map (fun s => nth skip (block s) d) ks.
Proof.
  intros Hb Hs. induction ks as [|s ks IH]; [reflexivity|]. cbn [flat_map map].
  rewrite (every_block step d) by auto. f_equal. exact IH.
Qed.

Lemma nth_rows {A} (f : nat -> nat -> A) w d : forall h s m n, m < h -> n < w ->
  nth (w * m + n) (flat_map (fun j => map (f j) (seq 0 w)) (seq s h)) d = f (s + m) n.
Proof.
  induction h as [|h IH]; intros s m n Hm Hn; [lia|]. cbn [seq flat_map].
  destruct m as [|m].
  - rewrite Nat.mul_0_r, app_nth1 by (rewrite map_length, seq_length; lia). cbn [Nat.add].
    rewrite (nth_indep _ d (f s 0)) by (rewrite map_length, seq_length; lia).
    rewrite map_nth, seq_nth by lia. rewrite Nat.add_0_r. reflexivity.
  - rewrite app_nth2 by (rewrite map_length, seq_length; nia). rewrite map_length, seq_length.
    replace (w * S m + n - w) with (w * m + n) by nia. rewrite IH by lia. f_equal. lia.
Qed.
Lemma rows_length {A} (f : nat -> nat -> A) w h s : length (flat_map (fun j => map (f j) (seq 0 w)) (seq s h)) = w * h.
Proof.
  revert s. induction h as [|h IH]; intros s; [cbn; lia|]. cbn [seq flat_map]. rewrite app_length, map_length, seq_length, IH. lia.
Qed.

(** ** The u.mat file *)
Lemma complex_line_parse float z t : complex_line float z t -> parse_u_mat_line float t = Some z /\ no_break t.
Proof.
  intros [a [b [Hl [Ha [Hb [Hs [Fa Fb]]]]]]]. apply no_space_app in Hs. destruct Hs as [Sa Sb].
  assert (P : Forall proper [a; b]) by (repeat constructor; assumption).
  split; [|apply (line_no_break _ t Hl), proper_no_space, P].
  unfold parse_u_mat_line. rewrite (words_strip _ t Hl P), Fa, Fb. destruct z; reflexivity.
Qed.

Lemma u_mat_spec float nk nw U file : u_mat_file float nk nw U file -> 0 < nw ->
  exists op, localization_operator_from_u_mat_file float file = Some op /\ ashape op = [nk * nw * nw] /\
    forall s i j, s < nk -> i < nw -> j < nw -> at_sample nw nw op s j i = U s i j.
Proof.
  intros [header [counts [sample [entry [Hf [Hh [Hc [Hs He]]]]]]]] Hw.
  set (block := fun s => [] :: sample s :: flat_map (fun j => map (fun i => entry s i j) (seq 0 nw)) (seq 0 nw)).
  unfold localization_operator_from_u_mat_file. unfold u_mat_lines in Hf. fold block in Hf.
  assert (NB : Forall no_break (header :: counts :: flat_map block (seq 0 nk))).
  { constructor; [exact Hh|]. constructor; [apply (integer_line_no_break _ _ Hc)|].
    apply Forall_flat_map. apply Forall_forall. intros s Hs'. apply in_seq in Hs'. unfold block.
    constructor; [reflexivity|]. constructor; [apply Hs; lia|].
    apply Forall_flat_map. apply Forall_forall. intros j Hj. apply in_seq in Hj.
    apply Forall_forall. intros t Ht. apply in_map_iff in Ht. destruct Ht as [i [<- Hi]]. apply in_seq in Hi.
    apply (complex_line_parse float (U s i j)), He; lia. }
  rewrite (splitlines_text _ _ Hf NB). cbn [nth_error].
  destruct Hc as [ws [Hi Hl]]. assert (Pw := integers_proper _ ws Hi). rewrite (words_strip ws counts Hl Pw).
  inversion Hi as [|? w0 ? r0 H0 Hi1]; subst. inversion Hi1 as [|? w1 ? r1 H1 Hi2]; subst.
  inversion Hi2 as [|? w2 ? r2 H2 Hi3]; subst. inversion Hi3; subst.
  rewrite (python_int_integer _ w1 H1), (python_int_integer _ w2 H2), !Nat2Z.id.
  set (rows := flat_map (fun m => map (fun n => map (fun s => U s n m) (seq 0 nk)) (seq 0 nw)) (seq 0 nw)).
  assert (LB : forall s, length (block s) = 2 + nw * nw).
  { intros s. unfold block. cbn [length]. rewrite (rows_length (fun j i => entry s i j)). reflexivity. }
  assert (R : all_some (flat_map (fun m => map (fun n =>
      parse_u_mat_file_block float (every (2 + nw * nw) (4 + n + nw * m) (header :: counts :: flat_map block (seq 0 nk)))) (seq 0 nw)) (seq 0 nw))
    = Some rows).
  { assert (G : forall (h : list (option (list C))) g, Forall2 (fun o r => o = Some r) h g -> all_some h = Some g).
    { intros h g. induction 1 as [|o r h g -> _ IH]; [reflexivity|]. cbn [all_some]. rewrite IH. reflexivity. }
    apply G. unfold rows. clear G.
    assert (Q : forall l, (forall m, In m l -> m < nw) -> Forall2 (fun (o : option (list C)) r => o = Some r)
      (flat_map (fun m => map (fun n =>
        parse_u_mat_file_block float (every (2 + nw * nw) (4 + n + nw * m) (header :: counts :: flat_map block (seq 0 nk)))) (seq 0 nw)) l)
      (flat_map (fun m => map (fun n => map (fun s => U s n m) (seq 0 nk)) (seq 0 nw)) l)).
    { induction l as [|m l IH]; intros Hm; [constructor|]. cbn [flat_map]. apply Forall2_app; [|apply IH; intros; apply Hm; right; assumption].
      specialize (Hm m (or_introl eq_refl)).
      assert (Q2 : forall l2, (forall n, In n l2 -> n < nw) -> Forall2 (fun (o : option (list C)) r => o = Some r)
        (map (fun n => parse_u_mat_file_block float (every (2 + nw * nw) (4 + n + nw * m) (header :: counts :: flat_map block (seq 0 nk)))) l2)
        (map (fun n => map (fun s => U s n m) (seq 0 nk)) l2)).
      { induction l2 as [|n l2 IH2]; intros Hn; [constructor|]. cbn [map]. constructor; [|apply IH2; intros; apply Hn; right; assumption].
        specialize (Hn n (or_introl eq_refl)).
        replace (4 + n + nw * m) with (S (S (2 + (nw * m + n)))) by lia.
        change (every (2 + nw * nw) (S (S (2 + (nw * m + n)))) (header :: counts :: flat_map block (seq 0 nk)))
          with (every (2 + nw * nw) (2 + (nw * m + n)) (flat_map block (seq 0 nk))).
        rewrite (every_blocks (2 + nw * nw) []); [|exact LB|nia].
        unfold parse_u_mat_file_block. rewrite map_map. apply all_some_map.
        assert (Q3 : forall l3, (forall s, In s l3 -> s < nk) -> Forall2 (fun s z => parse_u_mat_line float (nth (2 + (nw * m + n)) (block s) []) = Some z)
          l3 (map (fun s => U s n m) l3)).
        { induction l3 as [|s l3 IH3]; intros Hs3; [constructor|]. cbn [map]. constructor; [|apply IH3; intros; apply Hs3; right; assumption].
          specialize (Hs3 s (or_introl eq_refl)). unfold block. cbn [nth Nat.add].
          rewrite (nth_rows (fun j i => entry s i j)) by assumption. cbn [Nat.add].
          apply complex_line_parse, He; assumption. }
        apply Q3. intros s Hs'. apply in_seq in Hs'. lia. }
      apply Q2. intros n Hn. apply in_seq in Hn. lia. }
    apply Q. intros m Hm. apply in_seq in Hm. lia. }
  rewrite R.
  assert (N : forall m n, m < nw -> n < nw -> nth (nw * m + n) rows [] = map (fun s => U s n m) (seq 0 nk)).
  { intros m n Hm Hn. unfold rows. rewrite (nth_rows (fun m n => map (fun s => U s n m) (seq 0 nk))) by assumption. reflexivity. }
  assert (L0 : length (hd [] rows) = nk).
  { assert (E := N 0 0 Hw Hw). rewrite Nat.mul_0_r in E. cbn [Nat.add] in E. destruct rows as [|r rows'].
    - cbn in E. symmetry in E. apply map_eq_nil in E. destruct nk; [reflexivity|discriminate].
    - cbn in E |- *. rewrite E, map_length, seq_length. reflexivity. }
  rewrite L0.
  rewrite (proj2 (forallb_forall _ rows)).
  2:{ intros r Hr. unfold rows in Hr. apply in_flat_map in Hr. destruct Hr as [m [_ Hr]].
      apply in_map_iff in Hr. destruct Hr as [n [<- _]]. rewrite map_length, seq_length. apply Nat.eqb_refl. }
  eexists. split; [reflexivity|]. split; [cbn; f_equal; lia|].
  intros s i j Hs' Hi' Hj. unfold at_sample. cbn [aflat ravel_array].
  rewrite array3_flat by assumption.
  replace (j * nw + i) with (nw * j + i) by lia. rewrite N by assumption.
  rewrite (nth_indep _ _ (U 0 i j)) by (rewrite map_length, seq_length; assumption).
  rewrite (map_nth (fun s => U s i j)), seq_nth by assumption. reflexivity.
Qed.
