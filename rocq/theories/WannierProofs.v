(** Reading the files of Wannier90. *)
From Coq Require Import Reals Ascii String.
From Verif Require Import ZLib Csum DFT NumPy Interp Index Basis Operator Reduce Wavepacket Localize Wannier SpecWannier.
Local Open Scope nat_scope.
Local Open Scope list_scope.

Definition no_space (w : text) := forallb (fun c => negb (is_space c)) w = true.
Definition no_break (w : text) := forallb (fun c => negb (is_break c)) w = true.
Definition all_space (w : text) := forallb is_space w = true.

Lemma forallb_cons_iff {A} (f : A -> bool) x l : forallb f (x :: l) = true <-> f x = true /\ forallb f l = true.
Proof. cbn. apply andb_true_iff. Qed.

Lemma break_space c : is_break c = true -> is_space c = true.
Proof.
  unfold is_break, is_space. intros H. apply orb_true_iff in H. apply orb_true_iff.
  rewrite !andb_true_iff, !Nat.leb_le in *. lia.
Qed.

Lemma no_space_break w : no_space w -> no_break w.
Proof.
  unfold no_space, no_break. rewrite !forallb_forall. intros H c Hc. specialize (H c Hc).
  destruct (is_break c) eqn:E; [|reflexivity]. rewrite (break_space c E) in H. exact H.
Qed.

Lemma blanks_space n : all_space (repeat " "%char n).
Proof. induction n; [reflexivity|]. apply forallb_cons_iff. split; [reflexivity|assumption]. Qed.
Lemma blanks_break n : no_break (repeat " "%char n).
Proof. induction n; [reflexivity|]. apply forallb_cons_iff. split; [reflexivity|assumption]. Qed.

Lemma all_space_app a b : all_space (a ++ b) <-> all_space a /\ all_space b.
Proof. unfold all_space. rewrite forallb_app, andb_true_iff. reflexivity. Qed.
Lemma no_space_app a b : no_space (a ++ b) <-> no_space a /\ no_space b.
Proof. unfold no_space. rewrite forallb_app, andb_true_iff. reflexivity. Qed.
Lemma no_break_app a b : no_break (a ++ b) <-> no_break a /\ no_break b.
Proof. unfold no_break. rewrite forallb_app, andb_true_iff. reflexivity. Qed.

(** ** Lines and words *)
Lemma lines_from_line l : no_break l -> forall cur rest,
  lines_from cur (l ++ newline :: rest) = (rev cur ++ l) :: lines_from [] rest.
Proof.
  induction l as [|c l IH]; intros Hl cur rest.
  - cbn [app lines_from]. change (is_break newline) with true.
    change (Ascii.eqb newline carriage_return) with false. cbn [andb]. rewrite app_nil_r.
    destruct rest; reflexivity.
  - apply forallb_cons_iff in Hl. destruct Hl as [Hc Hl]. cbn [app lines_from].
    apply negb_true_iff in Hc. rewrite Hc. rewrite (IH Hl). cbn [rev]. rewrite <- app_assoc. reflexivity.
Qed.

Lemma splitlines_file ls : Forall no_break ls -> splitlines (file_of_lines ls) = ls.
Proof.
  unfold splitlines. induction 1 as [|l ls Hl _ IH]; [reflexivity|].
  unfold file_of_lines. cbn [flat_map]. rewrite <- app_assoc. cbn [app]. rewrite lines_from_line by assumption.
  cbn [rev app]. f_equal. exact IH.
Qed.

Lemma lines_from_break l e rest : no_break l -> is_break e = true -> forall cur,
  lines_from cur (l ++ e :: rest) = (rev cur ++ l) :: lines_from [] (match rest with c :: r => if Ascii.eqb e carriage_return && Ascii.eqb c newline then r else rest | [] => [] end).
Proof.
  intros Hl He. induction l as [|c l IH]; intros cur.
  - cbn [app lines_from]. rewrite He, app_nil_r. f_equal. destruct rest as [|c r]; [reflexivity|]. destruct (_ && _); reflexivity.
  - apply forallb_cons_iff in Hl. destruct Hl as [Hc Hl]. cbn [app lines_from].
    apply negb_true_iff in Hc. rewrite Hc. rewrite (IH Hl). cbn [rev]. rewrite <- app_assoc. reflexivity.
Qed.
Lemma splitlines_text ls file : text_of_lines ls file -> Forall no_break ls -> splitlines file = ls.
Proof.
  unfold splitlines. intros T. induction T as [|l ls t T IH|l ls t T IH|l ls t T IH Hn]; intros H; [reflexivity| | |]; inversion H as [|? ? Hl Hls]; subst.
  - rewrite lines_from_break by (exact Hl || reflexivity). cbn [rev app]. f_equal. destruct t as [|c t]; [exact (IH Hls)|].
    change (Ascii.eqb newline carriage_return) with false. exact (IH Hls).
  - rewrite lines_from_break by (exact Hl || reflexivity). cbn [rev app]. f_equal. rewrite !Ascii.eqb_refl. exact (IH Hls).
  - rewrite lines_from_break by (exact Hl || reflexivity). cbn [rev app]. f_equal. destruct t as [|c t]; [exact (IH Hls)|].
    rewrite Ascii.eqb_refl. destruct (Ascii.eqb_spec c newline) as [->|_]; [exfalso; apply Hn; reflexivity|]. exact (IH Hls).
Qed.
Lemma file_of_lines_text ls : text_of_lines ls (file_of_lines ls).
Proof. induction ls as [|l ls IH]; [constructor|]. unfold file_of_lines. cbn [flat_map]. rewrite <- app_assoc. apply unix_line. exact IH. Qed.

Lemma pieces_from_line l : no_break l -> forall cur rest,
  pieces_from cur (l ++ newline :: rest) = (rev cur ++ l) :: pieces_from [] rest.
Proof.
  induction l as [|c l IH]; intros Hl cur rest.
  - cbn [app pieces_from]. rewrite Ascii.eqb_refl, app_nil_r. reflexivity.
  - apply forallb_cons_iff in Hl. destruct Hl as [Hc Hl]. cbn [app pieces_from].
    destruct (Ascii.eqb_spec c newline) as [->|_]; [discriminate Hc|].
    rewrite (IH Hl). cbn [rev]. rewrite <- app_assoc. reflexivity.
Qed.
Lemma pieces_from_end l : no_break l -> forall cur, pieces_from cur l = [rev cur ++ l].
Proof.
  induction l as [|c l IH]; intros Hl cur; [cbn; rewrite app_nil_r; reflexivity|].
  apply forallb_cons_iff in Hl. destruct Hl as [Hc Hl]. cbn [pieces_from].
  destruct (Ascii.eqb_spec c newline) as [->|_]; [discriminate Hc|].
  rewrite (IH Hl). cbn [rev]. rewrite <- app_assoc. reflexivity.
Qed.

Lemma pieces_lines ls core : Forall no_break ls -> no_break core ->
  split_newline (file_of_lines ls ++ core) = ls ++ [core].
Proof.
  unfold split_newline. intros H Hc. induction H as [|l ls Hl _ IH]; [apply (pieces_from_end core Hc [])|].
  unfold file_of_lines. cbn [flat_map app]. rewrite <- !app_assoc. cbn [app].
  rewrite pieces_from_line by assumption. cbn [rev app]. f_equal. exact IH.
Qed.

Lemma words_from_word w : no_space w -> forall cur rest, words_from cur (w ++ rest) = words_from (rev w ++ cur) rest.
Proof.
  induction w as [|c w IH]; intros Hw cur rest; [reflexivity|].
  apply forallb_cons_iff in Hw. destruct Hw as [Hc Hw]. apply negb_true_iff in Hc.
  cbn [app words_from]. rewrite Hc, (IH Hw). cbn [rev]. rewrite <- app_assoc. reflexivity.
Qed.

Lemma words_from_space a : all_space a -> forall rest, words_from [] (a ++ rest) = words_from [] rest.
Proof.
  induction a as [|c a IH]; intros Ha rest; [reflexivity|].
  apply forallb_cons_iff in Ha. destruct Ha as [Hc Ha]. cbn [app words_from]. rewrite Hc. apply IH, Ha.
Qed.

Lemma words_from_stop w c rest : w <> [] -> is_space c = true ->
  words_from (rev w) (c :: rest) = w :: words_from [] rest.
Proof.
  intros Hw Hc. cbn [words_from]. rewrite Hc. destruct (rev w) eqn:E.
  - exfalso. apply Hw. rewrite <- (rev_involutive w), E. reflexivity.
  - rewrite <- E, rev_involutive. reflexivity.
Qed.
Lemma words_from_finish w : w <> [] -> words_from (rev w) [] = [w].
Proof.
  intros Hw. cbn [words_from]. destruct (rev w) eqn:E.
  - exfalso. apply Hw. rewrite <- (rev_involutive w), E. reflexivity.
  - rewrite <- E, rev_involutive. reflexivity.
Qed.

Definition proper (w : text) := w <> [] /\ no_space w.

Lemma words_spaced n w a : proper w -> all_space a -> words (repeat " "%char n ++ w ++ a) = [w].
Proof.
  intros [Hw Sw] Ha. unfold words. rewrite (words_from_space _ (blanks_space n)), (words_from_word w Sw).
  rewrite app_nil_r. destruct a as [|c a].
  - apply words_from_finish, Hw.
  - apply forallb_cons_iff in Ha. destruct Ha as [Hc Ha]. rewrite words_from_stop by assumption.
    f_equal. rewrite <- (app_nil_r a). apply (words_from_space a Ha []).
Qed.

Lemma words_line ws t : line_of_words ws t -> Forall proper ws -> words t = ws.
Proof.
  induction 1 as [n|n w m|n w ws t H IH Hn]; intros Hp.
  - unfold words. rewrite <- (app_nil_r (repeat _ n)). apply (words_from_space _ (blanks_space n) []).
  - inversion Hp; subst. apply words_spaced; [assumption|apply blanks_space].
  - inversion Hp as [|? ? [Hw Sw] Hp']; subst. unfold words.
    rewrite (words_from_space _ (blanks_space n)), (words_from_word w Sw), app_nil_r.
    rewrite words_from_stop by (assumption || reflexivity). f_equal. apply IH, Hp'.
Qed.

Lemma words_trailing t n : words (t ++ repeat " "%char n) = words t.
Proof.
  unfold words. generalize (@nil ascii) as cur. induction t as [|c t IH]; intros cur.
  - cbn [app]. destruct n as [|n]; [reflexivity|]. cbn [repeat words_from]. change (is_space " ") with true.
    destruct cur as [|d cur].
    + rewrite <- (app_nil_r (repeat _ n)). apply (words_from_space _ (blanks_space n) []).
    + cbn iota. f_equal. rewrite <- (app_nil_r (repeat _ n)). apply (words_from_space _ (blanks_space n) []).
  - cbn [app words_from]. destruct (is_space c).
    + destruct cur; rewrite IH; reflexivity.
    + apply IH.
Qed.

Lemma words_leading t n : words (repeat " "%char n ++ t) = words t.
Proof. apply (words_from_space _ (blanks_space n)). Qed.

Lemma line_no_break ws t : line_of_words ws t -> Forall no_space ws -> no_break t.
Proof.
  induction 1 as [n|n w m|n w ws t H IH Hn]; intros Hp.
  - apply blanks_break.
  - inversion Hp; subst. rewrite !no_break_app. auto using blanks_break, no_space_break.
  - inversion Hp; subst. change (" "%char :: t) with (repeat " "%char 1 ++ t). rewrite !no_break_app.
    auto using blanks_break, no_space_break.
Qed.

(** ** strip *)
Lemma lstrip_space a : all_space a -> forall s, lstrip (a ++ s) = lstrip s.
Proof.
  induction a as [|c a IH]; intros Ha s; [reflexivity|].
  apply forallb_cons_iff in Ha. destruct Ha as [Hc Ha]. cbn [app lstrip]. rewrite Hc. apply IH, Ha.
Qed.
Lemma lstrip_word c s : is_space c = false -> lstrip (c :: s) = c :: s.
Proof. intros H. cbn. rewrite H. reflexivity. Qed.

Lemma all_space_rev a : all_space a -> all_space (rev a).
Proof. unfold all_space. rewrite !forallb_forall. intros H c Hc. apply H. apply in_rev. exact Hc. Qed.

Lemma strip_spec a mid b c d : all_space a -> all_space b ->
  is_space c = false -> is_space d = false -> (exists r, mid = c :: r) -> (exists r, mid = r ++ [d]) ->
  strip (a ++ mid ++ b) = mid.
Proof.
  intros Ha Hb Hc Hd [r Hr] [q Hq]. unfold strip. rewrite (lstrip_space a Ha).
  assert (E : lstrip (mid ++ b) = mid ++ b) by (rewrite Hr; cbn [app]; apply lstrip_word; assumption).
  rewrite E, rev_app_distr, (lstrip_space _ (all_space_rev b Hb)). rewrite Hq, rev_app_distr. cbn [rev app].
  rewrite lstrip_word by assumption. cbn [rev]. rewrite rev_involutive. reflexivity.
Qed.

Lemma word_ends w : proper w -> (exists c r, is_space c = false /\ w = c :: r) /\
  (exists d r, is_space d = false /\ w = r ++ [d]).
Proof.
  intros [Hw Sw]. split.
  - destruct w as [|c w]; [congruence|]. apply forallb_cons_iff in Sw. destruct Sw as [Hc _].
    exists c, w. split; [apply negb_true_iff, Hc|reflexivity].
  - destruct (exists_last Hw) as [r [d E]]. exists d, r. split; [|exact E].
    rewrite E in Sw. apply no_space_app in Sw. destruct Sw as [_ Sd]. apply forallb_cons_iff in Sd.
    apply negb_true_iff, Sd.
Qed.

Lemma strip_word n w m : proper w -> strip (repeat " "%char n ++ w ++ repeat " "%char m) = w.
Proof.
  intros Hw. destruct (word_ends w Hw) as [[c [r [Hc Er]]] [d [q [Hd Eq]]]].
  apply (strip_spec _ w _ c d); eauto using blanks_space.
Qed.

(** A line with words ends in a visible character followed by blanks, and starts likewise. *)
Lemma line_core ws t : line_of_words ws t -> Forall proper ws -> 0 < length ws ->
  exists a core b c d, t = repeat " "%char a ++ core ++ repeat " "%char b /\ is_space c = false /\ is_space d = false /\
    (exists r, core = c :: r) /\ (exists r, core = r ++ [d]).
Proof.
  induction 1 as [n|n w m|n w ws t H IH Hn]; intros Hp Hl.
  - cbn in Hl. lia.
  - inversion Hp as [|? ? Hw _]; subst. destruct (word_ends w Hw) as [[c [r [Hc Er]]] [d [q [Hd Eq]]]].
    exists n, w, m, c, d. eauto 10.
  - inversion Hp as [|? ? Hw Hp']; subst. destruct (IH Hp' Hn) as [a [core [b [c [d [E [Hc [Hd [[r Er] [q Eq]]]]]]]]]].
    destruct (word_ends w Hw) as [[c' [r' [Hc' Er']]] _].
    exists n, (w ++ " "%char :: repeat " "%char a ++ core), b, c', d. split.
    { rewrite E. cbn [app]. rewrite <- !app_assoc. cbn [app]. rewrite <- !app_assoc. reflexivity. }
    split; [assumption|]. split; [assumption|]. split.
    + exists (r' ++ " "%char :: repeat " "%char a ++ core). rewrite Er'. reflexivity.
    + exists (w ++ " "%char :: repeat " "%char a ++ q). rewrite Eq, <- !app_assoc. cbn [app]. rewrite <- !app_assoc. reflexivity.
Qed.

Lemma words_strip ws t : line_of_words ws t -> Forall proper ws -> words (strip t) = ws.
Proof.
  intros H Hp. destruct ws as [|w ws].
  - inversion H as [n| |]; subst. assert (E : strip (repeat " "%char n) = []).
    { unfold strip. rewrite <- (app_nil_r (repeat _ n)), (lstrip_space _ (blanks_space n)). reflexivity. }
    rewrite E. reflexivity.
  - destruct (line_core _ t H Hp ltac:(cbn; lia)) as [a [core [b [c [d [E [Hc [Hd [Er Eq]]]]]]]]].
    rewrite E, (strip_spec _ core _ c d) by auto using blanks_space.
    rewrite <- (words_line _ t H Hp), E, words_leading, words_trailing. reflexivity.
Qed.

(** ** Integers *)
Lemma digit_code d : d < 10 -> digit_of (ascii_of_nat (48 + d)) = Some d.
Proof.
  intros H. unfold digit_of. rewrite nat_ascii_embedding by lia.
  rewrite (proj2 (Nat.leb_le 48 (48 + d))) by lia. rewrite (proj2 (Nat.leb_le (48 + d) 57)) by lia.
  cbn [andb]. f_equal. lia.
Qed.
Lemma digit_no_space d : d < 10 -> is_space (ascii_of_nat (48 + d)) = false.
Proof.
  intros H. unfold is_space. rewrite nat_ascii_embedding by lia. apply orb_false_iff.
  rewrite !andb_false_iff, !Nat.leb_gt. lia.
Qed.

Lemma digits_value_app s t : forall acc, digits_value acc (s ++ t) =
  match digits_value acc s with Some a => digits_value a t | None => None end.
Proof.
  induction s as [|c s IH]; intros acc; [reflexivity|]. cbn [app digits_value].
  destruct (digit_of c); [apply IH|reflexivity].
Qed.

Lemma decimal_proper n t : decimal n t -> proper t.
Proof.
  unfold proper. induction 1 as [d Hd|n t d H [_ IH] Hd].
  - split; [discriminate|]. apply forallb_cons_iff. rewrite digit_no_space by assumption. auto.
  - split; [intros E; apply app_eq_nil in E; destruct E; discriminate|].
    apply no_space_app. split; [assumption|]. apply forallb_cons_iff. rewrite digit_no_space by assumption. auto.
Qed.

Lemma decimal_value n t : decimal n t -> unsigned t = Some n.
Proof.
  intros H. assert (E : digits_value 0 t = Some n).
  { induction H as [d Hd|n t d H IH Hd].
    - cbn [digits_value]. rewrite digit_code by assumption. reflexivity.
    - rewrite digits_value_app, IH. cbn [digits_value]. rewrite digit_code by assumption. f_equal. }
  unfold unsigned. destruct (decimal_proper n t H) as [Ht _]. destruct t; [congruence|exact E].
Qed.

Lemma decimal_first n t : decimal n t -> exists d r, d < 10 /\ t = ascii_of_nat (48 + d) :: r.
Proof.
  induction 1 as [d Hd|n t d H [e [r [He E]]] Hd]; [exists d, []; auto|].
  exists e, (r ++ [ascii_of_nat (48 + d)]). split; [assumption|]. rewrite E. reflexivity.
Qed.

Lemma digit_not_sign d : d < 10 -> Ascii.eqb (ascii_of_nat (48 + d)) "-" = false /\ Ascii.eqb (ascii_of_nat (48 + d)) "+" = false.
Proof. intros H. do 10 (destruct d as [|d]; [split; reflexivity|]). lia. Qed.

Lemma integer_proper z t : integer z t -> proper t.
Proof.
  destruct 1 as [n t H|n t H]; [apply (decimal_proper n), H|].
  destruct (decimal_proper n t H) as [_ S0]. split; [discriminate|]. apply forallb_cons_iff. split; [reflexivity|exact S0].
Qed.

Lemma python_int_spaced z t n m : integer z t -> python_int (repeat " "%char n ++ t ++ repeat " "%char m) = Some z.
Proof.
  intros H. unfold python_int. rewrite strip_word by (apply (integer_proper z), H).
  destruct H as [k t H|k t H].
  - destruct (decimal_first k t H) as [d [r [Hd E]]]. rewrite E. destruct (digit_not_sign d Hd) as [-> ->].
    rewrite <- E, (decimal_value k t H). reflexivity.
  - rewrite Ascii.eqb_refl, (decimal_value k t H). reflexivity.
Qed.
Lemma python_int_integer z t : integer z t -> python_int t = Some z.
Proof. intros H. rewrite <- (app_nil_r t). apply (python_int_spaced z t 0 0 H). Qed.

Lemma integers_proper zs ws : Forall2 integer zs ws -> Forall proper ws.
Proof. induction 1; constructor; [eapply integer_proper; eassumption|assumption]. Qed.
Lemma proper_no_space ws : Forall proper ws -> Forall no_space ws.
Proof. apply Forall_impl. intros w [_ H]. exact H. Qed.

Lemma all_some_map {A B} (f : A -> option B) l r : Forall2 (fun a b => f a = Some b) l r -> all_some (map f l) = Some r.
Proof. induction 1 as [|a b l r H _ IH]; [reflexivity|]. cbn [map all_some]. rewrite H, IH. reflexivity. Qed.

Lemma integers_parse zs ws : Forall2 integer zs ws -> all_some (map python_int ws) = Some zs.
Proof.
  intros H. apply all_some_map. induction H; constructor; [apply python_int_integer; assumption|assumption].
Qed.

Lemma integer_line_words zs t : integer_line zs t -> exists ws, Forall2 integer zs ws /\ words t = ws /\ line_of_words ws t.
Proof.
  intros [ws [H Hl]]. exists ws. split; [assumption|]. split; [|assumption].
  apply words_line; [assumption|]. apply (integers_proper zs), H.
Qed.
