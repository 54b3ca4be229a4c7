(** Several processes at once, and npy_cached. *)
From Coq Require Import List Arith Bool Lia.
From Coq Require String Ascii.
From Verif Require Import Cache SpecCache CacheProofs.
Import ListNotations.
Local Open Scope nat_scope.

(** ** Prefixes *)
Definition prefix (a b : list nat) : Prop := exists n, a = firstn n b.
Lemma prefix_nil b : prefix [] b. Proof. exists 0. reflexivity. Qed.
Lemma prefix_refl b : prefix b b. Proof. exists (length b). symmetry. apply firstn_all. Qed.
Lemma prefix_length a b : prefix a b -> length a <= length b /\ a = firstn (length a) b.
Proof.
  intros [n ->]. rewrite firstn_length. split; [lia|]. destruct (Nat.le_ge_cases n (length b)).
  - rewrite Nat.min_l by lia. reflexivity.
  - rewrite Nat.min_r by lia. rewrite firstn_all, firstn_all2 by lia. reflexivity.
Qed.
Lemma firstn_skipn_app {X} n m (l : list X) : firstn n l ++ firstn m (skipn n l) = firstn (n + m) l.
Proof.
  revert l. induction n as [|n IH]; intros l; [reflexivity|]. destruct l as [|x l]; cbn; [rewrite firstn_nil; reflexivity|].
  f_equal. apply IH.
Qed.
(** Reading more of a file which is itself a prefix. *)
Lemma prefix_read got content b n : prefix got b -> prefix content b ->
  prefix (got ++ firstn n (skipn (length got) content)) b.
Proof.
  intros Hg Hc. destruct (prefix_length _ _ Hg) as [Lg Eg]. destruct (prefix_length _ _ Hc) as [Lc Ec].
  destruct (Nat.le_ge_cases (length content) (length got)).
  - rewrite (skipn_all2 content) by lia. rewrite firstn_nil, app_nil_r. exact Hg.
  - rewrite Ec. rewrite skipn_firstn_comm, firstn_firstn.
    rewrite Eg at 1. rewrite Eg at 1 2. rewrite !firstn_length. rewrite (Nat.min_l (length got) (length b)) by lia.
    rewrite firstn_skipn_app. eexists. reflexivity.
Qed.
Lemma write_append off n (b : list nat) : off <= length b ->
  write_at off (firstn n (skipn off b)) (firstn off b) = firstn (off + length (firstn n (skipn off b))) b.
Proof.
  intros H. unfold write_at. rewrite (skipn_all2 (firstn off b)) by (rewrite firstn_length; lia). rewrite app_nil_r.
  rewrite firstn_app. rewrite firstn_firstn, Nat.min_id, firstn_length, (Nat.min_l off) by lia.
  rewrite Nat.sub_diag. cbn [firstn]. rewrite app_nil_r.
  rewrite <- firstn_skipn_app. f_equal.
  rewrite firstn_length, skipn_length. destruct (Nat.le_ge_cases n (length b - off)).
  - rewrite Nat.min_l by lia. reflexivity.
  - rewrite Nat.min_r by lia. rewrite (firstn_all2 (n := n)) by (rewrite skipn_length; lia).
    rewrite firstn_all2; [reflexivity|rewrite skipn_length; lia].
Qed.

(** ** One process which saves, any number which do not *)
Section Single.
Context {V : Type}.
Variables (pk : pickle V) (v : V).
Hypothesis Hpk : pickle_ok pk.
Hypothesis Hv : picklable pk v = true.

(** Can the process still open the file for writing? *)
Definition may_save (s : proc V) : bool :=
  match s with Begin s => s | Reading s _ => s | Computing s => s | Writing _ => true | Done _ => false end.
Definition good_proc (file : option (list nat)) (s : proc V) : Prop :=
  match s with
  | Begin _ | Computing _ => True
  | Reading _ got => prefix got (dumps pk v)
  | Writing off => off <= length (dumps pk v) /\ file = Some (firstn off (dumps pk v))
  | Done (Returned w) => w = v
  | Done _ => True
  end.
Definition good_file (file : option (list nat)) : Prop :=
  match file with None => True | Some content => prefix content (dumps pk v) end.
Definition count (l : list (proc V)) : nat := length (filter may_save l).

Lemma not_saving_good file file' s : good_proc file s -> may_save s = false -> good_proc file' s.
Proof. destruct s as [| | |off|]; cbn; intros H E; try exact H; discriminate. Qed.

Lemma prefix_loads got w : prefix got (dumps pk v) -> loads pk got = Some w -> w = v.
Proof. intros [n ->]. apply firstn_loads. exact Hpk. Qed.

(** One step keeps the invariant; only a process that may save changes the file. *)
Lemma proc_step_good file s file' s' : proc_step pk v file s file' s' ->
  good_file file -> good_proc file s ->
  good_file file' /\ good_proc file' s' /\ (may_save s' = true -> may_save s = true) /\
  (file' = file \/ may_save s = true).
Proof.
  intros Hs Hf Hp. destruct Hs as [save|save content|save content got n|save file got w Hl Hn|save file got w Hl Hn|
    save content got Hlen Hl|file|file|content off n|file|file s Hs].
  - cbn. auto.
  - cbn. split; [exact Hf|]. split; [apply prefix_nil|]. auto.
  - cbn in *. split; [exact Hf|]. split; [apply prefix_read; assumption|]. auto.
  - split; [exact Hf|]. split; [cbn in *; eapply prefix_loads; eassumption|]. cbn. split; [discriminate|auto].
  - split; [exact Hf|]. split; [exact I|]. cbn. auto.
  - split; [exact Hf|]. split; [exact I|]. cbn. split; [discriminate|auto].
  - split; [exact Hf|]. split; [reflexivity|]. cbn. split; [discriminate|auto].
  - cbn. split; [apply prefix_nil|]. split; [split; [lia|reflexivity]|]. auto.
  - cbn in *. destruct Hp as [Ho E]. injection E as ->. rewrite write_append by assumption.
    split; [eexists; reflexivity|]. split; [|auto]. split; [|reflexivity].
    rewrite firstn_length, skipn_length. lia.
  - split; [exact Hf|]. split; [reflexivity|]. cbn. split; [discriminate|auto].
  - split; [exact Hf|]. split; [exact I|]. cbn. split; [discriminate|auto].
Qed.

Definition good_state (st : option (list nat) * list (proc V)) : Prop :=
  good_file (fst st) /\ Forall (good_proc (fst st)) (snd st) /\ count (snd st) <= 1.

Lemma count_app a b : count (a ++ b) = count a + count b.
Proof. unfold count. rewrite filter_app, app_length. reflexivity. Qed.
Lemma count_zero l : count l = 0 -> Forall (fun s => may_save s = false) l.
Proof.
  unfold count. induction l as [|s l IH]; cbn [filter]; intros H; [constructor|].
  destruct (may_save s) eqn:E; [discriminate|]. constructor; auto.
Qed.
Lemma count_cons s l : count (s :: l) = (if may_save s then 1 else 0) + count l.
Proof. unfold count. cbn [filter]. destruct (may_save s); reflexivity. Qed.

Lemma step_good st st' : step pk v st st' -> good_state st -> good_state st'.
Proof.
  intros Hs. destruct Hs as [file before s after file' s' Hs]. intros [Hf [Hp Hc]]. cbn [fst snd] in *.
  apply Forall_app in Hp as [Hb Ha]. inversion Ha as [|? ? Hs0 Ha']; subst.
  destruct (proc_step_good _ _ _ _ Hs Hf Hs0) as [Gf [Gp [Gm Gfile]]].
  rewrite count_app, count_cons in Hc.
  assert (Hc' : count (before ++ s' :: after) <= 1).
  { rewrite count_app, count_cons. destruct (may_save s') eqn:E; [|lia]. rewrite (Gm eq_refl) in Hc. exact Hc. }
  split; [exact Gf|]. split; [|exact Hc']. cbn [fst snd].
  destruct Gfile as [-> | Hsave].
  - apply Forall_app. split; [assumption|]. constructor; assumption.
  - rewrite Hsave in Hc. assert (count before = 0) by lia. assert (count after = 0) by lia.
    apply Forall_app. split; [|constructor; [exact Gp|]].
    + apply count_zero in H. rewrite Forall_forall in *. intros x Hx. apply (not_saving_good file); auto.
    + apply count_zero in H0. rewrite Forall_forall in *. intros x Hx. apply (not_saving_good file); auto.
Qed.

Lemma steps_good st st' : steps pk v st st' -> good_state st -> good_state st'.
Proof. induction 1 as [s|s s' s'' _ IH Hs]; intros H; [exact H|]. eapply step_good; [exact Hs|auto]. Qed.

Lemma single_writer file procs file' procs' w :
  (file = None \/ file = Some (dumps pk v)) -> Forall fresh procs -> length (filter saves procs) <= 1 ->
  steps pk v (file, procs) (file', procs') -> In (Done (Returned w)) procs' -> w = v.
Proof.
  intros Hf Hp Hc Hs Hin.
  assert (G : good_state (file, procs)).
  { split; [|split]; cbn [fst snd].
    - destruct Hf as [-> | ->]; cbn; [exact I|apply prefix_refl].
    - rewrite Forall_forall in *. intros s Hs0. destruct (Hp s Hs0) as [b ->]. exact I.
    - unfold count. assert (filter may_save procs = filter saves procs) as ->; [|exact Hc].
      clear -Hp. induction Hp as [|s l [b ->] Hl IH]; [reflexivity|]. cbn [filter may_save saves]. rewrite IH. reflexivity. }
  apply (steps_good _ _ Hs) in G. destruct G as [_ [G _]]. cbn [snd fst] in G. rewrite Forall_forall in G.
  exact (G _ Hin).
Qed.

(** ** Any number of processes which save: once all have finished, the file is whole *)

(** Every byte is right or zero, and the process which last emptied the file has written
    its part correctly. *)
Definition alike (content : list nat) : Prop :=
  length content <= length (dumps pk v) /\
  forall i, i < length content -> nth i content 0 = nth i (dumps pk v) 0 \/ nth i content 0 = 0.
Definition covered (file : option (list nat)) (procs : list (proc V)) : Prop :=
  match file with
  | None => Forall (fun s => match s with Writing _ | Reading _ _ => False | _ => True end) procs
  | Some content => alike content /\
      (forall off, In (Writing off) procs -> off <= length (dumps pk v)) /\
      (content = dumps pk v \/ exists off, In (Writing off) procs /\ firstn off content = firstn off (dumps pk v) /\ off <= length content)
  end.
Lemma write_at_length off chunk content : length (write_at off chunk content) = Nat.max (off + length chunk) (length content).
Proof.
  unfold write_at. rewrite !app_length, firstn_length, app_length, repeat_length, skipn_length. lia.
Qed.
Lemma nth_write_at off chunk content i : nth i (write_at off chunk content) 0 =
  if i <? off then nth i content 0
  else if i <? off + length chunk then nth (i - off) chunk 0 else nth i content 0.
Proof.
  unfold write_at.
  assert (L : length (firstn off (content ++ repeat 0 (off - length content))) = off).
  { rewrite firstn_length, app_length, repeat_length. lia. }
  destruct (Nat.ltb_spec i off) as [H|H].
  - rewrite app_nth1 by lia.
    transitivity (nth i (content ++ repeat 0 (off - length content)) 0).
    + rewrite <- (firstn_skipn off (content ++ repeat 0 (off - length content))) at 2.
      rewrite app_nth1 by lia. reflexivity.
    + destruct (Nat.lt_ge_cases i (length content)).
      * rewrite app_nth1 by lia. reflexivity.
      * rewrite app_nth2 by lia. rewrite (nth_overflow content) by lia. apply nth_repeat.
  - rewrite app_nth2 by lia. rewrite L. destruct (Nat.ltb_spec i (off + length chunk)) as [H1|H1].
    + rewrite app_nth1 by lia. reflexivity.
    + rewrite app_nth2 by lia.
      replace (i - off - length chunk) with (i - (off + length chunk)) by lia.
      clear L. revert H1. generalize (off + length chunk). intros m Hm.
      destruct (Nat.lt_ge_cases i (length content)).
      * rewrite <- (firstn_skipn m content) at 2. rewrite app_nth2 by (rewrite firstn_length; lia).
        rewrite firstn_length. rewrite Nat.min_l by lia. reflexivity.
      * rewrite !nth_overflow; [reflexivity|lia|rewrite skipn_length; lia].
Qed.

Lemma nth_chunk n off : forall i, i < length (firstn n (skipn off (dumps pk v))) ->
  nth i (firstn n (skipn off (dumps pk v))) 0 = nth (off + i) (dumps pk v) 0.
Proof.
  intros i Hi. rewrite firstn_length in Hi.
  transitivity (nth i (skipn off (dumps pk v)) 0).
  - rewrite <- (firstn_skipn n (skipn off (dumps pk v))) at 2. rewrite app_nth1; [reflexivity|].
    rewrite firstn_length. lia.
  - rewrite skipn_length in Hi. rewrite <- (firstn_skipn off (dumps pk v)) at 2.
    rewrite app_nth2 by (rewrite firstn_length; lia). f_equal. rewrite firstn_length. lia.
Qed.
Lemma firstn_nth_eq (a b : list nat) n : n <= length a -> n <= length b ->
  (firstn n a = firstn n b <-> forall i, i < n -> nth i a 0 = nth i b 0).
Proof.
  intros Ha Hb. assert (N : forall l i, n <= length l -> i < n -> nth i (firstn n l) 0 = nth i l 0).
  { intros l i Hl Hi. rewrite <- (firstn_skipn n l) at 2. rewrite app_nth1 by (rewrite firstn_length; lia). reflexivity. }
  split.
  - intros E i Hi. rewrite <- (N a i), <- (N b i) by assumption. rewrite E. reflexivity.
  - intros E. apply (nth_ext _ _ 0 0).
    + rewrite !firstn_length. lia.
    + intros i Hi. rewrite firstn_length in Hi. rewrite !N by lia. apply E. lia.
Qed.

Lemma write_alike off n content : off <= length (dumps pk v) -> alike content ->
  alike (write_at off (firstn n (skipn off (dumps pk v))) content).
Proof.
  intros Ho [Hl Hc]. set (chunk := firstn n (skipn off (dumps pk v))).
  assert (Lc : off + length chunk <= length (dumps pk v)).
  { unfold chunk. rewrite firstn_length, skipn_length. lia. }
  split.
  - rewrite write_at_length. lia.
  - intros i _. rewrite nth_write_at.
    assert (X : nth i content 0 = nth i (dumps pk v) 0 \/ nth i content 0 = 0).
    { destruct (Nat.lt_ge_cases i (length content)); [auto|]. right. apply nth_overflow. lia. }
    destruct (Nat.ltb_spec i off); [exact X|]. destruct (Nat.ltb_spec i (off + length chunk)); [|exact X].
    left. unfold chunk. rewrite nth_chunk by (unfold chunk in *; lia). f_equal. lia.
Qed.
(** What is right stays right, and what is written is right. *)
Lemma write_right off n content m : off <= length (dumps pk v) -> length content <= length (dumps pk v) ->
  m <= length content -> firstn m content = firstn m (dumps pk v) ->
  let content' := write_at off (firstn n (skipn off (dumps pk v))) content in
  let m' := if m =? off then off + length (firstn n (skipn off (dumps pk v))) else m in
  firstn m' content' = firstn m' (dumps pk v) /\ m' <= length content' /\
  firstn m content' = firstn m (dumps pk v) /\ m <= length content'.
Proof.
  intros Ho Hl Hm E content' m'. set (chunk := firstn n (skipn off (dumps pk v))) in *.
  assert (Lc : off + length chunk <= length (dumps pk v)).
  { unfold chunk. rewrite firstn_length, skipn_length. lia. }
  assert (Lw : length content' = Nat.max (off + length chunk) (length content)) by apply write_at_length.
  rewrite firstn_nth_eq in E by lia.
  assert (P : forall i, i < m \/ off <= i < off + length chunk -> nth i content' 0 = nth i (dumps pk v) 0).
  { intros i Hi. unfold content'. rewrite nth_write_at. fold chunk.
    destruct (Nat.ltb_spec i off); [apply E; lia|].
    destruct (Nat.ltb_spec i (off + length chunk)); [|apply E; lia].
    unfold chunk. rewrite nth_chunk by (unfold chunk in *; lia). f_equal. lia. }
  assert (m' <= length content' /\ m' <= length (dumps pk v)) as [M1 M2].
  { unfold m'. destruct (Nat.eqb_spec m off); lia. }
  split; [|split; [exact M1|split; [|lia]]].
  - apply firstn_nth_eq; try assumption. intros i Hi. apply P. unfold m' in Hi. destruct (Nat.eqb_spec m off); lia.
  - apply firstn_nth_eq; try lia. intros i Hi. apply P. lia.
Qed.

Definition any_killed (procs : list (proc V)) : Prop := In (Done Killed) procs.
Definition settled (n : nat) (st : option (list nat) * list (proc V)) : Prop :=
  any_killed (snd st) \/ (covered (fst st) (snd st) /\ (fst st = None -> count (snd st) = n)).

Lemma in_mid {X} (before after : list X) s s' x : In x (before ++ s :: after) -> x <> s -> In x (before ++ s' :: after).
Proof. rewrite !in_app_iff. cbn. intros [H|[H|H]] Hne; auto. congruence. Qed.
Lemma mid_in {X} (before after : list X) s s' x : In x (before ++ s' :: after) -> x = s' \/ In x (before ++ s :: after).
Proof. rewrite !in_app_iff. cbn. intros [H|[H|H]]; auto. Qed.

Lemma step_settled n st st' : step pk v st st' -> settled n st -> settled n st'.
Proof.
  intros Hs. destruct Hs as [file before s after file' s' Hs]. intros [K|[Hc Hn]]; cbn [fst snd] in *.
  { left. unfold any_killed in *. cbn [fst snd] in *. apply (in_mid before after s s'); [exact K|].
    intros E. subst s. inversion Hs. congruence. }
  (* steps which keep the file *)
  assert (Keep : file' = file -> (forall off, s <> Writing off) -> (forall off, s' <> Writing off) ->
    (file = None -> may_save s' = may_save s /\ match s' with Reading _ _ => False | _ => True end) ->
    settled n (file', before ++ s' :: after)).
  { intros -> N1 N2 HM. right. split; cbn [fst snd].
    - destruct file as [content|]; cbn in *.
      + destruct Hc as [C1 [C2 C3]]. split; [exact C1|]. split.
        * intros off Hin. destruct (mid_in before after s s' _ Hin) as [E|Hi]; [symmetry in E; destruct (N2 _ E)|auto].
        * destruct C3 as [C3|[off [Hin C3]]]; [left; exact C3|]. right. exists off. split; [|exact C3].
          apply (in_mid before after s s'); [exact Hin|]. intros E. symmetry in E. exact (N1 _ E).
      + rewrite Forall_forall in *. intros x Hx. destruct (mid_in before after s s' _ Hx) as [->|Hi]; [|exact (Hc x Hi)].
        destruct (HM eq_refl) as [_ HR]. destruct s'; try exact I; [exact HR|exact (N2 _ eq_refl)].
    - intros E. rewrite <- (Hn E). rewrite !count_app, !count_cons, (proj1 (HM E)). reflexivity. }
  assert (NoRead : file = None -> match s with Writing _ | Reading _ _ => False | _ => True end).
  { intros ->. cbn in Hc. rewrite Forall_forall in Hc. apply (Hc s). apply in_or_app. right. left. reflexivity. }
  destruct Hs as [save|save content|save content got k|save file got w Hl Hnn|save file got w Hl Hnn|
    save content got Hlen Hl|file|file|content off k|file|file s Hs].
  - apply Keep; try reflexivity; try (intros; discriminate). intros _. split; [reflexivity|exact I].
  - apply Keep; try reflexivity; try (intros; discriminate).
  - apply Keep; try reflexivity; try (intros; discriminate).
  - apply Keep; try reflexivity; try (intros; discriminate). intros E. destruct (NoRead E).
  - apply Keep; try reflexivity; try (intros; discriminate). intros E. destruct (NoRead E).
  - apply Keep; try reflexivity; try (intros; discriminate).
  - apply Keep; try reflexivity; try (intros; discriminate). intros _. split; [reflexivity|exact I].
  - right. split; [|discriminate]. cbn [fst snd covered]. split; [|split].
    + split; [cbn; lia|]. cbn. intros; lia.
    + intros off Hin. destruct (mid_in before after (Computing true) _ _ Hin) as [E|Hi]; [injection E as ->; lia|].
      destruct file as [content|]; cbn in Hc; [apply Hc; exact Hi|]. rewrite Forall_forall in Hc. destruct (Hc _ Hi).
    + right. exists 0. split; [apply in_or_app; right; left; reflexivity|]. split; [reflexivity|lia].
  - cbn in Hc. destruct Hc as [C1 [C2 C3]].
    assert (Ho : off <= length (dumps pk v)) by (apply C2; apply in_or_app; right; left; reflexivity).
    right. split; [|discriminate]. cbn [fst snd covered]. split; [apply write_alike; assumption|]. split.
    + intros o Hin. destruct (mid_in before after (Writing off) _ _ Hin) as [E|Hi]; [|auto].
      injection E as ->. rewrite firstn_length, skipn_length. lia.
    + destruct C3 as [->|[m [Hin [E Hm]]]].
      * left. destruct (write_right off k (dumps pk v) (length (dumps pk v)) Ho) as [_ [_ [E L]]]; [lia|lia|reflexivity|].
        rewrite firstn_all in E. rewrite <- E at 3. symmetry. apply firstn_all2.
        rewrite write_at_length, firstn_length, skipn_length. lia.
      * right. destruct (write_right off k content m Ho (proj1 C1) Hm E) as [E1 [L1 [E2 L2]]].
        destruct (Nat.eqb_spec m off) as [->|Hne].
        -- eexists. split; [apply in_or_app; right; left; reflexivity|]. split; assumption.
        -- exists m. split; [|split; assumption]. apply (in_mid before after (Writing off)); [exact Hin|].
           intros X. injection X as ->. apply Hne. reflexivity.
  - right. destruct file as [content|]; cbn [fst snd covered] in *.
    + destruct Hc as [C1 [C2 C3]]. split; [|discriminate]. split; [exact C1|]. split.
      * intros o Hin. destruct (mid_in before after (Writing (length (dumps pk v))) _ _ Hin) as [E|Hi]; [discriminate|auto].
      * destruct C3 as [C3|[m [Hin [E Hm]]]]; [left; exact C3|].
        destruct (Nat.eq_dec m (length (dumps pk v))) as [->|Hne].
        -- left. rewrite firstn_all in E. rewrite <- E. symmetry. apply firstn_all2. apply C1.
        -- right. exists m. split; [|split; assumption].
           apply (in_mid before after (Writing (length (dumps pk v)))); [exact Hin|]. intros X. injection X. exact Hne.
    + exfalso. rewrite Forall_forall in Hc. apply (Hc (Writing (length (dumps pk v)))).
      apply in_or_app. right. left. reflexivity.
  - left. unfold any_killed. cbn [snd]. apply in_or_app. right. left. reflexivity.
Qed.

Lemma all_finished file procs file' procs' :
  (file = None \/ file = Some (dumps pk v)) -> Forall fresh procs ->
  steps pk v (file, procs) (file', procs') ->
  Forall (fun s => exists r, s = Done r /\ r <> Killed) procs' ->
  (file' = None \/ file' = Some (dumps pk v)) /\
  (0 < length (filter saves procs) -> file' = Some (dumps pk v)).
Proof.
  intros Hf Hp Hs Hd.
  assert (Ec : count procs = length (filter saves procs)).
  { unfold count. clear -Hp. induction Hp as [|s l [b ->] Hl IH]; [reflexivity|]. cbn [filter may_save saves].
    destruct b; cbn [length]; rewrite IH; reflexivity. }
  assert (S0 : settled (count procs) (file, procs)).
  { right. split; [|reflexivity]. cbn [fst snd]. destruct Hf as [-> | ->]; cbn.
    - rewrite Forall_forall in *. intros s Hs0. destruct (Hp s Hs0) as [b ->]. exact I.
    - split; [split; [lia|auto]|]. split; [|left; reflexivity].
      intros off Hin. rewrite Forall_forall in Hp. destruct (Hp _ Hin) as [b E]. discriminate. }
  assert (S1 : settled (count procs) (file', procs')).
  { clear -Hs S0. remember (file, procs) as st0. remember (file', procs') as st1. clear Heqst0 Heqst1.
    induction Hs as [s|s s' s'' _ IH H]; [exact S0|]. eapply step_settled; [exact H|auto]. }
  rewrite Forall_forall in Hd. destruct S1 as [K|[Hc Hn]].
  { unfold any_killed in K. cbn [snd] in K. destruct (Hd _ K) as [r [E X]]. injection E as <-. destruct X. reflexivity. }
  cbn [fst snd] in *. assert (count procs' = 0) as Z.
  { unfold count. clear -Hd. induction procs' as [|s l IH]; [reflexivity|]. cbn [filter].
    destruct (Hd s (or_introl eq_refl)) as [r [-> _]]. cbn [may_save]. apply IH. intros x Hx. apply Hd. right. exact Hx. }
  destruct file' as [content|]; cbn in Hc.
  - destruct Hc as [_ [_ [->|[off [Hin _]]]]].
    + split; [right; reflexivity|reflexivity].
    + destruct (Hd _ Hin) as [r [E _]]. discriminate.
  - split; [left; reflexivity|]. intros H. rewrite (Hn eq_refl) in Z. lia.
Qed.
End Single.

(** Two processes which save: a third one can load a wrong value.  Objects are pairs
    of numbers, stored as a tag and two bytes. *)
Definition pair_pickle : pickle (nat * nat) :=
  {| dumps := fun v => [7; fst v; snd v]; picklable := fun _ => true;
     loads := fun b => match b with [7; x; y] => Some (x, y) | _ => None end;
     is_none := fun _ => false |}.
Lemma pair_pickle_ok : pickle_ok pair_pickle.
Proof.
  split; [|split].
  - intros [x y] _. reflexivity.
  - intros v H. discriminate.
  - intros [x y] k Hk. cbn in Hk. destruct k as [|[|[|k]]]; try reflexivity. lia.
Qed.

Lemma two_writers : exists file',
  steps pair_pickle (3, 4) (None, [Begin true; Begin true; Begin false])
    (file', [Writing 3; Writing 1; Done (Returned (0, 4))]).
Proof.
  eexists.
  assert (S : forall (s : option (list nat) * list (proc (nat * nat))) s' s'', step pair_pickle (3, 4) s s' -> steps pair_pickle (3, 4) s' s'' -> steps pair_pickle (3, 4) s s'').
  { intros s s' s'' H1 H2. induction H2 as [s0|s0 s1 s2 H2 IH H3].
    - eapply steps_step; [apply steps_refl|exact H1].
    - eapply steps_step; [apply IH; exact H1|exact H3]. }
  assert (P0 : forall (f : option (list nat)) (a b c : proc (nat * nat)) f' a', proc_step pair_pickle (3, 4) f a f' a' -> step pair_pickle (3, 4) (f, [a; b; c]) (f', [a'; b; c])).
  { intros. apply (step_proc _ _ _ []). assumption. }
  assert (P1 : forall (f : option (list nat)) (a b c : proc (nat * nat)) f' b', proc_step pair_pickle (3, 4) f b f' b' -> step pair_pickle (3, 4) (f, [a; b; c]) (f', [a; b'; c])).
  { intros. apply (step_proc _ _ _ [a]). assumption. }
  assert (P2 : forall (f : option (list nat)) (a b c : proc (nat * nat)) f' c', proc_step pair_pickle (3, 4) f c f' c' -> step pair_pickle (3, 4) (f, [a; b; c]) (f', [a; b; c'])).
  { intros. apply (step_proc _ _ _ [a; b]). assumption. }
  eapply S; [apply P0, step_missing|]. eapply S; [apply P1, step_missing|].
  eapply S; [apply P0, step_truncate|]. eapply S; [apply P0, (step_write _ _ _ _ 2)|].
  eapply S; [apply P1, step_truncate|]. eapply S; [apply P0, (step_write _ _ _ _ 1)|].
  eapply S; [apply P1, (step_write _ _ _ _ 1)|]. eapply S; [apply P2, step_open|].
  eapply S; [apply P2, (step_read _ _ _ _ _ 3)|]. eapply S; [apply P2, step_loaded; reflexivity|].
  cbn. apply steps_refl.
Qed.

(** ** npy_cached *)
Lemma npy_append (p : String.string) : is_npy (String.append p dot_npy) = true.
Proof.
  induction p as [|ch p IH]; [reflexivity|]. cbn [String.append is_npy]. rewrite IH. apply orb_true_r.
Qed.
Lemma npy_save_path p : is_npy (save_path p) = true.
Proof. unfold save_path. destruct (is_npy p) eqn:E; [exact E|apply npy_append]. Qed.

Section Npy.
Context {A V : Type}.
Variables (io : npy V) (c : cached_function A V) (stored : V -> V).
Hypothesis Hio : npy_ok io stored.

Lemma npy_call_other lp sp kill a fs p : is_npy p = false ->
  files (fst (fst (npy_call io c lp sp kill a fs))) p = files fs p.
Proof.
  intros Hp. assert (X : forall q x, files (put (save_path q) x fs) p = files fs p).
  { intros q x. apply put_other. intros E. rewrite E, npy_save_path in Hp. discriminate. }
  unfold npy_call, do_call_uncached. destruct (path c a) as [q|].
  - destruct (files fs q) as [bytes|].
    + destruct (npy_loads io bytes) as [w|]; [destruct (is_object io w && negb lp)|]; reflexivity.
    + destruct (inner c a) as [v|]; [|reflexivity].
      destruct kill; try reflexivity; destruct (can_write fs (save_path q)); try reflexivity;
        destruct (is_object io v && negb sp); cbn [fst]; apply X.
  - destruct (inner c a); [destruct kill|]; reflexivity.
Qed.

(** A path without the suffix is never found. *)
Lemma npy_wrong_suffix lp sp p : is_npy p = false -> forall calls fs, files fs p = None ->
  Forall (fun t => path c (fst (fst t)) = Some p -> snd t = [fst (fst t)]) (snd (npy_run io c lp sp calls fs)).
Proof.
  intros Hp. induction calls as [|[kill a] calls IH]; intros fs Hf; cbn [npy_run]; [constructor|].
  assert (Hf' := npy_call_other lp sp kill a fs p Hp).
  assert (E : path c a = Some p -> snd (npy_call io c lp sp kill a fs) = [a]).
  { intros Ha. unfold npy_call. rewrite Ha, Hf. destruct (inner c a) as [v|]; [|reflexivity].
    destruct kill; try reflexivity; destruct (can_write fs (save_path p)); try reflexivity;
        destruct (is_object io v && negb sp); reflexivity. }
  destruct (npy_call io c lp sp kill a fs) as [[fs1 r] ev]. cbn [fst snd] in *. rewrite Hf in Hf'.
  specialize (IH fs1 Hf'). destruct (npy_run io c lp sp calls fs1) as [fs2 t]. cbn [snd] in *.
  constructor; [exact E|exact IH].
Qed.

(** With the suffix: evaluated once, then loaded; objects need load_pickle. *)
Lemma npy_first lp sp a p v fs : is_npy p = true -> path c a = Some p -> inner c a = Some v ->
  files fs p = None -> can_write fs p = true -> (is_object io v = true -> sp = true) ->
  exists fs', npy_call io c lp sp never a fs = (fs', Returned v, [a]) /\
    forall b kill, path c b = Some p ->
      npy_call io c lp sp kill b fs' = (fs', if is_object io v && negb lp then Raised else Returned (stored v), []).
Proof.
  intros Hn Ha Hv Hf Hw Ho. unfold npy_call at 1. rewrite Ha, Hf, Hv. unfold save_path. rewrite Hn, Hw.
  assert (is_object io v && negb sp = false) as -> by (destruct (is_object io v); [rewrite Ho by reflexivity; reflexivity|reflexivity]).
  eexists. split; [reflexivity|]. intros b kill Hb. unfold npy_call. rewrite Hb, put_same.
  destruct Hio as [H1 _]. destruct (H1 v) as [E1 E2]. rewrite E1, E2. destruct (is_object io v && negb lp); reflexivity.
Qed.

(** An interrupted save, or an object with save_pickle=False, leaves a file which raises. *)
Lemma npy_broken lp sp kill a p v fs : is_npy p = true -> path c a = Some p -> inner c a = Some v ->
  files fs p = None -> can_write fs p = true ->
  ((exists k, kill = after_bytes k /\ k < length (npy_dumps io v) /\ (is_object io v = true -> sp = true)) \/
   (kill = never /\ is_object io v = true /\ sp = false)) ->
  exists fs' r, npy_call io c lp sp kill a fs = (fs', r, [a]) /\ (forall w, r <> Returned w) /\
    forall b kill', path c b = Some p -> npy_call io c lp sp kill' b fs' = (fs', Raised, []).
Proof.
  intros Hn Ha Hv Hf Hw Hk. unfold npy_call at 1. rewrite Ha, Hf, Hv. unfold save_path. rewrite Hn, Hw.
  destruct Hio as [_ [H2 H3]]. destruct Hk as [[k [-> [Hk Ho]]]|[-> [Ho ->]]].
  - assert (is_object io v && negb sp = false) as -> by (destruct (is_object io v); [rewrite Ho by reflexivity; reflexivity|reflexivity]).
    do 2 eexists. split; [reflexivity|]. split; [discriminate|]. intros b kill' Hb. unfold npy_call. rewrite Hb, put_same.
    rewrite H2 by assumption. reflexivity.
  - rewrite Ho. cbn [andb negb].
    do 2 eexists. split; [reflexivity|]. split; [discriminate|]. intros b kill' Hb. unfold npy_call. rewrite Hb, put_same.
    rewrite H2 by (apply H3; assumption). reflexivity.
Qed.
End Npy.

