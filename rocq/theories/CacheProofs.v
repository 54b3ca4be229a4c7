(** Proofs about cached functions. *)
From Coq Require Import List Arith Bool Lia.
From Coq Require String Ascii.
From Verif Require Import Cache SpecCache.
Import ListNotations.
Local Open Scope nat_scope.

Lemma put_same p x fs : files (put p x fs) p = x.
Proof. cbn. rewrite String.eqb_refl. reflexivity. Qed.
Lemma put_other p q x fs : q <> p -> files (put p x fs) q = files fs q.
Proof. intros H. cbn. apply String.eqb_neq in H. rewrite H. reflexivity. Qed.

Lemma firstn_whole {X} k (l : list X) : length l <= k -> firstn k l = l.
Proof. apply firstn_all2. Qed.

Section Seq.
Context {A V : Type}.
Variables (pk : pickle V) (c : cached_function A V).
Hypothesis Hpk : pickle_ok pk.

Lemma firstn_loads v k w : loads pk (firstn k (dumps pk v)) = Some w -> w = v.
Proof.
  destruct Hpk as [H1 [H2 H3]]. destruct (Nat.lt_ge_cases k (length (dumps pk v))) as [Hk|Hk].
  - rewrite H3 by assumption. discriminate.
  - rewrite firstn_whole by assumption. destruct (picklable pk v) eqn:E.
    + rewrite H1 by assumption. congruence.
    + rewrite H2 by assumption. discriminate.
Qed.

Lemma consistent_put (Hd : path_determines c) fs a p v k : inner c a = Some v -> path c a = Some p ->
  consistent pk c fs -> consistent pk c (put p (Some (firstn k (dumps pk v))) fs).
Proof.
  intros Hv Hp Hc b q bytes w Hq Hf Hl. destruct (String.eqb_spec q p) as [->|Hne].
  - rewrite put_same in Hf. injection Hf as <-. apply firstn_loads in Hl. subst w.
    rewrite (Hd b a p) by assumption. exact Hv.
  - rewrite put_other in Hf by assumption. exact (Hc b q bytes w Hq Hf Hl).
Qed.
Lemma consistent_remove fs p : consistent pk c fs -> consistent pk c (put p None fs).
Proof.
  intros Hc b q bytes w Hq Hf Hl. destruct (String.eqb_spec q p) as [->|Hne].
  - rewrite put_same in Hf. discriminate.
  - rewrite put_other in Hf by assumption. exact (Hc b q bytes w Hq Hf Hl).
Qed.

Lemma uncached_ok kill a fs fs' r ev : do_call_uncached c kill a fs = (fs', r, ev) ->
  fs' = fs /\ (forall v, r = Returned v -> inner c a = Some v).
Proof.
  unfold do_call_uncached. destruct (inner c a) as [v|].
  - destruct kill; intros H; injection H as <- <- <-; split; try reflexivity; intros w E; congruence.
  - intros H; injection H as <- <- <-. split; [reflexivity|]. intros w E; discriminate.
Qed.
Lemma cached_ok (Hd : path_determines c) kill a fs fs' r ev : consistent pk c fs ->
  do_call_cached pk c kill a fs = (fs', r, ev) ->
  consistent pk c fs' /\ (forall v, r = Returned v -> inner c a = Some v).
Proof.
  intros Hc. unfold do_call_cached. destruct (inner c a) as [v|] eqn:Ev.
  - destruct (path c a) as [p|] eqn:Ep.
    + assert (X : consistent pk c (put p (Some (dumps pk v)) fs)).
      { rewrite <- (firstn_whole (length (dumps pk v)) (dumps pk v)) by lia. eapply consistent_put; eassumption. }
      destruct kill; try destruct (can_write fs p); intros H; injection H as <- <- <-;
        (split; [first [assumption | eapply consistent_put; eassumption]|]); intros w E;
        try destruct (picklable pk v); congruence.
    + destruct kill; intros H; injection H as <- <- <-; (split; [assumption|]); intros w E; congruence.
  - intros H; injection H as <- <- <-. split; [assumption|]. intros w E; discriminate.
Qed.
Lemma call_ok (Hd : path_determines c) k kill a fs fs' r ev : consistent pk c fs ->
  call pk c k kill a fs = (fs', r, ev) ->
  consistent pk c fs' /\ (forall v, r = Returned v -> inner c a = Some v).
Proof.
  intros Hc. assert (L : forall v, load_cache pk c a fs = Loaded v -> inner c a = Some v).
  { unfold load_cache. intros v. destruct (path c a) as [p|] eqn:Ep; [|discriminate].
    destruct (files fs p) as [bytes|] eqn:Ef; [|discriminate]. destruct (loads pk bytes) as [w|] eqn:El; [|discriminate].
    destruct (is_none pk w); [discriminate|]. intros E; injection E as <-. exact (Hc a p bytes w Ep Ef El). }
  destruct k; cbn [call].
  - destruct (load_cache pk c a fs) as [v| |] eqn:E; intros H.
    + injection H as <- <- <-. split; [assumption|]. intros w X. injection X as <-. auto.
    + eapply cached_ok; eassumption.
    + injection H as <- <- <-. split; [assumption|]. intros w X. discriminate.
  - destruct (load_cache pk c a fs) as [v| |] eqn:E; intros H.
    + injection H as <- <- <-. split; [assumption|]. intros w X. injection X as <-. auto.
    + apply uncached_ok in H as [-> H]. auto.
    + injection H as <- <- <-. split; [assumption|]. intros w X. discriminate.
  - intros H. apply uncached_ok in H as [-> H]. auto.
  - intros H. eapply cached_ok; eassumption.
Qed.

(** Whatever happens, a returned value is the value of the function. *)
Lemma history_values (Hd : path_determines c) events : forall fs k kill a v ev, consistent pk c fs ->
  In (Call k kill a, Returned v, ev) (snd (run pk c events fs)) -> inner c a = Some v.
Proof.
  induction events as [|e events IH]; intros fs k kill a v ev Hc; cbn [run].
  - intros [].
  - destruct e as [k0 kill0 a0|p].
    + destruct (call pk c k0 kill0 a0 fs) as [[fs1 r] ev0] eqn:E.
      destruct (run pk c events fs1) as [fs2 t] eqn:Er. cbn [snd].
      destruct (call_ok Hd _ _ _ _ _ _ _ Hc E) as [Hc1 Hv].
      intros [X|X].
      * injection X as _ _ <- -> _. apply Hv. reflexivity.
      * apply (IH fs1 k kill a v ev Hc1). rewrite Er. exact X.
    + destruct (run pk c events (put p None fs)) as [fs2 t] eqn:Er. cbn [snd]. intros X.
      apply (IH (put p None fs) k kill a v ev); [apply consistent_remove; assumption|]. rewrite Er. exact X.
Qed.

(** An unreadable file. *)
Lemma broken_call fs a p bytes k kill : path c a = Some p -> files fs p = Some bytes -> loads pk bytes = None ->
  loading k -> call pk c k kill a fs = (fs, Raised, []).
Proof.
  intros Hp Hf Hl Hk. assert (load_cache pk c a fs = LoadRaised) as E.
  { unfold load_cache. rewrite Hp, Hf, Hl. reflexivity. }
  destruct Hk as [-> | ->]; cbn [call]; rewrite E; reflexivity.
Qed.
Lemma broken_history p bytes : forall events fs, files fs p = Some bytes -> loads pk bytes = None ->
  Forall (fun e => exists k kill a, e = Call k kill a /\ loading k /\ path c a = Some p) events ->
  fst (run pk c events fs) = fs /\
  Forall (fun t => snd (fst t) = Raised /\ snd t = []) (snd (run pk c events fs)).
Proof.
  induction events as [|e events IH]; intros fs Hf Hl He; cbn [run].
  - split; [reflexivity|constructor].
  - inversion He as [|? ? [k [kill [a [-> [Hk Ha]]]]] He']; subst.
    rewrite (broken_call fs a p bytes k kill Ha Hf Hl Hk).
    destruct (IH fs Hf Hl He') as [I1 I2]. destruct (run pk c events fs) as [fs2 t]. cbn [fst snd] in *.
    split; [exact I1|]. constructor; [split; reflexivity|exact I2].
Qed.

(** Killed in the middle of the dump. *)
Lemma killed_dump fs a p v n events : inner c a = Some v -> path c a = Some p -> can_write fs p = true ->
  n < length (dumps pk v) ->
  Forall (fun e => exists k kill b, e = Call k kill b /\ loading k /\ path c b = Some p) events ->
  exists fs', call pk c call_cached (after_bytes n) a fs = (fs', Killed, [a]) /\
    (forall q, q <> p -> files fs' q = files fs q) /\
    fst (run pk c events fs') = fs' /\
    Forall (fun t => snd (fst t) = Raised /\ snd t = []) (snd (run pk c events fs')).
Proof.
  intros Hv Hp Hw Hn He. cbn [call]. unfold do_call_cached. rewrite Hv, Hp, Hw.
  eexists. split; [reflexivity|]. split; [intros q Hq; apply put_other; assumption|].
  apply (broken_history p (firstn n (dumps pk v))); [apply put_same| |assumption].
  destruct Hpk as [_ [_ H3]]. apply H3. assumption.
Qed.

(** A result pickle cannot store. *)
Lemma unpicklable fs a p v events : inner c a = Some v -> path c a = Some p -> can_write fs p = true ->
  files fs p = None -> picklable pk v = false ->
  Forall (fun e => exists k kill b, e = Call k kill b /\ loading k /\ path c b = Some p) events ->
  exists fs', call pk c load_or_call_cached never a fs = (fs', Raised, [a]) /\
    fst (run pk c events fs') = fs' /\
    Forall (fun t => snd (fst t) = Raised /\ snd t = []) (snd (run pk c events fs')).
Proof.
  intros Hv Hp Hw Hf Hu He. cbn [call]. unfold load_cache. rewrite Hp, Hf. unfold do_call_cached.
  rewrite Hv, Hp, Hw, Hu. eexists. split; [reflexivity|].
  apply (broken_history p (dumps pk v)); [apply put_same| |assumption].
  destruct Hpk as [_ [H2 _]]. apply H2. assumption.
Qed.

(** call_cached repairs the file; later loads find the value. *)
Lemma repaired fs a p v : inner c a = Some v -> path c a = Some p -> can_write fs p = true ->
  picklable pk v = true -> is_none pk v = false ->
  exists fs', call pk c call_cached never a fs = (fs', Returned v, [a]) /\
    forall b k kill, path c b = Some p -> loading k -> call pk c k kill b fs' = (fs', Returned v, []).
Proof.
  intros Hv Hp Hw Hu Hn. cbn [call]. unfold do_call_cached. rewrite Hv, Hp, Hw, Hu.
  eexists. split; [reflexivity|]. intros b k kill Hb Hk.
  assert (load_cache pk c b (put p (Some (dumps pk v)) fs) = Loaded v) as E.
  { unfold load_cache. rewrite Hb, put_same. destruct Hpk as [H1 _]. rewrite H1 by assumption. rewrite Hn. reflexivity. }
  destruct Hk as [-> | ->]; cbn [call]; rewrite E; reflexivity.
Qed.

(** A function which raises does not touch the cache. *)
Lemma raising_call fs a k kill : inner c a = None ->
  fst (fst (call pk c k kill a fs)) = fs.
Proof.
  intros H. destruct k; cbn [call]; unfold do_call_cached, do_call_uncached; rewrite ?H; try reflexivity;
    destruct (load_cache pk c a fs); reflexivity.
Qed.

(** Without a directory for the cache the value is computed and lost. *)
Lemma unwritable_call fs a p v : inner c a = Some v -> path c a = Some p -> can_write fs p = false ->
  files fs p = None -> call pk c load_or_call_cached never a fs = (fs, Raised, [a]).
Proof.
  intros Hv Hp Hw Hf. cbn [call]. unfold load_cache. rewrite Hp, Hf. unfold do_call_cached.
  rewrite Hv, Hp, Hw. reflexivity.
Qed.

(** None is never found in the cache. *)
Lemma none_history fs a p v n : inner c a = Some v -> path c a = Some p -> can_write fs p = true ->
  picklable pk v = true -> is_none pk v = true -> files fs p = None ->
  snd (run pk c (repeat (Call load_or_call_cached never a) n) fs) =
  repeat (Call load_or_call_cached never a, Returned v, [a]) n.
Proof.
  intros Hv Hp Hw Hu Hn Hf. assert (Hf' : files fs p = None \/ files fs p = Some (dumps pk v)) by auto. clear Hf.
  revert fs Hw Hf'. induction n as [|n IH]; intros fs Hw Hf; cbn [repeat run]; [reflexivity|].
  assert (call pk c load_or_call_cached never a fs = (put p (Some (dumps pk v)) fs, Returned v, [a])) as ->.
  { cbn [call]. assert (load_cache pk c a fs = NotCached) as ->.
    { unfold load_cache. rewrite Hp. destruct Hf as [-> | ->]; [reflexivity|].
      destruct Hpk as [H1 _]. rewrite H1 by assumption. rewrite Hn. reflexivity. }
    unfold do_call_cached. rewrite Hv, Hp, Hw, Hu. reflexivity. }
  specialize (IH (put p (Some (dumps pk v)) fs) Hw (or_intror (put_same _ _ _))).
  destruct (run pk c (repeat _ n) _) as [fs2 t]. cbn [snd] in *. rewrite IH. reflexivity.
Qed.

(** ** At most one evaluation *)

Lemma call_other_file k kill a fs p : match path c a with Some q => String.eqb q p | None => false end = false ->
  files (fst (fst (call pk c k kill a fs))) p = files fs p /\
  can_write (fst (fst (call pk c k kill a fs))) p = can_write fs p.
Proof.
  intros H. assert (D : forall kill, files (fst (fst (do_call_cached pk c kill a fs))) p = files fs p /\
    can_write (fst (fst (do_call_cached pk c kill a fs))) p = can_write fs p).
  { intros kl. unfold do_call_cached. destruct (inner c a); [|split; reflexivity].
    destruct kl; destruct (path c a) as [q|]; try (split; reflexivity);
      destruct (can_write fs q); try (split; reflexivity); cbn [fst];
      (split; [apply put_other; intros ->; rewrite String.eqb_refl in H; discriminate|reflexivity]). }
  assert (U : forall kill, fst (fst (do_call_uncached (V := V) c kill a fs)) = fs).
  { intros kl. unfold do_call_uncached. destruct (inner c a); [destruct kl|]; reflexivity. }
  destruct k; cbn [call]; try apply D; try (rewrite U; split; reflexivity);
    destruct (load_cache pk c a fs); try (split; reflexivity); try apply D; rewrite U; split; reflexivity.
Qed.
Lemma call_evals k kill a fs : snd (call pk c k kill a fs) = [a] \/ snd (call pk c k kill a fs) = [].
Proof.
  assert (D : forall kill, snd (do_call_cached pk c kill a fs) = [a]).
  { intros kl. unfold do_call_cached. destruct (inner c a); [|reflexivity].
    destruct kl; destruct (path c a) as [q|]; try reflexivity; destruct (can_write fs q); reflexivity. }
  assert (U : forall kill, snd (do_call_uncached (V := V) c kill a fs) = [a]).
  { intros kl. unfold do_call_uncached. destruct (inner c a); [destruct kl|]; reflexivity. }
  destruct k; cbn [call]; try (left; apply D); try (left; apply U);
    destruct (load_cache pk c a fs); auto; left; first [apply D|apply U].
Qed.

Lemma once_history p (Hgood : forall a v, path c a = Some p -> inner c a = Some v -> picklable pk v = true /\ is_none pk v = false)
  (Htotal : forall a, path c a = Some p -> inner c a <> None) :
  forall events fs, can_write fs p = true ->
  Forall (fun e => uses c p e = true -> exists a, e = Call load_or_call_cached never a) events ->
  (files fs p = None ->
     evaluations c p (snd (run pk c events fs)) = if existsb (uses c p) events then 1 else 0) /\
  ((exists v, picklable pk v = true /\ is_none pk v = false /\ files fs p = Some (dumps pk v)) ->
     evaluations c p (snd (run pk c events fs)) = 0).
Proof.
  intros events. induction events as [|e events IH]; intros fs Hw He; cbn [run existsb].
  - split; reflexivity.
  - inversion He as [|? ? He1 He2]; subst. destruct (uses c p e) eqn:Eu.
    + destruct (He1 eq_refl) as [a ->]. cbn [uses] in Eu. destruct (path c a) as [q|] eqn:Ep; [|discriminate].
      apply String.eqb_eq in Eu. subst q. destruct (inner c a) as [v|] eqn:Ev; [|destruct (Htotal a Ep Ev)].
      destruct (Hgood a v Ep Ev) as [Hu Hn].
      split.
      * intros Hf. cbn [call]. unfold load_cache. rewrite Ep, Hf. unfold do_call_cached. rewrite Ev, Ep, Hw, Hu.
        destruct (IH (put p (Some (dumps pk v)) fs) Hw He2) as [_ I2].
        destruct (run pk c events _) as [fs2 t]. cbn [snd] in *. unfold evaluations in *. cbn [map concat snd app].
        cbn [filter]. rewrite Ep, String.eqb_refl. cbn [length orb]. rewrite I2; [reflexivity|]. exists v.
        split; [assumption|split; [assumption|apply put_same]].
      * intros [w [Hwp [Hwn Hf]]]. cbn [call]. unfold load_cache. rewrite Ep, Hf.
        destruct Hpk as [H1 _]. rewrite H1 by assumption. rewrite Hwn.
        destruct (IH fs Hw He2) as [_ I2]. destruct (run pk c events fs) as [fs2 t]. cbn [snd] in *.
        unfold evaluations in *. cbn [map concat snd app]. apply I2. exists w. auto.
    + cbn [orb]. destruct e as [k kill a|q].
      * cbn [uses] in Eu. destruct (call_other_file k kill a fs p Eu) as [Cf Cw].
        destruct (call_evals k kill a fs) as [Ce|Ce];
          destruct (call pk c k kill a fs) as [[fs1 r] ev]; cbn [fst snd] in *; subst ev;
          (destruct (IH fs1) as [I1 I2]; [congruence|assumption|]);
          destruct (run pk c events fs1) as [fs2 t]; cbn [snd] in *; unfold evaluations in *;
          cbn [map concat snd app filter]; rewrite ?Eu; (split; intros X; [apply I1|apply I2]; rewrite Cf; exact X).
      * cbn [uses] in Eu. apply String.eqb_neq in Eu.
        destruct (IH (put q None fs) Hw He2) as [I1 I2].
        destruct (run pk c events (put q None fs)) as [fs2 t]. cbn [snd] in *.
        split; intros X; [apply I1|apply I2]; rewrite put_other by congruence; exact X.
Qed.
End Seq.
