From Verif Require Import ZLib NumPy Interp Spec InterpProofs.
Local Open Scope nat_scope.

Lemma axis_target_resizes axes s : NoDup axes -> length axes = length s ->
  resizes axes s (axis_target axes s).
Proof.
  intros N. revert s; induction N as [|a axes Ha N IH]; intros [|n s] Hlen; try discriminate.
  - split; [simpl; intros; lia|reflexivity].
  - simpl in Hlen. destruct (IH s ltac:(lia)) as [H1 H2]. split.
    + intros [|j] Hj; simpl.
      * rewrite H2 by assumption. rewrite Nat.eqb_refl. reflexivity.
      * simpl in Hj. rewrite H1 by lia. reflexivity.
    + intros k Hk. simpl. simpl in Hk. rewrite H2 by tauto.
      destruct (Nat.eqb_spec a k); [tauto|reflexivity].
Qed.

Lemma resizes_unique axes s r r' : resizes axes s r -> resizes axes s r' -> forall k, r k = r' k.
Proof.
  intros [H1 H2] [H1' H2'] k. destruct (in_dec Nat.eq_dec k axes) as [Hin|Hin].
  - destruct (In_nth _ _ 0 Hin) as [j [Hj <-]]. rewrite H1, H1' by assumption. reflexivity.
  - rewrite H2, H2' by assumption. reflexivity.
Qed.

Lemma same_slots_ext r r' k shape old new : (forall k, r k = r' k) ->
  same_slots r k shape old new <-> same_slots r' k shape old new.
Proof.
  intros E. revert k old new; induction shape as [|n shape IH]; intros k [|i old] [|j new]; simpl; try tauto.
  rewrite E, IH. tauto.
Qed.

Lemma new_shape_length r k shape : length (new_shape r k shape) = length shape.
Proof. revert k; induction shape; intros; simpl; [reflexivity|]. rewrite IHshape. reflexivity. Qed.

Lemma new_shape_nth r k shape j : j < length shape ->
  nth j (new_shape r k shape) 0 = match r (k + j) with Some m => m | None => nth j shape 0 end.
Proof.
  revert k j; induction shape as [|n shape IH]; intros k j Hj; simpl in *; [lia|].
  destruct j; [rewrite Nat.add_0_r; unfold new_len; destruct (r k); reflexivity|].
  rewrite IH by lia. rewrite Nat.add_succ_r. reflexivity.
Qed.

Lemma resized_shape_new r shape shape' : resized_shape r shape shape' <-> shape' = new_shape r 0 shape.
Proof.
  split.
  - intros [Hl Hn]. apply (nth_ext _ _ 0 0); [rewrite new_shape_length; assumption|].
    intros k Hk. rewrite new_shape_nth by lia. rewrite Hn by lia. reflexivity.
  - intros ->. split; [apply new_shape_length|]. intros k Hk. rewrite new_shape_nth by assumption. reflexivity.
Qed.

Lemma new_shape_ext r r' k shape : (forall k, r k = r' k) -> new_shape r k shape = new_shape r' k shape.
Proof. intros E. revert k; induction shape; intros; simpl; [reflexivity|]. rewrite E, IHshape. reflexivity. Qed.

(** C01. *)
Lemma pad_ft_points_frequencies {A} (zero : A) shape array s axes resize :
  NoDup axes -> length axes = length s -> Forall (fun a => a < length shape) axes ->
  resizes axes s resize ->
  exists shape' padded,
    pad_ft_points zero shape array s axes = Some (shape', padded) /\
    resized_shape resize shape shape' /\
    forall new, in_shape new shape' ->
      (forall old, in_shape old shape -> same_slots resize 0 shape old new ->
         padded new = array old) /\
      ((forall old, in_shape old shape -> ~ same_slots resize 0 shape old new) ->
         padded new = zero).
Proof.
  intros N Hlen Hax Hr.
  assert (E := resizes_unique _ _ _ _ Hr (axis_target_resizes axes s N Hlen)).
  destruct (pad_ft_points_spec zero shape array s axes Hlen Hax) as [p [Hp Hs]].
  rewrite <- (new_shape_ext _ _ 0 shape E) in Hp, Hs.
  exists (new_shape resize 0 shape), p. split; [exact Hp|]. split; [apply resized_shape_new; reflexivity|].
  intros new Hnew. destruct (Hs new Hnew) as [H1 H2]. split.
  - intros old Ho Hss. apply H1; [assumption|]. apply (same_slots_ext _ _ 0 shape old new E). exact Hss.
  - intros Hno. apply H2. intros old Ho Hss. apply (Hno old Ho). apply (same_slots_ext _ _ 0 shape old new E). exact Hss.
Qed.

Lemma pad_ft_points_raises {A} (zero : A) shape array s axes :
  pad_ft_points zero shape array s axes = None <->
  length axes <> length s \/ ~ Forall (fun a => a < length shape) axes.
Proof.
  split.
  - intros H. destruct (Nat.eq_dec (length axes) (length s)) as [E|E]; [|tauto]. right. intros F.
    destruct (pad_ft_points_spec zero shape array s axes E F) as [p [Hp _]]. congruence.
  - unfold pad_ft_points. intros [H|H].
    + destruct (Nat.eqb_spec (length axes) (length s)); [contradiction|reflexivity].
    + destruct (forallb (fun a => a <? length shape) axes) eqn:F.
      * exfalso; apply H. rewrite forallb_forall in F. apply Forall_forall. intros a Ha.
        specialize (F a Ha). lia.
      * rewrite andb_false_r. reflexivity.
Qed.

Section RoundTrip.
  Variable r : nat -> option nat.
  Lemma slots_forward k shape idx :
    in_shape idx shape ->
    (forall j m f, j < length shape -> r (k + j) = Some m ->
       is_freq (nth j shape 0) (nth j idx 0) f -> (- (Z.of_nat m / 2) <= f <= (Z.of_nat m - 1) / 2)%Z) ->
    exists new, in_shape new (new_shape r k shape) /\ same_slots r k shape idx new.
  Proof.
    intros H; revert k; induction H as [|i n idx shape Hi H IH]; intros k Hrep; simpl.
    - exists []. split; [constructor|exact I].
    - destruct (IH (S k)) as [new [Hn Hs]].
      { intros j m f Hj Hr Hf. apply (Hrep (S j) m f); [simpl; lia|rewrite Nat.add_succ_r; exact Hr|exact Hf]. }
      destruct (r k) as [m|] eqn:Hr; simpl.
      + assert (Hf := is_freq_exists n i Hi). set (f := if 2 * i <? n then _ else _) in Hf.
        assert (Hb := Hrep 0 m f ltac:(simpl; lia) ltac:(rewrite Nat.add_0_r; exact Hr) Hf).
        destruct (is_freq_slot m f Hb ltac:(lia)) as [j [Hj Hjf]].
        exists (j :: new). split; [constructor; assumption|]. simpl. split; [|exact Hs]. exists f; split; assumption.
      + exists (i :: new). split; [constructor; assumption|]. simpl. split; [reflexivity|exact Hs].
  Qed.

  Variables (r' : nat -> option nat).
  Hypothesis r'_None : forall k, r k = None -> r' k = None.

  Lemma slots_back k shape old new :
    (forall j, j < length shape -> r (k + j) <> None -> r' (k + j) = Some (nth j shape 0)) ->
    same_slots r k shape old new -> same_slots r' k (new_shape r k shape) new old.
  Proof.
    revert k old new; induction shape as [|n shape IH]; intros k [|i old] [|j new] Hr' H; simpl in *; try tauto.
    destruct H as [H1 H2]. split.
    - assert (H0 := Hr' 0 ltac:(lia)). rewrite Nat.add_0_r in H0. simpl in H0.
      destruct (r k) as [m|] eqn:E; simpl in *.
      + rewrite H0 by discriminate. simpl. destruct H1 as [f [Ha Hb]]. exists f; split; assumption.
      + rewrite r'_None by exact E. simpl. symmetry; exact H1.
    - apply IH; [|exact H2]. intros j' Hj' Hne. specialize (Hr' (S j') ltac:(lia)).
      rewrite Nat.add_succ_r in Hr'. apply Hr'. exact Hne.
  Qed.

  Lemma slots_back_inv k shape old new :
    (forall j, j < length shape -> r (k + j) <> None -> r' (k + j) = Some (nth j shape 0)) ->
    length shape = length old -> length shape = length new ->
    same_slots r' k (new_shape r k shape) new old -> same_slots r k shape old new.
  Proof.
    revert k old new; induction shape as [|n shape IH]; intros k [|i old] [|j new] Hr' L1 L2 H; simpl in *; try discriminate; try tauto.
    destruct H as [H1 H2]. split.
    - assert (H0 := Hr' 0 ltac:(lia)). rewrite Nat.add_0_r in H0. simpl in H0.
      destruct (r k) as [m|] eqn:E; simpl in *.
      + rewrite H0 in H1 by discriminate. simpl in H1. destruct H1 as [f [Ha Hb]]. exists f; split; assumption.
      + rewrite r'_None in H1 by exact E. simpl in H1. symmetry; exact H1.
    - apply IH; [|lia|lia|exact H2]. intros j' Hj' Hne. specialize (Hr' (S j') ltac:(lia)).
      rewrite Nat.add_succ_r in Hr'. apply Hr'. exact Hne.
  Qed.
End RoundTrip.

Lemma same_slots_unique r k shape old old' new :
  in_shape old shape -> in_shape old' shape ->
  same_slots r k shape old new -> same_slots r k shape old' new -> old = old'.
Proof.
  intros H; revert k old' new; induction H as [|i n old shape Hi H IH]; intros k old' new H' S S'.
  - inversion H'; reflexivity.
  - inversion H' as [|i' ? old'' ? Hi' H'']; subst. destruct new as [|j new]; simpl in *; [tauto|].
    destruct S as [S1 S2], S' as [S1' S2']. f_equal; [|eapply IH; eassumption].
    destruct (r k) as [m|]; simpl in *; [|congruence].
    destruct S1 as [f [Ha Hb]], S1' as [f' [Ha' Hb']].
    assert (f = f') by (eapply is_freq_unique; eassumption). subst f'.
    eapply is_freq_inj; eassumption.
Qed.

Lemma same_slots_lengths r k shape old new : same_slots r k shape old new ->
  length old = length shape /\ length new = length shape.
Proof.
  revert k old new; induction shape as [|n shape IH]; intros k [|i old] [|j new] H; simpl in *; try tauto.
  destruct (IH _ _ _ (proj2 H)). lia.
Qed.

Lemma same_slots_representable r shape old new : in_shape old shape ->
  in_shape new (new_shape r 0 shape) ->
  same_slots r 0 shape old new -> representable r shape old.
Proof.
  assert (G : forall k shape old new, in_shape old shape -> same_slots r k shape old new ->
    forall j m f, j < length shape -> r (k + j) = Some m -> is_freq (nth j shape 0) (nth j old 0) f ->
    (- (Z.of_nat m / 2) <= f <= (Z.of_nat m - 1) / 2)%Z).
  { clear. intros k shape old new H; revert k new; induction H as [|i n old shape Hi H IH]; intros k [|j' new] S j m f Hj Hr Hf; simpl in *; try tauto; try lia.
    destruct S as [S1 S2]. destruct j as [|j].
    - rewrite Nat.add_0_r in Hr. rewrite Hr in S1. destruct S1 as [g [Ha Hb]].
      assert (f = g) by (eapply is_freq_unique; eassumption). subst g. apply Hb.
    - apply (IH (S k) new S2 j m f); [lia|rewrite <- Nat.add_succ_comm in Hr; exact Hr|exact Hf]. }
  intros Ho Hn S k m f. apply (G 0 shape old new Ho S).
Qed.

(** C02. *)
Lemma pad_ft_points_round_trip {A} (zero : A) shape array s axes resize n shape' p :
  NoDup axes -> length axes = length s -> Forall (fun a => a < length shape) axes ->
  resizes axes s resize -> n = map (fun a => nth a shape 0) axes ->
  pad_ft_points zero shape array s axes = Some (shape', p) ->
  exists q, pad_ft_points zero shape' p n axes = Some (shape, q) /\
    forall idx, in_shape idx shape ->
      (representable resize shape idx -> q idx = array idx) /\
      (~ representable resize shape idx -> q idx = zero).
Proof.
  intros N Hlen Hax Hr Hn Hp.
  destruct (pad_ft_points_frequencies zero shape array s axes resize N Hlen Hax Hr) as [sh [p' [Hp' [Hsh Hsp]]]].
  rewrite Hp in Hp'. injection Hp' as <- <-.
  apply resized_shape_new in Hsh. subst shape'.
  set (resize' := fun k => match resize k with Some _ => Some (nth k shape 0) | None => None end).
  assert (Hln : length axes = length n) by (subst n; rewrite map_length; reflexivity).
  assert (Hr' : resizes axes n resize').
  { destruct Hr as [H1 H2]. split.
    - intros j Hj. unfold resize'. rewrite H1 by assumption. f_equal. subst n.
      rewrite (nth_indep (map _ _) 0 (nth 0 shape 0)) by (rewrite map_length; assumption).
      rewrite (map_nth (fun a => nth a shape 0) axes 0 j). reflexivity.
    - intros k Hk. unfold resize'. rewrite H2 by assumption. reflexivity. }
  assert (HN : forall k, resize k = None -> resize' k = None) by (intros k Hk; unfold resize'; rewrite Hk; reflexivity).
  assert (HS : forall j, j < length shape -> resize (0 + j) <> None -> resize' (0 + j) = Some (nth j shape 0)).
  { intros j Hj Hne. simpl in *. unfold resize'. destruct (resize j); [reflexivity|congruence]. }
  assert (Hax' : Forall (fun a => a < length (new_shape resize 0 shape)) axes) by (rewrite new_shape_length; assumption).
  destruct (pad_ft_points_frequencies zero _ p n axes resize' N Hln Hax' Hr') as [sh2 [q [Hq [Hsh2 Hsq]]]].
  assert (Esh : sh2 = shape).
  { destruct Hsh2 as [L Hk]. rewrite new_shape_length in L.
    apply (nth_ext _ _ 0 0); [exact L|]. intros k Hk'. rewrite Hk by (rewrite new_shape_length; lia).
    rewrite new_shape_nth by lia. simpl. unfold resize'. destruct (resize k); reflexivity. }
  subst sh2. exists q. split; [exact Hq|]. intros idx Hidx. destruct (Hsq idx Hidx) as [Q1 Q2].
  split.
  - intros Hrep. destruct (slots_forward resize 0 shape idx Hidx) as [new [Hnew Hs]].
    { intros j m f Hj Hm Hf. exact (Hrep j m f Hj Hm Hf). }
    rewrite (Q1 new Hnew (slots_back resize resize' HN 0 shape idx new HS Hs)).
    apply (proj1 (Hsp new Hnew)); assumption.
  - intros Hnr. apply Q2. intros new Hnew Hs. apply Hnr.
    assert (L : length idx = length shape /\ length new = length shape).
    { destruct (same_slots_lengths _ _ _ _ _ Hs) as [L1 L2]. rewrite new_shape_length in *. lia. }
    apply (slots_back_inv resize resize' HN 0 shape idx new HS) in Hs; [|lia|lia].
    eapply same_slots_representable; eassumption.
Qed.

Lemma representable_larger resize shape idx :
  (forall k m, resize k = Some m -> k < length shape -> nth k shape 0 <= m) ->
  representable resize shape idx.
Proof.
  intros H k m f Hk Hm [_ Hf]. specialize (H k m Hm Hk). lia.
Qed.

Lemma pad_then_truncate_identity {A} (zero : A) shape array s axes n shape' p :
  NoDup axes -> length axes = length s -> Forall (fun a => a < length shape) axes ->
  n = map (fun a => nth a shape 0) axes ->
  (forall j, j < length axes -> nth j n 0 <= nth j s 0) ->
  pad_ft_points zero shape array s axes = Some (shape', p) ->
  exists q, pad_ft_points zero shape' p n axes = Some (shape, q) /\
    forall idx, in_shape idx shape -> q idx = array idx.
Proof.
  intros N Hlen Hax Hn Hle Hp.
  assert (Hr := axis_target_resizes axes s N Hlen).
  destruct (pad_ft_points_round_trip zero shape array s axes _ n shape' p N Hlen Hax Hr Hn Hp) as [q [Hq Hs]].
  exists q. split; [exact Hq|]. intros idx Hidx. apply (proj1 (Hs idx Hidx)).
  apply representable_larger. intros k m Hm Hk. destruct Hr as [H1 H2].
  destruct (in_dec Nat.eq_dec k axes) as [Hin|Hin]; [|rewrite H2 in Hm by assumption; discriminate].
  destruct (In_nth _ _ 0 Hin) as [j [Hj Ej]]. specialize (H1 j Hj). rewrite Ej in H1.
  rewrite H1 in Hm. injection Hm as <-. specialize (Hle j Hj). rewrite Hn in Hle.
  rewrite (nth_indep (map _ _) 0 (nth 0 shape 0)) in Hle by (rewrite map_length; assumption).
  rewrite (map_nth (fun a => nth a shape 0) axes 0 j), Ej in Hle. exact Hle.
Qed.
