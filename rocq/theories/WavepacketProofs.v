(** Unfurling. *)
From Coq Require Import Reals.
From Verif Require Import ZLib Csum DFT NumPy Interp Index IndexProofs AxesProofs Spec Basis SpecBasis BasisProofs BasisProofs2
  BasisProofs3 BasisFacts Operator SpecOperator OperatorProofs IndexSum Wavepacket SpecWavepacket.
Local Open Scope R_scope.
Local Open Scope C_scope.

Lemma map2_supercell ls : forall ss, map2 Nat.mul ls ss = supercell ls ss.
Proof. induction ls as [|n ls IH]; intros [|m ss]; cbn; try reflexivity. rewrite IH. reflexivity. Qed.

(** ** The slot *)
Fixpoint unfurl_slot (ls ss s k : list nat) : list nat :=
  match ls, ss, s, k with
  | n :: ls, m :: ss, i :: s, j :: k => slot (n * m) (Z.of_nat n * freq m j + freq n i) :: unfurl_slot ls ss s k
  | _, _, _, _ => []
  end.

Lemma is_freq_unique n i f g : is_freq n i f -> is_freq n i g -> f = g.
Proof.
  intros [H1 H2] [H3 H4]. apply (Zcong_range_eq (Z.of_nat n) (- (Z.of_nat n / 2))).
  - eapply Zcong_trans; [exact H1|]. apply Zcong_sym. exact H3.
  - lia.
  - lia.
Qed.

Lemma unfurl_slot_iff ls : forall ss s k f, length ls = length ss -> in_shape s ls -> in_shape k ss ->
  (supercell_slot ls ss s k f <-> f = unfurl_slot ls ss s k).
Proof.
  induction ls as [|n ls IH]; intros ss s k f Hl Hs Hk; destruct ss as [|m ss]; try discriminate;
    inversion Hs as [|i ? s' ? Hi Hs']; subst; inversion Hk as [|j ? k' ? Hj Hk']; subst; cbn [supercell_slot unfurl_slot].
  - destruct f; [split; auto|split; [intros []|discriminate]].
  - destruct f as [|t f]; [split; [intros []|discriminate]|].
    rewrite (IH ss s' k' f) by (auto; cbn in Hl; lia). split.
    + intros [[q [r [Hq [Hr [Ht Hc]]]]] ->]. f_equal.
      rewrite (is_freq_unique n i q (freq n i)) in Hc by (auto; apply freq_is_freq; auto).
      rewrite (is_freq_unique m j r (freq m j)) in Hc by (auto; apply freq_is_freq; auto).
      assert (Zcong (Z.of_nat (n * m)) (Z.of_nat (slot (n * m) (Z.of_nat n * freq m j + freq n i))) (Z.of_nat n * freq m j + freq n i)%Z) as Hs2 by (apply slot_cong; nia).
      assert (slot (n * m) (Z.of_nat n * freq m j + freq n i) < n * m)%nat as Hlt by (apply slot_lt; nia).
      apply Nat2Z.inj. apply (Zcong_range_eq (Z.of_nat (n * m)) 0); [|lia|lia].
      eapply Zcong_trans; [exact Hc|]. apply Zcong_sym. exact Hs2.
    + intros E. injection E as -> ->. split; [|reflexivity].
      exists (freq n i), (freq m j). split; [apply freq_is_freq; auto|]. split; [apply freq_is_freq; auto|].
      split; [apply slot_lt; nia|]. apply slot_cong; nia.
Qed.

Lemma unfurl_slot_in ls : forall ss s k, length ls = length ss -> in_shape s ls -> in_shape k ss ->
  in_shape (unfurl_slot ls ss s k) (supercell ls ss).
Proof.
  induction ls as [|n ls IH]; intros ss s k Hl Hs Hk; destruct ss as [|m ss]; try discriminate;
    inversion Hs as [|i ? s' ? Hi Hs']; subst; inversion Hk as [|j ? k' ? Hj Hk']; subst; cbn [unfurl_slot supercell].
  - constructor.
  - constructor; [apply slot_lt; nia|]. apply IH; auto; cbn in Hl; lia.
Qed.

(** One axis: going back. *)
Lemma slot_back n m i j : (i < n)%nat -> (j < m)%nat ->
  let f := slot (n * m) (Z.of_nat n * freq m j + freq n i) in
  let g := Z.to_nat ((Z.of_nat f - (- Z.of_nat (n / 2 + n * (m / 2)))) mod Z.of_nat (n * m)) in
  let x := Z.to_nat (freq m j + Z.of_nat (m / 2)) in
  let s := Z.to_nat (freq n i + Z.of_nat (n / 2)) in
  g = (x * n + s)%nat /\ (x < m)%nat /\ (s < n)%nat /\
  Z.to_nat ((Z.of_nat x - Z.of_nat (m / 2)) mod Z.of_nat m) = j /\
  Z.to_nat ((Z.of_nat s - Z.of_nat (n / 2)) mod Z.of_nat n) = i.
Proof.
  intros Hi Hj. cbv zeta. set (f := slot _ _).
  destruct (freq_is_freq n i Hi) as [Ci Ri]. destruct (freq_is_freq m j Hj) as [Cj Rj].
  assert (Cf : Zcong (Z.of_nat (n * m)) (Z.of_nat f) (Z.of_nat n * freq m j + freq n i)%Z) by (apply slot_cong; nia).
  assert (Hf : (f < n * m)%nat) by (apply slot_lt; nia).
  set (q := freq n i) in *. set (r := freq m j) in *.
  assert (En : (0 <= q + Z.of_nat (n / 2) < Z.of_nat n)%Z)
    by (rewrite Nat2Z.inj_div; change (Z.of_nat 2) with 2%Z; Z.div_mod_to_equations; lia).
  assert (Em : (0 <= r + Z.of_nat (m / 2) < Z.of_nat m)%Z)
    by (rewrite Nat2Z.inj_div; change (Z.of_nat 2) with 2%Z; Z.div_mod_to_equations; lia).
  assert (Ex : Z.of_nat (Z.to_nat (r + Z.of_nat (m / 2))) = (r + Z.of_nat (m / 2))%Z) by lia.
  assert (Es : Z.of_nat (Z.to_nat (q + Z.of_nat (n / 2))) = (q + Z.of_nat (n / 2))%Z) by lia.
  assert (Hx : (Z.to_nat (r + Z.of_nat (m / 2)) < m)%nat) by lia.
  assert (Hs : (Z.to_nat (q + Z.of_nat (n / 2)) < n)%nat) by lia.
  split; [|split; [exact Hx|split; [exact Hs|split]]].
  - apply Nat2Z.inj. rewrite Z2Nat.id by (apply Z.mod_pos_bound; nia).
    apply Zmod_unique_range; [nia|split; [apply Nat2Z.is_nonneg|]|].
    + apply inj_lt. nia.
    + destruct Cf as [c ->]. exists c. rewrite !Nat2Z.inj_add, !Nat2Z.inj_mul, Ex, Es. ring.
  - rewrite Ex. replace (r + Z.of_nat (m / 2) - Z.of_nat (m / 2))%Z with r by ring.
    rewrite (Zmod_unique_range r (Z.of_nat j) (Z.of_nat m)) by (try exact Cj; lia). lia.
  - rewrite Es. replace (q + Z.of_nat (n / 2) - Z.of_nat (n / 2))%Z with q by ring.
    rewrite (Zmod_unique_range q (Z.of_nat i) (Z.of_nat n)) by (try exact Ci; lia). lia.
Qed.

(** The shifted positions of sample and state. *)
Fixpoint centred (shape idx : list nat) : list nat :=
  match shape, idx with
  | n :: shape, i :: idx => Z.to_nat (freq n i + Z.of_nat (n / 2)) :: centred shape idx
  | _, _ => []
  end.
Lemma centred_in shape : forall idx, in_shape idx shape -> in_shape (centred shape idx) shape.
Proof.
  induction shape as [|n shape IH]; intros idx H; inversion H as [|i ? idx' ? Hi Hx]; subst; cbn [centred].
  - constructor.
  - constructor; [|apply IH; assumption]. destruct (slot_back n n i i Hi Hi) as [_ [_ [X _]]]. exact X.
Qed.
Lemma centred_back shape : forall idx, in_shape idx shape ->
  roll_indices shape (map (fun n => Z.of_nat (n / 2)) shape) (centred shape idx) = idx.
Proof.
  induction shape as [|n shape IH]; intros idx H; inversion H as [|i ? idx' ? Hi Hx]; subst; cbn [centred roll_indices map].
  - reflexivity.
  - rewrite IH by assumption. f_equal. apply (slot_back n n i i Hi Hi).
Qed.

Fixpoint merge (ls x s : list nat) : list nat :=
  match ls, x, s with n :: ls, a :: x, b :: s => (a * n + b)%nat :: merge ls x s | _, _, _ => [] end.
Lemma roll_unfurl ls : forall ss s k, length ls = length ss -> in_shape s ls -> in_shape k ss ->
  roll_indices (supercell ls ss) (map2 (fun n m => (- Z.of_nat (n / 2 + n * (m / 2)))%Z) ls ss) (unfurl_slot ls ss s k) =
  merge ls (centred ss k) (centred ls s).
Proof.
  induction ls as [|n ls IH]; intros ss s k Hl Hs Hk; destruct ss as [|m ss]; try discriminate;
    inversion Hs as [|i ? s' ? Hi Hs']; subst; inversion Hk as [|j ? k' ? Hj Hk']; subst;
    cbn [unfurl_slot supercell map2 roll_indices centred merge].
  - reflexivity.
  - rewrite IH by (auto; cbn in Hl; lia). f_equal. apply (slot_back n m i j Hi Hj).
Qed.

(** ** Interleaving *)
Definition interleave {A} (x s : list A) : list A := flat_map (fun p => [fst p; snd p]) (combine x s).

Lemma combine_seq nd : forall a b, combine (seq a nd) (seq b nd) = map (fun i => (a + i, b + i)%nat) (seq 0 nd).
Proof.
  induction nd as [|nd IH]; intros a b; cbn [seq combine map]; [reflexivity|].
  rewrite (IH (S a) (S b)), <- seq_shift, map_map. f_equal; [f_equal; lia|].
  apply map_ext. intros i. f_equal; lia.
Qed.
Lemma combine_nth_map {A} (d : A) (x s : list A) : length x = length s ->
  combine x s = map (fun i => (nth i x d, nth i s d)) (seq 0 (length x)).
Proof.
  revert s. induction x as [|a x IH]; intros [|b s] H; try discriminate; [reflexivity|].
  cbn [combine length seq map nth]. rewrite IH by (cbn in H; lia). f_equal.
  rewrite <- seq_shift, map_map. reflexivity.
Qed.
Lemma interleave_locations (x s : list nat) : length x = length s ->
  map (fun k => nth k (s ++ x) 0%nat) (locations (length s)) = interleave x s.
Proof.
  intros H. unfold locations, interleave. rewrite combine_seq, (combine_nth_map 0%nat x s H), H.
  set (nd := length s). assert (Hn : forall i, In i (seq 0 nd) -> (i < nd)%nat) by (intros i Hi; apply in_seq in Hi; lia).
  revert Hn. generalize (seq 0 nd) as l. induction l as [|i l IH]; intros Hn; [reflexivity|].
  cbn [map flat_map fst snd app]. rewrite IH by (intros j Hj; apply Hn; right; exact Hj).
  rewrite app_nth2 by (fold nd; lia). fold nd. replace (nd + i - nd)%nat with i by lia.
  rewrite app_nth1 by (fold nd; rewrite Nat.add_0_l; apply Hn; left; reflexivity). reflexivity.
Qed.
Lemma transpose_read {A} perm (a : list nat -> A) full : NoDup perm ->
  (forall m, (m < length perm)%nat -> In m perm) -> length full = length perm ->
  transpose perm a (map (fun k => nth k full 0%nat) perm) = a full.
Proof.
  intros Hd Hc Hl. unfold transpose. f_equal. transitivity (map (fun i => nth i full 0%nat) (seq 0 (length full))).
  - rewrite <- Hl. apply map_ext_in. intros m Hm. apply in_seq in Hm. rewrite Hl in Hm.
    destruct (list_index_nth m perm 0%nat (Hc m ltac:(lia))) as [E L].
    rewrite (nth_indep _ 0%nat (nth 0 full 0%nat)) by (rewrite map_length; exact L).
    rewrite (map_nth (fun k => nth k full 0%nat) perm 0%nat). rewrite E. reflexivity.
  - apply map_nth_seq.
Qed.
Lemma locations_in nd m : In m (locations nd) <-> (m < nd + nd)%nat.
Proof.
  unfold locations. rewrite combine_seq, in_flat_map. split.
  - intros [p [Hp Hm]]. apply in_map_iff in Hp. destruct Hp as [i [<- Hi]]. apply in_seq in Hi. cbn in Hm. lia.
  - intros H. destruct (Nat.lt_ge_cases m nd).
    + exists (nd + m, 0 + m)%nat. split; [apply in_map_iff; exists m; split; [reflexivity|apply in_seq; lia]|right; left; reflexivity].
    + exists (nd + (m - nd), 0 + (m - nd))%nat. split; [apply in_map_iff; exists (m - nd)%nat; split; [reflexivity|apply in_seq; lia]|left; cbn; lia].
Qed.
Lemma locations_length nd : length (locations nd) = (nd + nd)%nat.
Proof.
  unfold locations. rewrite combine_seq. transitivity (2 * length (seq 0 nd))%nat; [|rewrite seq_length; lia].
  generalize (seq 0 nd). induction l as [|i l IH]; [reflexivity|]. cbn [map flat_map app length]. lia.
Qed.
Lemma locations_nodup nd : NoDup (locations nd).
Proof.
  apply (@NoDup_incl_NoDup _ (seq 0 (nd + nd)) (locations nd)).
  - apply seq_NoDup.
  - rewrite locations_length, seq_length. lia.
  - intros m Hm. apply in_seq in Hm. apply locations_in. lia.
Qed.

Lemma nprod_interleave ls : forall ss, length ls = length ss -> nprod (interleave ss ls) = nprod (supercell ls ss).
Proof.
  induction ls as [|n ls IH]; intros [|m ss] H; try discriminate; [reflexivity|].
  cbn in H. unfold interleave in *. cbn [combine flat_map fst snd app nprod supercell]. rewrite IH by lia. ring.
Qed.
Lemma ravel_interleave ls : forall ss x s, length ls = length ss -> length x = length ls -> length s = length ls ->
  ravel (interleave ss ls) (interleave x s) = ravel (supercell ls ss) (merge ls x s).
Proof.
  induction ls as [|n ls IH]; intros [|m ss] [|a x] [|b s] H1 H2 H3; try discriminate; [reflexivity|].
  cbn in *. pose proof (nprod_interleave ls ss ltac:(lia)) as Hp. unfold interleave in *.
  cbn [combine flat_map fst snd app ravel supercell merge nprod]. rewrite IH by lia. rewrite Hp. ring.
Qed.
Lemma interleave_in ls : forall ss x s, length ls = length ss -> in_shape x ss -> in_shape s ls ->
  in_shape (interleave x s) (interleave ss ls).
Proof.
  induction ls as [|n ls IH]; intros [|m ss] x s H Hx Hs; try discriminate;
    inversion Hx as [|a ? x' ? Ha Hx']; subst; inversion Hs as [|b ? s' ? Hb Hs']; subst.
  - constructor.
  - unfold interleave in *. cbn [combine flat_map fst snd app]. constructor; [assumption|]. constructor; [assumption|].
    apply IH; auto; cbn in H; lia.
Qed.

Lemma roll_indices_app s : forall s' d d' i j, length s = length i -> length d = length s ->
  roll_indices (s ++ s') (d ++ d') (i ++ j) = roll_indices s d i ++ roll_indices s' d' j.
Proof.
  induction s as [|n s IH]; intros s' d d' i j H1 H2; destruct d; destruct i; try discriminate; [reflexivity|].
  cbn [app roll_indices]. rewrite IH by (cbn in *; lia). reflexivity.
Qed.

(** ** The whole function *)
Lemma unfurl_momentum_spec ls ss d : length ls = length ss -> nprod (ashape d) = (nprod ls * nprod ss)%nat ->
  exists out, unfurl_momentum ls ss d = Some out /\ ashape out = [nprod (supercell ls ss)] /\
    forall s k, in_shape s ls -> in_shape k ss ->
      aflat out (ravel (supercell ls ss) (unfurl_slot ls ss s k)) =
      isqrt (nprod ls) * aflat d (ravel ls s * nprod ss + ravel ss k).
Proof.
  intros Hl Hd. unfold unfurl_momentum. rewrite Hl, Nat.eqb_refl. rewrite reshape_some by (rewrite nprod_app; exact Hd).
  eexists. split; [reflexivity|]. split; [cbn [ashape]; rewrite map2_supercell; reflexivity|].
  intros s k Hs Hk. cbn [aflat ashape]. rewrite map2_supercell.
  set (F := supercell ls ss). assert (Hu := unfurl_slot_in ls ss s k Hl Hs Hk). fold F in Hu.
  unfold flatten at 1. rewrite unravel_ravel by assumption. unfold roll_axes at 1.
  unfold F. clear F Hu. rewrite roll_unfurl by assumption.
  assert (Ls := in_shape_length _ _ (centred_in ls s Hs)). assert (Lk := in_shape_length _ _ (centred_in ss k Hk)).
  unfold stack at 1. rewrite <- Hl. rewrite <- ravel_interleave by congruence.
  unfold flatten. rewrite interleave_locations by congruence. rewrite unravel_ravel by (apply interleave_in; auto using centred_in).
  replace (locations (length ls)) with (locations (length (centred ls s))) by congruence.
  rewrite <- interleave_locations by congruence.
  rewrite transpose_read;
    [|apply locations_nodup|intros m Hm; apply locations_in; rewrite locations_length in Hm; exact Hm
     |rewrite app_length, locations_length; congruence].
  unfold fftshift_axes, roll_axes. rewrite map_app, roll_indices_app by (rewrite ?map_length; congruence).
  rewrite !centred_back by assumption. unfold stack. rewrite ravel_app by (apply in_shape_length; assumption).
  assert (Hp : (0 < nprod ls)%nat) by (assert (Hr := ravel_lt ls s Hs); lia).
  unfold isqrt. rewrite RtoC_inv. { unfold Cdiv. apply Cmult_comm. }
  apply Rgt_not_eq, sqrt_lt_R0, lt_0_INR. exact Hp.
Qed.

(** ** Every frequency once *)
Lemma slot_split n m t : (t < n * m)%nat ->
  let i := slot n (freq (n * m) t) in
  let j := slot m ((freq (n * m) t - freq n i) / Z.of_nat n) in
  (i < n)%nat /\ (j < m)%nat /\ slot (n * m) (Z.of_nat n * freq m j + freq n i) = t.
Proof.
  intros Ht. cbv zeta. set (g := freq (n * m) t). set (i := slot n g).
  assert (Hn : (0 < n)%nat) by nia. assert (Hm : (0 < m)%nat) by nia.
  assert (Hi : (i < n)%nat) by (apply slot_lt; assumption).
  set (j := slot m ((g - freq n i) / Z.of_nat n)). assert (Hj : (j < m)%nat) by (apply slot_lt; assumption).
  split; [exact Hi|]. split; [exact Hj|].
  destruct (freq_is_freq n i Hi) as [[a Ea] _]. destruct (slot_cong n g Hn) as [b Eb]. fold i in Eb.
  assert (Eq : ((g - freq n i) / Z.of_nat n)%Z = (- a - b)%Z).
  { replace (g - freq n i)%Z with ((- a - b) * Z.of_nat n)%Z by lia. apply Z.div_mul. lia. }
  destruct (freq_is_freq m j Hj) as [[c Ec] _].
  destruct (slot_cong m ((g - freq n i) / Z.of_nat n) Hm) as [e Ee]. fold j in Ee. rewrite Eq in Ee.
  destruct (freq_cong (n * m) t Ht) as [h Eh]. fold g in Eh.
  apply Nat2Z.inj. apply (Zcong_range_eq (Z.of_nat (n * m)) 0).
  - eapply Zcong_trans; [apply slot_cong; nia|]. exists (e + c + h)%Z. rewrite Nat2Z.inj_mul in *. rewrite Ec, Ee, Ea, Eb, Eh. ring.
  - split; [apply Nat2Z.is_nonneg|]. apply inj_lt, slot_lt. nia.
  - split; [apply Nat2Z.is_nonneg|]. apply inj_lt. exact Ht.
Qed.
Lemma slot_pair_inj n m i j i' j' : (i < n)%nat -> (j < m)%nat -> (i' < n)%nat -> (j' < m)%nat ->
  slot (n * m) (Z.of_nat n * freq m j + freq n i) = slot (n * m) (Z.of_nat n * freq m j' + freq n i') ->
  i = i' /\ j = j'.
Proof.
  intros Hi Hj Hi' Hj' E.
  destruct (slot_back n m i j Hi Hj) as [G [X [S [J I]]]]. destruct (slot_back n m i' j' Hi' Hj') as [G' [X' [S' [J' I']]]].
  rewrite E in G. rewrite G in G'.
  set (x := Z.to_nat (freq m j + _)) in *. set (x' := Z.to_nat (freq m j' + _)) in *.
  set (s := Z.to_nat (freq n i + _)) in *. set (s' := Z.to_nat (freq n i' + _)) in *.
  assert (E1 : x = x' /\ s = s').
  { clear - G' S S'. assert (Ex : x = ((x * n + s) / n)%nat) by (symmetry; apply div_add_small; exact S).
    assert (Ex' : x' = ((x' * n + s') / n)%nat) by (symmetry; apply div_add_small; exact S').
    assert (Es : s = ((x * n + s) mod n)%nat) by (symmetry; apply mod_add_small; exact S).
    assert (Es' : s' = ((x' * n + s') mod n)%nat) by (symmetry; apply mod_add_small; exact S').
    rewrite G' in Ex, Es. split; congruence. }
  destruct E1. split; congruence.
Qed.

Lemma csum_slots n m (f : nat -> C) :
  csum f (n * m) = csum (fun i => csum (fun j => f (slot (n * m) (Z.of_nat n * freq m j + freq n i))) m) n.
Proof.
  rewrite <- csum_div_mod with (f := fun i j => f (slot (n * m) (Z.of_nat n * freq m j + freq n i))).
  destruct (Nat.eq_dec m 0) as [->|Hm]; [rewrite Nat.mul_0_r; reflexivity|].
  symmetry. apply csum_bij with (t := fun t => let i := slot n (freq (n * m) t) in
     (i * m + slot m ((freq (n * m) t - freq n i) / Z.of_nat n))%nat).
  - intros k Hk. assert (Hi : (k / m < n)%nat) by (apply Nat.div_lt_upper_bound; lia).
    assert (Hj : (k mod m < m)%nat) by (apply Nat.mod_upper_bound; lia).
    set (t := slot (n * m) _). assert (Ht : (t < n * m)%nat) by (apply slot_lt; nia). split; [exact Ht|].
    cbv zeta. destruct (slot_split n m t Ht) as [A [B E]]. cbv zeta in A, B, E.
    destruct (slot_pair_inj n m _ _ (k / m) (k mod m) A B Hi Hj E) as [-> ->].
    rewrite (Nat.div_mod_eq k m) at 3. lia.
  - intros t Ht. destruct (slot_split n m t Ht) as [A [B E]]. cbv zeta in A, B, E |- *.
    set (i := slot n _) in *. set (j := slot m _) in *. split; [nia|].
    rewrite (div_add_small i m j), (mod_add_small i m j) by exact B. exact E.
Qed.

Lemma isum_unfurl ls : forall ss f, length ls = length ss ->
  isum (supercell ls ss) f = isum ls (fun s => isum ss (fun k => f (unfurl_slot ls ss s k))).
Proof.
  induction ls as [|n ls IH]; intros [|m ss] f H; try discriminate; [reflexivity|].
  cbn [supercell isum unfurl_slot]. rewrite csum_slots. apply csum_ext. intros i _.
  rewrite isum_csum. apply csum_ext. intros j _. apply IH. cbn in H; lia.
Qed.

Lemma unfurl_once ls : forall ss f, length ls = length ss -> in_shape f (supercell ls ss) ->
  exists s k, in_shape s ls /\ in_shape k ss /\ unfurl_slot ls ss s k = f /\
    forall s' k', in_shape s' ls -> in_shape k' ss -> unfurl_slot ls ss s' k' = f -> s' = s /\ k' = k.
Proof.
  induction ls as [|n ls IH]; intros [|m ss] f Hl Hf; try discriminate; inversion Hf as [|t ? f' ? Ht Hf']; subst.
  - exists [], []. repeat split; try constructor; inversion H; inversion H0; reflexivity.
  - destruct (IH ss f' ltac:(cbn in Hl; lia) Hf') as [s [k [Hs [Hk [E U]]]]].
    destruct (slot_split n m t Ht) as [A [B G]]. cbv zeta in A, B, G.
    set (j := slot m _) in *. clearbody j. set (i := slot n _) in *. clearbody i.
    exists (i :: s), (j :: k). split; [constructor; assumption|]. split; [constructor; assumption|].
    cbn [unfurl_slot]. split; [congruence|]. intros s' k' Hs' Hk' E'.
    inversion Hs' as [|i' ? s2 ? Hi' Hs2]; subst. inversion Hk' as [|j' ? k2 ? Hj' Hk2]; subst.
    cbn [unfurl_slot] in E'. injection E' as E1 E2. destruct (U s2 k2 Hs2 Hk2 E2) as [-> ->].
    destruct (slot_pair_inj n m i' j' i j Hi' Hj' A B E1) as [E3 E4]. rewrite E3, E4. split; reflexivity.
Qed.

(** ** Inner products *)
Lemma unfurl_inner ls ss u v u' v' : length ls = length ss ->
  nprod (ashape u) = (nprod ls * nprod ss)%nat -> nprod (ashape v) = (nprod ls * nprod ss)%nat ->
  unfurl_momentum ls ss u = Some u' -> unfurl_momentum ls ss v = Some v' -> (0 < nprod ls)%nat ->
  inner_product (nprod (supercell ls ss)) (aflat u') (aflat v') =
  RtoC (/ INR (nprod ls)) * csum (fun s => inner_product (nprod ss) (row (nprod ss) (aflat u) s) (row (nprod ss) (aflat v) s)) (nprod ls).
Proof.
  intros Hl Hu Hv Eu Ev Hp.
  destruct (unfurl_momentum_spec ls ss u Hl Hu) as [u2 [E2 [_ Su]]]. rewrite Eu in E2. injection E2 as <-.
  destruct (unfurl_momentum_spec ls ss v Hl Hv) as [v2 [E2 [_ Sv]]]. rewrite Ev in E2. injection E2 as <-.
  unfold inner_product at 1. rewrite isum_ravel, isum_unfurl by assumption.
  rewrite (isum_ravel ls), <- isum_scal_l. apply isum_ext. intros s Hs.
  unfold inner_product. rewrite (isum_ravel ss), <- isum_scal_l. apply isum_ext. intros k Hk.
  rewrite Su, Sv by assumption. unfold row. rewrite Cconj_mult, isqrt_conj.
  assert (E := isqrt_sqr (nprod ls) Hp).
  assert (E2 : RtoC (/ INR (nprod ls)) = isqrt (nprod ls) * isqrt (nprod ls)).
  { rewrite <- (Cmult_1_r (RtoC (/ _))), <- E. rewrite RtoC_inv by (apply not_0_INR; lia). field.
    intros Z. apply RtoC_inj in Z. revert Z. apply not_0_INR. lia. }
  rewrite E2. ring.
Qed.
