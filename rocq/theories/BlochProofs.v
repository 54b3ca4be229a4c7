(** The index shuffles of BlochBasis. *)
From Coq Require Import Reals.
From Verif Require Import ZLib Csum DFT NumPy Interp Index IndexProofs AxesProofs Spec Basis SpecBasis BasisProofs BasisProofs2
  BasisProofs3 BasisFacts Operator SpecOperator OperatorProofs Reduce ReduceProofs IndexSum Wavepacket SpecWavepacket WavepacketProofs
  WavepacketProofs2 WavepacketProofs3 BlochBasis.
Local Open Scope R_scope.
Local Open Scope C_scope.

Lemma perm_locations nd : flat_map (fun i => [i + nd; i]%nat) (seq 0 nd) = locations nd.
Proof.
  unfold locations. rewrite combine_seq, !flat_map_concat_map, map_map. f_equal. apply map_ext.
  intros i. cbn [fst snd]. rewrite Nat.add_comm. reflexivity.
Qed.

Lemma unfurled_momenta ls saxes : unfurled_basis ls saxes = momenta (supercell ls (map bfund saxes)).
Proof. unfold unfurled_basis, momenta. rewrite map2_supercell. reflexivity. Qed.

(** The shuffle of [__into_fundamental__], which is that of [unfurl_momentum] without the
    normalisation. *)
Definition into_shuffle (ls ks : list nat) (a : nat -> C) : nat -> C :=
  let shifted := fftshift_axes (ls ++ ks) (stack (ls ++ ks) a) in
  let perm := flat_map (fun i => [i + length ks; i])%nat (seq 0 (length ks)) in
  let transposed := transpose perm shifted in
  let transposed_shape := map (fun k => nth k (ls ++ ks) 0%nat) perm in
  let final_shape := map2 Nat.mul ls ks in
  let shift := map2 (fun nl n_s => (- Z.of_nat (nl / 2 + nl * (n_s / 2)))%Z) ls ks in
  flatten final_shape (roll_axes final_shape shift (stack final_shape (flatten transposed_shape transposed))).

Lemma into_shuffle_spec ls ss a s k : length ls = length ss -> in_shape s ls -> in_shape k ss ->
  into_shuffle ls ss a (ravel (supercell ls ss) (unfurl_slot ls ss s k)) = a (ravel ls s * nprod ss + ravel ss k)%nat.
Proof.
  intros Hl Hs Hk. unfold into_shuffle. rewrite map2_supercell, perm_locations.
  set (F := supercell ls ss). assert (Hu := unfurl_slot_in ls ss s k Hl Hs Hk). fold F in Hu.
  unfold flatten at 1. rewrite unravel_ravel by assumption. unfold roll_axes at 1.
  unfold F. clear F Hu. rewrite roll_unfurl by assumption.
  assert (Ls := in_shape_length _ _ (centred_in ls s Hs)). assert (Lk := in_shape_length _ _ (centred_in ss k Hk)).
  unfold stack at 1. rewrite <- Hl. rewrite <- ravel_interleave by congruence.
  unfold flatten. rewrite interleave_locations by congruence. rewrite unravel_ravel by (apply interleave_in; auto using centred_in).
  replace (locations (length ls)) with (locations (length (centred ls s))) by congruence.
  rewrite <- interleave_locations by congruence.
  rewrite transpose_read;
    [|apply locations_nodup|intros m Hm; apply locations_in; rewrite locations_length in Hm; exact Hm
     |rewrite app_length, locations_length; congruence].
  unfold fftshift_axes, roll_axes. rewrite map_app, roll_indices_app by (rewrite ?map_length; congruence).
  rewrite !centred_back by assumption. unfold stack. rewrite ravel_app by (apply in_shape_length; assumption).
  reflexivity.
Qed.

(** The shuffle of [__from_fundamental__]. *)
Definition from_perm (nd : nat) : list nat :=
  (map (fun i => 1 + 2 * i) (seq 0 nd) ++ map (fun i => 2 * i) (seq 0 nd))%nat.
Definition from_shuffle (ls ks : list nat) (a : nat -> C) : nat -> C :=
  let outer_shape := map2 Nat.mul ks ls in
  let inner_shape := flat_map (fun p => [fst p; snd p]) (combine ks ls) in
  let shift := map2 (fun n_s nl => Z.of_nat (nl / 2 + nl * (n_s / 2))) ks ls in
  let shifted := stack inner_shape (flatten outer_shape (roll_axes outer_shape shift (stack outer_shape a))) in
  let flipped := transpose (from_perm (length ks)) shifted in
  let flipped_shape := map (fun k => nth k inner_shape 0%nat) (from_perm (length ks)) in
  flatten flipped_shape (ifftshift_axes flipped_shape flipped).

Lemma from_perm_length nd : length (from_perm nd) = (nd + nd)%nat.
Proof. unfold from_perm. rewrite app_length, !map_length, seq_length. reflexivity. Qed.
Lemma from_perm_in nd m : In m (from_perm nd) <-> (m < nd + nd)%nat.
Proof.
  unfold from_perm. rewrite in_app_iff, !in_map_iff. split.
  - intros [[i [<- Hi]]|[i [<- Hi]]]; apply in_seq in Hi; lia.
  - intros Hm. destruct (Nat.Even_or_Odd m) as [[i Hi]|[i Hi]].
    + right. exists i. split; [lia|apply in_seq; lia].
    + left. exists i. split; [lia|apply in_seq; lia].
Qed.
Lemma nodup_app {A} (l l' : list A) : NoDup l -> NoDup l' -> (forall x, In x l -> In x l' -> False) -> NoDup (l ++ l').
Proof.
  intros H H' Hd. induction H as [|x l Hx H IH]; [exact H'|]. cbn [app]. constructor.
  - rewrite in_app_iff. intros [X|X]; [exact (Hx X)|]. apply (Hd x); [left; reflexivity|exact X].
  - apply IH. intros y Hy. apply Hd. right. exact Hy.
Qed.
Lemma from_perm_nodup nd : NoDup (from_perm nd).
Proof.
  unfold from_perm. apply nodup_app.
  - apply FinFun.Injective_map_NoDup; [|apply seq_NoDup]. intros i j H. lia.
  - apply FinFun.Injective_map_NoDup; [|apply seq_NoDup]. intros i j H. lia.
  - intros x H1 H2. apply in_map_iff in H1, H2. destruct H1 as [i [H1 _]]. destruct H2 as [j [H2 _]]. lia.
Qed.
Lemma nth_overflow_nil i j : nth i [] 0%nat = nth j [] 0%nat.
Proof. destruct i, j; reflexivity. Qed.
Lemma interleave_nth (x : list nat) : forall s i, length x = length s ->
  nth (1 + 2 * i) (interleave x s) 0%nat = nth i s 0%nat /\ nth (2 * i) (interleave x s) 0%nat = nth i x 0%nat.
Proof.
  unfold interleave. induction x as [|a x IH]; intros [|b s] i H; try discriminate.
  - cbn [combine flat_map]. split; apply nth_overflow_nil.
  - cbn [combine flat_map fst snd app]. destruct i as [|i]; [split; reflexivity|].
    replace (1 + 2 * S i)%nat with (S (S (1 + 2 * i))) by lia. replace (2 * S i)%nat with (S (S (2 * i))) by lia.
    cbn [nth]. apply IH. cbn in H. lia.
Qed.
Lemma map_nth_seq (l : list nat) : map (fun i => nth i l 0%nat) (seq 0 (length l)) = l.
Proof.
  induction l as [|a l IH]; [reflexivity|]. cbn [length seq map nth]. f_equal. rewrite <- seq_shift, map_map. exact IH.
Qed.
Lemma from_perm_interleave (x s : list nat) : length x = length s ->
  map (fun k => nth k (interleave x s) 0%nat) (from_perm (length x)) = s ++ x.
Proof.
  intros H. unfold from_perm. rewrite map_app, !map_map. f_equal.
  - rewrite H. transitivity (map (fun i => nth i s 0%nat) (seq 0 (length s))); [|apply map_nth_seq].
    apply map_ext. intros i. apply interleave_nth. exact H.
  - transitivity (map (fun i => nth i x 0%nat) (seq 0 (length x))); [|apply map_nth_seq].
    apply map_ext. intros i. apply interleave_nth. exact H.
Qed.

Lemma roll_ifftshift shape : forall idx, in_shape idx shape ->
  roll_indices shape (map (fun n => (- Z.of_nat (n / 2))%Z) shape) idx = centred shape idx.
Proof.
  induction shape as [|n shape IH]; intros idx H; inversion H as [|i n' idx' s' Hi Hr]; subst; [reflexivity|].
  cbn [map roll_indices centred]. f_equal; [|apply IH; assumption].
  f_equal.
  assert (B : (0 <= freq n i + Z.of_nat (n / 2) < Z.of_nat n)%Z).
  { assert (Hx := centred_in [n] [i] ltac:(repeat constructor; exact Hi)). cbn [centred] in Hx.
    unfold freq in *. assert (D := Nat.div_mod n 2 ltac:(lia)). assert (M := Nat.mod_upper_bound n 2 ltac:(lia)).
    destruct (Z.leb_spec (Z.of_nat i) ((Z.of_nat n - 1) / 2)) as [L|L].
    - assert (D2 := Z.div_mod (Z.of_nat n - 1) 2 ltac:(lia)). assert (M2 := Z.mod_pos_bound (Z.of_nat n - 1) 2 ltac:(lia)). lia.
    - assert (D2 := Z.div_mod (Z.of_nat n - 1) 2 ltac:(lia)). assert (M2 := Z.mod_pos_bound (Z.of_nat n - 1) 2 ltac:(lia)). lia. }
  rewrite <- (Z.mod_small _ _ B). apply Zcong_mod_eq; [lia|].
  destruct (freq_cong n i Hi) as [e He]. first [exists e; lia|exists (- e)%Z; lia].
Qed.
Lemma roll_back shape : forall d idx, length d = length shape -> in_shape idx shape ->
  roll_indices shape d (roll_indices shape (map Z.opp d) idx) = idx.
Proof.
  induction shape as [|n shape IH]; intros [|e d] idx Hd H; try discriminate;
    inversion H as [|i n' idx' s' Hi Hr]; subst; [reflexivity|].
  cbn [map roll_indices]. f_equal; [|apply IH; [cbn in Hd; lia|assumption]].
  rewrite Z2Nat.id by (apply Z.mod_pos_bound; lia). rewrite Zminus_mod_idemp_l.
  replace (Z.of_nat i - - e - e)%Z with (Z.of_nat i) by lia. rewrite Z.mod_small by lia. apply Nat2Z.id.
Qed.
Lemma merge_in ls : forall ss x s, length ls = length ss -> in_shape x ss -> in_shape s ls ->
  in_shape (merge ls x s) (supercell ls ss).
Proof.
  induction ls as [|n ls IH]; intros [|m ss] x s Hl Hx Hs; try discriminate;
    inversion Hx as [|a m' x' s1 Ha Hx']; inversion Hs as [|b n' s' s2 Hb Hs']; subst; [constructor|].
  cbn [merge supercell]. constructor; [nia|]. apply IH; [cbn in Hl; lia|assumption..].
Qed.
Lemma map2_mul_comm ls : forall ss, length ls = length ss -> map2 Nat.mul ss ls = supercell ls ss.
Proof.
  induction ls as [|n ls IH]; intros [|m ss] H; try discriminate; [reflexivity|].
  cbn [map2 supercell]. rewrite IH by (cbn in H; lia). rewrite Nat.mul_comm. reflexivity.
Qed.
Lemma shift_opp ls : forall ss, length ls = length ss ->
  map2 (fun nl n_s => (- Z.of_nat (nl / 2 + nl * (n_s / 2)))%Z) ls ss =
  map Z.opp (map2 (fun n_s nl => Z.of_nat (nl / 2 + nl * (n_s / 2))) ss ls).
Proof.
  induction ls as [|n ls IH]; intros [|m ss] H; try discriminate; [reflexivity|].
  cbn [map2 map]. rewrite IH by (cbn in H; lia). reflexivity.
Qed.
Lemma map2_length {A B D} (f : A -> B -> D) l : forall l', length l = length l' -> length (map2 f l l') = length l.
Proof. induction l as [|a l IH]; intros [|b l'] H; try discriminate; [reflexivity|]. cbn. rewrite IH; cbn in *; lia. Qed.
Lemma supercell_length ls : forall ss, length ls = length ss -> length (supercell ls ss) = length ls.
Proof. induction ls as [|n ls IH]; intros [|m ss] H; try discriminate; [reflexivity|]. cbn. rewrite IH; cbn in *; lia. Qed.

Lemma from_shuffle_spec ls ss a s k : length ls = length ss -> in_shape s ls -> in_shape k ss ->
  from_shuffle ls ss a (ravel ls s * nprod ss + ravel ss k)%nat = a (ravel (supercell ls ss) (unfurl_slot ls ss s k)).
Proof.
  intros Hl Hs Hk. unfold from_shuffle. fold (interleave ss ls). rewrite (map2_mul_comm ls ss Hl).
  rewrite from_perm_interleave by congruence.
  assert (Is : in_shape (s ++ k) (ls ++ ss)) by (apply Forall2_app; assumption).
  unfold flatten at 1. rewrite <- ravel_app by (apply in_shape_length; assumption). rewrite unravel_ravel by exact Is.
  unfold ifftshift_axes. unfold roll_axes at 1. rewrite roll_ifftshift by exact Is.
  assert (Ls := in_shape_length _ _ (centred_in ls s Hs)). assert (Lk := in_shape_length _ _ (centred_in ss k Hk)).
  assert (Ec : centred (ls ++ ss) (s ++ k) = centred ls s ++ centred ss k).
  { clear - Hs. revert s Hs. induction ls as [|n ls IH]; intros s Hs; inversion Hs; subst; [reflexivity|].
    cbn [app centred]. f_equal. apply IH. assumption. }
  rewrite Ec.
  replace (length ss) with (length (centred ss k)) by congruence.
  rewrite <- from_perm_interleave by congruence.
  rewrite transpose_read;
    [|apply from_perm_nodup|intros m Hm; apply from_perm_in; rewrite from_perm_length in Hm; exact Hm|].
  2:{ rewrite from_perm_length. unfold interleave. rewrite flat_map_concat_map.
      assert (E : forall l : list (nat * nat), length (concat (map (fun p => [fst p; snd p]) l)) = (length l + length l)%nat).
      { induction l as [|p l IH]; [reflexivity|]. cbn [map concat app length]. rewrite IH. lia. }
      rewrite E, combine_length. lia. }
  unfold stack at 1. rewrite ravel_interleave by congruence.
  unfold flatten. rewrite unravel_ravel by (apply merge_in; auto using centred_in).
  unfold roll_axes. rewrite <- roll_unfurl by assumption. rewrite shift_opp by exact Hl.
  rewrite roll_back; [reflexivity| |apply unfurl_slot_in; assumption].
  rewrite map2_length, supercell_length; congruence.
Qed.

(** Conversion of a pair of axes. *)
Lemma convert_pair same a b a' b' FA GB : convert same a a' = Some FA -> convert same b b' = Some GB ->
  (forall v w j, (j < bsize b')%nat -> (forall k, (k < bsize b)%nat -> v k = w k) -> GB v j = GB w j) ->
  exists cv, convert same (BTuple [a; b]) (BTuple [a'; b']) = Some cv /\
    forall v i j, (i < bsize a')%nat -> (j < bsize b')%nat ->
      cv v (i * bsize b' + j)%nat = GB (fun k => FA (fun i' => v (i' * bsize b + k)%nat) i) j.
Proof.
  intros HA HB Hext.
  assert (Ea := convert_some_fund same a a' FA HA). assert (Eb := convert_some_fund same b b' GB HB).
  eexists. split.
  - cbn [convert bfund map nprod]. rewrite Ea, Eb, Nat.eqb_refl, HA, HB. reflexivity.
  - intros v i j Hi Hj. cbn [convert_loop map fst snd]. unfold apply_axis at 1. cbn [nprod].
    rewrite !Nat.mul_1_r, Nat.div_1_r, Nat.mod_1_r.
    rewrite div_add_small by exact Hj. rewrite mod_add_small by exact Hj.
    apply Hext; [exact Hj|]. intros k Hk. rewrite Nat.mul_1_r, Nat.add_0_r. unfold apply_axis. cbn [nprod].
    rewrite div_add_small by exact Hk. rewrite mod_add_small by exact Hk. rewrite (Nat.mod_small i) by exact Hi.
    rewrite Nat.div_small by nia. reflexivity.
Qed.
