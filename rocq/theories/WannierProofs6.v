(** Symmetry operations on flat indices. *)
From Coq Require Import Reals.
From Verif Require Import ZLib NumPy Index IndexProofs Spec Basis Operator Wavepacket LocalizeProofs3 Wannier SpecWannier.
Local Open Scope nat_scope.

Lemma names_python n axis a : names_axis n axis a -> python_index n axis = Some a.
Proof.
  intros [Ha [->| ->]]; unfold python_index.
  - replace ((0 <=? Z.of_nat a)%Z && (Z.of_nat a <? Z.of_nat n)%Z)%bool with true
      by (symmetry; apply andb_true_intro; split; [apply Z.leb_le|apply Z.ltb_lt]; lia).
    rewrite Nat2Z.id. reflexivity.
  - destruct (Z.leb_spec 0 (Z.of_nat a - Z.of_nat n)) as [|_]; [lia|]. cbn [andb].
    replace ((- Z.of_nat n <=? Z.of_nat a - Z.of_nat n)%Z && (Z.of_nat a - Z.of_nat n <? 0)%Z)%bool with true
      by (symmetry; apply andb_true_intro; split; [apply Z.leb_le|apply Z.ltb_lt]; lia).
    f_equal. lia.
Qed.

Lemma set_nth_length {A} i (a : A) l : i < length l -> length (set_nth i a l) = length l.
Proof. intros H. unfold set_nth. rewrite app_length, firstn_length. cbn [length]. rewrite skipn_length. lia. Qed.
Lemma set_nth_nth {A} i (a : A) d l k : i < length l -> nth k (set_nth i a l) d = if k =? i then a else nth k l d.
Proof.
  intros H. unfold set_nth. assert (L : length (firstn i l) = i) by (rewrite firstn_length; lia).
  destruct (Nat.lt_trichotomy k i) as [Hk|[->|Hk]].
  - rewrite app_nth1 by lia. replace (k =? i) with false by (symmetry; apply Nat.eqb_neq; lia).
    rewrite <- (firstn_skipn i l) at 2. rewrite app_nth1 by lia. reflexivity.
  - rewrite app_nth2, L, Nat.sub_diag, Nat.eqb_refl by lia. reflexivity.
  - rewrite app_nth2, L by lia. replace (k =? i) with false by (symmetry; apply Nat.eqb_neq; lia).
    replace (k - i) with (S (k - S i)) by lia. cbn [nth].
    rewrite <- (firstn_skipn (S i) l) at 2. assert (L2 : length (firstn (S i) l) = S i) by (rewrite firstn_length; lia).
    rewrite app_nth2, L2 by lia. reflexivity.
Qed.

Lemma wrap_indices shape : forall zs, Forall (fun n => 0 < n) shape -> length zs = length shape ->
  indices_in_mode MWrap shape zs =
  Some (map (fun k => Z.to_nat (nth k zs 0 mod Z.of_nat (nth k shape 0%nat))%Z) (seq 0 (length shape))).
Proof.
  induction shape as [|n shape IH]; intros [|z zs] Hp Hl; try discriminate; [reflexivity|].
  inversion Hp; subst. cbn [indices_in_mode index_in_mode]. destruct (Nat.eqb_spec n 0) as [|_]; [lia|].
  rewrite IH by (auto; cbn in Hl; lia). cbn [length seq map nth]. rewrite <- seq_shift, map_map. reflexivity.
Qed.

Lemma nth_map_seq {A} (f : nat -> A) n k d : k < n -> nth k (map f (seq 0 n)) d = f k.
Proof.
  intros H. rewrite (nth_indep _ d (f 0)) by (rewrite map_length, seq_length; exact H).
  rewrite map_nth, seq_nth by exact H. reflexivity.
Qed.
Lemma in_shape_map_seq f shape : (forall k, k < length shape -> f k < nth k shape 0) ->
  in_shape (map f (seq 0 (length shape))) shape.
Proof.
  revert f. induction shape as [|n shape IH]; intros f H; [constructor|]. cbn [length seq map].
  constructor; [apply (H 0); cbn; lia|]. rewrite <- seq_shift, map_map. apply IH.
  intros k Hk. apply (H (S k)). cbn. lia.
Qed.
Lemma shape_pos shape k : Forall (fun n => 0 < n) shape -> k < length shape -> 0 < nth k shape 0.
Proof. intros H Hk. apply (proj1 (Forall_forall _ _) H). apply nth_In. exact Hk. Qed.
Lemma list_ext {A} (d : A) : forall l l', length l = length l' -> (forall k, k < length l -> nth k l d = nth k l' d) -> l = l'.
Proof. intros l l'. apply (nth_ext l l' d d). Qed.

Section Op.
  Context (shape : list nat) (i : nat) (Hi : i < nprod shape).
  Let Hp : Forall (fun n => 0 < n) shape := nprod_pos_of_lt shape i Hi.
  Let idx := unravel shape i.

  Lemma stacked_self : get_stacked_index shape (Z.of_nat i) = Some idx.
  Proof using Hi.
    unfold get_stacked_index. replace ((0 <=? Z.of_nat i)%Z && (Z.of_nat i <? Z.of_nat (nprod shape))%Z)%bool with true
      by (symmetry; apply andb_true_intro; split; [apply Z.leb_le|apply Z.ltb_lt]; lia).
    rewrite Nat2Z.id. reflexivity.
  Qed.
  Lemma idx_nth k : k < length shape -> nth k idx 0 < nth k shape 0.
  Proof using Hi. intros Hk. apply IndexProofs.in_shape_nth; [apply unravel_in_shape; exact Hi|exact Hk]. Qed.
  Lemma idx_nth_z k : nth k (map Z.of_nat idx) 0%Z = Z.of_nat (nth k idx 0).
  Proof using. rewrite <- (map_nth Z.of_nat). reflexivity. Qed.
  Lemma idx_length : length (map Z.of_nat idx) = length shape.
  Proof using. rewrite map_length. apply unravel_length. Qed.

  Lemma x0_spec axis a : names_axis (length shape) axis a ->
    x0_symmetry_op (Z.of_nat i) shape axis = Some (ravel shape (reversed shape a idx)).
  Proof using Hi.
    intros Ha. unfold x0_symmetry_op. rewrite stacked_self, (names_python _ _ _ Ha). destruct Ha as [Ha _].
    unfold get_flat_index. rewrite wrap_indices; [|exact Hp|rewrite set_nth_length by (rewrite idx_length; exact Ha); apply idx_length].
    f_equal. f_equal. unfold reversed. apply map_ext_in. intros k Hk. apply in_seq in Hk.
    rewrite set_nth_nth by (rewrite idx_length; exact Ha). rewrite !idx_nth_z.
    assert (B := idx_nth k ltac:(lia)). destruct (Nat.eqb_spec k a) as [->|_].
    - apply Nat2Z.inj. rewrite Z2Nat.id by (apply Z.mod_pos_bound; lia). rewrite Nat2Z.inj_mod, Nat2Z.inj_sub by lia.
      rewrite <- (Z_mod_plus_full (- Z.of_nat (nth a idx 0)) 1). f_equal. lia.
    - rewrite Z.mod_small by lia. apply Nat2Z.id.
  Qed.

  Lemma x0x1_spec axis0 axis1 a b : names_axis (length shape) axis0 a -> names_axis (length shape) axis1 b ->
    x0x1_symmetry_op (Z.of_nat i) shape (axis0, axis1) = Some (ravel shape (exchanged shape a b idx)).
  Proof using Hi.
    intros Ha Hb. unfold x0x1_symmetry_op. cbn [fst snd]. rewrite stacked_self, (names_python _ _ _ Ha), (names_python _ _ _ Hb).
    destruct Ha as [Ha _]. destruct Hb as [Hb _].
    unfold get_flat_index. assert (L1 : forall z, length (set_nth a z (map Z.of_nat idx)) = length shape)
      by (intros z; rewrite set_nth_length by (rewrite idx_length; exact Ha); apply idx_length).
    rewrite wrap_indices; [|exact Hp|rewrite set_nth_length by (rewrite L1; exact Hb); apply L1].
    f_equal. f_equal. unfold exchanged. apply map_ext_in. intros k Hk. apply in_seq in Hk.
    rewrite set_nth_nth by (rewrite L1; exact Hb).
    rewrite set_nth_nth by (rewrite idx_length; auto). rewrite !idx_nth_z.
    destruct (Nat.eqb_spec k b) as [->|_]; [|destruct (Nat.eqb_spec k a) as [->|_]].
    - assert (B := shape_pos shape b Hp Hb). rewrite <- Nat2Z.inj_mod. apply Nat2Z.id.
    - rewrite <- Nat2Z.inj_mod. apply Nat2Z.id.
    - assert (B := idx_nth k ltac:(lia)). rewrite Z.mod_small by lia. apply Nat2Z.id.
  Qed.

  Lemma reversed_in a : in_shape (reversed shape a idx) shape.
  Proof using Hi.
    apply in_shape_map_seq. intros k Hk. destruct (k =? a); [|apply idx_nth; exact Hk].
    apply Nat.mod_upper_bound. assert (B := shape_pos shape k Hp Hk). lia.
  Qed.
  Lemma exchanged_in a b : in_shape (exchanged shape a b idx) shape.
  Proof using Hi.
    apply in_shape_map_seq. intros k Hk. assert (B := shape_pos shape k Hp Hk).
    destruct (Nat.eqb_spec k b) as [->|]; [apply Nat.mod_upper_bound; lia|].
    destruct (Nat.eqb_spec k a) as [->|]; [apply Nat.mod_upper_bound; lia|]. apply idx_nth; exact Hk.
  Qed.

  Lemma reversed_twice a : a < length shape -> reversed shape a (reversed shape a idx) = idx.
  Proof using Hi.
    intros Ha. unfold reversed at 1. apply (list_ext 0).
    - rewrite map_length, seq_length. symmetry. apply unravel_length.
    - rewrite map_length, seq_length. intros k Hk. rewrite nth_map_seq by exact Hk. unfold reversed. rewrite nth_map_seq by exact Hk.
      assert (B := idx_nth k Hk). destruct (Nat.eqb_spec k a) as [->|_]; [|reflexivity].
      set (n := nth a shape 0) in *. set (x := nth a idx 0) in *. destruct (Nat.eq_dec x 0) as [->|Hx].
      + rewrite Nat.sub_0_r, Nat.mod_same by lia. rewrite Nat.sub_0_r, Nat.mod_same by lia. reflexivity.
      + rewrite (Nat.mod_small (n - x)) by lia. replace (n - (n - x)) with x by lia. apply Nat.mod_small. lia.
  Qed.
  Lemma exchanged_twice a b : a < length shape -> b < length shape -> nth a shape 0 = nth b shape 0 ->
    exchanged shape a b (exchanged shape a b idx) = idx.
  Proof using Hi.
    intros Ha Hb E. unfold exchanged at 1. apply (list_ext 0).
    - rewrite map_length, seq_length. symmetry. apply unravel_length.
    - rewrite map_length, seq_length. intros k Hk. rewrite nth_map_seq by exact Hk. unfold exchanged.
      rewrite !nth_map_seq by assumption. assert (B := idx_nth k Hk). assert (B1 := idx_nth a Ha). assert (B2 := idx_nth b Hb).
      destruct (Nat.eqb_spec k b) as [->|Hkb]; [|destruct (Nat.eqb_spec k a) as [->|Hka]].
      + destruct (Nat.eqb_spec a b) as [->|Hab].
        * rewrite !Nat.mod_small; rewrite ?Nat.mod_small; lia.
        * rewrite Nat.eqb_refl. rewrite !Nat.mod_small; rewrite ?Nat.mod_small; lia.
      + rewrite Nat.eqb_refl. rewrite !Nat.mod_small; rewrite ?Nat.mod_small; lia.
      + reflexivity.
  Qed.
End Op.

Lemma x0_involution shape axis a i : names_axis (length shape) axis a -> i < nprod shape ->
  exists j, x0_symmetry_op (Z.of_nat i) shape axis = Some j /\ j < nprod shape /\
    unravel shape j = reversed shape a (unravel shape i) /\ x0_symmetry_op (Z.of_nat j) shape axis = Some i.
Proof.
  intros Ha Hi. assert (B := reversed_in shape i Hi a).
  eexists. split; [apply x0_spec; eassumption|]. split; [apply ravel_lt; exact B|].
  split; [apply unravel_ravel; exact B|].
  rewrite (x0_spec shape (ravel shape (reversed shape a (unravel shape i))) ltac:(apply ravel_lt; exact B) axis a Ha).
  rewrite unravel_ravel by exact B. rewrite reversed_twice by (try exact Hi; apply Ha).
  rewrite ravel_unravel by exact Hi. reflexivity.
Qed.

Lemma x0x1_reads shape axis0 axis1 a b i : names_axis (length shape) axis0 a -> names_axis (length shape) axis1 b -> i < nprod shape ->
  exists j, x0x1_symmetry_op (Z.of_nat i) shape (axis0, axis1) = Some j /\ j < nprod shape /\
    unravel shape j = exchanged shape a b (unravel shape i) /\
    (nth a shape 0 = nth b shape 0 -> x0x1_symmetry_op (Z.of_nat j) shape (axis0, axis1) = Some i).
Proof.
  intros Ha Hb Hi. assert (B := exchanged_in shape i Hi a b).
  eexists. split; [apply x0x1_spec; eassumption|]. split; [apply ravel_lt; exact B|].
  split; [apply unravel_ravel; exact B|]. intros E.
  rewrite (x0x1_spec shape (ravel shape (exchanged shape a b (unravel shape i))) ltac:(apply ravel_lt; exact B) axis0 axis1 a b Ha Hb).
  rewrite unravel_ravel by exact B. rewrite exchanged_twice by (try exact Hi; try exact E; try apply Ha; apply Hb).
  rewrite ravel_unravel by exact Hi. reflexivity.
Qed.

(** Axes of different lengths: two samples with the same image. *)
Lemma x0x1_collision_lt shape axis0 axis1 a b : Forall (fun n => 0 < n) shape ->
  names_axis (length shape) axis0 a -> names_axis (length shape) axis1 b -> nth a shape 0 <> nth b shape 0 ->
  exists i j, i < nprod shape /\ j < nprod shape /\ i <> j /\
    x0x1_symmetry_op (Z.of_nat i) shape (axis0, axis1) = x0x1_symmetry_op (Z.of_nat j) shape (axis0, axis1).
Proof.
  intros Hp Ha Hb Hne.
  set (c := if nth a shape 0 <? nth b shape 0 then b else a). set (v := Nat.min (nth a shape 0) (nth b shape 0)).
  assert (Hla := proj1 Ha). assert (Hlb := proj1 Hb).
  assert (Hc : c < length shape) by (unfold c; destruct (_ <? _); assumption).
  assert (Hv : 0 < v /\ v < nth c shape 0).
  { assert (P1 := shape_pos shape a Hp Hla). assert (P2 := shape_pos shape b Hp Hlb). unfold v, c.
    destruct (Nat.ltb_spec (nth a shape 0) (nth b shape 0)); lia. }
  set (z := map (fun _ => 0) (seq 0 (length shape))).
  set (w := map (fun k => if k =? c then v else 0) (seq 0 (length shape))).
  assert (Iz : in_shape z shape) by (apply in_shape_map_seq; intros k Hk; apply shape_pos; assumption).
  assert (Iw : in_shape w shape).
  { apply in_shape_map_seq. intros k Hk. destruct (Nat.eqb_spec k c) as [->|]; [lia|]. apply shape_pos; assumption. }
  exists (ravel shape z), (ravel shape w). assert (Lz := ravel_lt _ _ Iz). assert (Lw := ravel_lt _ _ Iw).
  split; [exact Lz|]. split; [exact Lw|]. split.
  - intros E. assert (E2 : z = w) by (rewrite <- (unravel_ravel shape z Iz), E; apply unravel_ravel; exact Iw).
    assert (E3 : nth c z 0 = nth c w 0) by (rewrite E2; reflexivity). unfold z, w in E3.
    rewrite (nth_map_seq (fun _ => 0)), nth_map_seq, Nat.eqb_refl in E3 by exact Hc. lia.
  - rewrite (x0x1_spec shape _ Lz axis0 axis1 a b Ha Hb), (x0x1_spec shape _ Lw axis0 axis1 a b Ha Hb).
    rewrite !unravel_ravel by assumption. f_equal. f_equal. unfold exchanged. apply map_ext_in. intros k Hk. apply in_seq in Hk.
    unfold z, w. rewrite !(nth_map_seq (fun _ => 0)), !nth_map_seq by lia.
    assert (P1 := shape_pos shape a Hp Hla). assert (P2 := shape_pos shape b Hp Hlb).
    unfold c, v in *. destruct (Nat.ltb_spec (nth a shape 0) (nth b shape 0)) as [Hlt|Hge].
    + rewrite Nat.min_l by lia.
      destruct (Nat.eqb_spec k b) as [->|Hkb].
      * destruct (Nat.eqb_spec a b) as [E|_]; [rewrite E in Hlt; lia|]. reflexivity.
      * destruct (Nat.eqb_spec k a) as [->|Hka]; [|reflexivity].
        rewrite Nat.eqb_refl, Nat.mod_same, Nat.mod_0_l by lia. reflexivity.
    + rewrite Nat.min_r by lia.
      destruct (Nat.eqb_spec k b) as [->|Hkb].
      * rewrite Nat.eqb_refl, Nat.mod_same, Nat.mod_0_l by lia. reflexivity.
      * destruct (Nat.eqb_spec k a) as [->|Hka]; [|reflexivity].
        destruct (Nat.eqb_spec b a) as [E|_]; [rewrite E in Hge; congruence|]. reflexivity.
Qed.

(** ** Representatives *)
Lemma representative_reached shape ops i :
  (forall op j, In op ops -> j < nprod shape -> exists g, op (Z.of_nat j) shape = Some g) -> i < nprod shape ->
  exists f, get_fundamental_k_point shape ops i = Some f /\ f <= i /\ reached shape ops i f.
Proof.
  intros H Hi.
  assert (Q : forall l f, (forall op, In op l -> In op ops) -> f <= i -> reached shape ops i f ->
    exists f', fold_left (fun f op => match f with Some f => match op (Z.of_nat f) shape with Some b => Some (Nat.min b f) | None => None end
      | None => None end) l (Some f) = Some f' /\ f' <= i /\ reached shape ops i f').
  { induction l as [|op l IH]; intros f Hl Hf Hr; [exists f; auto|]. cbn [fold_left].
    destruct (H op f (Hl op (or_introl eq_refl)) ltac:(lia)) as [g Eg]. rewrite Eg.
    apply IH; [intros; apply Hl; right; assumption|lia|].
    destruct (Nat.min_spec g f) as [[_ ->]|[_ ->]]; [|exact Hr].
    apply (reached_step _ _ _ f g op Hr (Hl op (or_introl eq_refl)) Eg). }
  apply Q; auto. constructor.
Qed.

Lemma representative_one shape (op : operation) i j :
  op (Z.of_nat i) shape = Some j -> op (Z.of_nat j) shape = Some i ->
  get_fundamental_k_point shape [op] i = Some (Nat.min i j) /\ get_fundamental_k_point shape [op] j = Some (Nat.min i j) /\
  get_fundamental_k_point shape [op] (Nat.min i j) = Some (Nat.min i j).
Proof.
  intros E1 E2. unfold get_fundamental_k_point. cbn [fold_left]. rewrite E1, E2.
  split; [f_equal; lia|]. split; [reflexivity|].
  destruct (Nat.min_spec i j) as [[H ->]|[H ->]]; rewrite ?E1, ?E2; f_equal; lia.
Qed.

Lemma representatives_differ : exists i j f g,
  reached [5; 5] square_symmetry i j /\ reached [5; 5] square_symmetry j i /\
  get_fundamental_k_point [5; 5] square_symmetry i = Some f /\ get_fundamental_k_point [5; 5] square_symmetry j = Some g /\ f <> g.
Proof.
  exists 14, 7, 11, 7. split; [|split].
  - apply (reached_step _ _ _ 11 7 (fun i sh => x0x1_symmetry_op i sh (0%Z, 1%Z))); [|left; reflexivity|vm_compute; reflexivity].
    apply (reached_step _ _ _ 14 11 (fun i sh => x0_symmetry_op i sh 1%Z)); [constructor|right; right; left; reflexivity|vm_compute; reflexivity].
  - apply (reached_step _ _ _ 11 14 (fun i sh => x0_symmetry_op i sh 1%Z)); [|right; right; left; reflexivity|vm_compute; reflexivity].
    apply (reached_step _ _ _ 7 11 (fun i sh => x0x1_symmetry_op i sh (0%Z, 1%Z))); [constructor|left; reflexivity|vm_compute; reflexivity].
  - split; [vm_compute; reflexivity|]. split; [vm_compute; reflexivity|]. lia.
Qed.
