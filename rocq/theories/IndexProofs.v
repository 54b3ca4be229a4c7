From Coq Require Import Permutation Sorted.
From Verif Require Import ZLib NumPy Index Spec InterpProofs.

Local Open Scope nat_scope.

(** ** ravel / unravel *)

Lemma nprod_pos shape : Forall (fun n => 0 < n) shape -> 0 < nprod shape.
Proof. induction 1; simpl; [lia|nia]. Qed.

Lemma in_shape_length idx shape : in_shape idx shape -> length idx = length shape.
Proof. intros H; induction H; simpl; congruence. Qed.

Lemma ravel_lt shape idx : in_shape idx shape -> ravel shape idx < nprod shape.
Proof.
  intros H; induction H as [|i n idx shape Hi H IH]; simpl; [lia|]. nia.
Qed.

Lemma nprod_pos_of_lt shape i : i < nprod shape -> Forall (fun n => 0 < n) shape.
Proof.
  revert i; induction shape as [|n shape IH]; intros i H; simpl in *; constructor.
  - nia.
  - apply (IH 0). nia.
Qed.

Lemma unravel_in_shape shape i : i < nprod shape -> in_shape (unravel shape i) shape.
Proof.
  revert i; induction shape as [|n shape IH]; intros i H; simpl in *.
  - constructor.
  - assert (0 < nprod shape) by nia. constructor.
    + apply Nat.div_lt_upper_bound; nia.
    + apply IH. apply Nat.mod_upper_bound; lia.
Qed.

Lemma ravel_unravel shape i : i < nprod shape -> ravel shape (unravel shape i) = i.
Proof.
  revert i; induction shape as [|n shape IH]; intros i H; simpl in *; [lia|].
  assert (0 < nprod shape) by nia.
  rewrite IH by (apply Nat.mod_upper_bound; lia).
  rewrite Nat.mul_comm. symmetry. apply Nat.div_mod. lia.
Qed.

Lemma unravel_ravel shape idx : in_shape idx shape -> unravel shape (ravel shape idx) = idx.
Proof.
  intros H; induction H as [|i n idx shape Hi H IH]; simpl; [reflexivity|].
  assert (Hlt := ravel_lt _ _ H).
  f_equal.
  - rewrite Nat.div_add_l by lia. rewrite Nat.div_small by assumption. lia.
  - rewrite Nat.add_comm, Nat.mod_add by lia. rewrite Nat.mod_small by assumption. exact IH.
Qed.

Lemma unravel_length shape i : length (unravel shape i) = length shape.
Proof. revert i; induction shape as [|n shape IH]; intros i; simpl; [reflexivity|]. rewrite IH. reflexivity. Qed.

(** ** nk_points *)

Lemma nk_points_len_eq n : nk_points_len n = n.
Proof. unfold nk_points_len. lia. Qed.

Lemma nk_points_freq n i : i < n -> is_freq n i (nk_points n i).
Proof.
  intros Hi. unfold nk_points, ifftshift. rewrite nk_points_len_eq.
  unfold is_freq. set (r := (i + n / 2) mod n).
  assert (Hr : r < n) by (unfold r; apply Nat.mod_upper_bound; lia).
  assert (Hq : exists q, i + n / 2 = n * q + r) by (exists ((i + n / 2) / n); apply Nat.div_mod; lia).
  destruct Hq as [q Hq]. clearbody r.
  split.
  - exists (- Z.of_nat q)%Z. nia.
  - lia.
Qed.

(** ** get_flat_index / get_stacked_index *)

Lemma indices_raise_in_range shape idx :
  in_shape idx shape -> indices_in_mode MRaise shape (map Z.of_nat idx) = Some idx.
Proof.
  intros H; induction H as [|i n idx shape Hi H IH]; simpl; [reflexivity|].
  rewrite IH. destruct (Z.leb_spec 0 (Z.of_nat i)); [|lia].
  destruct (Z.ltb_spec (Z.of_nat i) (Z.of_nat n)); [|lia]. simpl.
  rewrite Nat2Z.id. reflexivity.
Qed.

Lemma indices_raise_sound shape idx l :
  indices_in_mode MRaise shape idx = Some l -> in_shape l shape /\ idx = map Z.of_nat l.
Proof.
  revert idx l; induction shape as [|n shape IH]; intros [|i idx] l H; simpl in H; try discriminate.
  - injection H as <-. split; [constructor|reflexivity].
  - destruct ((0 <=? i)%Z && (i <? Z.of_nat n)%Z) eqn:E; [|discriminate].
    destruct (indices_in_mode MRaise shape idx) as [l'|] eqn:F; [|discriminate].
    injection H as <-. destruct (IH _ _ F) as [H1 H2]. split.
    + constructor; [lia|assumption].
    + simpl. f_equal; [lia|assumption].
Qed.

Lemma flat_of_stacked shape i :
  (0 <= i < Z.of_nat (nprod shape))%Z ->
  exists idx, get_stacked_index shape i = Some idx /\
    in_shape idx shape /\
    get_flat_index shape (map Z.of_nat idx) MRaise = Some (Z.to_nat i).
Proof.
  intros H. unfold get_stacked_index.
  destruct (Z.leb_spec 0 i); [|lia]. destruct (Z.ltb_spec i (Z.of_nat (nprod shape))); [|lia].
  simpl. eexists; split; [reflexivity|].
  assert (Hlt : Z.to_nat i < nprod shape) by lia.
  assert (Hs := unravel_in_shape _ _ Hlt). split; [exact Hs|].
  unfold get_flat_index. rewrite indices_raise_in_range by exact Hs.
  rewrite ravel_unravel by exact Hlt. reflexivity.
Qed.

Lemma stacked_of_flat shape idx i :
  get_flat_index shape idx MRaise = Some i ->
  i < nprod shape /\
  exists l, get_stacked_index shape (Z.of_nat i) = Some l /\ map Z.of_nat l = idx.
Proof.
  unfold get_flat_index. destruct (indices_in_mode MRaise shape idx) as [l|] eqn:E; [|discriminate].
  intros H; injection H as <-. destruct (indices_raise_sound _ _ _ E) as [H1 ->].
  assert (Hlt := ravel_lt _ _ H1). split; [exact Hlt|].
  exists l. split; [|reflexivity]. unfold get_stacked_index.
  destruct (Z.leb_spec 0 (Z.of_nat (ravel shape l))); [|lia].
  destruct (Z.ltb_spec (Z.of_nat (ravel shape l)) (Z.of_nat (nprod shape))); [|lia].
  simpl. rewrite Nat2Z.id, unravel_ravel by exact H1. reflexivity.
Qed.

Lemma flat_index_raise_iff shape idx :
  get_flat_index shape idx MRaise <> None <->
  Forall2 (fun i n => 0 <= i < Z.of_nat n)%Z idx shape.
Proof.
  unfold get_flat_index. split.
  - destruct (indices_in_mode MRaise shape idx) as [l|] eqn:E; [|congruence]. intros _.
    destruct (indices_raise_sound _ _ _ E) as [H1 ->].
    clear E. induction H1; simpl; constructor; [lia|assumption].
  - intros H. assert (exists l, in_shape l shape /\ idx = map Z.of_nat l) as [l [Hl ->]].
    { induction H as [|i n idx shape Hi H [l [Hl ->]]].
      - exists []. split; [constructor|reflexivity].
      - exists (Z.to_nat i :: l). split; [constructor; [lia|assumption]|].
        simpl. f_equal. lia. }
    rewrite indices_raise_in_range by exact Hl. discriminate.
Qed.

(** Clip mode: the flat index of the nearest index in range. *)
Lemma flat_index_clip shape idx :
  Forall (fun n => 0 < n) shape -> length idx = length shape ->
  exists l, in_shape l shape /\
    Forall2 (fun i p => (i < 0 -> snd p = 0%nat) /\
                        (0 <= i < Z.of_nat (fst p) -> Z.of_nat (snd p) = i) /\
                        (Z.of_nat (fst p) <= i -> snd p = pred (fst p)))%Z idx (combine shape l) /\
    get_flat_index shape idx MClip = Some (ravel shape l).
Proof.
  intros Hpos. revert idx. induction Hpos as [|n shape Hn Hpos IH]; intros [|i idx] Hlen; try discriminate.
  - exists []. repeat split; constructor.
  - simpl in Hlen. destruct (IH idx ltac:(lia)) as [l [H1 [H2 H3]]].
    exists (Z.to_nat (Z.max 0 (Z.min i (Z.of_nat n - 1))) :: l).
    split; [|split].
    + constructor; [lia|exact H1].
    + simpl. constructor; [|exact H2]. simpl. lia.
    + unfold get_flat_index in *. simpl.
      destruct (Nat.eqb_spec n 0); [lia|].
      destruct (indices_in_mode MClip shape idx) as [l'|] eqn:E; [|discriminate].
      inversion H3. simpl. rewrite H0. reflexivity.
Qed.

(** Wrap mode: the flat index of the reduced index. *)
Lemma flat_index_wrap shape idx :
  Forall (fun n => 0 < n) shape -> length idx = length shape ->
  exists l, in_shape l shape /\
    Forall2 (fun i p => Zcong (Z.of_nat (fst p)) (Z.of_nat (snd p)) i) idx (combine shape l) /\
    get_flat_index shape idx MWrap = Some (ravel shape l).
Proof.
  intros Hpos. revert idx. induction Hpos as [|n shape Hn Hpos IH]; intros [|i idx] Hlen; try discriminate.
  - exists []. repeat split; constructor.
  - simpl in Hlen. destruct (IH idx ltac:(lia)) as [l [H1 [H2 H3]]].
    exists (Z.to_nat (i mod Z.of_nat n) :: l).
    assert (Hb := Z.mod_pos_bound i (Z.of_nat n) ltac:(lia)).
    split; [|split].
    + constructor; [lia|exact H1].
    + simpl. constructor; [|exact H2]. simpl. rewrite Z2Nat.id by lia. apply Zcong_mod. lia.
    + unfold get_flat_index in *. simpl.
      destruct (Nat.eqb_spec n 0); [lia|].
      destruct (indices_in_mode MWrap shape idx) as [l'|] eqn:E; [|discriminate].
      injection H3 as H3. f_equal. simpl. congruence.
Qed.

Lemma flat_index_wrap_periodic shape idx idx' :
  Forall (fun n => 0 < n) shape ->
  length idx = length shape ->
  Forall2 (fun p n => Zcong (Z.of_nat n) (fst p) (snd p)) (combine idx idx') shape ->
  length idx' = length shape ->
  get_flat_index shape idx MWrap = get_flat_index shape idx' MWrap.
Proof.
  intros Hpos. revert idx idx'.
  assert (G : forall idx idx', length idx = length shape ->
    Forall2 (fun p n => Zcong (Z.of_nat n) (fst p) (snd p)) (combine idx idx') shape ->
    length idx' = length shape ->
    indices_in_mode MWrap shape idx = indices_in_mode MWrap shape idx').
  { induction Hpos as [|n shape Hn Hpos IH]; intros [|i idx] [|i' idx'] H1 H2 H3; simpl in *; try discriminate.
    - reflexivity.
    - inversion H2; subst. simpl in *. rewrite (IH idx idx') by (try assumption; lia).
      destruct (Nat.eqb_spec n 0); [reflexivity|].
      rewrite (Zcong_mod_eq (Z.of_nat n) i i') by (try assumption; lia). reflexivity. }
  intros idx idx' H1 H2 H3. unfold get_flat_index. rewrite (G idx idx') by assumption. reflexivity.
Qed.

(** ** tables *)

Lemma stacked_nx_points_spec shape ax i : i < nprod shape -> ax < length shape ->
  exists idx, get_stacked_index shape (Z.of_nat i) = Some idx /\
    nth_error idx ax = Some (Z.to_nat (stacked_nx_points shape ax i)) /\
    (0 <= stacked_nx_points shape ax i)%Z.
Proof.
  intros Hi Hax. exists (unravel shape i). unfold get_stacked_index.
  destruct (Z.leb_spec 0 (Z.of_nat i)); [|lia].
  destruct (Z.ltb_spec (Z.of_nat i) (Z.of_nat (nprod shape))); [|lia]. simpl.
  rewrite Nat2Z.id. split; [reflexivity|].
  unfold stacked_nx_points, meshgrid_ravel, flatten, nx_points.
  split; [|lia]. rewrite Nat2Z.id. apply nth_error_nth'. rewrite unravel_length. exact Hax.
Qed.

Lemma in_shape_nth idx shape ax : in_shape idx shape -> ax < length shape ->
  nth ax idx 0 < nth ax shape 0.
Proof.
  intros H; revert ax; induction H as [|i n idx shape Hi H IH]; intros ax Hax; simpl in *; [lia|].
  destruct ax; [assumption|]. apply IH; lia.
Qed.

Lemma stacked_nk_points_spec shape ax i : i < nprod shape -> ax < length shape ->
  exists idx, get_stacked_index shape (Z.of_nat i) = Some idx /\
    is_freq (nth ax shape 0) (nth ax idx 0) (stacked_nk_points shape ax i).
Proof.
  intros Hi Hax. exists (unravel shape i). unfold get_stacked_index.
  destruct (Z.leb_spec 0 (Z.of_nat i)); [|lia].
  destruct (Z.ltb_spec (Z.of_nat i) (Z.of_nat (nprod shape))); [|lia]. simpl.
  rewrite Nat2Z.id. split; [reflexivity|].
  unfold stacked_nk_points, meshgrid_ravel, flatten.
  apply nk_points_freq. apply in_shape_nth; [|assumption]. apply unravel_in_shape; assumption.
Qed.

(** ** wrap_index *)

Lemma wrap_index_spec d len o : (0 < len)%Z ->
  Zcong len (wrap_index d len o) d /\
  (o - len / 2 <= wrap_index d len o < o - len / 2 + len)%Z.
Proof.
  intros Hl. unfold wrap_index.
  assert (Hb := Z.mod_pos_bound (d - o + len / 2) len Hl).
  destruct (Zcong_mod len (d - o + len / 2) Hl) as [q Hq].
  split; [|lia]. exists q. rewrite Hq. ring.
Qed.

Lemma wrap_from_spec k shape idx origin axes :
  Forall (fun n => 0 < n) shape ->
  length idx = length shape -> length origin = length shape ->
  length (wrap_index_from k shape idx origin axes) = length shape /\
  forall ax, ax < length shape ->
    let r := nth ax (wrap_index_from k shape idx origin axes) 0%Z in
    let i := nth ax idx 0%Z in
    let o := nth ax origin 0%Z in
    let n := Z.of_nat (nth ax shape 0) in
    (wrapped axes (k + ax) -> Zcong n r i /\ (o - n / 2 <= r < o - n / 2 + n)%Z) /\
    (~ wrapped axes (k + ax) -> r = i).
Proof.
  intros Hpos. revert k idx origin.
  induction Hpos as [|n shape Hn Hpos IH]; intros k [|i idx] [|o origin] H1 H2; simpl in *; try discriminate.
  - split; [reflexivity|]. intros; lia.
  - destruct (IH (S k) idx origin ltac:(lia) ltac:(lia)) as [IH1 IH2].
    split; [simpl; lia|]. intros [|ax] Hax.
    + rewrite Nat.add_0_r.
      assert (Hw : (if match axes with None => true | Some l => existsb (Nat.eqb k) l end
                    then true else false) = true <-> wrapped axes k).
      { destruct axes as [l|]; simpl; [|tauto].
        destruct (existsb (Nat.eqb k) l) eqn:E; split; intros H; try reflexivity; try discriminate.
        - apply existsb_exists in E. destruct E as [x [Hx Hk]]. apply Nat.eqb_eq in Hk. subst; assumption.
        - assert (existsb (Nat.eqb k) l = true) by (apply existsb_exists; exists k; split; [assumption|apply Nat.eqb_refl]).
          congruence. }
      destruct (match axes with None => true | Some l => existsb (Nat.eqb k) l end).
      * split; [intros _; apply wrap_index_spec; lia|]. intros Hn'. exfalso; apply Hn', Hw; reflexivity.
      * split; [|reflexivity]. intros Hy. apply Hw in Hy. discriminate.
    + specialize (IH2 ax ltac:(lia)). rewrite Nat.add_succ_r. exact IH2.
Qed.

(** ** displacement matrices *)

Lemma displacements_matrix_nx_spec n i j : 0 < n ->
  Zcong (Z.of_nat n) (displacements_matrix_nx n i j) (Z.of_nat i - Z.of_nat j) /\
  (- (Z.of_nat n / 2) <= displacements_matrix_nx n i j < - (Z.of_nat n / 2) + Z.of_nat n)%Z.
Proof.
  intros Hn. unfold displacements_matrix_nx, nx_points.
  set (d := (Z.of_nat i - Z.of_nat j + Z.of_nat n / 2)%Z).
  assert (Hb := Z.mod_pos_bound d (Z.of_nat n) ltac:(lia)).
  destruct (Zcong_mod (Z.of_nat n) d ltac:(lia)) as [q Hq].
  split; [|lia]. exists q. rewrite Hq. unfold d. ring.
Qed.

Lemma displacements_matrix_nx_abs n i j : 0 < n ->
  Z.abs (displacements_matrix_nx n i j) = Z.abs (displacements_matrix_nx n j i).
Proof.
  intros Hn.
  destruct (displacements_matrix_nx_spec n i j Hn) as [[q Hq] Hr].
  destruct (displacements_matrix_nx_spec n j i Hn) as [[p Hp] Hs].
  set (a := displacements_matrix_nx n i j) in *.
  set (b := displacements_matrix_nx n j i) in *.
  assert (Hab : (a + b = (q + p) * Z.of_nat n)%Z) by (rewrite Hq, Hp; ring).
  assert (Hrange : (- Z.of_nat n <= a + b < 2 * Z.of_nat n)%Z) by lia.
  assert (q + p = 0 \/ q + p = -1 \/ q + p = 1)%Z by nia.
  destruct H as [H|[H|H]]; rewrite H in Hab; nia.
Qed.

Lemma displacements_stacked_spec shape ax i j :
  i < nprod shape -> j < nprod shape -> ax < length shape ->
  let n := Z.of_nat (nth ax shape 0) in
  Zcong n (displacements_matrix_nx_stacked shape ax i j)
    (Z.of_nat (nth ax (unravel shape i) 0) - Z.of_nat (nth ax (unravel shape j) 0)) /\
  (- (n / 2) <= displacements_matrix_nx_stacked shape ax i j < - (n / 2) + n)%Z.
Proof.
  intros Hi Hj Hax n.
  assert (Hn : (0 < n)%Z).
  { unfold n. assert (H := in_shape_nth _ _ _ (unravel_in_shape shape i Hi) Hax). lia. }
  unfold displacements_matrix_nx_stacked, stacked_nx_points, meshgrid_ravel, flatten, nx_points.
  fold n.
  set (d := (Z.of_nat _ - Z.of_nat _ + n / 2)%Z).
  assert (Hb := Z.mod_pos_bound d n Hn).
  destruct (Zcong_mod n d Hn) as [q Hq].
  split; [|lia]. exists q. rewrite Hq. unfold d. ring.
Qed.

(** ** evenly spaced axes *)

Lemma sample_pos_lt n step offset k : 0 < n -> 0 < step -> sample_pos n step offset k < n * step.
Proof.
  intros Hn Hs. unfold sample_pos.
  assert (Hb := Z.mod_pos_bound (Z.of_nat k * Z.of_nat step + offset) (Z.of_nat n * Z.of_nat step) ltac:(nia)).
  nia.
Qed.

Lemma sample_pos_char n step offset k : 0 < n -> 0 < step -> k < n ->
  sample_pos n step offset k =
  Z.to_nat (offset mod Z.of_nat step) +
    Z.to_nat ((Z.of_nat k + offset / Z.of_nat step) mod Z.of_nat n) * step.
Proof.
  intros Hn Hs Hk. unfold sample_pos.
  set (s := Z.of_nat step). set (nn := Z.of_nat n).
  assert (Hs' : (0 < s)%Z) by lia. assert (Hn' : (0 < nn)%Z) by lia.
  assert (Hb := Z.mod_pos_bound offset s Hs').
  assert (Hb2 := Z.mod_pos_bound (Z.of_nat k + offset / s) nn Hn').
  rewrite <- (Nat2Z.id (Z.to_nat (offset mod s) + Z.to_nat ((Z.of_nat k + offset / s) mod nn) * step)).
  f_equal. rewrite Nat2Z.inj_add, Nat2Z.inj_mul, !Z2Nat.id by lia. fold s.
  apply Zmod_unique_range; [nia|nia|].
  destruct (Zcong_mod nn (Z.of_nat k + offset / s) Hn') as [q Hq].
  exists (-q)%Z. rewrite Hq.
  assert (Ho := Z.div_mod offset s ltac:(lia)). nia.
Qed.

Lemma sample_pos_inj n step offset k k' : 0 < n -> 0 < step -> k < n -> k' < n ->
  sample_pos n step offset k = sample_pos n step offset k' -> k = k'.
Proof.
  intros Hn Hs Hk Hk' H. rewrite !sample_pos_char in H by assumption.
  assert (Hb := Z.mod_pos_bound (Z.of_nat k + offset / Z.of_nat step) (Z.of_nat n) ltac:(lia)).
  assert (Hb' := Z.mod_pos_bound (Z.of_nat k' + offset / Z.of_nat step) (Z.of_nat n) ltac:(lia)).
  assert (E : ((Z.of_nat k + offset / Z.of_nat step) mod Z.of_nat n = (Z.of_nat k' + offset / Z.of_nat step) mod Z.of_nat n)%Z).
  { apply Nat.add_cancel_l, Nat.mul_cancel_r in H; [|lia]. apply Z2Nat.inj in H; [exact H|lia|lia]. }
  apply Zmod_eq_cong in E; [|lia]. destruct E as [q Hq].
  assert (q = 0)%Z by nia. lia.
Qed.

Lemma truncate_sample_axis_spec {A} n step offset (v : nat -> A) k :
  0 < n -> 0 < step -> k < n ->
  truncate_sample_axis n step offset v k = v (sample_pos n step offset k).
Proof.
  intros Hn Hs Hk. unfold truncate_sample_axis, roll, strided_get.
  rewrite sample_pos_char by assumption.
  replace (Z.of_nat k - - (offset / Z.of_nat step))%Z with (Z.of_nat k + offset / Z.of_nat step)%Z by ring.
  reflexivity.
Qed.

Lemma pad_sample_axis_at {A} (zero : A) n step offset v k :
  0 < n -> 0 < step -> k < n ->
  pad_sample_axis zero n step offset v (sample_pos n step offset k) = v k.
Proof.
  intros Hn Hs Hk. unfold pad_sample_axis, strided_set.
  rewrite sample_pos_char by assumption.
  set (a := Z.to_nat (offset mod Z.of_nat step)).
  set (b := Z.to_nat ((Z.of_nat k + offset / Z.of_nat step) mod Z.of_nat n)).
  replace (a + b * step - a) with (b * step) by lia.
  rewrite Nat.mod_mul, Nat.div_mul by lia.
  replace (a <=? a + b * step) with true by (symmetry; apply Nat.leb_le; lia). simpl.
  unfold roll. f_equal. unfold b.
  assert (Hb := Z.mod_pos_bound (Z.of_nat k + offset / Z.of_nat step) (Z.of_nat n) ltac:(lia)).
  rewrite Z2Nat.id by lia.
  rewrite <- (Nat2Z.id k) at 2. f_equal.
  apply Zmod_unique_range; [lia|lia|].
  destruct (Zcong_mod (Z.of_nat n) (Z.of_nat k + offset / Z.of_nat step) ltac:(lia)) as [q Hq].
  exists q. rewrite Hq. ring.
Qed.

Lemma pad_sample_axis_other {A} (zero : A) n step offset v j :
  0 < n -> 0 < step -> j < n * step ->
  (forall k, k < n -> sample_pos n step offset k <> j) ->
  pad_sample_axis zero n step offset v j = zero.
Proof.
  intros Hn Hs Hj Hno. unfold pad_sample_axis, strided_set.
  set (a := Z.to_nat (offset mod Z.of_nat step)).
  destruct (Nat.leb_spec a j) as [Ha|Ha]; [|reflexivity]. simpl.
  destruct (Nat.eqb_spec ((j - a) mod step) 0) as [E|E]; [|reflexivity].
  exfalso.
  assert (Hb := Z.mod_pos_bound offset (Z.of_nat step) ltac:(lia)).
  set (b := (j - a) / step).
  assert (Hjb : j = a + b * step).
  { assert (H := Nat.div_mod (j - a) step ltac:(lia)). fold b in H. nia. }
  assert (Hbn : b < n) by nia.
  set (k := Z.to_nat ((Z.of_nat b - offset / Z.of_nat step) mod Z.of_nat n)).
  assert (Hkb := Z.mod_pos_bound (Z.of_nat b - offset / Z.of_nat step) (Z.of_nat n) ltac:(lia)).
  assert (Hk : k < n) by lia.
  apply (Hno k Hk). rewrite sample_pos_char by assumption. fold a. rewrite Hjb. do 2 f_equal.
  transitivity (Z.to_nat (Z.of_nat b)); [|apply Nat2Z.id]. f_equal.
  unfold k. rewrite Z2Nat.id by lia.
  apply Zmod_unique_range; [lia|lia|].
  destruct (Zcong_mod (Z.of_nat n) (Z.of_nat b - offset / Z.of_nat step) ltac:(lia)) as [q Hq].
  exists q. rewrite Hq. ring.
Qed.

(** ** Statements in the form used by the property file *)

Lemma nk_points_each_once n f : 0 < n ->
  (- (Z.of_nat n / 2) <= f <= (Z.of_nat n - 1) / 2)%Z ->
  exists i, i < n /\ nk_points n i = f /\ forall i', i' < n -> nk_points n i' = f -> i' = i.
Proof.
  intros Hn Hf. destruct (is_freq_slot n f Hf Hn) as [i [Hi Hif]]. exists i. split; [assumption|].
  assert (E : nk_points n i = f) by (eapply is_freq_unique; [apply nk_points_freq; assumption|assumption]).
  split; [exact E|]. intros i' Hi' E'. eapply is_freq_inj; [eassumption|eassumption| |exact Hif].
  rewrite <- E'. apply nk_points_freq; assumption.
Qed.

Lemma nk_points_table n :
  nk_points_len n = n /\ (forall i, i < n -> is_freq n i (nk_points n i)).
Proof. split; [apply nk_points_len_eq|]. intros; apply nk_points_freq; assumption. Qed.

Lemma wrap_index_unique d len o r : (0 < len)%Z ->
  Zcong len r d -> (o - len / 2 <= r < o - len / 2 + len)%Z -> wrap_index d len o = r.
Proof.
  intros Hl Hc Hr. destruct (wrap_index_spec d len o Hl) as [H1 H2].
  apply (Zcong_range_eq len (o - len / 2)); try assumption.
  eapply Zcong_trans; [exact H1|apply Zcong_sym; exact Hc].
Qed.

Lemma wrap_index_around_origin_spec shape idx origin axes :
  Forall (fun n => 0 < n) shape -> length idx = length shape ->
  (forall o, origin = Some o -> length o = length shape) ->
  let r := wrap_index_around_origin shape idx origin axes in
  length r = length shape /\
  forall ax, ax < length shape ->
    let o := match origin with Some o => nth ax o 0%Z | None => 0%Z end in
    let n := Z.of_nat (nth ax shape 0) in
    (wrapped axes ax ->
       Zcong n (nth ax r 0%Z) (nth ax idx 0%Z) /\ (o - n / 2 <= nth ax r 0 < o - n / 2 + n)%Z) /\
    (~ wrapped axes ax -> nth ax r 0%Z = nth ax idx 0%Z).
Proof.
  intros Hpos Hi Ho. unfold wrap_index_around_origin.
  set (o := match origin with Some o => o | None => map (fun _ => 0%Z) shape end).
  assert (Hlo : length o = length shape).
  { unfold o. destruct origin; [apply Ho; reflexivity|apply map_length]. }
  destruct (wrap_from_spec 0 shape idx o axes Hpos Hi Hlo) as [H1 H2].
  split; [exact H1|]. intros ax Hax.
  assert (E : nth ax o 0%Z = match origin with Some o => nth ax o 0%Z | None => 0%Z end).
  { unfold o. destruct origin; [reflexivity|]. clear. revert ax. induction shape; intros [|ax]; simpl; auto. }
  cbv zeta. rewrite <- E. exact (H2 ax Hax).
Qed.

Lemma wrap_index_around_origin_periodic shape idx idx' origin axes :
  Forall (fun n => 0 < n) shape -> length idx = length shape -> length idx' = length shape ->
  (forall o, origin = Some o -> length o = length shape) ->
  (forall ax, ax < length shape ->
     (wrapped axes ax -> Zcong (Z.of_nat (nth ax shape 0)) (nth ax idx 0%Z) (nth ax idx' 0%Z)) /\
     (~ wrapped axes ax -> nth ax idx 0%Z = nth ax idx' 0%Z)) ->
  wrap_index_around_origin shape idx origin axes = wrap_index_around_origin shape idx' origin axes.
Proof.
  intros Hpos Hi Hi' Ho Hc.
  destruct (wrap_index_around_origin_spec shape idx origin axes Hpos Hi Ho) as [L H].
  destruct (wrap_index_around_origin_spec shape idx' origin axes Hpos Hi' Ho) as [L' H'].
  apply (nth_ext _ _ 0%Z 0%Z); [congruence|]. intros ax Hax. rewrite L in Hax.
  destruct (H ax Hax) as [A B]. destruct (H' ax Hax) as [A' B']. destruct (Hc ax Hax) as [C1 C2].
  assert (Hdec : wrapped axes ax \/ ~ wrapped axes ax).
  { destruct axes as [l|]; simpl; [|left; exact I]. destruct (in_dec Nat.eq_dec ax l); tauto. }
  destruct Hdec as [W|W].
  - destruct (A W) as [A1 A2]. destruct (A' W) as [A1' A2'].
    eapply Zcong_range_eq; [|exact A2|exact A2'].
    eapply Zcong_trans; [exact A1|]. eapply Zcong_trans; [apply C1; exact W|]. apply Zcong_sym; exact A1'.
  - rewrite B, B' by assumption. auto.
Qed.

Lemma wrap_index_around_origin_idempotent shape idx origin axes :
  Forall (fun n => 0 < n) shape -> length idx = length shape ->
  (forall o, origin = Some o -> length o = length shape) ->
  wrap_index_around_origin shape (wrap_index_around_origin shape idx origin axes) origin axes
  = wrap_index_around_origin shape idx origin axes.
Proof.
  intros Hpos Hi Ho.
  destruct (wrap_index_around_origin_spec shape idx origin axes Hpos Hi Ho) as [L H].
  apply wrap_index_around_origin_periodic; try assumption.
  intros ax Hax. destruct (H ax Hax) as [A B]. split; [intros W; apply A; exact W|exact B].
Qed.

Lemma sample_round_trip {A} (zero : A) n step offset v k :
  0 < n -> 0 < step -> k < n ->
  truncate_sample_axis n step offset (pad_sample_axis zero n step offset v) k = v k.
Proof.
  intros. rewrite truncate_sample_axis_spec by assumption. apply pad_sample_axis_at; assumption.
Qed.

Lemma sample_projection {A} (zero : A) n step offset (w : nat -> A) j :
  0 < n -> 0 < step -> j < n * step ->
  ((exists k, k < n /\ sample_pos n step offset k = j) ->
     pad_sample_axis zero n step offset (truncate_sample_axis n step offset w) j = w j) /\
  ((forall k, k < n -> sample_pos n step offset k <> j) ->
     pad_sample_axis zero n step offset (truncate_sample_axis n step offset w) j = zero).
Proof.
  intros Hn Hs Hj. split.
  - intros [k [Hk <-]]. rewrite pad_sample_axis_at by assumption. apply truncate_sample_axis_spec; assumption.
  - intros Hno. apply pad_sample_axis_other; assumption.
Qed.

Lemma pad_sample_axis_full {A} (zero : A) n step offset (v : nat -> A) :
  0 < n -> 0 < step ->
  (forall k, k < n -> pad_sample_axis zero n step offset v (sample_pos n step offset k) = v k) /\
  (forall j, j < n * step -> (forall k, k < n -> sample_pos n step offset k <> j) ->
     pad_sample_axis zero n step offset v j = zero).
Proof.
  intros Hn Hs. split; intros.
  - apply pad_sample_axis_at; assumption.
  - apply pad_sample_axis_other; assumption.
Qed.
