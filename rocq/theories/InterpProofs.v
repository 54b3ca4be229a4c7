From Verif Require Import ZLib NumPy Interp Spec.

Local Open Scope nat_scope.

(** ** One axis *)

Lemma is_freq_unique n i f g : is_freq n i f -> is_freq n i g -> f = g.
Proof.
  unfold is_freq; intros [Hf1 Hf2] [Hg1 Hg2].
  apply (Zcong_range_eq (Z.of_nat n) (- (Z.of_nat n / 2))).
  - eapply Zcong_trans; [exact Hf1|apply Zcong_sym; exact Hg1].
  - lia.
  - lia.
Qed.

Lemma is_freq_inj n i j f : i < n -> j < n -> is_freq n i f -> is_freq n j f -> i = j.
Proof.
  unfold is_freq; intros Hi Hj [H1 _] [H2 _].
  assert (Z.of_nat i = Z.of_nat j); [|lia].
  apply (Zcong_range_eq (Z.of_nat n) 0); try lia.
  eapply Zcong_trans; [apply Zcong_sym; exact H1|exact H2].
Qed.

Lemma is_freq_exists n i : i < n ->
  is_freq n i (if 2 * i <? n then Z.of_nat i else (Z.of_nat i - Z.of_nat n)%Z).
Proof.
  intros Hi. unfold is_freq, Zcong.
  destruct (2 * i <? n) eqn:E.
  - split; [exists 0%Z; lia|lia].
  - split; [exists (-1)%Z; lia|lia].
Qed.

Lemma is_freq_cases n i f : i < n -> is_freq n i f ->
  f = (if 2 * i <? n then Z.of_nat i else (Z.of_nat i - Z.of_nat n)%Z).
Proof.
  intros Hi H. eapply is_freq_unique; [exact H|]. apply is_freq_exists; assumption.
Qed.

(** Slot of a representable frequency. *)
Lemma is_freq_slot n f :
  (- (Z.of_nat n / 2) <= f <= (Z.of_nat n - 1) / 2)%Z -> 0 < n ->
  exists i, i < n /\ is_freq n i f.
Proof.
  intros Hf Hn. exists (Z.to_nat (f mod Z.of_nat n)).
  assert (Hb := Z.mod_pos_bound f (Z.of_nat n) ltac:(lia)).
  split; [lia|]. split; [|exact Hf].
  rewrite Z2Nat.id by lia. apply Zcong_sym, Zcong_mod; lia.
Qed.

Definition pad_pair (t : option nat) (n : nat) : list pyslice :=
  match t with
  | Some m => [pad_slice_start n m; pad_slice_end n m]
  | None => [slice_all; slice_all]
  end.
Definition new_len (t : option nat) (n : nat) : nat :=
  match t with Some m => m | None => n end.

Lemma pad_start_lo n m : slice_lo n (pad_slice_start n m) = 0 /\
  slice_lo m (pad_slice_start n m) = 0.
Proof. split; reflexivity. Qed.

Lemma pad_axis_len t n sl : In sl (pad_pair t n) ->
  slice_len (new_len t n) sl = slice_len n sl.
Proof.
  destruct t as [m|]; simpl; [|intros [<-|[<-|[]]]; reflexivity].
  intros [<-|[<-|[]]].
  - unfold slice_len, pad_slice_start, slice_to, slice_lo, slice_hi, slice_bound; cbn [s_start s_stop].
    set (c := (1 + _)%Z). assert (Hc : (c = 1 + Z.min ((Z.of_nat n - 1) / 2) ((Z.of_nat m - 1) / 2))%Z) by reflexivity.
    clearbody c. destruct (Z.ltb_spec c 0); lia.
  - unfold slice_len, pad_slice_end.
    destruct (Z.ltb_spec (Z.max ((- Z.of_nat n + 1) / 2) ((- Z.of_nat m + 1) / 2)) 0) as [E|E].
    + unfold slice_from, slice_lo, slice_hi, slice_bound; simpl.
      destruct (Z.ltb_spec (Z.max ((- Z.of_nat n + 1) / 2) ((- Z.of_nat m + 1) / 2)) 0); [|lia].
      lia.
    + unfold slice_range, slice_lo, slice_hi, slice_bound; simpl. lia.
Qed.

(** Inside a copied slice, old and new slot carry the same frequency. *)
Lemma pad_axis_in t n sl j : In sl (pad_pair t n) ->
  slice_lo (new_len t n) sl <= j < slice_hi (new_len t n) sl ->
  j - slice_lo (new_len t n) sl + slice_lo n sl < n /\
  same_slot t n (j - slice_lo (new_len t n) sl + slice_lo n sl) j.
Proof.
  destruct t as [m|]; simpl.
  2:{ intros [<-|[<-|[]]]; unfold slice_all, slice_lo, slice_hi; simpl; lia. }
  intros [<-|[<-|[]]].
  - unfold pad_slice_start, slice_to, slice_lo, slice_hi, slice_bound; cbn [s_start s_stop].
    set (c := (1 + _)%Z). assert (Hc : (c = 1 + Z.min ((Z.of_nat n - 1) / 2) ((Z.of_nat m - 1) / 2))%Z) by reflexivity.
    clearbody c. destruct (Z.ltb_spec c 0); [lia|].
    intros Hj. split; [lia|]. rewrite Nat.sub_0_r, Nat.add_0_r. exists (Z.of_nat j). unfold is_freq, Zcong.
    split; (split; [exists 0%Z|]); lia.
  - unfold pad_slice_end.
    destruct (Z.ltb_spec (Z.max ((- Z.of_nat n + 1) / 2) ((- Z.of_nat m + 1) / 2)) 0) as [E|E].
    + unfold slice_from, slice_lo, slice_hi, slice_bound; simpl.
      destruct (Z.ltb_spec (Z.max ((- Z.of_nat n + 1) / 2) ((- Z.of_nat m + 1) / 2)) 0); [|lia].
      intros Hj. split; [lia|]. exists (Z.of_nat j - Z.of_nat m)%Z. unfold is_freq, Zcong.
      split; (split; [exists (-1)%Z|]); lia.
    + unfold slice_range, slice_lo, slice_hi, slice_bound; simpl. lia.
Qed.

(** Every slot with a counterpart is inside one of the two slices. *)
Lemma pad_axis_complete t n i j : i < n -> j < new_len t n -> same_slot t n i j ->
  exists sl, In sl (pad_pair t n) /\
    slice_lo (new_len t n) sl <= j < slice_hi (new_len t n) sl.
Proof.
  destruct t as [m|]; simpl.
  2:{ intros Hi Hj ->. exists slice_all. split; [auto|]. unfold slice_all, slice_lo, slice_hi; simpl; lia. }
  intros Hi Hj [f [H1 H2]].
  assert (R1 := proj2 H1). assert (R2 := proj2 H2).
  apply is_freq_cases in H1; [|assumption]. apply is_freq_cases in H2; [|assumption].
  destruct (Z.ltb_spec f 0) as [Hneg|Hpos].
  - exists (pad_slice_end n m). split; [auto|]. unfold pad_slice_end.
    destruct (Z.ltb_spec (Z.max ((- Z.of_nat n + 1) / 2) ((- Z.of_nat m + 1) / 2)) 0) as [E|E]; [|lia].
    unfold slice_from, slice_lo, slice_hi, slice_bound; simpl.
    destruct (Z.ltb_spec (Z.max ((- Z.of_nat n + 1) / 2) ((- Z.of_nat m + 1) / 2)) 0); [|lia].
    destruct (Nat.ltb_spec (2 * j) m); lia.
  - exists (pad_slice_start n m). split; [auto|].
    unfold pad_slice_start, slice_to, slice_lo, slice_hi, slice_bound; cbn [s_start s_stop].
    set (c := (1 + _)%Z). assert (Hc : (c = 1 + Z.min ((Z.of_nat n - 1) / 2) ((Z.of_nat m - 1) / 2))%Z) by reflexivity.
    clearbody c. destruct (Z.ltb_spec c 0); [lia|].
    destruct (Nat.ltb_spec (2 * j) m); lia.
Qed.

Lemma same_slot_unique t n i i' j : i < n -> i' < n -> j < new_len t n ->
  same_slot t n i j -> same_slot t n i' j -> i = i'.
Proof.
  destruct t as [m|]; simpl; [|congruence].
  intros Hi Hi' Hj [f [H1 H2]] [g [G1 G2]].
  assert (f = g) by (eapply is_freq_unique; eassumption). subst.
  eapply is_freq_inj; eassumption.
Qed.

(** ** All axes *)

Section ND.
  Variable resize : nat -> option nat.

  Fixpoint new_shape (k : nat) (shape : list nat) : list nat :=
    match shape with
    | [] => []
    | n :: shape => new_len (resize k) n :: new_shape (S k) shape
    end.

  Fixpoint pair_list (k : nat) (shape : list nat) : list (list pyslice) :=
    match shape with
    | [] => []
    | n :: shape => pad_pair (resize k) n :: pair_list (S k) shape
    end.

  Lemma in_cart_prod {A} (ls : list (list A)) (x : list A) :
    In x (cart_prod ls) <-> Forall2 (@In A) x ls.
  Proof.
    revert x; induction ls as [|l ls IH]; intros x; simpl.
    - split.
      + intros [<-|[]]; constructor.
      + intros H; inversion H; subst; auto.
    - rewrite in_flat_map. split.
      + intros [y [Hy Hx]]. apply in_map_iff in Hx. destruct Hx as [z [<- Hz]].
        constructor; [assumption|]. apply IH; assumption.
      + intros H. inversion H; subst. exists x0. split; [assumption|].
        apply in_map_iff. exists l0. split; [reflexivity|]. apply IH; assumption.
  Qed.

  Lemma regions_match_ok k shape sl :
    Forall2 (@In _) sl (pair_list k shape) ->
    regions_match (new_shape k shape) shape sl = true.
  Proof.
    revert k sl; induction shape as [|n shape IH]; intros k sl H; simpl in *.
    - inversion H; subst; reflexivity.
    - inversion H as [|s l sl' ls' Hs Hsl]; subst. simpl.
      rewrite (pad_axis_len _ _ _ Hs), Nat.eqb_refl. simpl. eapply IH; eassumption.
  Qed.

  Lemma region_source_ok k shape sl idx :
    Forall2 (@In _) sl (pair_list k shape) ->
    in_region (new_shape k shape) sl idx = true ->
    in_shape (region_source (new_shape k shape) shape sl idx) shape /\
    same_slots resize k shape (region_source (new_shape k shape) shape sl idx) idx.
  Proof.
    revert k sl idx; induction shape as [|n shape IH]; intros k sl idx H Hin; simpl in *.
    - inversion H; subst; destruct idx; simpl in *; [|discriminate].
      split; [constructor|exact I].
    - inversion H as [|s l sl' ls' Hs Hsl]; subst. destruct idx as [|j idx]; [discriminate|].
      simpl in Hin. apply andb_prop in Hin. destruct Hin as [Hj Hin].
      assert (Hj' : slice_lo (new_len (resize k) n) s <= j < slice_hi (new_len (resize k) n) s) by lia.
      destruct (pad_axis_in _ _ _ _ Hs Hj') as [Hlt Hss].
      destruct (IH _ _ _ Hsl Hin) as [IH1 IH2].
      split; [constructor; assumption|]. simpl. split; assumption.
  Qed.

  Lemma same_slots_unique k shape i i' idx :
    in_shape i shape -> in_shape i' shape -> in_shape idx (new_shape k shape) ->
    same_slots resize k shape i idx -> same_slots resize k shape i' idx -> i = i'.
  Proof.
    revert k i i' idx; induction shape as [|n shape IH]; intros k i i' idx Hi Hi' Hidx H H'.
    - inversion Hi; inversion Hi'; reflexivity.
    - inversion Hi; inversion Hi'; subst. simpl in Hidx. inversion Hidx; subst.
      simpl in H, H'. destruct H, H'. f_equal.
      + eapply same_slot_unique; eassumption.
      + eapply IH; eassumption.
  Qed.

  Lemma region_complete k shape old idx :
    in_shape old shape -> in_shape idx (new_shape k shape) ->
    same_slots resize k shape old idx ->
    exists sl, Forall2 (@In _) sl (pair_list k shape) /\
      in_region (new_shape k shape) sl idx = true.
  Proof.
    revert k old idx; induction shape as [|n shape IH]; intros k old idx Ho Hi H.
    - inversion Ho; simpl in Hi; inversion Hi; subst. exists []. split; constructor.
    - inversion Ho as [|a b old' sh' Ha Ho']; subst. simpl in Hi.
      inversion Hi as [|c d idx' sh'' Hc Hi']; subst. simpl in H. destruct H as [H1 H2].
      destruct (pad_axis_complete _ _ _ _ Ha Hc H1) as [s [Hs1 Hs2]].
      destruct (IH _ _ _ Ho' Hi' H2) as [sl [Hsl1 Hsl2]].
      exists (s :: sl). split; [constructor; assumption|]. simpl. rewrite Hsl2. lia.
  Qed.

  (** The loop: what it leaves at every index. *)
  Lemma pad_loop_spec {A} k shape (src : list nat -> A) regions dst :
    (forall sl, In sl regions -> Forall2 (@In _) sl (pair_list k shape)) ->
    exists padded, pad_loop (new_shape k shape) shape src regions dst = Some padded /\
      forall idx, in_shape idx (new_shape k shape) ->
      (forall sl, In sl regions -> in_region (new_shape k shape) sl idx = true ->
         forall old, in_shape old shape -> same_slots resize k shape old idx ->
         padded idx = src old) /\
      ((forall sl, In sl regions -> in_region (new_shape k shape) sl idx = false) ->
         padded idx = dst idx).
  Proof.
    revert dst; induction regions as [|sl regions IH]; intros dst Hall; simpl.
    - exists dst. split; [reflexivity|]. intros idx Hidx. split; [intros sl []|reflexivity].
    - unfold assign_region. rewrite (regions_match_ok k shape sl) by (apply Hall; left; reflexivity).
      match goal with |- context [pad_loop _ _ _ _ ?d] => set (dst' := d) end.
      destruct (IH dst') as [padded [Hp Hspec]]; [intros; apply Hall; right; assumption|].
      exists padded. split; [exact Hp|]. intros idx Hidx.
      destruct (Hspec idx Hidx) as [Hs1 Hs2]. split.
      + intros sl' [<-|Hin] Hreg old Hold Hss; [|eapply Hs1; eassumption].
        destruct (existsb (fun s => in_region (new_shape k shape) s idx) regions) eqn:E.
        * apply existsb_exists in E. destruct E as [s [Hs Hr]]. eapply Hs1; eassumption.
        * rewrite Hs2.
          -- unfold dst'. rewrite Hreg. f_equal.
             destruct (region_source_ok k shape sl idx) as [R1 R2];
               [apply Hall; left; reflexivity|assumption|].
             eapply same_slots_unique; eassumption.
          -- intros s Hs. destruct (in_region (new_shape k shape) s idx) eqn:F; [|reflexivity].
             exfalso. assert (existsb (fun s => in_region (new_shape k shape) s idx) regions = true)
               by (apply existsb_exists; exists s; split; assumption). congruence.
      + intros Hnone. rewrite Hs2.
        * unfold dst'. rewrite (Hnone sl); [reflexivity|left; reflexivity].
        * intros s Hs. apply Hnone; right; assumption.
  Qed.
End ND.

Lemma padded_shape_new k axes s shape :
  padded_shape_from k axes s shape = new_shape (axis_target axes s) k shape.
Proof. revert k; induction shape as [|n shape IH]; intros k; simpl; [reflexivity|]. rewrite IH. reflexivity. Qed.

Lemma pad_slices_pair k axes s shape :
  pad_slices_from k axes s shape = pair_list (axis_target axes s) k shape.
Proof. revert k; induction shape as [|n shape IH]; intros k; simpl; [reflexivity|]. rewrite IH. reflexivity. Qed.

Lemma pad_ft_points_spec {A} (zero : A) shape array s axes :
  length axes = length s -> Forall (fun a => a < length shape) axes ->
  exists padded,
    pad_ft_points zero shape array s axes =
      Some (new_shape (axis_target axes s) 0 shape, padded) /\
    forall idx, in_shape idx (new_shape (axis_target axes s) 0 shape) ->
      (forall old, in_shape old shape -> same_slots (axis_target axes s) 0 shape old idx ->
         padded idx = array old) /\
      ((forall old, in_shape old shape -> ~ same_slots (axis_target axes s) 0 shape old idx) ->
         padded idx = zero).
Proof.
  intros Hlen Hax. unfold pad_ft_points. rewrite Hlen, Nat.eqb_refl. simpl.
  replace (forallb (fun a => a <? length shape) axes) with true.
  2:{ symmetry. apply forallb_forall. intros a Ha. rewrite Forall_forall in Hax.
      specialize (Hax a Ha). lia. }
  unfold padded_shape, pad_slices. rewrite padded_shape_new, pad_slices_pair.
  destruct (pad_loop_spec (axis_target axes s) 0 shape array
     (cart_prod (pair_list (axis_target axes s) 0 shape)) (fun _ => zero)) as [padded [Hp Hspec]].
  { intros sl Hsl. apply in_cart_prod; assumption. }
  rewrite Hp. exists padded. split; [reflexivity|].
  intros idx Hidx. destruct (Hspec idx Hidx) as [H1 H2]. split.
  - intros old Hold Hss.
    destruct (region_complete _ _ _ _ _ Hold Hidx Hss) as [sl [Hsl1 Hsl2]].
    apply (H1 sl); try assumption. apply in_cart_prod; assumption.
  - intros Hnone. apply H2. intros sl Hsl.
    destruct (in_region _ sl idx) eqn:E; [|reflexivity].
    apply in_cart_prod in Hsl. exfalso.
    destruct (region_source_ok _ _ _ _ _ Hsl E) as [R1 R2]. eapply Hnone; eassumption.
Qed.

(** ** One-dimensional corollaries *)

Lemma pad_ft_1d_spec {A} (zero : A) n s v :
  exists p, pad_ft_1d zero n s v = Some p /\
    forall j, j < s ->
      (forall i f, i < n -> is_freq n i f -> is_freq s j f -> p j = v i) /\
      ((forall i f, i < n -> is_freq n i f -> ~ is_freq s j f) -> p j = zero).
Proof.
  unfold pad_ft_1d.
  destruct (pad_ft_points_spec zero [n]
     (fun idx => match idx with [i] => v i | _ => zero end) [s] [0]) as [padded [Hp Hspec]].
  - reflexivity.
  - repeat constructor.
  - rewrite Hp. eexists; split; [reflexivity|]. intros j Hj. simpl in Hspec.
    destruct (Hspec [j]) as [H1 H2]; [repeat constructor; assumption|]. split.
    + intros i f Hi Hf1 Hf2. apply (H1 [i]); [repeat constructor; assumption|].
      simpl. split; [|exact I]. exists f; split; assumption.
    + intros Hnone. apply H2. intros old Hold.
      inversion Hold as [|i n' o sh Hi Ho]; subst. inversion Ho; subst. simpl.
      intros [[f [F1 F2]] _]. eapply Hnone; eassumption.
Qed.

Lemma pad_ft_1d_some {A} (zero : A) n s v : pad_ft_1d zero n s v <> None.
Proof. destruct (pad_ft_1d_spec zero n s v) as [p [-> _]]. discriminate. Qed.
