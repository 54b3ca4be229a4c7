(** The points of one cell. *)
From Coq Require Import Reals.
From Verif Require Import ZLib Csum DFT NumPy Index Spec IndexProofs Basis SpecBasis Operator SpecOperator OperatorProofs Reduce IndexSum
  Wavepacket SpecWavepacket WavepacketProofs2 Localize SpecLocalize TightCell SpecTightCell.
Local Open Scope Z_scope.

Lemma all_some_total {A B} (f : A -> option B) (l : list A) : (forall a, In a l -> exists b, f a = Some b) ->
  exists r, all_some (map f l) = Some r /\ forall b, In b r <-> exists a, In a l /\ f a = Some b.
Proof.
  induction l as [|a l IH]; intros H.
  - exists []. split; [reflexivity|]. intros b. split; [intros []|intros [a [[] _]]].
  - destruct (H a (or_introl eq_refl)) as [b Eb]. destruct IH as [r [Er Hr]]; [intros c Hc; apply H; right; exact Hc|].
    exists (b :: r). cbn [map all_some]. rewrite Eb, Er. split; [reflexivity|]. intros c. split.
    + intros [<-|Hc]; [exists a; split; [left; reflexivity|exact Eb]|]. apply Hr in Hc. destruct Hc as [a' [Ha Ea]]. exists a'. split; [right; exact Ha|exact Ea].
    + intros [a' [[<-|Ha] Ea]]; [left; congruence|]. right. apply Hr. exists a'. split; assumption.
Qed.

Lemma window_unique n o y y' : (0 < n) -> o - n / 2 <= y < o - n / 2 + n -> o - n / 2 <= y' < o - n / 2 + n -> Zcong n y y' -> y = y'.
Proof. intros Hn H H' [q E]. assert (q = 0) by nia. subst q. lia. Qed.
Lemma wrap_fixed n o y d : 0 < n -> o - n / 2 <= y < o - n / 2 + n -> Zcong n y d -> wrap_index d n o = y.
Proof.
  intros Hn Hy Hd. destruct (wrap_index_spec d n o Hn) as [C W]. apply (window_unique n o); try assumption.
  destruct C as [q C], Hd as [q' Hd]. exists (q - q'). rewrite C, Hd. ring.
Qed.
Lemma cong_mod_eq n a b : 0 < n -> Zcong n a b -> a mod n = b mod n.
Proof. intros Hn [q ->]. apply Z_mod_plus_full. Qed.
Lemma cong_divide l n a b : Zcong (l * n) a b -> Zcong n a b.
Proof. intros [q ->]. exists (q * l). ring. Qed.

(** The flat index of an array index. *)
Lemma flat_index_stands F y : Forall (fun n => (0 < n)%nat) F -> length y = length F ->
  exists x, in_shape x F /\ stands_for F y x /\ get_flat_index F y MWrap = Some (ravel F x).
Proof.
  intros HF Hy. destruct (flat_index_wrap F y HF Hy) as [x [Hx [Hc E]]]. exists x. split; [exact Hx|]. split; [|exact E].
  clear E HF. revert y x Hy Hx Hc. induction F as [|n F IH]; intros [|b y] [|i x] Hy Hx Hc; try discriminate; inversion Hx; subst; [exact Logic.I|].
  cbn [combine] in Hc. inversion Hc as [|? ? ? ? G1 G2]; subst. cbn [fst snd] in G1. cbn [stands_for]. split.
  - destruct G1 as [q G1]. exists (- q). lia.
  - apply IH; [cbn in Hy; lia|assumption|assumption].
Qed.
Lemma stands_unique F : forall y x x', in_shape x F -> in_shape x' F -> stands_for F y x -> stands_for F y x' -> x = x'.
Proof.
  induction F as [|n F IH]; intros [|b y] [|i x] [|j x'] Hx Hx' H H'; cbn in H, H'; try contradiction; try reflexivity; try (inversion Hx; fail); try (inversion Hx'; fail).
  inversion Hx; inversion Hx'; subst. destruct H as [[q C] H], H' as [[q' C'] H']. f_equal; [|exact (IH y x x' ltac:(assumption) ltac:(assumption) H H')].
  assert (q = q') by nia. subst. lia.
Qed.

Lemma cells_pos ls : forall ss, Forall (fun n => (0 < n)%nat) ls -> Forall (fun n => (0 < n)%nat) ss -> length ls = length ss ->
  Forall (fun n => (0 < n)%nat) (supercell ls ss).
Proof.
  induction ls as [|n ls IH]; intros [|m ss] Hl Hs H; try discriminate; [constructor|].
  inversion Hl; inversion Hs; subst. cbn [supercell]. constructor; [nia|]. apply IH; [assumption|assumption|cbn in H; lia].
Qed.
Lemma cells_length ls : forall ss, length ls = length ss -> length (supercell ls ss) = length ss.
Proof. induction ls as [|n ls IH]; intros [|m ss] H; try discriminate; [reflexivity|]. cbn in *. rewrite IH by lia. reflexivity. Qed.
Lemma window_length ss : forall o y, in_window ss o y -> length y = length ss.
Proof.
  induction ss as [|n s IH]; intros [|a o] [|b y] W; cbn in W; try tauto; try reflexivity.
  cbn. f_equal. apply (IH o). tauto.
Qed.

Section Points.
  Context (ls ss : list nat).
  Context (Hls : Forall (fun n => (0 < n)%nat) ls) (Hss : Forall (fun n => (0 < n)%nat) ss).
  Context (Hlen : length ls = length ss) (Hnd : length ss = 1%nat \/ length ss = 2%nat).
  Notation F := (supercell ls ss).

  Lemma cell_shape_pos : Forall (fun n => (0 < n)%nat) F.
  Proof using Hls Hss Hlen. exact (cells_pos ls ss Hls Hss Hlen). Qed.
  Lemma cell_shape_length : length F = length ss.
  Proof using Hlen. exact (cells_length ls ss Hlen). Qed.

  (** The points the two arrays of indices lead to. *)
  Lemma cell_points_spec (nl : nat) o : length o = length ss ->
    exists kept, cell_points F ss nl (nprod ss) o = Some kept /\
      forall x, in_shape x F -> (In (ravel F x) kept <-> in_cell_around ss F o x /\ first_below ss nl x).
  Proof using Hls Hss Hlen Hnd.
    intros Ho. unfold cell_points. replace (2 <? length ss)%nat with false by (symmetry; apply Nat.ltb_ge; lia).
    pose proof cell_shape_pos as HF. pose proof cell_shape_length as LF.
    assert (LW : forall p, length (wrap_index_around_origin ss (pair_point (nprod ss) p) (Some o) None) = length F).
    { intros p. rewrite LF. unfold wrap_index_around_origin, pair_point.
      destruct ss as [|n [|m [|]]], o as [|a [|b [|]]]; cbn in Hnd, Ho; try lia; reflexivity. }
    destruct (all_some_total (fun p => get_flat_index F (wrap_index_around_origin ss (pair_point (nprod ss) p) (Some o) None) MWrap) (seq 0 (nl * nprod ss))) as [kept [E HK]].
    { intros p _. destruct (flat_index_stands F _ HF (LW p)) as [x [_ [_ Ex]]]. eauto. }
    exists kept. split; [exact E|]. intros x Hx. rewrite HK. clear E HK. split.
    - intros [p [Hp Ep]]. apply in_seq in Hp. destruct (flat_index_stands F _ HF (LW p)) as [x' [Hx' [S' E']]].
      rewrite E' in Ep. injection Ep as Ep. apply (f_equal (unravel F)) in Ep. rewrite !unravel_ravel in Ep by assumption. subst x'.
      split; [exists (wrap_index_around_origin ss (pair_point (nprod ss) p) (Some o) None); split; [|exact S']|].
      + clear S' E' Hp LW. unfold wrap_index_around_origin, pair_point.
        destruct ss as [|n [|m [|]]], o as [|a [|b [|]]]; cbn in Hnd, Ho; try lia; inversion Hss as [|? ? Hn Hs']; subst; cbn [wrap_index_from in_window].
        * split; [apply wrap_index_spec; lia|exact Logic.I].
        * inversion Hs'; subst. split; [apply wrap_index_spec; lia|]. split; [apply wrap_index_spec; lia|exact Logic.I].
      + assert (Hi : (p / nprod ss < nl)%nat).
        { apply Nat.div_lt_upper_bound; [pose proof (nprod_pos ss Hss); lia|]. lia. }
        clear E' Hp LW. unfold wrap_index_around_origin, pair_point in S'. 
        destruct ss as [|n s], ls as [|l ls'], o as [|a o'], x as [|i x]; cbn in Hnd, Ho, Hlen; try lia; try exact Logic.I.
        cbn [wrap_index_from supercell stands_for] in S'. cbn [first_below].
        inversion Hss as [|? ? Hn Hs']; subst. destruct S' as [C _].
        destruct (wrap_index_spec (Z.of_nat (p / nprod (n :: s))) (Z.of_nat n) a ltac:(lia)) as [C' _].
        set (w := wrap_index (Z.of_nat (p / nprod (n :: s))) (Z.of_nat n) a) in *. rewrite Nat2Z.inj_mul in C. apply cong_divide in C.
        apply cong_mod_eq in C; [|lia]. apply cong_mod_eq in C'; [|lia]. rewrite C in C'. rewrite <- !Nat2Z.inj_mod in C'. apply Nat2Z.inj in C'.
        rewrite C'. pose proof (Nat.mod_le (p / nprod (n :: s)) n). lia.
    - intros [[y [Wy Sy]] Hf].
      destruct (flat_index_stands F y HF) as [x' [Hx' [S' E']]].
      { rewrite LF. exact (window_length ss o y Wy). }
      rewrite <- (stands_unique F y x x' Hx Hx' Sy S') in E'. clear S' Hx' x'. clear LW LF HF.
      pose proof (nprod_pos ss Hss) as PN.
      destruct ss as [|n s], ls as [|l ls'], o as [|a o'], y as [|y0 y'], x as [|i x]; cbn in Hnd, Ho, Hlen, Wy, Sy; try lia; try tauto; try (inversion Hx; fail).
      destruct Wy as [W0 Wy]. destruct Sy as [C0 Sy]. cbn [first_below] in Hf.
      inversion Hss as [|? ? Hn Hs]; subst.
      assert (B0 : y0 mod Z.of_nat n = Z.of_nat (i mod n)).
      { rewrite Nat2Z.inj_mod. apply cong_mod_eq; [lia|]. apply (cong_divide (Z.of_nat l)). rewrite <- Nat2Z.inj_mul. exact C0. }
      assert (G0 : Zcong (Z.of_nat n) y0 (Z.of_nat (i mod n))).
      { rewrite <- B0. exists (y0 / Z.of_nat n). pose proof (Z_div_mod_eq_full y0 (Z.of_nat n)). lia. }
      destruct s as [|m [|m' s]]; [| |cbn in Hnd; lia].
      + destruct o' as [|b o']; [|cbn in Ho; lia]. destruct y' as [|y1 y']; [|cbn in Wy; tauto].
        exists ((i mod n) * nprod [n])%nat. split; [apply in_seq; nia|].
        unfold wrap_index_around_origin, pair_point. cbn [wrap_index_from].
        rewrite Nat.div_mul by lia. rewrite (wrap_fixed _ _ y0) by (assumption || lia). exact E'.
      + destruct o' as [|b o']; [cbn in Ho; lia|]. destruct o' as [|b' o']; [|cbn in Ho; lia].
        destruct y' as [|y1 y']; [cbn in Wy; tauto|]. destruct y' as [|y2 y']; [|cbn in Wy; tauto].
        destruct Wy as [W1 _]. destruct ls' as [|l' ls']; [cbn in Hlen; lia|]. destruct ls' as [|l2 ls']; [|cbn in Hlen; lia].
        destruct x as [|j x]; [cbn in Sy; tauto|]. cbn [supercell stands_for] in Sy. destruct Sy as [C1 _].
        inversion Hs as [|? ? Hm _]; subst.
        assert (B1 : y1 mod Z.of_nat m = Z.of_nat (j mod m)).
        { rewrite Nat2Z.inj_mod. apply cong_mod_eq; [lia|]. apply (cong_divide (Z.of_nat l')). rewrite <- Nat2Z.inj_mul. exact C1. }
        assert (G1 : Zcong (Z.of_nat m) y1 (Z.of_nat (j mod m))).
        { rewrite <- B1. exists (y1 / Z.of_nat m). pose proof (Z_div_mod_eq_full y1 (Z.of_nat m)). lia. }
        assert (Hj : (j mod m < nprod [n; m])%nat) by (pose proof (Nat.mod_upper_bound j m); cbn [nprod]; nia).
        exists ((i mod n) * nprod [n; m] + j mod m)%nat. split; [apply in_seq; nia|].
        unfold wrap_index_around_origin, pair_point. cbn [wrap_index_from].
        rewrite div_add_small, mod_add_small by exact Hj.
        rewrite (wrap_fixed _ _ y0) by (assumption || lia). rewrite (wrap_fixed _ _ y1) by (assumption || lia). exact E'.
  Qed.
End Points.
