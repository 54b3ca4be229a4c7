(** Collected facts about Brillouin zones, and concrete crystals. *)
From Coq Require Import Reals ZArith List Arith Lia Lra Psatz.
From Verif Require Import ZLib Csum NumPy Index Lattice LatticeProofs Hamiltonian SpecReal SpecHamiltonian Brillouin SpecBrillouin BrillouinProofs.
Import ListNotations.
Local Open Scope R_scope.

Lemma decrement_facts shape delta inv binv q idx : crystal shape delta q -> inverses shape delta inv binv -> length idx = 3%nat ->
  exists idx' t, decrement_brillouin_zone shape inv binv idx = Some idx' /\
    decrement_brillouin_zone_3d shape inv binv idx = Some idx' /\ tolerance q t /\ 0 < t /\
    ((idx' = idx /\ forall m, neighbour m -> beyond shape q idx m <= t) \/
     (exists m, neighbour m /\ idx' = moved_back shape idx m /\ t < beyond shape q idx m /\
        length2 (q idx') < length2 (q idx) /\
        forall m', neighbour m' -> t < beyond shape q idx m' ->
          beyond shape q idx m <= beyond shape q idx m' /\
          ((rank m' < rank m)%Z -> beyond shape q idx m < beyond shape q idx m'))).
Proof.
  intros [Hs [Hp Hq]] [Hi Hb] Hl.
  destruct (decrement_spec shape delta inv binv q Hs Hp Hi Hb Hq idx Hl) as [idx' [t [E [Ht [Htp D]]]]].
  exists idx', t. split; [exact E|].
  assert (L : length idx' = 3%nat).
  { destruct D as [[-> _]|[m [_ [-> _]]]]; [exact Hl|reflexivity]. }
  split.
  { unfold decrement_brillouin_zone_3d. rewrite E. destruct idx' as [|a [|b [|c [|]]]]; try discriminate. reflexivity. }
  split; [exact Ht|]. split; [exact Htp|].
  destruct D as [D|[m [Hm [-> [Hd D]]]]]; [left; exact D|right].
  exists m. split; [exact Hm|]. split; [reflexivity|]. split; [exact Hd|]. split; [|exact D].
  apply (beyond_positive shape delta inv binv q Hs Hp Hi Hb Hq); [|lra].
  apply (lattice_nonzero shape delta inv binv q Hs Hp Hi Hb Hq).
  apply (neighbour_nonzero shape delta inv binv q Hs Hp Hi Hb Hq). exact Hm.
Qed.

Lemma zone_facts shape delta inv binv q idx : crystal shape delta q -> inverses shape delta inv binv -> length idx = 3%nat ->
  exists c, crossed shape q idx c /\
    (c = 0%nat -> decrement_brillouin_zone shape inv binv idx = Some idx) /\
    forall idx', decrement_brillouin_zone shape inv binv idx = Some idx' -> idx' <> idx ->
      exists c', crossed shape q idx' c' /\ (c' < c)%nat.
Proof.
  intros HC HI Hl. destruct HC as [Hs [Hp Hq]]. destruct HI as [Hi Hb].
  destruct (crossed_exists shape delta inv binv q Hs Hp Hi Hb Hq idx) as [c Hc].
  exists c. split; [exact Hc|].
  destruct (decrement_facts shape delta inv binv q idx) as [idx' [t [E [_ [Ht [Htp D]]]]]]; [repeat split; assumption|split; assumption|exact Hl|].
  split.
  - intros ->. rewrite E. destruct D as [[-> _]|[m [Hm [-> [_ [Hlt _]]]]]]; [reflexivity|exfalso].
    destruct Hc as [L [_ [HL0 HL]]]. destruct L; [|discriminate].
    apply (HL m). split; [apply Hm|exact Hlt].
  - intros idx'' E'' Hne. rewrite E in E''. injection E'' as <-.
    destruct D as [[-> _]|[m [Hm [-> [_ [Hlt _]]]]]]; [contradiction|].
    apply (crossed_decreases shape delta inv binv q Hs Hp Hi Hb Hq idx m c); [apply Hm|exact Hlt|exact Hc].
Qed.

Lemma moved_same_class shape idx m a : (a < 3)%nat ->
  (nth a (moved_back shape idx m) 0 = nth a idx 0 + Z.of_nat (nth a shape 0%nat) * - nth a m 0)%Z.
Proof. intros Ha. destruct a as [|[|[|]]]; try lia; unfold moved_back; cbn [seq map nth]; lia. Qed.

Lemma repeated_facts shape delta inv binv q idx c : crystal shape delta q -> inverses shape delta inv binv -> length idx = 3%nat ->
  crossed shape q idx c ->
  exists n idx' t, (n <= c)%nat /\ repeated (decrement_brillouin_zone shape inv binv) n idx = Some idx' /\
    decrement_brillouin_zone shape inv binv idx' = Some idx' /\ length idx' = 3%nat /\
    (forall a, (a < 3)%nat -> exists z, nth a idx' 0%Z = (nth a idx 0 + Z.of_nat (nth a shape 0%nat) * z)%Z) /\
    length2 (q idx') <= length2 (q idx) /\
    tolerance q t /\ forall m, neighbour m -> beyond shape q idx' m <= t.
Proof.
  intros HC HI. revert idx. induction c as [c IH] using lt_wf_ind. intros idx Hl Hcr.
  destruct (decrement_facts shape delta inv binv q idx HC HI Hl) as [idx' [t [E [_ [Ht [Htp D]]]]]].
  destruct D as [[-> D]|[m [Hm [-> [_ [Hlt _]]]]]].
  - exists 0%nat, idx, t. repeat split; try assumption; try lia.
    + intros a Ha. exists 0%Z. lia.
    + apply Rle_refl.
    + apply Ht.
    + apply Ht.
  - destruct HC as [Hs [Hp Hq]]. destruct HI as [Hi Hb].
    destruct (crossed_decreases shape delta inv binv q Hs Hp Hi Hb Hq idx m c) as [c' [Hc' Hlt']]; [apply Hm|exact Hlt|exact Hcr|].
    destruct (IH c' Hlt' (moved_back shape idx m) eq_refl Hc') as [n [x [t' [Hn [R1 [R2 [R3 [R4 [R5 [R6 R7]]]]]]]]]].
    exists (S n), x, t'. split; [lia|]. split; [cbn [repeated]; rewrite E; exact R1|]. split; [exact R2|]. split; [exact R3|].
    split; [|split; [|split; [exact R6|exact R7]]].
    + intros a Ha. destruct (R4 a Ha) as [z Hz]. exists (z - nth a m 0)%Z. rewrite Hz, moved_same_class by exact Ha. ring.
    + lra.
Qed.

Lemma dimension_facts shape inv binv idx : length shape <> 3%nat -> decrement_brillouin_zone shape inv binv idx = None.
Proof.
  intros Hs. unfold decrement_brillouin_zone. destruct (decrement_tolerance _ _); [|reflexivity].
  destruct (Nat.eqb_spec (length idx) (length shape)) as [El|]; [|reflexivity]. cbn [negb].
  destruct (nth_error _ _) as [b|] eqn:Eb; [|reflexivity].
  assert (length b = length shape) as Lb.
  { apply nth_error_In in Eb. unfold all_bragg_point_index in Eb. apply in_map_iff in Eb. destruct Eb as [i [<- _]]. rewrite map_length, seq_length. reflexivity. }
  destruct b as [|b0 [|b1 [|b2 b]]]; cbn [fold_point_in_bragg_plane]; try reflexivity.
  destruct idx as [|c0 [|c1 [|c2 idx]]]; try reflexivity.
  destruct (Nat.eqb_spec (length [(c0 - b0)%Z; (c1 - b1)%Z; (c2 - b2)%Z]) (length (c0 :: c1 :: c2 :: idx))) as [L|]; [|reflexivity].
  exfalso. apply Hs. rewrite <- El, <- L. reflexivity.
Qed.

(** ** A rectangular crystal with very different reciprocal vectors *)

Definition box_shape : list nat := [10; 100; 1000]%nat.
Definition box_delta (a c : nat) : R := 2 * PI * rdelta a c.
Definition box_inv (a c : nat) : R := rdelta a c / (2 * PI).
Definition box_binv (a c : nat) : R := rdelta a c * INR (nth a box_shape 0%nat) / (2 * PI).
Definition box_q (idx : list Z) (c : nat) : R := IZR (nth c idx 0%Z).

Lemma box_crystal : crystal box_shape box_delta box_q.
Proof.
  split; [reflexivity|]. split; [repeat constructor|].
  intros idx a Ha. unfold dot, box_q, box_delta.
  rewrite (rsum_ext _ (fun c => rdelta a c * (2 * PI * IZR (nth c idx 0%Z)))) by (intros; ring).
  rewrite rsum_delta' by exact Ha. reflexivity.
Qed.

Lemma box_inverses : inverses box_shape box_delta box_inv box_binv.
Proof.
  pose proof PI_RGT_0 as HP. split; split; intros a b Ha Hb;
    unfold box_inv, box_binv, box_delta, rdelta;
    destruct a as [|[|[|]]]; try lia; destruct b as [|[|[|]]]; try lia; cbn [rsum Nat.eqb nth box_shape];
    try (field; lra); try (rewrite !INR_IZR_INZ; cbn; field; lra).
Qed.

Lemma box_length2 idx : length2 (box_q idx) = IZR (nth 0 idx 0 * nth 0 idx 0 + nth 1 idx 0 * nth 1 idx 0 + nth 2 idx 0 * nth 2 idx 0)%Z.
Proof. unfold length2, dot, box_q. cbn [rsum]. rewrite !plus_IZR, !mult_IZR. ring. Qed.

Lemma zsq (a b c n : Z) : (a * a + b * b + c * c < n)%Z -> forall k, (0 <= k)%Z -> (n <= k * k)%Z -> (- k < a < k /\ - k < b < k /\ - k < c < k)%Z.
Proof. intros H k Hk Hn. pose proof (Z.square_nonneg a). pose proof (Z.square_nonneg b). pose proof (Z.square_nonneg c). repeat split; nia. Qed.

Lemma box_crossed : crossed box_shape box_q [7; 51; 0]%Z 4.
Proof.
  exists [[1;0;0];[0;1;0];[1;1;0];[2;1;0]]%Z. split; [|split; [reflexivity|]].
  - repeat constructor; cbn; intuition discriminate.
  - intros m. rewrite !box_length2. unfold moved_back, box_shape. cbn [seq map nth].
    split.
    + intros [<-|[<-|[<-|[<-|[]]]]]; (split; [reflexivity|apply IZR_lt; reflexivity]).
    + intros [Hl H]. apply lt_IZR in H. destruct m as [|x [|y [|z [|]]]]; try discriminate. cbn [nth] in H.
      change (Z.of_nat 10) with 10%Z in H. change (Z.of_nat 100) with 100%Z in H. change (Z.of_nat 1000) with 1000%Z in H.
      pose proof (zsq _ _ _ _ H 52 ltac:(lia) ltac:(lia)) as K.
      assert (z = 0)%Z as -> by lia.
      assert (y = 0 \/ y = 1)%Z as [-> | ->] by lia.
      * assert (x = 1)%Z as -> by (assert (x = -4 \/ x = -3 \/ x = -2 \/ x = -1 \/ x = 0 \/ x = 1 \/ x = 2 \/ x = 3 \/ x = 4 \/ x = 5)%Z by lia; intuition (subst; lia)).
        cbn; tauto.
      * assert (x = 0 \/ x = 1 \/ x = 2)%Z as [->|[->| ->]] by (assert (x = -4 \/ x = -3 \/ x = -2 \/ x = -1 \/ x = 0 \/ x = 1 \/ x = 2 \/ x = 3 \/ x = 4 \/ x = 5)%Z by lia; intuition (subst; lia)); cbn; tauto.
Qed.

Lemma box_crossed' : crossed box_shape box_q [7; -49; 0]%Z 1.
Proof.
  exists [[1;0;0]]%Z. split; [|split; [reflexivity|]].
  - repeat constructor; cbn; intuition discriminate.
  - intros m. rewrite !box_length2. unfold moved_back, box_shape. cbn [seq map nth].
    split.
    + intros [<-|[]]; (split; [reflexivity|apply IZR_lt; reflexivity]).
    + intros [Hl H]. apply lt_IZR in H. destruct m as [|x [|y [|z [|]]]]; try discriminate. cbn [nth] in H.
      change (Z.of_nat 10) with 10%Z in H. change (Z.of_nat 100) with 100%Z in H. change (Z.of_nat 1000) with 1000%Z in H.
      pose proof (zsq _ _ _ _ H 50 ltac:(lia) ltac:(lia)) as K.
      assert (z = 0)%Z as -> by lia.
      assert (y = 0)%Z as -> by lia.
      assert (x = 1)%Z as -> by (assert (x = -4 \/ x = -3 \/ x = -2 \/ x = -1 \/ x = 0 \/ x = 1 \/ x = 2 \/ x = 3 \/ x = 4 \/ x = 5)%Z by lia; intuition (subst; lia)).
      cbn; tauto.
Qed.

Lemma box_beyond m : neighbour m ->
  beyond box_shape box_q [7; 51; 0]%Z m =
  let x := IZR (nth 0 m 0%Z) in let y := IZR (nth 1 m 0%Z) in let z := IZR (nth 2 m 0%Z) in
  (140 * x + 10200 * y - 100 * x * x - 10000 * y * y - 1000000 * z * z) / (2 * sqrt (100 * x * x + 10000 * y * y + 1000000 * z * z)).
Proof.
  intros [Hl _]. destruct m as [|x [|y [|z [|]]]]; try discriminate. unfold beyond.
  rewrite !box_length2. unfold moved_back, lattice_index, box_shape. cbn [seq map nth]. cbv zeta.
  change (Z.of_nat 10) with 10%Z. change (Z.of_nat 100) with 100%Z. change (Z.of_nat 1000) with 1000%Z.
  f_equal; [|f_equal; f_equal]; repeat rewrite ?minus_IZR, ?plus_IZR, ?mult_IZR; ring.
Qed.

Lemma box_decrement : decrement_brillouin_zone box_shape box_inv box_binv [7; 51; 0]%Z = Some [7; -49; 0]%Z.
Proof.
  destruct (decrement_facts box_shape box_delta box_inv box_binv box_q [7; 51; 0]%Z box_crystal box_inverses eq_refl)
    as [idx' [t [E [_ [[Ht _] [_ D]]]]]].
  rewrite E. f_equal.
  assert (Et : t = / 100000).
  { cbn [map In] in Ht. rewrite !box_length2 in Ht. cbn [nth] in Ht. 
    change (1 * 1 + 0 * 0 + 0 * 0)%Z with 1%Z in Ht. change (0 * 0 + 1 * 1 + 0 * 0)%Z with 1%Z in Ht. change (0 * 0 + 0 * 0 + 1 * 1)%Z with 1%Z in Ht.
    rewrite sqrt_1 in Ht. destruct Ht as [H|[H|[H|[]]]]; lra. }
  assert (N : neighbour [0; 1; 0]%Z) by (split; [reflexivity|split; [repeat constructor; lia|discriminate]]).
  assert (B : beyond box_shape box_q [7; 51; 0]%Z [0; 1; 0]%Z = 1).
  { rewrite box_beyond by exact N. cbn [nth]. cbv zeta.
    replace (100 * 0 * 0 + 10000 * 1 * 1 + 1000000 * 0 * 0) with (100 * 100) by ring. rewrite sqrt_square by lra. lra. }
  destruct D as [[_ D]|[m [Hm [-> [Hd [_ D]]]]]].
  - exfalso. specialize (D _ N). rewrite B in D. lra.
  - destruct (D _ N) as [D1 _]; [rewrite B; lra|]. rewrite B in D1. rewrite box_beyond in Hd, D1 by exact Hm.
    destruct Hm as [Hl [Hf Hn]]. destruct m as [|x [|y [|z [|]]]]; try discriminate.
    inversion Hf as [|? ? Hx Hf1]; subst. inversion Hf1 as [|? ? Hy Hf2]; subst. inversion Hf2 as [|? ? Hz _]; subst.
    cbn [nth] in Hd, D1. cbv zeta in Hd, D1.
    assert (S : 0 < 100 * IZR x * IZR x + 10000 * IZR y * IZR y + 1000000 * IZR z * IZR z).
    { replace (100 * IZR x * IZR x + 10000 * IZR y * IZR y + 1000000 * IZR z * IZR z) with (IZR (100 * x * x + 10000 * y * y + 1000000 * z * z)%Z)
        by (repeat rewrite ?plus_IZR, ?mult_IZR; ring).
      apply IZR_lt. assert (x <> 0 \/ y <> 0 \/ z <> 0)%Z by (destruct (Z.eq_dec x 0), (Z.eq_dec y 0), (Z.eq_dec z 0); subst; try tauto). nia. }
    apply sqrt_lt_R0 in S. 
    assert (Num : 0 < 140 * IZR x + 10200 * IZR y - 100 * IZR x * IZR x - 10000 * IZR y * IZR y - 1000000 * IZR z * IZR z).
    { set (num := 140 * IZR x + _ - _ - _ - _) in *. set (s := sqrt _) in *.
      destruct (Rle_or_lt num 0) as [L|L]; [exfalso|exact L]. unfold Rdiv in Hd.
      assert (0 < / (2 * s)) by (apply Rinv_0_lt_compat; lra). nra. }
    assert (NumZ : (0 < 140 * x + 10200 * y - 100 * x * x - 10000 * y * y - 1000000 * z * z)%Z).
    { apply lt_IZR. repeat rewrite ?minus_IZR, ?plus_IZR, ?mult_IZR. lra. }
    assert (z = 0)%Z as -> by nia.
    assert (y = 0 \/ y = 1)%Z as [-> | ->] by (pose proof (Z.square_nonneg x); assert (y = -1 \/ y = 0 \/ y = 1)%Z by lia; intuition (subst; lia)).
    + assert (x = 1)%Z as -> by (assert (x = -1 \/ x = 0 \/ x = 1)%Z by lia; intuition (subst; lia)). exfalso.
      replace (100 * 1 * 1 + 10000 * 0 * 0 + 1000000 * 0 * 0) with (10 * 10) in D1 by ring.
      rewrite sqrt_square in D1 by lra. lra.
    + assert (x = 0 \/ x = 1)%Z as [-> | ->] by (assert (x = -1 \/ x = 0 \/ x = 1)%Z by lia; intuition (subst; lia)); [reflexivity|exfalso].
      set (w := 100 * 1 * 1 + 10000 * 1 * 1 + 1000000 * 0 * 0) in *. set (s := sqrt w) in *.
      assert (Hs : s * s = w) by (apply sqrt_sqrt; unfold w; lra).
      assert (H2 : 240 / (2 * s) <= 1) by (eapply Rle_trans; [|exact D1]; right; f_equal; ring).
      apply Rmult_le_compat_r with (r := 2 * s) in H2; [|lra].
      replace (240 / (2 * s) * (2 * s)) with 240 in H2 by (field; lra).
      unfold w in Hs. nra.
Qed.

Lemma zone_skipped : exists shape delta inv binv q idx idx' c c',
  crystal shape delta q /\ inverses shape delta inv binv /\ length idx = 3%nat /\
  decrement_brillouin_zone shape inv binv idx = Some idx' /\ crossed shape q idx c /\ crossed shape q idx' c' /\
  (c' + 1 < c)%nat.
Proof.
  exists box_shape, box_delta, box_inv, box_binv, box_q, [7; 51; 0]%Z, [7; -49; 0]%Z, 4%nat, 1%nat.
  split; [exact box_crystal|]. split; [exact box_inverses|]. split; [reflexivity|]. split; [exact box_decrement|].
  split; [exact box_crossed|]. split; [exact box_crossed'|lia].
Qed.

(** ** A very skew crystal *)

(** reciprocal vectors (2,0,0), (5,2,0), (0,0,2) *)
Definition slant_shape : list nat := [10; 10; 10]%nat.
Definition slant_dk (a c : nat) : R := match a, c with 0%nat, 0%nat => 2 | 1%nat, 0%nat => 5 | 1%nat, 1%nat => 2 | 2%nat, 2%nat => 2 | _, _ => 0 end.
Definition slant_dk_inv (c a : nat) : R := match c, a with 0%nat, 0%nat => 1/2 | 1%nat, 0%nat => -5/4 | 1%nat, 1%nat => 1/2 | 2%nat, 2%nat => 1/2 | _, _ => 0 end.
Definition slant_delta (a c : nat) : R := 2 * PI * slant_dk_inv c a.
Definition slant_inv (c a : nat) : R := slant_dk a c / (2 * PI).
Definition slant_binv (c a : nat) : R := 10 * slant_dk a c / (2 * PI).
Definition slant_q (idx : list Z) (c : nat) : R := rsum (fun a => IZR (nth a idx 0%Z) * slant_dk a c) 3.

Lemma slant_crystal : crystal slant_shape slant_delta slant_q.
Proof.
  split; [reflexivity|]. split; [repeat constructor|].
  intros idx a Ha. unfold dot, slant_q, slant_delta.
  destruct a as [|[|[|]]]; try lia; cbn [rsum slant_dk slant_dk_inv]; field.
Qed.

Lemma slant_inverses : inverses slant_shape slant_delta slant_inv slant_binv.
Proof.
  pose proof PI_RGT_0 as HP. assert (H10 : INR 10 = 10) by (rewrite INR_IZR_INZ; reflexivity).
  split; split; intros a b Ha Hb;
    unfold slant_inv, slant_binv, slant_delta, rdelta;
    destruct a as [|[|[|]]]; try lia; destruct b as [|[|[|]]]; try lia; cbn [rsum nth slant_shape slant_dk slant_dk_inv Nat.eqb];
    rewrite ?H10; field; lra.
Qed.

Lemma slant_length2 idx : length2 (slant_q idx) =
  IZR ((2 * nth 0 idx 0 + 5 * nth 1 idx 0) * (2 * nth 0 idx 0 + 5 * nth 1 idx 0) + 4 * nth 1 idx 0 * nth 1 idx 0 + 4 * nth 2 idx 0 * nth 2 idx 0)%Z.
Proof. unfold length2, dot, slant_q. cbn [rsum slant_dk]. repeat rewrite ?plus_IZR, ?mult_IZR. ring. Qed.

Lemma slant_fixed : decrement_brillouin_zone slant_shape slant_inv slant_binv [-22; 9; 0]%Z = Some [-22; 9; 0]%Z.
Proof.
  destruct (decrement_facts slant_shape slant_delta slant_inv slant_binv slant_q [-22; 9; 0]%Z slant_crystal slant_inverses eq_refl)
    as [idx' [t [E [_ [_ [Htp D]]]]]].
  rewrite E. f_equal. destruct D as [[-> _]|[m [Hm [-> [_ [Hlt _]]]]]]; [reflexivity|exfalso].
  rewrite !slant_length2 in Hlt. apply lt_IZR in Hlt. unfold moved_back, slant_shape in Hlt. cbn [seq map nth] in Hlt.
  change (Z.of_nat 10) with 10%Z in Hlt.
  destruct Hm as [Hl [Hf Hn]]. destruct m as [|x [|y [|z [|]]]]; try discriminate.
  inversion Hf as [|? ? Hx Hf1]; subst. inversion Hf1 as [|? ? Hy Hf2]; subst. inversion Hf2 as [|? ? Hz _]; subst.
  cbn [nth] in Hlt.
  assert (x = -1 \/ x = 0 \/ x = 1)%Z as [->|[->| ->]] by lia; assert (y = -1 \/ y = 0 \/ y = 1)%Z as [->|[->| ->]] by lia; nia.
Qed.

Lemma not_first_zone : exists shape delta inv binv q idx m,
  crystal shape delta q /\ inverses shape delta inv binv /\ length idx = 3%nat /\ length m = 3%nat /\
  decrement_brillouin_zone shape inv binv idx = Some idx /\
  10 * length2 (q (moved_back shape idx m)) < 4 * length2 (q idx).
Proof.
  exists slant_shape, slant_delta, slant_inv, slant_binv, slant_q, [-22; 9; 0]%Z, [-2; 1; 0]%Z.
  split; [exact slant_crystal|]. split; [exact slant_inverses|]. split; [reflexivity|]. split; [reflexivity|]. split; [exact slant_fixed|].
  rewrite !slant_length2. vm_compute moved_back. cbn [nth]. rewrite <- !mult_IZR. apply IZR_lt. reflexivity.
Qed.
