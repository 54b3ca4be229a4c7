(** Proofs about the named sites of a surface. *)
From Coq Require Import Reals ZArith String List Lia Lra.
From Verif Require Import Sites SpecSites.
Import ListNotations.
Local Open Scope R_scope.

Lemma cos_third : cos (2 * PI / 3) = - 1 / 2.
Proof. replace (2 * PI / 3) with (2 * (PI / 3)) by field. rewrite cos_2a_cos, cos_PI3. field. Qed.

Lemma sin_third : sin (2 * PI / 3) = sqrt 3 / 2.
Proof. replace (2 * PI / 3) with (2 * (PI / 3)) by field. rewrite sin_2a, sin_PI3, cos_PI3. field. Qed.

Lemma sqrt3_pos : 0 < sqrt 3.
Proof. apply sqrt_lt_R0. lra. Qed.

Lemma sqrt3_sq : sqrt 3 * sqrt 3 = 3.
Proof. apply sqrt_sqrt. lra. Qed.

(** Coordinates of the difference of two points of a lattice decide whether they are one site. *)
Lemma hex_same a x y x' y' : 0 < a ->
  same_site (hex0 a) (hex1 a) (at_coordinates (hex0 a) (hex1 a) x y) (at_coordinates (hex0 a) (hex1 a) x' y') <->
  exists m0 m1 : Z, x - x' = IZR m0 /\ y - y' = IZR m1.
Proof.
  intros Ha. assert (S3 := sqrt3_pos). unfold same_site, at_coordinates, hex0, hex1. cbn [fst snd]. split.
  - intros [m0 [m1 [E1 E2]]]. exists m0, m1.
    assert (Y : y = y' + IZR m1).
    { apply (Rmult_eq_reg_r (a * sqrt 3 / 2)); [lra|]. apply Rgt_not_eq. apply Rmult_lt_0_compat; [|lra]. apply Rmult_lt_0_compat; assumption. }
    split; [|lra]. apply (Rmult_eq_reg_r a); [|lra]. subst y. lra.
  - intros [m0 [m1 [E1 E2]]]. exists m0, m1. replace x with (x' + IZR m0) by lra. replace y with (y' + IZR m1) by lra. split; ring.
Qed.

Lemma hex_third a x y x' y' :
  third_turn (at_coordinates (hex0 a) (hex1 a) x y) (at_coordinates (hex0 a) (hex1 a) x' y') =
  at_coordinates (hex0 a) (hex1 a) (x - (x' - x) - (y' - y)) (y + (x' - x)).
Proof.
  unfold third_turn, turn, at_coordinates, hex0, hex1. rewrite cos_third, sin_third. cbn [fst snd].
  assert (S := sqrt3_sq). f_equal.
  - replace (sqrt 3 / 2 * (x' * 0 + y' * (a * sqrt 3 / 2) - (x * 0 + y * (a * sqrt 3 / 2)))) with (a * (y' - y) * (sqrt 3 * sqrt 3) / 4) by field.
    rewrite S. field.
  - field.
Qed.

(** A point keeps its site under the third of a turn exactly at thirds along both axes. *)
Lemma hex_fixed a x y x' y' : 0 < a ->
  same_site (hex0 a) (hex1 a) (third_turn (at_coordinates (hex0 a) (hex1 a) x y) (at_coordinates (hex0 a) (hex1 a) x' y')) (at_coordinates (hex0 a) (hex1 a) x' y') <->
  exists q m : Z, 3 * (x' - x) = IZR q /\ (x' - x) - (y' - y) = IZR m.
Proof.
  intros Ha. rewrite hex_third, hex_same by exact Ha. split.
  - intros [m0 [m1 [E1 E2]]]. exists (m1 - m0)%Z, m1. rewrite minus_IZR. split; lra.
  - intros [q [m [E1 E2]]]. exists (m - q)%Z, m. rewrite minus_IZR. split; lra.
Qed.

Definition names_111 (n o t b f h : Z * Z) : Prop :=
  site_named "Top Site" (get_111_comparison_points_x2 n o) = Some t /\ site_named "Bridge Site" (get_111_comparison_points_x2 n o) = Some b /\
  site_named "FCC Site" (get_111_comparison_points_x2 n o) = Some f /\ site_named "HCP Site" (get_111_comparison_points_x2 n o) = Some h.

Lemma sites_111 n0 n1 o0 o1 t b f h : names_111 (n0, n1) (o0, o1) t b f h ->
  t = ((2 * n0) / 3 + o0, (2 * n1) / 3 + o1)%Z /\ b = (n0 / 6 + o0, n1 / 6 + o1)%Z /\ f = (o0, o1) /\ h = (n0 / 3 + o0, n1 / 3 + o1)%Z.
Proof. intros [A [B [C D]]]. injection A as <-. injection B as <-. injection C as <-. injection D as <-. repeat split; reflexivity. Qed.

Lemma names_exist n o : exists t b f h, names_111 n o t b f h.
Proof. destruct n as [n0 n1], o as [o0 o1]. do 4 eexists. repeat split; reflexivity. Qed.

Section Hexagonal.
  Context (a : R) (Ha : 0 < a).
  Notation pos n p := (grid_position (hex0 a) (hex1 a) n p).
  Notation eqs p q := (same_site (hex0 a) (hex1 a) p q).

  Lemma IZR_pos k : (0 < k)%Z -> IZR k <> 0.
  Proof using. intros H. apply not_0_IZR. lia. Qed.

  Lemma thirds k o r : (0 < k)%Z -> IZR (r * k + o) / IZR (3 * k) = IZR o / IZR (3 * k) + IZR r / 3.
  Proof using. intros H. rewrite plus_IZR, !mult_IZR. field. apply IZR_pos. exact H. Qed.

  Lemma grid_third k o i q : (0 < k)%Z -> 3 * (IZR i / IZR (3 * k) - IZR o / IZR (3 * k)) = IZR q -> i = (q * k + o)%Z.
  Proof using.
    intros H E. assert (K := IZR_pos k H). rewrite mult_IZR in E. apply eq_IZR. rewrite plus_IZR, mult_IZR, <- E. field. exact K.
  Qed.

  Theorem symmetric_111 k0 k1 o t b f h : (0 < k0)%Z -> (0 < k1)%Z -> names_111 (3 * k0, 3 * k1)%Z o t b f h ->
    (forall p, eqs (third_turn (pos (3 * k0, 3 * k1)%Z f) (pos (3 * k0, 3 * k1)%Z p)) (pos (3 * k0, 3 * k1)%Z p) <->
       eqs (pos (3 * k0, 3 * k1)%Z p) (pos (3 * k0, 3 * k1)%Z f) \/ eqs (pos (3 * k0, 3 * k1)%Z p) (pos (3 * k0, 3 * k1)%Z h) \/
       eqs (pos (3 * k0, 3 * k1)%Z p) (pos (3 * k0, 3 * k1)%Z t)) /\
    ~ eqs (pos (3 * k0, 3 * k1)%Z f) (pos (3 * k0, 3 * k1)%Z h) /\ ~ eqs (pos (3 * k0, 3 * k1)%Z h) (pos (3 * k0, 3 * k1)%Z t) /\
    ~ eqs (pos (3 * k0, 3 * k1)%Z t) (pos (3 * k0, 3 * k1)%Z f).
  Proof.
    intros H0 H1 N. destruct o as [o0 o1]. destruct (sites_111 _ _ _ _ _ _ _ _ N) as [-> [_ [-> ->]]].
    replace ((2 * (3 * k0)) / 3)%Z with (2 * k0)%Z by (replace (2 * (3 * k0))%Z with ((2 * k0) * 3)%Z by ring; rewrite Z.div_mul; lia).
    replace ((2 * (3 * k1)) / 3)%Z with (2 * k1)%Z by (replace (2 * (3 * k1))%Z with ((2 * k1) * 3)%Z by ring; rewrite Z.div_mul; lia).
    replace ((3 * k0) / 3)%Z with (1 * k0)%Z by (replace (3 * k0)%Z with (k0 * 3)%Z by ring; rewrite Z.div_mul; lia).
    replace ((3 * k1) / 3)%Z with (1 * k1)%Z by (replace (3 * k1)%Z with (k1 * 3)%Z by ring; rewrite Z.div_mul; lia).
    unfold grid_position. cbn [fst snd]. rewrite !(thirds _ _ _ H0), !(thirds _ _ _ H1).
    split; [|repeat split].
    - intros [i j]. cbn [fst snd]. rewrite hex_fixed, !hex_same by exact Ha. split.
      + intros [q [m [E1 E2]]].
        assert (D := Z.div_mod q 3 ltac:(lia)). assert (B := Z.mod_pos_bound q 3 ltac:(lia)).
        assert (Q : IZR q = 3 * IZR (q / 3) + IZR (q mod 3)) by (rewrite D at 1; rewrite plus_IZR, mult_IZR; reflexivity).
        assert (C : (q mod 3 = 0 \/ q mod 3 = 1 \/ q mod 3 = 2)%Z) by lia.
        destruct C as [C|[C|C]]; rewrite C in Q.
        * left. exists (q / 3)%Z, (q / 3 - m)%Z. rewrite minus_IZR. split; lra.
        * right. left. exists (q / 3)%Z, (q / 3 - m)%Z. rewrite minus_IZR. split; lra.
        * right. right. exists (q / 3)%Z, (q / 3 - m)%Z. rewrite minus_IZR. split; lra.
      + intros [[m0 [m1 [E1 E2]]]|[[m0 [m1 [E1 E2]]]|[m0 [m1 [E1 E2]]]]].
        * exists (3 * m0)%Z, (m0 - m1)%Z. rewrite (mult_IZR 3 m0), minus_IZR. split; lra.
        * exists (3 * m0 + 1)%Z, (m0 - m1)%Z. rewrite plus_IZR, (mult_IZR 3 m0), minus_IZR. split; lra.
        * exists (3 * m0 + 2)%Z, (m0 - m1)%Z. rewrite plus_IZR, (mult_IZR 3 m0), minus_IZR. split; lra.
    - rewrite hex_same by exact Ha. intros [m0 [m1 [E1 _]]]. assert (E : IZR (3 * m0 + 1) = 0) by (rewrite plus_IZR, mult_IZR; lra). apply eq_IZR in E. lia.
    - rewrite hex_same by exact Ha. intros [m0 [m1 [E1 _]]]. assert (E : IZR (3 * m0 + 1) = 0) by (rewrite plus_IZR, mult_IZR; lra). apply eq_IZR in E. lia.
    - rewrite hex_same by exact Ha. intros [m0 [m1 [E1 _]]]. assert (E : IZR (3 * m0 - 2) = 0) by (rewrite minus_IZR, mult_IZR; lra). apply eq_IZR in E. lia.
  Qed.

  (** The bridge is in the middle of the neighbouring FCC and HCP sites and of two neighbouring top sites. *)
  Theorem bridge_111 k0 k1 o t b f h : (0 < k0)%Z -> (0 < k1)%Z -> names_111 (6 * k0, 6 * k1)%Z o t b f h ->
    pos (6 * k0, 6 * k1)%Z b = middle (pos (6 * k0, 6 * k1)%Z f) (pos (6 * k0, 6 * k1)%Z h) /\
    exists u v, eqs u (pos (6 * k0, 6 * k1)%Z t) /\ eqs v (pos (6 * k0, 6 * k1)%Z t) /\
      pos (6 * k0, 6 * k1)%Z b = middle u v /\ plane_distance u v = a.
  Proof.
    intros H0 H1 N. destruct o as [o0 o1]. destruct (sites_111 _ _ _ _ _ _ _ _ N) as [-> [-> [-> ->]]].
    replace ((2 * (6 * k0)) / 3)%Z with (4 * k0)%Z by (replace (2 * (6 * k0))%Z with ((4 * k0) * 3)%Z by ring; rewrite Z.div_mul; lia).
    replace ((2 * (6 * k1)) / 3)%Z with (4 * k1)%Z by (replace (2 * (6 * k1))%Z with ((4 * k1) * 3)%Z by ring; rewrite Z.div_mul; lia).
    replace ((6 * k0) / 3)%Z with (2 * k0)%Z by (replace (6 * k0)%Z with ((2 * k0) * 3)%Z by ring; rewrite Z.div_mul; lia).
    replace ((6 * k1) / 3)%Z with (2 * k1)%Z by (replace (6 * k1)%Z with ((2 * k1) * 3)%Z by ring; rewrite Z.div_mul; lia).
    replace ((6 * k0) / 6)%Z with k0 by (replace (6 * k0)%Z with (k0 * 6)%Z by ring; rewrite Z.div_mul; lia).
    replace ((6 * k1) / 6)%Z with k1 by (replace (6 * k1)%Z with (k1 * 6)%Z by ring; rewrite Z.div_mul; lia).
    unfold grid_position. cbn [fst snd]. assert (K0 := IZR_pos k0 H0). assert (K1 := IZR_pos k1 H1).
    rewrite !plus_IZR, !mult_IZR.
    replace ((IZR k0 + IZR o0) / (6 * IZR k0)) with (IZR o0 / (6 * IZR k0) + 1 / 6) by (field; exact K0).
    replace ((IZR k1 + IZR o1) / (6 * IZR k1)) with (IZR o1 / (6 * IZR k1) + 1 / 6) by (field; exact K1).
    replace ((2 * IZR k0 + IZR o0) / (6 * IZR k0)) with (IZR o0 / (6 * IZR k0) + 1 / 3) by (field; exact K0).
    replace ((2 * IZR k1 + IZR o1) / (6 * IZR k1)) with (IZR o1 / (6 * IZR k1) + 1 / 3) by (field; exact K1).
    replace ((4 * IZR k0 + IZR o0) / (6 * IZR k0)) with (IZR o0 / (6 * IZR k0) + 2 / 3) by (field; exact K0).
    replace ((4 * IZR k1 + IZR o1) / (6 * IZR k1)) with (IZR o1 / (6 * IZR k1) + 2 / 3) by (field; exact K1).
    generalize (IZR o0 / (6 * IZR k0)) (IZR o1 / (6 * IZR k1)). intros x y. clear K0 K1. split.
    - unfold middle, at_coordinates, hex0, hex1. cbn [fst snd]. f_equal; field.
    - exists (at_coordinates (hex0 a) (hex1 a) (x + 2 / 3) (y - 1 / 3)), (at_coordinates (hex0 a) (hex1 a) (x - 1 / 3) (y + 2 / 3)).
      split; [apply hex_same; [exact Ha|]; exists 0%Z, (-1)%Z; split; lra|].
      split; [apply hex_same; [exact Ha|]; exists (-1)%Z, 0%Z; split; lra|].
      split; [unfold middle, at_coordinates, hex0, hex1; cbn [fst snd]; f_equal; field|].
      unfold plane_distance, at_coordinates, hex0, hex1. cbn [fst snd].
      match goal with |- sqrt ?e = _ => replace e with (a * a) end; [apply sqrt_square; lra|].
      replace ((x + 2 / 3) * a + (y - 1 / 3) * (a / 2) - ((x - 1 / 3) * a + (y + 2 / 3) * (a / 2))) with (a / 2) by field.
      replace ((x + 2 / 3) * 0 + (y - 1 / 3) * (a * sqrt 3 / 2) - ((x - 1 / 3) * 0 + (y + 2 / 3) * (a * sqrt 3 / 2))) with (- (a * sqrt 3 / 2)) by field.
      replace ((a / 2) ^ 2 + (- (a * sqrt 3 / 2)) ^ 2) with (a * a / 4 + a * a * (sqrt 3 * sqrt 3) / 4) by field. rewrite sqrt3_sq. field.
  Qed.

  (** Where the number of points is not a multiple of three the HCP and top sites are rounded
      down, by less than the distance of two points, and are no longer symmetric. *)
  Theorem rounded_111 n0 n1 o t b f h : (3 <= n0)%Z -> (0 < n1)%Z -> (n0 mod 3 <> 0)%Z -> names_111 (n0, n1) o t b f h ->
    (0 < IZR n0 / 3 - IZR (fst h - fst f) < 1 /\ 0 < 2 * IZR n0 / 3 - IZR (fst t - fst f) < 1) /\
    ~ eqs (third_turn (pos (n0, n1) f) (pos (n0, n1) h)) (pos (n0, n1) h) /\
    ~ eqs (third_turn (pos (n0, n1) f) (pos (n0, n1) t)) (pos (n0, n1) t).
  Proof.
    intros H0 H1 Hm N. destruct o as [o0 o1]. destruct (sites_111 _ _ _ _ _ _ _ _ N) as [-> [_ [-> ->]]].
    assert (D := Z.div_mod n0 3 ltac:(lia)). assert (B := Z.mod_pos_bound n0 3 ltac:(lia)).
    assert (D2 := Z.div_mod (2 * n0) 3 ltac:(lia)). assert (B2 := Z.mod_pos_bound (2 * n0) 3 ltac:(lia)).
    assert (P : IZR n0 <> 0) by (apply IZR_pos; lia).
    assert (Pp : 0 < IZR n0) by (apply IZR_lt; lia).
    assert (R1 : ((2 * n0) mod 3 <> 0)%Z) by lia.
    revert D D2 B B2 Hm R1. generalize (n0 / 3)%Z (n0 mod 3)%Z ((2 * n0) / 3)%Z ((2 * n0) mod 3)%Z. intros q r q2 r2 D D2 B B2 Hm R1.
    split.
    - cbn [fst]. replace (q + o0 - o0)%Z with q by ring. replace (q2 + o0 - o0)%Z with q2 by ring.
      assert (E : IZR n0 = 3 * IZR q + IZR r) by (rewrite D at 1; rewrite plus_IZR, mult_IZR; reflexivity).
      assert (E2 : 2 * IZR n0 = 3 * IZR q2 + IZR r2) by (rewrite <- (mult_IZR 2 n0), D2, plus_IZR, mult_IZR; reflexivity).
      assert (L1 : 1 <= IZR r) by (apply IZR_le; lia). assert (L2 : IZR r <= 2) by (apply IZR_le; lia).
      assert (L3 : 1 <= IZR r2) by (apply IZR_le; lia). assert (L4 : IZR r2 <= 2) by (apply IZR_le; lia). repeat split; lra.
    - unfold grid_position. cbn [fst snd]. rewrite !hex_fixed by exact Ha. split.
      + intros [m [_ [E _]]]. assert (F : IZR (3 * q) = IZR (m * n0)).
        { rewrite !mult_IZR, <- E, plus_IZR. field. exact P. }
        apply eq_IZR in F. assert (m = 0 \/ m = 1 \/ m < 0 \/ 1 < m)%Z as [->|[->|[X|X]]] by lia; nia.
      + intros [m [_ [E _]]]. assert (F : IZR (3 * q2) = IZR (m * n0)).
        { rewrite !mult_IZR, <- E, plus_IZR. field. exact P. }
        apply eq_IZR in F. assert (m <= 0 \/ m = 1 \/ m = 2 \/ 2 < m)%Z as [X|[->|[->|X]]] by lia; nia.
  Qed.
End Hexagonal.

Definition names_100 (n o ho b t : Z * Z) : Prop :=
  site_named "Hollow Site" (get_100_comparison_points_x2 n o) = Some ho /\ site_named "Bridge Site" (get_100_comparison_points_x2 n o) = Some b /\
  site_named "Top Site" (get_100_comparison_points_x2 n o) = Some t.

Lemma sites_100 n0 n1 o0 o1 ho b t : names_100 (n0, n1) (o0, o1) ho b t ->
  ho = (o0, o1) /\ b = (n0 / 2 + o0, o1)%Z /\ t = (n0 / 2 + o0, n1 / 2 + o1)%Z.
Proof. intros [A [B C]]. injection A as <-. injection B as <-. injection C as <-. repeat split; reflexivity. Qed.

Lemma names_100_exist n o : exists ho b t, names_100 n o ho b t.
Proof. destruct n as [n0 n1], o as [o0 o1]. do 3 eexists. repeat split; reflexivity. Qed.

Section Square.
  Context (a : R) (Ha : 0 < a).
  Notation pos n p := (grid_position (square0 a) (square1 a) n p).
  Notation eqs p q := (same_site (square0 a) (square1 a) p q).
  Notation pt x y := (at_coordinates (square0 a) (square1 a) x y).

  Lemma square_same x y x' y' : eqs (pt x y) (pt x' y') <-> exists m0 m1 : Z, x - x' = IZR m0 /\ y - y' = IZR m1.
  Proof using Ha.
    unfold same_site, at_coordinates, square0, square1. cbn [fst snd]. split.
    - intros [m0 [m1 [E1 E2]]]. exists m0, m1. split; apply (Rmult_eq_reg_r a); lra.
    - intros [m0 [m1 [E1 E2]]]. exists m0, m1. replace x with (x' + IZR m0) by lra. replace y with (y' + IZR m1) by lra. split; ring.
  Qed.

  Lemma square_quarter x y x' y' : quarter_turn (pt x y) (pt x' y') = pt (x - (y' - y)) (y + (x' - x)).
  Proof using. unfold quarter_turn, turn, at_coordinates, square0, square1. rewrite cos_PI2, sin_PI2. cbn [fst snd]. f_equal; ring. Qed.

  Lemma square_half x y x' y' : half_turn (pt x y) (pt x' y') = pt (x - (x' - x)) (y - (y' - y)).
  Proof using. unfold half_turn, turn, at_coordinates, square0, square1. rewrite cos_PI, sin_PI. cbn [fst snd]. f_equal; ring. Qed.

  Lemma halves k o r : (0 < k)%Z -> IZR (r * k + o) / IZR (2 * k) = IZR o / IZR (2 * k) + IZR r / 2.
  Proof using. intros H. rewrite plus_IZR, !mult_IZR. field. apply not_0_IZR. lia. Qed.

  Lemma parity q : exists h, q = (2 * h)%Z \/ q = (2 * h + 1)%Z.
  Proof using. exists (q / 2)%Z. assert (D := Z.div_mod q 2 ltac:(lia)). assert (B := Z.mod_pos_bound q 2 ltac:(lia)). lia. Qed.

  Theorem symmetric_100 k0 k1 o ho b t : (0 < k0)%Z -> (0 < k1)%Z -> names_100 (2 * k0, 2 * k1)%Z o ho b t ->
    (forall p, eqs (quarter_turn (pos (2 * k0, 2 * k1)%Z ho) (pos (2 * k0, 2 * k1)%Z p)) (pos (2 * k0, 2 * k1)%Z p) <->
       eqs (pos (2 * k0, 2 * k1)%Z p) (pos (2 * k0, 2 * k1)%Z ho) \/ eqs (pos (2 * k0, 2 * k1)%Z p) (pos (2 * k0, 2 * k1)%Z t)) /\
    (forall p, eqs (half_turn (pos (2 * k0, 2 * k1)%Z ho) (pos (2 * k0, 2 * k1)%Z p)) (pos (2 * k0, 2 * k1)%Z p) <->
       eqs (pos (2 * k0, 2 * k1)%Z p) (pos (2 * k0, 2 * k1)%Z ho) \/ eqs (pos (2 * k0, 2 * k1)%Z p) (pos (2 * k0, 2 * k1)%Z t) \/
       eqs (pos (2 * k0, 2 * k1)%Z p) (pos (2 * k0, 2 * k1)%Z b) \/
       eqs (pos (2 * k0, 2 * k1)%Z p) (quarter_turn (pos (2 * k0, 2 * k1)%Z ho) (pos (2 * k0, 2 * k1)%Z b))) /\
    ~ eqs (pos (2 * k0, 2 * k1)%Z ho) (pos (2 * k0, 2 * k1)%Z t) /\
    ~ eqs (pos (2 * k0, 2 * k1)%Z b) (pos (2 * k0, 2 * k1)%Z ho) /\ ~ eqs (pos (2 * k0, 2 * k1)%Z b) (pos (2 * k0, 2 * k1)%Z t) /\
    ~ eqs (pos (2 * k0, 2 * k1)%Z b) (quarter_turn (pos (2 * k0, 2 * k1)%Z ho) (pos (2 * k0, 2 * k1)%Z b)).
  Proof using Ha.
    intros H0 H1 N. destruct o as [o0 o1]. destruct (sites_100 _ _ _ _ _ _ _ N) as [-> [-> ->]].
    replace ((2 * k0) / 2)%Z with (1 * k0)%Z by (replace (2 * k0)%Z with (k0 * 2)%Z by ring; rewrite Z.div_mul; lia).
    replace ((2 * k1) / 2)%Z with (1 * k1)%Z by (replace (2 * k1)%Z with (k1 * 2)%Z by ring; rewrite Z.div_mul; lia).
    unfold grid_position. cbn [fst snd]. rewrite !(halves _ _ _ H0), !(halves _ _ _ H1).
    assert (No : forall m m' : Z, IZR m <> IZR m' + 1 / 2).
    { intros m m' E. assert (F : IZR (2 * m) = IZR (2 * m' + 1)) by (rewrite plus_IZR, !mult_IZR; lra). apply eq_IZR in F. lia. }
    split; [|split; [|repeat split]].
    - intros [i j]. cbn [fst snd]. rewrite square_quarter, !square_same.
      generalize (IZR i / IZR (2 * k0)) (IZR j / IZR (2 * k1)) (IZR o0 / IZR (2 * k0)) (IZR o1 / IZR (2 * k1)). intros x y u v. split.
      + intros [m0 [m1 [E1 E2]]]. destruct (parity (m1 - m0)) as [g [G|G]]; apply (f_equal IZR) in G; rewrite minus_IZR in G.
        * left. exists g, (g - m1)%Z. rewrite mult_IZR in G. rewrite minus_IZR. split; lra.
        * right. exists g, (g - m1)%Z. rewrite plus_IZR, mult_IZR in G. rewrite minus_IZR. split; lra.
      + intros [[m0 [m1 [E1 E2]]]|[m0 [m1 [E1 E2]]]].
        * exists (- m1 - m0)%Z, (m0 - m1)%Z. rewrite !minus_IZR, opp_IZR. split; lra.
        * exists (- m1 - m0 - 1)%Z, (m0 - m1)%Z. rewrite !minus_IZR, opp_IZR. split; lra.
    - intros [i j]. cbn [fst snd]. rewrite square_half, square_quarter, !square_same.
      generalize (IZR i / IZR (2 * k0)) (IZR j / IZR (2 * k1)) (IZR o0 / IZR (2 * k0)) (IZR o1 / IZR (2 * k1)). intros x y u v. split.
      + intros [m0 [m1 [E1 E2]]].
        destruct (parity m0) as [g [G|G]], (parity m1) as [k [K|K]]; apply (f_equal IZR) in G; apply (f_equal IZR) in K;
          rewrite ?plus_IZR, mult_IZR in G; rewrite ?plus_IZR, mult_IZR in K.
        * left. exists (- g)%Z, (- k)%Z. rewrite !opp_IZR. split; lra.
        * right. right. right. exists (- g)%Z, (- k - 1)%Z. rewrite minus_IZR, !opp_IZR. split; lra.
        * right. right. left. exists (- g - 1)%Z, (- k)%Z. rewrite minus_IZR, !opp_IZR. split; lra.
        * right. left. exists (- g - 1)%Z, (- k - 1)%Z. rewrite !minus_IZR, !opp_IZR. split; lra.
      + intros [[m0 [m1 [E1 E2]]]|[[m0 [m1 [E1 E2]]]|[[m0 [m1 [E1 E2]]]|[m0 [m1 [E1 E2]]]]]].
        * exists (- 2 * m0)%Z, (- 2 * m1)%Z. rewrite !mult_IZR. split; lra.
        * exists (- 2 * m0 - 1)%Z, (- 2 * m1 - 1)%Z. rewrite !minus_IZR, !mult_IZR. split; lra.
        * exists (- 2 * m0 - 1)%Z, (- 2 * m1)%Z. rewrite !minus_IZR, !mult_IZR. split; lra.
        * exists (- 2 * m0)%Z, (- 2 * m1 - 1)%Z. rewrite !minus_IZR, !mult_IZR. split; lra.
    - rewrite square_same. intros [m0 [m1 [E1 _]]]. apply (No (- m0)%Z 0%Z). rewrite opp_IZR. lra.
    - rewrite square_same. intros [m0 [m1 [E1 _]]]. apply (No m0 0%Z). lra.
    - rewrite square_same. intros [m0 [m1 [_ E2]]]. apply (No (- m1)%Z 0%Z). rewrite opp_IZR. lra.
    - rewrite square_quarter, square_same. intros [m0 [m1 [E1 _]]]. apply (No m0 0%Z). lra.
  Qed.

  (** The bridge is in the middle of a hollow site and the next one along the first axis. *)
  Theorem bridge_100 k0 n1 o ho b t : (0 < k0)%Z -> (0 < n1)%Z -> names_100 (2 * k0, n1)%Z o ho b t ->
    exists h', eqs h' (pos (2 * k0, n1)%Z ho) /\ pos (2 * k0, n1)%Z b = middle (pos (2 * k0, n1)%Z ho) h' /\
      plane_distance (pos (2 * k0, n1)%Z ho) h' = a.
  Proof using Ha.
    intros H0 H1 N. destruct o as [o0 o1]. destruct (sites_100 _ _ _ _ _ _ _ N) as [-> [-> ->]].
    replace ((2 * k0) / 2)%Z with (1 * k0)%Z by (replace (2 * k0)%Z with (k0 * 2)%Z by ring; rewrite Z.div_mul; lia).
    unfold grid_position. cbn [fst snd]. rewrite !(halves _ _ _ H0).
    generalize (IZR o0 / IZR (2 * k0)) (IZR o1 / IZR n1). intros x y. exists (pt (x + 1) y). split; [|split].
    - apply square_same. exists 1%Z, 0%Z. split; lra.
    - unfold middle, at_coordinates, square0, square1. cbn [fst snd]. f_equal; field.
    - unfold plane_distance, at_coordinates, square0, square1. cbn [fst snd].
      match goal with |- sqrt ?e = _ => replace e with (a * a) by ring end. apply sqrt_square. lra.
  Qed.
End Square.
