(** Arithmetic set-up shared by every file: [lia] with division/modulo and
    boolean comparisons, and a few facts on [mod]. *)
From Coq Require Export ZArith Lia List Bool Arith.
From Coq Require Export ZifyBool ZifyNat.
Export ListNotations.

Ltac Zify.zify_post_hook ::= Z.div_mod_to_equations.

Lemma Zmod_unique_range (a b n : Z) :
  (0 < n -> 0 <= b < n -> (exists q, a = b + q * n) -> a mod n = b)%Z.
Proof.
  intros Hn Hb [q ->]. rewrite Z.mod_add by lia. apply Z.mod_small; lia.
Qed.

Lemma Zmod_eq_iff (a b n : Z) :
  (0 < n -> (a mod n = b mod n <-> exists q, a = b + q * n))%Z.
Proof.
  intros Hn; split.
  - intros H. exists (a / n - b / n)%Z.
    rewrite (Z.div_mod a n) at 1 by lia. rewrite (Z.div_mod b n) at 1 by lia.
    rewrite H. ring.
  - intros [q ->]. apply Z.mod_add; lia.
Qed.

(** Congruence modulo [n], as a relation on Z: the independent notion used in
    the statements. *)
Definition Zcong (n a b : Z) : Prop := exists q, (a = b + q * n)%Z.

Lemma Zcong_refl n a : Zcong n a a.
Proof. exists 0%Z; lia. Qed.

Lemma Zcong_sym n a b : Zcong n a b -> Zcong n b a.
Proof. intros [q ->]; exists (-q)%Z; lia. Qed.

Lemma Zcong_trans n a b c : Zcong n a b -> Zcong n b c -> Zcong n a c.
Proof. intros [q ->] [r ->]; exists (r + q)%Z; lia. Qed.

Lemma Zcong_mod n a : (0 < n)%Z -> Zcong n (a mod n) a.
Proof. intros Hn; exists (- (a / n))%Z. rewrite (Z.div_mod a n) at 2 by lia. lia. Qed.

Lemma Zcong_range_eq n lo a b :
  (Zcong n a b -> lo <= a < lo + n -> lo <= b < lo + n -> a = b)%Z.
Proof. intros [q ->] Ha Hb. assert (q = 0)%Z by nia. lia. Qed.

Lemma Zcong_mod_eq n a b : (0 < n)%Z -> Zcong n a b -> (a mod n = b mod n)%Z.
Proof. intros Hn H; apply Zmod_eq_iff; auto. Qed.

Lemma Zmod_eq_cong n a b : (0 < n)%Z -> (a mod n = b mod n)%Z -> Zcong n a b.
Proof. intros Hn H; apply Zmod_eq_iff; auto. Qed.
