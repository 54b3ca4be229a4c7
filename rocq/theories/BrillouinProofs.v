(** Proofs about Brillouin zones. *)
From Coq Require Import Reals ZArith List Arith Lia Lra Psatz.
From Verif Require Import ZLib Csum NumPy Index Lattice LatticeProofs Hamiltonian SpecReal SpecHamiltonian Brillouin SpecBrillouin.
Import ListNotations.
Local Open Scope R_scope.

(** ** Momenta *)

Lemma dot3 u v : dot 3 u v = u 0%nat * v 0%nat + u 1%nat * v 1%nat + u 2%nat * v 2%nat.
Proof. unfold dot. cbn [rsum]. ring. Qed.

Lemma momentum_unique delta inv (q q' : nat -> R) : is_inverse 3 delta inv ->
  (forall a, (a < 3)%nat -> dot 3 q (delta a) = dot 3 q' (delta a)) -> forall c, (c < 3)%nat -> q c = q' c.
Proof.
  intros [_ H] E c Hc.
  assert (K : forall p : nat -> R, p c = rsum (fun a => inv c a * dot 3 p (delta a)) 3).
  { intros p. unfold dot. rewrite (rsum_ext _ (fun a => rsum (fun d => inv c a * delta a d * p d) 3)).
    2:{ intros a Ha. rewrite <- rsum_scal_l. apply rsum_ext. intros; ring. }
    rewrite rsum_swap. rewrite (rsum_ext _ (fun d => rdelta c d * p d)).
    2:{ intros d Hd. rewrite rsum_scal_r. rewrite H by assumption. reflexivity. }
    rewrite rsum_delta' by assumption. reflexivity. }
  rewrite (K q), (K q'). apply rsum_ext. intros a Ha. rewrite E by assumption. reflexivity.
Qed.

Lemma k_point_momentum delta inv idx : is_inverse 3 delta inv -> momentum_of delta idx (k_point_at_index 3 inv idx).
Proof.
  intros [H _] b Hb. unfold k_point_at_index, tensordot00, dk_stacked, dot.
  rewrite (rsum_ext _ (fun c => rsum (fun a => delta b c * inv c a * (2 * PI * IZR (nth a idx 0%Z))) 3)).
  2:{ intros c Hc. rewrite <- rsum_scal_r. apply rsum_ext. intros; ring. }
  rewrite rsum_swap.
  rewrite (rsum_ext _ (fun a => rdelta b a * (2 * PI * IZR (nth a idx 0%Z)))).
  2:{ intros a Ha. rewrite rsum_scal_r. rewrite H by assumption. reflexivity. }
  rewrite rsum_delta' by assumption. reflexivity.
Qed.

Definition mvec (i : nat) : list Z := map (fun a => stacked_nk_points [3; 3; 3]%nat a i) (seq 0 3).

Lemma mvec_table : map mvec (seq 0 27) =
  [[0;0;0];[0;0;1];[0;0;-1];[0;1;0];[0;1;1];[0;1;-1];[0;-1;0];[0;-1;1];[0;-1;-1];
   [1;0;0];[1;0;1];[1;0;-1];[1;1;0];[1;1;1];[1;1;-1];[1;-1;0];[1;-1;1];[1;-1;-1];
   [-1;0;0];[-1;0;1];[-1;0;-1];[-1;1;0];[-1;1;1];[-1;1;-1];[-1;-1;0];[-1;-1;1];[-1;-1;-1]]%Z.
Proof. vm_compute. reflexivity. Qed.

Lemma mvec_rank i : (i < 27)%nat -> rank (mvec i) = Z.of_nat i.
Proof.
  intros H. assert (Forall (fun i => rank (mvec i) = Z.of_nat i) (seq 0 27)) as F.
  { cbn [seq]. repeat (constructor; [vm_compute; reflexivity|]). constructor. }
  rewrite Forall_forall in F. apply F. apply in_seq. lia.
Qed.

Lemma rank_neighbour m : neighbour m -> exists i, (i < 26)%nat /\ m = mvec (S i).
Proof.
  intros [Hl [Hf Hn]]. destruct m as [|a [|b [|c [|]]]]; try discriminate.
  inversion Hf as [|? ? Ha Hf1]; subst. inversion Hf1 as [|? ? Hb Hf2]; subst. inversion Hf2 as [|? ? Hc _]; subst.
  assert (a = -1 \/ a = 0 \/ a = 1)%Z as Ea by lia. assert (b = -1 \/ b = 0 \/ b = 1)%Z as Eb by lia.
  assert (c = -1 \/ c = 0 \/ c = 1)%Z as Ec by lia.
  assert (X : In [a; b; c] (map mvec (seq 0 27))).
  { rewrite mvec_table. destruct Ea as [->|[->| ->]], Eb as [->|[->| ->]], Ec as [->|[->| ->]]; cbn; tauto. }
  apply in_map_iff in X. destruct X as [i [E Hi]]. apply in_seq in Hi.
  destruct i as [|i]. { exfalso. apply Hn. rewrite <- E. vm_compute. reflexivity. }
  exists i. split; [lia|]. symmetry; exact E.
Qed.

Lemma mvec_neighbour i : (i < 26)%nat -> neighbour (mvec (S i)).
Proof.
  intros H. split; [reflexivity|].
  assert (Hin : In (mvec (S i)) (tl (map mvec (seq 0 27)))).
  { change (tl (map mvec (seq 0 27))) with (map mvec (seq 1 26)). apply in_map_iff. exists (S i). split; [reflexivity|]. apply in_seq. lia. }
  rewrite mvec_table in Hin. cbn [tl] in Hin.
  repeat match goal with H : In _ _ |- _ => destruct H as [<-|H] end;
    try (destruct Hin); (split; [repeat (constructor; [lia|]); constructor | discriminate]).
Qed.

Lemma NoDup_map_in {A B} (f : A -> B) l : (forall x y, In x l -> In y l -> f x = f y -> x = y) -> NoDup l -> NoDup (map f l).
Proof.
  induction l as [|x l IH]; intros Hf Hn; cbn; [constructor|]. inversion Hn; subst. constructor.
  - intros Hin. apply in_map_iff in Hin. destruct Hin as [y [E Hy]]. assert (y = x) as -> by (apply Hf; [right|left|]; auto). contradiction.
  - apply IH; [|assumption]. intros; apply Hf; [right|right|]; auto.
Qed.

Section Zones.
  Variables (shape : list nat) (delta inv binv : nat -> nat -> R) (q : list Z -> nat -> R).
  Hypothesis Hs : length shape = 3%nat.
  Hypothesis Hpos : Forall (fun n => (0 < n)%nat) shape.
  Hypothesis Hinv : is_inverse 3 delta inv.
  Hypothesis Hb : is_inverse 3 (fun a c => delta a c / INR (nth a shape 0%nat)) binv.
  Hypothesis Hq : forall idx, momentum_of delta idx (q idx).

  Lemma npos a : (a < 3)%nat -> (0 < nth a shape 0)%nat.
  Proof using shape delta inv binv q Hs Hpos Hinv Hb Hq. intros Ha. rewrite Forall_forall in Hpos. apply Hpos. apply nth_In. lia. Qed.

  Lemma q_point idx c : (c < 3)%nat -> q idx c = k_point_at_index 3 inv idx c.
  Proof using shape delta inv binv q Hs Hpos Hinv Hb Hq.
    intros Hc. apply (momentum_unique delta inv); [assumption| |assumption].
    intros a Ha. rewrite (Hq idx a Ha), (k_point_momentum delta inv idx Hinv a Ha). reflexivity.
  Qed.

  Lemma nth_lattice_index m a : (a < 3)%nat -> nth a (lattice_index shape m) 0%Z = (Z.of_nat (nth a shape 0%nat) * nth a m 0%Z)%Z.
  Proof using shape delta inv binv q Hs Hpos Hinv Hb Hq. intros Ha. unfold lattice_index. destruct a as [|[|[|]]]; try reflexivity. lia. Qed.
  Lemma nth_moved_back idx m a : (a < 3)%nat ->
    nth a (moved_back shape idx m) 0%Z = (nth a idx 0%Z - Z.of_nat (nth a shape 0%nat) * nth a m 0%Z)%Z.
  Proof using shape delta inv binv q Hs Hpos Hinv Hb Hq. intros Ha. unfold moved_back. destruct a as [|[|[|]]]; try reflexivity. lia. Qed.

  Lemma bragg_point_momentum i c : (c < 3)%nat ->
    fundamental_stacked_k_points [3; 3; 3]%nat binv c i = q (lattice_index shape (mvec i)) c.
  Proof using shape delta inv binv q Hs Hpos Hinv Hb Hq.
    intros Hc.
    apply (momentum_unique delta inv (fun c => fundamental_stacked_k_points [3; 3; 3]%nat binv c i)); [assumption| |assumption].
    intros a Ha. rewrite (Hq _ a Ha). rewrite nth_lattice_index by assumption.
    pose proof (k_point_momentum _ binv (mvec i) Hb a Ha) as K.
    assert (Hn : INR (nth a shape 0%nat) <> 0) by (apply not_0_INR; pose proof (npos a Ha); lia).
    assert (E : forall c, fundamental_stacked_k_points [3; 3; 3]%nat binv c i = k_point_at_index 3 binv (mvec i) c).
    { intros c'. unfold fundamental_stacked_k_points, k_point_at_index, tensordot00. apply rsum_ext. intros d Hd.
      unfold mvec. destruct d as [|[|[|]]]; try reflexivity. cbn in Hd; lia. }
    rewrite mult_IZR, <- INR_IZR_INZ.
    transitivity (INR (nth a shape 0%nat) * dot 3 (k_point_at_index 3 binv (mvec i)) (fun c => delta a c / INR (nth a shape 0%nat))).
    - rewrite !dot3, !E. field. exact Hn.
    - rewrite K. ring.
  Qed.

  Lemma q_moved idx m c : (c < 3)%nat -> q (moved_back shape idx m) c = q idx c - q (lattice_index shape m) c.
  Proof using shape delta inv binv q Hs Hpos Hinv Hb Hq.
    intros Hc. apply (momentum_unique delta inv _ (fun c => q idx c - q (lattice_index shape m) c)); [assumption| |assumption].
    intros a Ha. rewrite (Hq _ a Ha). rewrite nth_moved_back by assumption.
    pose proof (Hq idx a Ha) as H1. pose proof (Hq (lattice_index shape m) a Ha) as H2.
    rewrite nth_lattice_index in H2 by assumption. rewrite minus_IZR.
    rewrite dot3 in *. lra.
  Qed.

  Lemma length2_nonneg (v : nat -> R) : 0 <= length2 v.
  Proof using shape delta inv binv q Hs Hpos Hinv Hb Hq. unfold length2. rewrite dot3. pose proof (Rle_0_sqr (v 0%nat)). pose proof (Rle_0_sqr (v 1%nat)). pose proof (Rle_0_sqr (v 2%nat)). unfold Rsqr in *. lra. Qed.

  Lemma length2_zero (v : nat -> R) c : length2 v = 0 -> (c < 3)%nat -> v c = 0.
  Proof using shape delta inv binv q Hs Hpos Hinv Hb Hq.
    unfold length2. rewrite dot3. intros H Hc. pose proof (Rle_0_sqr (v 0%nat)). pose proof (Rle_0_sqr (v 1%nat)). pose proof (Rle_0_sqr (v 2%nat)).
    unfold Rsqr in *. apply Rsqr_0_uniq. unfold Rsqr. destruct c as [|[|[|]]]; try lia; lra.
  Qed.

  Lemma momentum_nonzero idx a : (a < 3)%nat -> nth a idx 0%Z <> 0%Z -> 0 < length2 (q idx).
  Proof using shape delta inv binv q Hs Hpos Hinv Hb Hq.
    intros Ha Hn. destruct (Rtotal_order (length2 (q idx)) 0) as [H|[H|H]].
    - pose proof (length2_nonneg (q idx)). lra.
    - exfalso. apply Hn. pose proof (Hq idx a Ha) as E. rewrite dot3 in E.
      rewrite !(length2_zero (q idx)) in E by (assumption || lia).
      apply eq_IZR. pose proof PI_RGT_0. nra.
    - exact H.
  Qed.

  Lemma neighbour_nonzero m : neighbour m -> exists a, (a < 3)%nat /\ nth a m 0%Z <> 0%Z.
  Proof using shape delta inv binv q Hs Hpos Hinv Hb Hq.
    intros [Hl [_ Hn]]. destruct m as [|a [|b [|c [|]]]]; try discriminate.
    destruct (Z.eq_dec a 0) as [->|Ha]; [|exists 0%nat; split; [lia|exact Ha]].
    destruct (Z.eq_dec b 0) as [->|Hb']; [|exists 1%nat; split; [lia|exact Hb']].
    destruct (Z.eq_dec c 0) as [->|Hc]; [congruence|exists 2%nat; split; [lia|exact Hc]].
  Qed.

  Lemma lattice_nonzero m : (exists a, (a < 3)%nat /\ nth a m 0%Z <> 0%Z) -> 0 < length2 (q (lattice_index shape m)).
  Proof using shape delta inv binv q Hs Hpos Hinv Hb Hq.
    intros [a [Ha Hn]]. apply (momentum_nonzero _ a Ha). rewrite nth_lattice_index by assumption.
    pose proof (npos a Ha). nia.
  Qed.

  Lemma norm3 (v : nat -> R) : norm 3 v = sqrt (length2 v).
  Proof using shape delta inv binv q Hs Hpos Hinv Hb Hq. reflexivity. Qed.

  Lemma length2_ext (u v : nat -> R) : (forall c, (c < 3)%nat -> u c = v c) -> length2 u = length2 v.
  Proof using shape delta inv binv q Hs Hpos Hinv Hb Hq. intros H. unfold length2. rewrite !dot3. rewrite !H by lia. reflexivity. Qed.

  Lemma plane_distance_beyond idx m G k : 0 < length2 (q (lattice_index shape m)) ->
    (forall c, (c < 3)%nat -> G c = q (lattice_index shape m) c) -> (forall c, (c < 3)%nat -> k c = q idx c) ->
    bragg_plane_distance 3 G k = beyond shape q idx m.
  Proof using shape delta inv binv q Hs Hpos Hinv Hb Hq.
    intros Hn HG Hk. unfold bragg_plane_distance, beyond. rewrite norm3.
    rewrite (length2_ext G _ HG).
    set (g := q (lattice_index shape m)) in *. set (s := sqrt (length2 g)).
    assert (Hs' : 0 < s) by (apply sqrt_lt_R0; exact Hn).
    assert (Es : s * s = length2 g) by (apply sqrt_sqrt; lra).
    assert (E : length2 (q (moved_back shape idx m)) = length2 (q idx) - 2 * dot 3 g (q idx) + length2 g).
    { unfold length2. rewrite !dot3. rewrite !q_moved by lia. fold g. ring. }
    rewrite E. cbn [rsum]. rewrite !HG, !Hk by lia. fold g. rewrite <- Es. rewrite dot3. field. lra.
  Qed.

  Lemma cauchy3 (g k : nat -> R) : dot 3 g k * dot 3 g k <= length2 g * length2 k.
  Proof using shape delta inv binv q Hs Hpos Hinv Hb Hq.
    unfold length2. rewrite !dot3.
    pose proof (Rle_0_sqr (g 0%nat * k 1%nat - g 1%nat * k 0%nat)).
    pose proof (Rle_0_sqr (g 0%nat * k 2%nat - g 2%nat * k 0%nat)).
    pose proof (Rle_0_sqr (g 1%nat * k 2%nat - g 2%nat * k 1%nat)). unfold Rsqr in *. lra.
  Qed.

  Lemma beyond_lt_norm idx m : 0 < length2 (q (lattice_index shape m)) -> beyond shape q idx m < sqrt (length2 (q idx)).
  Proof using shape delta inv binv q Hs Hpos Hinv Hb Hq.
    intros Hn. unfold beyond. set (g := q (lattice_index shape m)) in *. set (s := sqrt (length2 g)).
    assert (Hs' : 0 < s) by (apply sqrt_lt_R0; exact Hn).
    assert (Es : s * s = length2 g) by (apply sqrt_sqrt; lra).
    assert (E : length2 (q (moved_back shape idx m)) = length2 (q idx) - 2 * dot 3 g (q idx) + length2 g).
    { unfold length2. rewrite !dot3. rewrite !q_moved by lia. fold g. ring. }
    rewrite E. set (t := sqrt (length2 (q idx))).
    assert (Ht : 0 <= t) by apply sqrt_pos.
    assert (Et : t * t = length2 (q idx)) by (apply sqrt_sqrt; apply length2_nonneg).
    pose proof (cauchy3 g (q idx)) as C. rewrite <- Es, <- Et in C.
    assert (D : dot 3 g (q idx) <= s * t).
    { destruct (Rle_or_lt (dot 3 g (q idx)) (s * t)) as [H|H]; [exact H|exfalso].
      assert (0 <= s * t) by (apply Rmult_le_pos; lra). nra. }
    apply Rmult_lt_reg_r with (2 * s); [lra|].
    replace ((length2 (q idx) - (length2 (q idx) - 2 * dot 3 g (q idx) + length2 g)) / (2 * s) * (2 * s))
      with (2 * dot 3 g (q idx) - length2 g) by (field; lra).
    rewrite <- Es. assert (0 < s * s) by (apply Rmult_lt_0_compat; lra). lra.
  Qed.

  Lemma beyond_positive idx m : 0 < length2 (q (lattice_index shape m)) ->
    0 < beyond shape q idx m <-> length2 (q (moved_back shape idx m)) < length2 (q idx).
  Proof using shape delta inv binv q Hs Hpos Hinv Hb Hq.
    intros Hn. unfold beyond. assert (Hs' : 0 < sqrt (length2 (q (lattice_index shape m)))) by (apply sqrt_lt_R0; exact Hn).
    split; intros H.
    - destruct (Rlt_or_le (length2 (q (moved_back shape idx m))) (length2 (q idx))) as [L|L]; [exact L|exfalso].
      assert (0 < / (2 * sqrt (length2 (q (lattice_index shape m))))) by (apply Rinv_0_lt_compat; lra).
      unfold Rdiv in H. nra.
    - unfold Rdiv. apply Rmult_lt_0_compat; [lra|]. apply Rinv_0_lt_compat. lra.
  Qed.

  (** ** The loop *)

  Lemma closest_spec nd tol k bs : forall i c d,
    let j := closest_bragg_point nd tol k bs i c d in
    let f p := bragg_plane_distance nd (nth p bs (fun _ => 0)) k in
    (j = c /\ forall p, (p < length bs)%nat -> tol < f p -> d <= f p) \/
    (exists p, (p < length bs)%nat /\ j = (i + p)%nat /\ tol < f p /\ f p < d /\
       (forall p', (p' < length bs)%nat -> tol < f p' -> f p <= f p') /\
       forall p', (p' < p)%nat -> tol < f p' -> f p < f p').
  Proof using shape delta inv binv q Hs Hpos Hinv Hb Hq.
    induction bs as [|b bs IH]; intros i c d j f.
    - left. split; [reflexivity|]. cbn. intros; lia.
    - unfold j. cbn [closest_bragg_point].
      destruct (Rlt_dec tol (bragg_plane_distance nd b k)) as [H1|H1];
        [destruct (Rlt_dec (bragg_plane_distance nd b k) d) as [H2|H2]|].
      + destruct (IH (S i) i (bragg_plane_distance nd b k)) as [[-> F]|[p [Hp [-> [F1 [F2 [F3 F4]]]]]]]; right.
        * exists 0%nat. cbn [length]. split; [lia|]. split; [lia|]. split; [exact H1|]. split; [exact H2|]. split.
          -- intros [|p'] Hp' Ht; [lra|]. apply F; [cbn in Hp'; lia|exact Ht].
          -- intros; lia.
        * exists (S p). cbn [length]. split; [lia|]. split; [lia|]. split; [exact F1|].
          split. { eapply Rlt_trans; [exact F2|exact H2]. } split.
          -- intros [|p'] Hp' Ht; [left; exact F2|]. apply F3; [lia|exact Ht].
          -- intros [|p'] Hp' Ht; [exact F2|]. apply F4; [lia|exact Ht].
      + destruct (IH (S i) c d) as [[-> F]|[p [Hp [-> [F1 [F2 [F3 F4]]]]]]]; [left|right].
        * split; [reflexivity|]. intros [|p'] Hp' Ht; [change (d <= bragg_plane_distance nd b k); lra|]. apply F; [cbn in Hp'; lia|exact Ht].
        * exists (S p). cbn [length]. split; [lia|]. split; [lia|]. split; [exact F1|]. split; [exact F2|]. split.
          -- intros [|p'] Hp' Ht; [left; eapply Rlt_le_trans; [exact F2|change (d <= bragg_plane_distance nd b k); lra]|]. apply F3; [lia|exact Ht].
          -- intros [|p'] Hp' Ht; [eapply Rlt_le_trans; [exact F2|change (d <= bragg_plane_distance nd b k); lra]|]. apply F4; [lia|exact Ht].
      + destruct (IH (S i) c d) as [[-> F]|[p [Hp [-> [F1 [F2 [F3 F4]]]]]]]; [left|right].
        * split; [reflexivity|]. intros [|p'] Hp' Ht; [exfalso; apply H1; exact Ht|]. apply F; [cbn in Hp'; lia|exact Ht].
        * exists (S p). cbn [length]. split; [lia|]. split; [lia|]. split; [exact F1|]. split; [exact F2|]. split.
          -- intros [|p'] Hp' Ht; [exfalso; apply H1; exact Ht|]. apply F3; [lia|exact Ht].
          -- intros [|p'] Hp' Ht; [exfalso; apply H1; exact Ht|]. apply F4; [lia|exact Ht].
  Qed.

  Lemma decrement_tolerance_spec : exists t, decrement_tolerance 3 inv = Some t /\ tolerance q t /\ 0 < t.
  Proof using shape delta inv binv q Hs Hpos Hinv Hb Hq.
    assert (E : forall a (e : list Z), (a < 3)%nat -> (forall b, (b < 3)%nat -> IZR (nth b e 0%Z) = rdelta b a) ->
                norm 3 (dk_stacked inv a) = sqrt (length2 (q e)) /\ 0 < sqrt (length2 (q e))).
    { intros a e Ha He. split.
      - rewrite norm3. f_equal. apply length2_ext. intros c Hc. rewrite q_point by assumption.
        unfold k_point_at_index, tensordot00.
        rewrite (rsum_ext _ (fun d => rdelta d a * dk_stacked inv d c)).
        + rewrite rsum_delta by assumption. reflexivity.
        + intros d Hd. rewrite He by assumption. ring.
      - apply sqrt_lt_R0. apply (momentum_nonzero e a Ha). intros Z0. specialize (He a Ha). rewrite Z0 in He.
        unfold rdelta in He. rewrite Nat.eqb_refl in He. lra. }
    destruct (E 0%nat [1;0;0]%Z) as [E0 P0]; [lia|intros [|[|[|]]] Hb'; (reflexivity || lia)|].
    destruct (E 1%nat [0;1;0]%Z) as [E1 P1]; [lia|intros [|[|[|]]] Hb'; (reflexivity || lia)|].
    destruct (E 2%nat [0;0;1]%Z) as [E2 P2]; [lia|intros [|[|[|]]] Hb'; (reflexivity || lia)|].
    unfold decrement_tolerance. cbn [seq map rmin option_map]. rewrite E0, E1, E2.
    unfold tolerance. cbn [map].
    set (s0 := sqrt (length2 (q [1; 0; 0]%Z))) in *. set (s1 := sqrt (length2 (q [0; 1; 0]%Z))) in *. set (s2 := sqrt (length2 (q [0; 0; 1]%Z))) in *.
    eexists. split; [reflexivity|]. unfold Rmin.
    destruct (Rle_dec s1 s2) as [H|H]; [destruct (Rle_dec s0 s1) as [H'|H']|destruct (Rle_dec s0 s2) as [H'|H']];
      (split; [split|]);
      try (apply Forall_cons; [lra|]; apply Forall_cons; [lra|]; apply Forall_cons; [lra|apply Forall_nil]);
      try lra; cbn [In].
    - left. lra.
    - right; left. lra.
    - left. lra.
    - right; right; left. lra.
  Qed.

  Lemma all_bragg_points : all_bragg_point shape binv 1 = map (fun i c => fundamental_stacked_k_points [3; 3; 3]%nat binv c i) (seq 0 27).
  Proof using shape delta inv binv q Hs Hpos Hinv Hb Hq. destruct shape as [|n0 [|n1 [|n2 [|]]]]; try discriminate Hs. reflexivity. Qed.

  Lemma all_bragg_indexes : all_bragg_point_index shape 1 = map (fun i => lattice_index shape (mvec i)) (seq 0 27).
  Proof using shape delta inv binv q Hs Hpos Hinv Hb Hq.
    destruct shape as [|n0 [|n1 [|n2 [|]]]]; try discriminate Hs. reflexivity.
  Qed.

  Lemma moved_back_zero idx : length idx = 3%nat -> moved_back shape idx [0; 0; 0]%Z = idx.
  Proof using shape delta inv binv q Hs Hpos Hinv Hb Hq.
    intros Hl. destruct idx as [|a [|b [|c [|]]]]; try discriminate. unfold moved_back. cbn [seq map nth].
    rewrite !Z.mul_0_r, !Z.sub_0_r. reflexivity.
  Qed.

  Lemma fold_moved_back idx m : length idx = 3%nat ->
    fold_point_in_bragg_plane (lattice_index shape m) idx = Some (moved_back shape idx m).
  Proof using shape delta inv binv q Hs Hpos Hinv Hb Hq. intros Hl. destruct idx as [|a [|b [|c [|]]]]; try discriminate. reflexivity. Qed.

  Lemma decrement_spec idx : length idx = 3%nat ->
    exists idx' t, decrement_brillouin_zone shape inv binv idx = Some idx' /\ tolerance q t /\ 0 < t /\
      ((idx' = idx /\ forall m, neighbour m -> beyond shape q idx m <= t) \/
       (exists m, neighbour m /\ idx' = moved_back shape idx m /\ t < beyond shape q idx m /\
          forall m', neighbour m' -> t < beyond shape q idx m' ->
            beyond shape q idx m <= beyond shape q idx m' /\
            ((rank m' < rank m)%Z -> beyond shape q idx m < beyond shape q idx m'))).
  Proof using shape delta inv binv q Hs Hpos Hinv Hb Hq.
    intros Hl. destruct decrement_tolerance_spec as [t [Et [Ht Hp]]].
    unfold decrement_brillouin_zone. rewrite Hs, Et, Hl. cbn [negb Nat.eqb].
    rewrite all_bragg_points, all_bragg_indexes.
    set (pts := tl (map (fun i c => fundamental_stacked_k_points [3; 3; 3]%nat binv c i) (seq 0 27))).
    assert (Epts : pts = map (fun i c => fundamental_stacked_k_points [3; 3; 3]%nat binv c i) (seq 1 26)) by reflexivity.
    assert (Lpts : length pts = 26%nat) by reflexivity.
    assert (F : forall p, (p < 26)%nat ->
       bragg_plane_distance 3 (nth p pts (fun _ => 0)) (k_point_at_index 3 inv idx) = beyond shape q idx (mvec (S p))).
    { intros p Hp'. apply plane_distance_beyond.
      - apply lattice_nonzero. apply neighbour_nonzero. apply mvec_neighbour. exact Hp'.
      - intros c Hc. rewrite Epts.
        rewrite (nth_indep _ _ (fun c => fundamental_stacked_k_points [3; 3; 3]%nat binv c 0)) by (rewrite map_length, seq_length; exact Hp').
        rewrite (map_nth (fun i c => fundamental_stacked_k_points [3; 3; 3]%nat binv c i)).
        rewrite seq_nth by exact Hp'. rewrite bragg_point_momentum by assumption. reflexivity.
      - intros c Hc. symmetry. apply q_point. exact Hc. }
    assert (N : forall j, (j < 27)%nat -> nth_error (map (fun i => lattice_index shape (mvec i)) (seq 0 27)) j = Some (lattice_index shape (mvec j))).
    { intros j Hj. erewrite map_nth_error; [reflexivity|].
      rewrite (nth_error_nth' _ 0%nat) by (rewrite seq_length; exact Hj). rewrite seq_nth by exact Hj. reflexivity. }
    pose proof (closest_spec 3 t (k_point_at_index 3 inv idx) pts 1 0 (norm 3 (k_point_at_index 3 inv idx))) as Q0.
    cbv zeta in Q0. rewrite Lpts in Q0.
    destruct Q0 as [[-> Q0]|[p [Hp' [-> [S1 [S2 [S3 S4]]]]]]].
    - rewrite N by lia. rewrite fold_moved_back by exact Hl.
      change (mvec 0) with [0; 0; 0]%Z. rewrite moved_back_zero by exact Hl. rewrite Hl. cbn [Nat.eqb].
      exists idx, t. split; [reflexivity|]. split; [exact Ht|]. split; [exact Hp|]. left. split; [reflexivity|].
      intros m Hm. destruct (rank_neighbour m Hm) as [p [Hp' ->]].
      destruct (Rle_or_lt (beyond shape q idx (mvec (S p))) t) as [L|L]; [exact L|exfalso].
      specialize (Q0 p Hp'). rewrite F in Q0 by exact Hp'. specialize (Q0 L).
      rewrite norm3, (length2_ext _ (q idx)) in Q0 by (intros; symmetry; apply q_point; assumption).
      pose proof (beyond_lt_norm idx (mvec (S p)) (lattice_nonzero _ (neighbour_nonzero _ Hm))). lra.
    - change (1 + p)%nat with (S p). rewrite N by lia. rewrite fold_moved_back by exact Hl.
      change (length (moved_back shape idx (mvec (S p)))) with 3%nat. cbn [Nat.eqb].
      rewrite F in S1 by exact Hp'.
      eexists _, t. split; [reflexivity|]. split; [exact Ht|]. split; [exact Hp|]. right.
      exists (mvec (S p)). split; [apply mvec_neighbour; exact Hp'|]. split; [reflexivity|]. split; [exact S1|].
      intros m' Hm' Lm'. destruct (rank_neighbour m' Hm') as [p' [Hp'' ->]]. split.
      + specialize (S3 p' Hp''). rewrite !F in S3 by assumption. apply S3. exact Lm'.
      + rewrite !mvec_rank by lia. intros Hr. specialize (S4 p'). rewrite !F in S4 by assumption.
        apply S4; [lia|exact Lm'].
  Qed.

  (** ** Zones *)

  Lemma moved_back_twice idx m x : moved_back shape (moved_back shape idx m) x =
    moved_back shape idx (map (fun a => (nth a m 0 + nth a x 0)%Z) (seq 0 3)).
  Proof using shape delta inv binv q Hs Hpos Hinv Hb Hq. unfold moved_back. cbn [seq map nth]. repeat (f_equal; [ring|]). f_equal; ring. Qed.

  Lemma crossed_decreases idx m c : length m = 3%nat -> length2 (q (moved_back shape idx m)) < length2 (q idx) ->
    crossed shape q idx c -> exists c', crossed shape q (moved_back shape idx m) c' /\ (c' < c)%nat.
  Proof using shape delta inv binv q Hs Hpos Hinv Hb Hq.
    intros Hm Hlt [L [Hnd [Hlen HL]]].
    set (idx' := moved_back shape idx m) in *.
    set (t := fun x => if Rlt_dec (length2 (q (moved_back shape idx x))) (length2 (q idx')) then true else false).
    set (g := fun x : list Z => map (fun a => (nth a x 0 - nth a m 0)%Z) (seq 0 3)).
    exists (length (map g (filter t L))). split.
    - exists (map g (filter t L)). split; [|split; [reflexivity|]].
      + apply NoDup_map_in; [|apply NoDup_filter; exact Hnd].
        intros x y Hx Hy E. apply filter_In in Hx, Hy. destruct Hx as [Hx _], Hy as [Hy _].
        apply HL in Hx, Hy. destruct Hx as [Hx _], Hy as [Hy _].
        destruct x as [|x0 [|x1 [|x2 [|]]]]; try discriminate. destruct y as [|y0 [|y1 [|y2 [|]]]]; try discriminate.
        unfold g in E. cbn [seq map nth] in E. injection E as E0 E1 E2. f_equal; [lia|]. f_equal; [lia|]. f_equal; lia.
      + intros x. rewrite in_map_iff. split.
        * intros [y [<- Hy]]. apply filter_In in Hy. destruct Hy as [Hy Ty]. apply HL in Hy. destruct Hy as [Hy _].
          split; [reflexivity|]. unfold t in Ty. destruct (Rlt_dec _ _) as [T|]; [|discriminate].
          unfold idx' at 1. rewrite moved_back_twice.
          replace (map (fun a => (nth a m 0 + nth a (g y) 0)%Z) (seq 0 3)) with y; [exact T|].
          destruct y as [|y0 [|y1 [|y2 [|]]]]; try discriminate. unfold g. cbn [seq map nth]. f_equal; [lia|]. f_equal; [lia|]. f_equal; lia.
        * intros [Hx Tx]. exists (map (fun a => (nth a m 0 + nth a x 0)%Z) (seq 0 3)). split.
          -- unfold g. destruct x as [|x0 [|x1 [|x2 [|]]]]; try discriminate. cbn [seq map nth]. f_equal; [lia|]. f_equal; [lia|]. f_equal; lia.
          -- unfold idx' at 1 in Tx. rewrite moved_back_twice in Tx.
             apply filter_In. split.
             ++ apply HL. split; [reflexivity|]. eapply Rlt_trans; [exact Tx|exact Hlt].
             ++ unfold t. destruct (Rlt_dec _ _) as [|N]; [reflexivity|contradiction].
    - rewrite map_length. subst c.
      assert (In m L) as Hin by (apply HL; split; [exact Hm|exact Hlt]).
      assert (t m = false) as Tm. { unfold t. destruct (Rlt_dec _ _) as [T|]; [|reflexivity]. unfold idx' in T. lra. }
      clear HL. clear Hnd. induction L as [|x L IH]; [destruct Hin|].
      assert (forall L', (length (filter t L') <= length L')%nat) as FL.
      { induction L' as [|z L' IH']; [cbn; lia|]. cbn. destruct (t z); cbn; lia. }
      destruct Hin as [->|Hin].
      + cbn [filter]. rewrite Tm. cbn [length]. specialize (FL L). lia.
      + specialize (IH Hin). cbn [filter]. destruct (t x); cbn [length]; lia.
  Qed.

  Lemma crossed_exists idx : exists c, crossed shape q idx c.
  Proof using shape delta inv binv q Hs Hpos Hinv Hb Hq.
    set (bound := fun a => (Z.abs (nth a idx 0) + up (sqrt (length2 (q idx)) * sqrt (length2 (delta a))))%Z).
    set (range := fun B : Z => map (fun k => (Z.of_nat k - B)%Z) (seq 0 (Z.to_nat (2 * B + 1)))).
    assert (HR : forall B z, (- B <= z <= B)%Z -> In z (range B)).
    { intros B z Hz. unfold range. apply in_map_iff. exists (Z.to_nat (z + B)). split; [lia|]. apply in_seq. lia. }
    set (box := flat_map (fun x => flat_map (fun y => map (fun z => [x; y; z]) (range (bound 2%nat))) (range (bound 1%nat))) (range (bound 0%nat))).
    set (t := fun x => if Rlt_dec (length2 (q (moved_back shape idx x))) (length2 (q idx)) then true else false).
    set (L := nodup (list_eq_dec Z.eq_dec) (filter t box)).
    exists (length L), L. split; [apply NoDup_nodup|]. split; [reflexivity|].
    intros m. unfold L. rewrite nodup_In, filter_In. unfold t.
    split.
    - intros [Hin Ht]. destruct (Rlt_dec _ _) as [T|]; [|discriminate]. split; [|exact T].
      unfold box in Hin. apply in_flat_map in Hin. destruct Hin as [x [_ Hin]]. apply in_flat_map in Hin. destruct Hin as [y [_ Hin]].
      apply in_map_iff in Hin. destruct Hin as [z [<- _]]. reflexivity.
    - intros [Hl Hlt]. destruct (Rlt_dec _ _) as [T|N]; [|contradiction]. split; [|reflexivity].
      assert (K : forall a, (a < 3)%nat -> (- bound a <= nth a m 0 <= bound a)%Z).
      { intros a Ha. pose proof (Hq (moved_back shape idx m) a Ha) as E. rewrite nth_moved_back in E by assumption.
        set (k := q (moved_back shape idx m)) in *.
        pose proof (cauchy3 k (delta a)) as C. rewrite E in C.
        set (z := (nth a idx 0 - Z.of_nat (nth a shape 0%nat) * nth a m 0)%Z) in *.
        set (r := sqrt (length2 (q idx)) * sqrt (length2 (delta a))) in *.
        assert (Hr0 : 0 <= r) by (apply Rmult_le_pos; apply sqrt_pos).
        assert (Hr : r * r = length2 (q idx) * length2 (delta a)).
        { unfold r. replace (sqrt (length2 (q idx)) * sqrt (length2 (delta a)) * (sqrt (length2 (q idx)) * sqrt (length2 (delta a))))
            with ((sqrt (length2 (q idx)) * sqrt (length2 (q idx))) * (sqrt (length2 (delta a)) * sqrt (length2 (delta a)))) by ring.
          rewrite !sqrt_sqrt by apply length2_nonneg. reflexivity. }
        assert (C' : 2 * PI * IZR z * (2 * PI * IZR z) <= r * r).
        { rewrite Hr. eapply Rle_trans; [exact C|]. apply Rmult_le_compat_r; [apply length2_nonneg|left; exact Hlt]. }
        assert (Hz : Rabs (IZR z) <= r).
        { apply Rsqr_le_abs_0 in C'. rewrite (Rabs_pos_eq r) in C' by assumption.
          rewrite Rabs_mult in C'. rewrite (Rabs_pos_eq (2 * PI)) in C' by (pose proof PI_RGT_0; lra).
          pose proof (Rabs_pos (IZR z)). pose proof PI2_1. nra. }
        rewrite <- abs_IZR in Hz.
        assert (Hz' : (Z.abs z < up r)%Z). { apply lt_IZR. pose proof (archimed r). lra. }
        pose proof (npos a Ha) as Hn. unfold bound. fold r. unfold z in Hz'. nia. }
      unfold box. destruct m as [|x [|y [|z [|]]]]; try discriminate.
      apply in_flat_map. exists x. split; [apply HR; apply (K 0%nat); lia|].
      apply in_flat_map. exists y. split; [apply HR; apply (K 1%nat); lia|].
      apply in_map_iff. exists z. split; [reflexivity|apply HR; apply (K 2%nat); lia].
  Qed.
End Zones.
