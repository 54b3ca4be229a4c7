(** Banded operators, collapse operators and the approximate scattering function. *)
From Coq Require Import Reals Psatz.
From Coquelicot Require Import Coquelicot.
From Verif Require Import ZLib Csum DFT NumPy Index IndexProofs SpecReal Lattice LatticeProofs Basis SpecBasis BasisProofs Operator SpecOperator OperatorProofs Wavepacket Kernel
  Spectral Dynamics SpecDynamics DynamicsProofs DynamicsProofs4.
Local Open Scope R_scope.
Local Open Scope C_scope.

(** ** Banded operators *)
Section Banded.
  Context (n : nat) (a : nat -> nat -> C).

  Lemma diagonals_length : length (get_operator_diagonals n a) = n.
  Proof using n a. unfold get_operator_diagonals. rewrite map_length, seq_length. reflexivity. Qed.
  Lemma np_diagonal_low i : np_diagonal n a (- Z.of_nat i) = map (fun c => a (c + i)%nat c) (seq 0 (n - i)).
  Proof using n a.
    unfold np_diagonal. destruct (Z.leb_spec 0 (- Z.of_nat i)) as [H|H].
    - assert (i = 0%nat) by lia. subst i. cbn [Z.of_nat Z.opp Z.to_nat]. apply map_ext. intros c. f_equal; lia.
    - replace (Z.to_nat (- - Z.of_nat i)) with i by lia. reflexivity.
  Qed.
  Lemma np_diagonal_high i : (i < n)%nat -> np_diagonal n a (Z.of_nat n - Z.of_nat i) = map (fun r => a r (r + (n - i))%nat) (seq 0 i).
  Proof using n a.
    intros H. unfold np_diagonal. destruct (Z.leb_spec 0 (Z.of_nat n - Z.of_nat i)) as [H'|H']; [|lia].
    replace (Z.to_nat (Z.of_nat n - Z.of_nat i)) with (n - i)%nat by lia. replace (n - (n - i))%nat with i by lia. reflexivity.
  Qed.
  Lemma nth_map_seq {A} (f : nat -> A) d m i : (i < m)%nat -> nth i (map f (seq 0 m)) d = f i.
  Proof using n a. intros H. rewrite (nth_indep _ d (f 0%nat)) by (rewrite map_length, seq_length; exact H).
    rewrite map_nth, seq_nth by exact H. reflexivity. Qed.
  Lemma diagonal_row i : (i < n)%nat -> length (nth i (get_operator_diagonals n a) []) = n /\
    forall c, (c < n)%nat -> nth c (nth i (get_operator_diagonals n a) []) 0 = a ((c + i) mod n)%nat c.
  Proof using n a.
    intros Hi. unfold get_operator_diagonals. rewrite nth_map_seq by exact Hi. rewrite np_diagonal_low, np_diagonal_high by exact Hi.
    split. { rewrite app_length, !map_length, !seq_length. lia. }
    intros c Hc. destruct (Nat.lt_ge_cases c (n - i)) as [L|L].
    - rewrite app_nth1 by (rewrite map_length, seq_length; exact L). rewrite nth_map_seq by exact L.
      rewrite Nat.mod_small by lia. reflexivity.
    - rewrite app_nth2 by (rewrite map_length, seq_length; exact L). rewrite map_length, seq_length.
      rewrite nth_map_seq by lia. f_equal; [|lia].
      replace (c + i)%nat with ((c - (n - i)) + 1 * n)%nat by lia. rewrite Nat.mod_add by lia. rewrite Nat.mod_small by lia. reflexivity.
  Qed.
  Lemma offset_unique c i j : (c < n)%nat -> (i < n)%nat -> (j < n)%nat -> ((c + i) mod n = (c + j) mod n)%nat -> i = j.
  Proof using n a.
    intros Hc Hi Hj E.
    assert (K : forall k, (k < n)%nat -> ((c + k) mod n = if c + k <? n then c + k else c + k - n)%nat).
    { intros k Hk. destruct (Nat.ltb_spec (c + k) n); [apply Nat.mod_small; assumption|].
      replace (c + k)%nat with ((c + k - n) + 1 * n)%nat at 1 by lia. rewrite Nat.mod_add by lia. apply Nat.mod_small. lia. }
    rewrite !K in E by assumption. destruct (Nat.ltb_spec (c + i) n), (Nat.ltb_spec (c + j) n); lia.
  Qed.
  Definition offset (r c : nat) : nat := if (c <=? r)%nat then (r - c)%nat else (r + n - c)%nat.
  Lemma offset_spec r c : (r < n)%nat -> (c < n)%nat -> (offset r c < n)%nat /\ ((c + offset r c) mod n = r)%nat.
  Proof using n a.
    intros Hr Hc. unfold offset. destruct (Nat.leb_spec c r).
    - split; [lia|]. replace (c + (r - c))%nat with r by lia. apply Nat.mod_small. exact Hr.
    - split; [lia|]. replace (c + (r + n - c))%nat with (r + 1 * n)%nat by lia. rewrite Nat.mod_add by lia. apply Nat.mod_small. exact Hr.
  Qed.

  (** All diagonals together. *)
  Lemma diagonals_rebuild r c : (r < n)%nat -> (c < n)%nat -> from_bands n (get_operator_diagonals n a, seq 0 n) r c = a r c.
  Proof using n a.
    intros Hr Hc. unfold from_bands. cbn [fst snd]. rewrite seq_length. destruct (offset_spec r c Hr Hc) as [L E].
    rewrite (csum_single _ n (offset r c) L).
    - rewrite seq_nth by exact L. rewrite Nat.add_0_l, E, Nat.eqb_refl. rewrite (proj2 (diagonal_row _ L)) by exact Hc. rewrite E. reflexivity.
    - intros p Hp Hne. rewrite seq_nth by exact Hp. rewrite Nat.add_0_l. destruct (Nat.eqb_spec ((c + p) mod n) r) as [E'|E']; [|reflexivity].
      exfalso. apply Hne. apply (offset_unique c); try assumption. congruence.
  Qed.

  Lemma clean_spec thr z : (0 <= thr)%R ->
    (Rabs (fst (clean_value thr z) - fst z) <= thr)%R /\ (Rabs (snd (clean_value thr z) - snd z) <= thr)%R.
  Proof using n a.
    intros H. unfold clean_value. destruct (Rlt_dec (Rabs (snd z)) thr) as [H1|H1].
    - cbn [fst snd RtoC]. destruct (Rlt_dec (Rabs (fst z)) thr) as [H2|H2]; cbn.
      + replace (0 * 0 - 1 * 0 - fst z)%R with (- fst z)%R by ring. replace (0 * 0 + 1 * 0 - snd z)%R with (- snd z)%R by ring.
        rewrite !Rabs_Ropp. lra.
      + replace (fst z - fst z)%R with 0%R by ring. replace (0 - snd z)%R with (- snd z)%R by ring. rewrite Rabs_Ropp, Rabs_R0. lra.
    - destruct (Rlt_dec (Rabs (fst z)) thr) as [H2|H2]; cbn.
      + replace (0 * snd z - 1 * 0 - fst z)%R with (- fst z)%R by ring. replace (0 * 0 + 1 * snd z - snd z)%R with 0%R by ring.
        rewrite Rabs_Ropp, Rabs_R0. lra.
      + replace (fst z - fst z)%R with 0%R by ring. replace (snd z - snd z)%R with 0%R by ring. rewrite Rabs_R0. lra.
  Qed.
  Lemma list_norm_member (l : list C) i : (i < length l)%nat -> (Cmod (nth i l (RtoC 0)) <= list_norm l)%R.
  Proof using n a.
    intros H. unfold list_norm. rewrite <- (sqrt_square (Cmod (nth i l 0))) by apply Cmod_ge_0. apply sqrt_le_1_alt.
    rewrite <- Cnorm2_Cmod. apply (rsum_member (fun i => Cnorm2 (nth i l (RtoC 0))) (length l) i); [|exact H].
    intros; apply Cnorm2_nonneg.
  Qed.
  Lemma filter_seq_nth p q f m : (p < length (filter f (seq 0 m)))%nat -> (q < length (filter f (seq 0 m)))%nat ->
    nth p (filter f (seq 0 m)) 0%nat = nth q (filter f (seq 0 m)) 0%nat -> p = q.
  Proof using n a.
    intros Hp Hq E. assert (N : NoDup (filter f (seq 0 m))) by (apply NoDup_filter; apply seq_NoDup).
    rewrite NoDup_nth in N. apply (N p q Hp Hq E).
  Qed.
  Lemma banded_value thr r c : (r < n)%nat -> (c < n)%nat ->
    from_bands n (get_banded_operator n a thr) r c =
    if Rlt_dec thr (list_norm (nth (offset r c) (get_operator_diagonals n a) [])) then clean_value thr (a r c) else 0.
  Proof using n a.
    intros Hr Hc. destruct (offset_spec r c Hr Hc) as [L E]. unfold from_bands, get_banded_operator. cbn [fst snd].
    set (D := get_operator_diagonals n a). set (f := fun i => if Rlt_dec thr (list_norm (nth i D [])) then true else false).
    set (kept := filter f (seq 0 n)).
    assert (Hval : forall p, (p < length kept)%nat -> (nth p kept 0 < n)%nat /\ f (nth p kept 0%nat) = true).
    { intros p Hp. pose proof (nth_In kept 0%nat Hp) as I. unfold kept in I at 2. apply filter_In in I. destruct I as [I1 I2].
      apply in_seq in I1. split; [lia|exact I2]. }
    assert (Hnth : forall p, (p < length kept)%nat -> nth p (map (fun i => map (clean_value thr) (nth i D [])) kept) [] = map (clean_value thr) (nth (nth p kept 0%nat) D [])).
    { intros p Hp. rewrite (nth_indep _ [] ((fun i => map (clean_value thr) (nth i D [])) 0%nat)) by (rewrite map_length; exact Hp).
      rewrite (map_nth (fun i => map (clean_value thr) (nth i D []))). reflexivity. }
    destruct (Rlt_dec thr (list_norm (nth (offset r c) D []))) as [Hk|Hk].
    - assert (I : In (offset r c) kept).
      { apply filter_In. split; [apply in_seq; lia|]. unfold f. destruct (Rlt_dec thr (list_norm (nth (offset r c) D []))); [reflexivity|contradiction]. }
      apply (In_nth _ _ 0%nat) in I. destruct I as [p [Hp Ep]].
      rewrite (csum_single _ _ p Hp).
      + rewrite Ep, E, Nat.eqb_refl, Hnth, Ep by exact Hp.
        rewrite (nth_indep _ (RtoC 0) (clean_value thr (RtoC 0))). 2:{ rewrite map_length. unfold D. rewrite (proj1 (diagonal_row _ L)). exact Hc. }
        rewrite map_nth. unfold D. rewrite (proj2 (diagonal_row _ L)), E by exact Hc. reflexivity.
      + intros q Hq Hne. destruct (Nat.eqb_spec ((c + nth q kept 0%nat) mod n) r) as [E'|E']; [|reflexivity].
        exfalso. apply Hne. apply (filter_seq_nth q p f n Hq Hp). fold kept. rewrite Ep.
        apply (offset_unique c); try assumption; [apply Hval; exact Hq|congruence].
    - apply csum_zero_ext. intros q Hq. destruct (Nat.eqb_spec ((c + nth q kept 0%nat) mod n) r) as [E'|E']; [|reflexivity].
      exfalso. apply Hk. destruct (Hval q Hq) as [Hqn Hqf]. replace (offset r c) with (nth q kept 0%nat).
      + unfold f in Hqf. destruct (Rlt_dec thr (list_norm (nth (nth q kept 0%nat) D []))); [assumption|discriminate].
      + apply (offset_unique c); try assumption. congruence.
  Qed.
  Lemma banded_error thr r c : (0 <= thr)%R -> (r < n)%nat -> (c < n)%nat ->
    (Rabs (fst (from_bands n (get_banded_operator n a thr) r c) - fst (a r c)) <= thr)%R /\
    (Rabs (snd (from_bands n (get_banded_operator n a thr) r c) - snd (a r c)) <= thr)%R.
  Proof using n a.
    intros Ht Hr Hc. rewrite banded_value by assumption. destruct (offset_spec r c Hr Hc) as [L E].
    destruct (Rlt_dec thr _) as [Hk|Hk]; [apply clean_spec; exact Ht|].
    assert (B : (Cmod (a r c) <= thr)%R).
    { apply Rnot_lt_le in Hk. eapply Rle_trans; [|exact Hk]. destruct (diagonal_row _ L) as [D1 D2].
      rewrite <- E at 1. rewrite <- D2 by exact Hc. apply list_norm_member. rewrite D1. exact Hc. }
    pose proof (Rmax_Cmod (a r c)) as M. pose proof (Rmax_l (Rabs (fst (a r c))) (Rabs (snd (a r c)))). pose proof (Rmax_r (Rabs (fst (a r c))) (Rabs (snd (a r c)))).
    cbn [fst snd RtoC]. rewrite !Rminus_0_l, !Rabs_Ropp. lra.
  Qed.
  Lemma banded_offsets thr : (forall p q, (p < q)%nat -> (q < length (snd (get_banded_operator n a thr)))%nat ->
       (nth p (snd (get_banded_operator n a thr)) 0 < nth q (snd (get_banded_operator n a thr)) 0)%nat) /\
    Forall (fun i => (i < n)%nat) (snd (get_banded_operator n a thr)) /\
    length (fst (get_banded_operator n a thr)) = length (snd (get_banded_operator n a thr)) /\
    Forall (fun l => length l = n) (fst (get_banded_operator n a thr)).
  Proof using n a.
    unfold get_banded_operator. cbn [fst snd]. set (f := fun i => if Rlt_dec thr _ then true else false).
    split; [|split; [|split]].
    - assert (K : forall m s p q, (p < q)%nat -> (q < length (filter f (seq s m)))%nat ->
        (nth p (filter f (seq s m)) 0 < nth q (filter f (seq s m)) 0)%nat).
      { induction m as [|m IH]; intros s p q Hpq Hq; [cbn in Hq; lia|]. cbn [seq filter] in *.
        destruct (f s).
        - destruct q as [|q]; [lia|]. cbn in Hq. destruct p as [|p]; cbn [nth]; [|apply IH; lia].
          assert (I : In (nth q (filter f (seq (S s) m)) 0%nat) (filter f (seq (S s) m))) by (apply nth_In; lia).
          apply filter_In in I. destruct I as [I _]. apply in_seq in I. lia.
        - apply IH; assumption. }
      intros p q. apply K.
    - apply Forall_forall. intros i Hi. apply filter_In in Hi. destruct Hi as [Hi _]. apply in_seq in Hi. lia.
    - apply map_length.
    - apply Forall_forall. intros l Hl. apply in_map_iff in Hl. destruct Hl as [i [<- Hi]]. rewrite map_length.
      apply filter_In in Hi. destruct Hi as [Hi _]. apply in_seq in Hi. apply diagonal_row. lia.
  Qed.
End Banded.

(** ** Collapse operators *)
Lemma jump_rate_app l l' r c : jump_rate (l ++ l') r c = (jump_rate l r c + jump_rate l' r c)%R.
Proof. unfold jump_rate. induction l as [|L l IH]; cbn [app fold_right]; [ring|]. rewrite IH. ring. Qed.
Lemma jump_rate_flat_map {A} (f : A -> list (nat -> nat -> C)) l r c (d : A) :
  jump_rate (flat_map f l) r c = rsum (fun t => jump_rate (f (nth t l d)) r c) (length l).
Proof.
  induction l as [|x l IH] using rev_ind; [reflexivity|].
  rewrite flat_map_app, jump_rate_app, IH, app_length. cbn [length flat_map]. rewrite Nat.add_1_r. cbn [rsum].
  rewrite app_nil_r. rewrite app_nth2 by lia. rewrite Nat.sub_diag. cbn [nth]. f_equal.
  apply rsum_ext. intros t Ht. rewrite app_nth1 by exact Ht. reflexivity.
Qed.
Lemma rsum_single f n i : (i < n)%nat -> (forall j, (j < n)%nat -> j <> i -> f j = 0%R) -> rsum f n = f i.
Proof.
  intros Hi H. rewrite (rsum_split_at f n i Hi). rewrite (rsum_ext _ (fun _ => 0%R)), rsum_const0; [ring|].
  intros j Hj. destruct (Nat.eqb_spec i j); [reflexivity|]. apply H; auto.
Qed.
Lemma collapse_from_a n a i j : (i < n)%nat -> (j < n)%nat ->
  jump_rate (get_collapse_operators_from_a_matrix n a) i j =
  if Nat.eqb i j then 0%R else if Req_EM_T (Cnorm2 (a i j)) 0 then 0%R else (fst (a i j) * fst (a i j))%R.
Proof.
  intros Hi Hj. unfold get_collapse_operators_from_a_matrix.
  rewrite (jump_rate_flat_map _ _ _ _ 0%nat), seq_length.
  assert (V : forall i' j', (i' < n)%nat -> (j' < n)%nat -> jump_rate (if (nth i' (seq 0 n) 0 =? nth j' (seq 0 n) 0)%nat then []
     else if Req_EM_T (Cnorm2 (a (nth i' (seq 0 n) 0%nat) (nth j' (seq 0 n) 0%nat))) 0 then []
     else [fun r c => if (r =? nth i' (seq 0 n) 0)%nat && (c =? nth j' (seq 0 n) 0)%nat then RtoC (fst (a (nth i' (seq 0 n) 0%nat) (nth j' (seq 0 n) 0%nat))) else 0]) i j =
     if (i =? i')%nat && (j =? j')%nat then (if Nat.eqb i j then 0%R else if Req_EM_T (Cnorm2 (a i j)) 0 then 0%R else (fst (a i j) * fst (a i j))%R) else 0%R).
  { intros i' j' Hi' Hj'. rewrite !seq_nth by assumption. rewrite !Nat.add_0_l.
    destruct (Nat.eqb_spec i i') as [<-|Ni]; cbn [andb].
    - destruct (Nat.eqb_spec j j') as [<-|Nj].
      + destruct (Nat.eqb_spec i j); [reflexivity|]. destruct (Req_EM_T (Cnorm2 (a i j)) 0); [reflexivity|].
        cbn. rewrite !Nat.eqb_refl. cbn. unfold Cnorm2. cbn. ring.
      + destruct (Nat.eqb_spec i j'); [reflexivity|]. destruct (Req_EM_T (Cnorm2 (a i j')) 0); [reflexivity|].
        cbn. rewrite (proj2 (Nat.eqb_neq j j') Nj), andb_false_r. unfold Cnorm2. cbn. ring.
    - destruct (Nat.eqb_spec i' j'); [reflexivity|]. destruct (Req_EM_T (Cnorm2 (a i' j')) 0); [reflexivity|].
      cbn. rewrite (proj2 (Nat.eqb_neq i i') Ni). cbn. unfold Cnorm2. cbn. ring. }
  rewrite (rsum_single _ n i Hi).
  - rewrite (jump_rate_flat_map _ _ _ _ 0%nat), seq_length. rewrite (rsum_single _ n j Hj).
    + rewrite V by assumption. rewrite !Nat.eqb_refl. reflexivity.
    + intros j' Hj' Hne. rewrite V by assumption. rewrite (proj2 (Nat.eqb_neq j j')) by auto. rewrite andb_false_r. reflexivity.
  - intros i' Hi' Hne. rewrite (jump_rate_flat_map _ _ _ _ 0%nat), seq_length. transitivity (rsum (fun _ => 0%R) n); [|apply rsum_const0].
    apply rsum_ext. intros j' Hj'. rewrite V by assumption. rewrite (proj2 (Nat.eqb_neq i i')) by auto. reflexivity.
Qed.

Lemma jump_rate_concat l r c d : jump_rate (concat l) r c = rsum (fun t => jump_rate (nth t l d) r c) (length l).
Proof. rewrite <- (map_id l) at 1. rewrite <- flat_map_concat_map. apply (jump_rate_flat_map (fun x => x) l r c d). Qed.
