(** Finite sums of complex numbers over [0, n). *)
From Coq Require Import Reals Psatz.
From Coquelicot Require Export Complex.
From Verif Require Import ZLib.

Local Open Scope R_scope.
Local Open Scope C_scope.

Implicit Types f g : nat -> C.
Implicit Types a b c z : C.

Fixpoint csum (f : nat -> C) (n : nat) : C :=
  match n with
  | O => 0
  | S m => csum f m + f m
  end.

(** Kronecker delta. *)
Definition cdelta (i j : nat) : C := if Nat.eqb i j then 1 else 0.

Lemma csum_S f n : csum f (S n) = csum f n + f n.
Proof. reflexivity. Qed.

Lemma csum_ext f g n : (forall i, (i < n)%nat -> f i = g i) -> csum f n = csum g n.
Proof.
  induction n as [|n IH]; intros H; simpl; [reflexivity|].
  rewrite IH, (H n) by auto. reflexivity.
Qed.

Lemma csum_zero n : csum (fun _ => 0) n = 0.
Proof. induction n as [|n IH]; simpl; [reflexivity|]. rewrite IH. ring. Qed.

Lemma csum_zero_ext f n : (forall i, (i < n)%nat -> f i = 0) -> csum f n = 0.
Proof. intros H. rewrite (csum_ext f (fun _ => 0)) by exact H. apply csum_zero. Qed.

Lemma csum_plus f g n : csum (fun i => f i + g i) n = csum f n + csum g n.
Proof. induction n as [|n IH]; simpl; [ring|]. rewrite IH. ring. Qed.

Lemma csum_minus f g n : csum (fun i => f i - g i) n = csum f n - csum g n.
Proof. induction n as [|n IH]; simpl; [ring|]. rewrite IH. ring. Qed.

Lemma csum_opp f n : csum (fun i => - f i) n = - csum f n.
Proof. induction n as [|n IH]; simpl; [ring|]. rewrite IH. ring. Qed.

Lemma csum_scal_l c f n : csum (fun i => c * f i) n = c * csum f n.
Proof. induction n as [|n IH]; simpl; [ring|]. rewrite IH. ring. Qed.

Lemma csum_scal_r c f n : csum (fun i => f i * c) n = csum f n * c.
Proof. induction n as [|n IH]; simpl; [ring|]. rewrite IH. ring. Qed.

Lemma csum_swap (f : nat -> nat -> C) n m :
  csum (fun i => csum (fun j => f i j) m) n = csum (fun j => csum (fun i => f i j) n) m.
Proof.
  induction n as [|n IH]; simpl.
  - symmetry; apply csum_zero.
  - rewrite IH, <- csum_plus. reflexivity.
Qed.

Lemma csum_split f n m :
  csum f (n + m) = csum f n + csum (fun i => f (n + i)%nat) m.
Proof.
  induction m as [|m IH]; simpl.
  - rewrite Nat.add_0_r. ring.
  - rewrite Nat.add_succ_r. simpl. rewrite IH. ring.
Qed.

Lemma csum_mul f n m :
  csum f (n * m) = csum (fun i => csum (fun j => f (i * m + j)%nat) m) n.
Proof.
  induction n as [|n IH]; simpl; [reflexivity|].
  rewrite Nat.add_comm, csum_split, IH. reflexivity.
Qed.

Lemma cdelta_refl i : cdelta i i = 1.
Proof. unfold cdelta. rewrite Nat.eqb_refl. reflexivity. Qed.

Lemma cdelta_neq i j : i <> j -> cdelta i j = 0.
Proof. intros H. unfold cdelta. apply Nat.eqb_neq in H. rewrite H. reflexivity. Qed.

Lemma cdelta_sym i j : cdelta i j = cdelta j i.
Proof. unfold cdelta. rewrite Nat.eqb_sym. reflexivity. Qed.

Lemma csum_single f n k :
  (k < n)%nat -> (forall i, (i < n)%nat -> i <> k -> f i = 0) -> csum f n = f k.
Proof.
  revert k; induction n as [|n IH]; intros k Hk H; [lia|]. simpl.
  destruct (Nat.eq_dec k n) as [->|Hne].
  - rewrite csum_zero_ext; [ring|]. intros i Hi. apply H; lia.
  - rewrite (IH k), (H n); [ring| lia | lia | lia |].
    intros i Hi Hik. apply H; lia.
Qed.

Lemma csum_delta_l f n k : (k < n)%nat -> csum (fun i => cdelta k i * f i) n = f k.
Proof.
  intros Hk. rewrite (csum_single _ n k Hk).
  - rewrite cdelta_refl. ring.
  - intros i Hi Hik. rewrite cdelta_neq by congruence. ring.
Qed.

Lemma csum_delta_l' f n k : (k < n)%nat -> csum (fun i => cdelta i k * f i) n = f k.
Proof.
  intros Hk. rewrite <- (csum_delta_l f n k Hk). apply csum_ext; intros i _.
  rewrite cdelta_sym; reflexivity.
Qed.

Lemma csum_delta_r f n k : (k < n)%nat -> csum (fun i => f i * cdelta k i) n = f k.
Proof.
  intros Hk. rewrite <- (csum_delta_l f n k Hk). apply csum_ext; intros i _. ring.
Qed.

Lemma csum_delta_r' f n k : (k < n)%nat -> csum (fun i => f i * cdelta i k) n = f k.
Proof.
  intros Hk. rewrite <- (csum_delta_l' f n k Hk). apply csum_ext; intros i _. ring.
Qed.

(** Re-indexing along a bijection given with its inverse. *)
Lemma csum_bij (f : nat -> C) n m (s t : nat -> nat) :
  (forall i, (i < n)%nat -> (s i < m)%nat /\ t (s i) = i) ->
  (forall j, (j < m)%nat -> (t j < n)%nat /\ s (t j) = j) ->
  csum (fun i => f (s i)) n = csum f m.
Proof.
  intros Hs Ht.
  transitivity (csum (fun i => csum (fun j => cdelta (s i) j * f j) m) n).
  { apply csum_ext; intros i Hi. symmetry; apply csum_delta_l, Hs, Hi. }
  rewrite csum_swap. apply csum_ext; intros j Hj.
  destruct (Ht j Hj) as [Ht1 Ht2].
  rewrite (csum_single _ n (t j) Ht1).
  - rewrite Ht2, cdelta_refl. ring.
  - intros i Hi Hne. rewrite cdelta_neq; [ring|].
    intros Heq. apply Hne. rewrite <- Heq. symmetry; apply Hs, Hi.
Qed.

(** Sum over a set of indices that maps injectively: terms outside vanish. *)
Lemma csum_inj (f : nat -> C) (g : nat -> C) n m (s : nat -> nat) :
  (forall i, (i < n)%nat -> (s i < m)%nat) ->
  (forall i j, (i < n)%nat -> (j < n)%nat -> s i = s j -> i = j) ->
  (forall i, (i < n)%nat -> g (s i) = f i) ->
  (forall j, (j < m)%nat -> (forall i, (i < n)%nat -> s i <> j) -> g j = 0) ->
  csum f n = csum g m.
Proof.
  intros Hs Hinj Hfg Hz.
  transitivity (csum (fun i => csum (fun j => cdelta (s i) j * g j) m) n).
  { apply csum_ext; intros i Hi. rewrite csum_delta_l by (apply Hs, Hi).
    symmetry; apply Hfg, Hi. }
  rewrite csum_swap. apply csum_ext; intros j Hj.
  assert (Hdec : (exists i, (i < n)%nat /\ s i = j) \/
                 (forall i, (i < n)%nat -> s i <> j)).
  { clear -j. induction n as [|n IH].
    - right; intros; lia.
    - destruct IH as [[i [Hi1 Hi2]]|IH].
      + left; exists i; split; [lia|assumption].
      + destruct (Nat.eq_dec (s n) j) as [E|E].
        * left; exists n; split; [lia|assumption].
        * right. intros i Hi. destruct (Nat.eq_dec i n) as [->|Hne]; [assumption|].
          apply IH; lia. }
  destruct Hdec as [[i [Hi1 Hi2]]|Hnone].
  - rewrite (csum_single _ n i Hi1).
    + rewrite Hi2, cdelta_refl. ring.
    + intros k Hk Hne. rewrite cdelta_neq; [ring|].
      intros E. apply Hne. apply Hinj; auto. congruence.
  - rewrite (Hz j Hj Hnone). apply csum_zero_ext; intros i Hi. ring.
Qed.

(** Conjugation. *)
Lemma Cconj_plus a b : Cconj (a + b) = Cconj a + Cconj b.
Proof. destruct a, b; unfold Cconj, Cplus; simpl; f_equal; ring. Qed.

Lemma Cconj_mult a b : Cconj (a * b) = Cconj a * Cconj b.
Proof. destruct a, b; unfold Cconj, Cmult; simpl; f_equal; ring. Qed.

Lemma Cconj_opp a : Cconj (- a) = - Cconj a.
Proof. destruct a; unfold Cconj, Copp; simpl; f_equal; ring. Qed.

Lemma Cconj_minus a b : Cconj (a - b) = Cconj a - Cconj b.
Proof. unfold Cminus. rewrite Cconj_plus, Cconj_opp. reflexivity. Qed.

Lemma Cconj_RtoC (r : R) : Cconj (RtoC r) = RtoC r.
Proof. unfold Cconj, RtoC; simpl; f_equal; ring. Qed.

Lemma Cconj_0 : Cconj 0 = 0.
Proof. apply Cconj_RtoC. Qed.

Lemma Cconj_1 : Cconj 1 = 1.
Proof. apply Cconj_RtoC. Qed.

Lemma Cconj_conj a : Cconj (Cconj a) = a.
Proof. destruct a; unfold Cconj; simpl; f_equal; ring. Qed.

Lemma Cconj_csum f n : Cconj (csum f n) = csum (fun i => Cconj (f i)) n.
Proof.
  induction n as [|n IH]; simpl; [apply Cconj_0|]. rewrite Cconj_plus, IH. reflexivity.
Qed.

Lemma Cconj_cdelta i j : Cconj (cdelta i j) = cdelta i j.
Proof. unfold cdelta. destruct (Nat.eqb i j); [apply Cconj_1|apply Cconj_0]. Qed.

Lemma Cconj_inj a b : Cconj a = Cconj b -> a = b.
Proof. intros H. rewrite <- (Cconj_conj a), H. apply Cconj_conj. Qed.

Lemma Cconj_inv a : a <> 0 -> Cconj (/ a) = / Cconj a.
Proof.
  intros H. assert (Hc : Cconj a <> 0).
  { intros E. apply H. apply Cconj_inj. rewrite E. symmetry; apply Cconj_0. }
  assert (Cconj (/ a) * Cconj a = 1).
  { rewrite <- Cconj_mult, Cinv_l by assumption. apply Cconj_1. }
  rewrite <- (Cmult_1_l (/ Cconj a)), <- H0. field. assumption.
Qed.

(** |z|^2 as a real number. *)
Definition Cnorm2 (z : C) : R := (fst z * fst z + snd z * snd z)%R.

Lemma Cconj_mult_self z : Cconj z * z = RtoC (Cnorm2 z).
Proof.
  destruct z; unfold Cnorm2, Cconj, Cmult, RtoC; simpl; f_equal; ring.
Qed.

Lemma Cnorm2_nonneg z : (0 <= Cnorm2 z)%R.
Proof. unfold Cnorm2; nra. Qed.

Lemma Cnorm2_eq_0 z : Cnorm2 z = 0%R -> z = 0.
Proof.
  destruct z as [a b]; unfold Cnorm2; simpl; intros H.
  assert (a = 0)%R by nra. assert (b = 0)%R by nra. subst; reflexivity.
Qed.

Lemma Cnorm2_mult a b : Cnorm2 (a * b) = (Cnorm2 a * Cnorm2 b)%R.
Proof. destruct a, b; unfold Cnorm2, Cmult; simpl; ring. Qed.

Lemma Cnorm2_conj a : Cnorm2 (Cconj a) = Cnorm2 a.
Proof. destruct a; unfold Cnorm2, Cconj; simpl; ring. Qed.

Lemma Cnorm2_Cmod z : Cnorm2 z = (Cmod z * Cmod z)%R.
Proof.
  unfold Cnorm2, Cmod. rewrite sqrt_sqrt; [simpl; ring|]. simpl. nra.
Qed.

Lemma RtoC_INR_neq0 n : (0 < n)%nat -> RtoC (INR n) <> 0.
Proof. intros H E. apply RtoC_inj in E. apply (not_0_INR n); [lia|exact E]. Qed.

Lemma csum_const c n : csum (fun _ => c) n = RtoC (INR n) * c.
Proof.
  induction n as [|n IH]; [simpl; ring|].
  rewrite csum_S, IH, S_INR, RtoC_plus. ring.
Qed.



(** Real sums, defined through the same recursion. *)
Fixpoint rsum (f : nat -> R) (n : nat) : R :=
  match n with
  | O => 0%R
  | S m => (rsum f m + f m)%R
  end.

Lemma rsum_S (f : nat -> R) n : rsum f (S n) = (rsum f n + f n)%R.
Proof. reflexivity. Qed.

Lemma csum_RtoC (f : nat -> R) n : csum (fun i => RtoC (f i)) n = RtoC (rsum f n).
Proof. induction n as [|n IH]; simpl; [reflexivity|]. rewrite IH, RtoC_plus. reflexivity. Qed.

Lemma rsum_ext (f g : nat -> R) n : (forall i, (i < n)%nat -> f i = g i) -> rsum f n = rsum g n.
Proof.
  induction n as [|n IH]; intros H; simpl; [reflexivity|].
  rewrite IH, (H n) by auto. reflexivity.
Qed.

Lemma rsum_nonneg (f : nat -> R) n : (forall i, (i < n)%nat -> (0 <= f i)%R) -> (0 <= rsum f n)%R.
Proof.
  induction n as [|n IH]; intros H; simpl; [lra|].
  assert (0 <= rsum f n)%R by (apply IH; intros; apply H; lia).
  assert (0 <= f n)%R by (apply H; lia). lra.
Qed.

Lemma rsum_le (f g : nat -> R) n : (forall i, (i < n)%nat -> (f i <= g i)%R) -> (rsum f n <= rsum g n)%R.
Proof.
  induction n as [|n IH]; intros H; simpl; [lra|].
  assert (rsum f n <= rsum g n)%R by (apply IH; intros; apply H; lia).
  assert (f n <= g n)%R by (apply H; lia). lra.
Qed.

Lemma rsum_zero_nonneg (f : nat -> R) n :
  (forall i, (i < n)%nat -> (0 <= f i)%R) -> rsum f n = 0%R ->
  forall i, (i < n)%nat -> f i = 0%R.
Proof.
  induction n as [|n IH]; intros H E i Hi; [lia|]. simpl in E.
  assert (0 <= rsum f n)%R by (apply rsum_nonneg; intros; apply H; lia).
  assert (0 <= f n)%R by (apply H; lia).
  destruct (Nat.eq_dec i n) as [->|Hne]; [lra|].
  apply IH; [intros; apply H; lia| lra | lia].
Qed.

Lemma csum_norm2 f n :
  csum (fun i => Cconj (f i) * f i) n = RtoC (rsum (fun i => Cnorm2 (f i)) n).
Proof.
  rewrite <- csum_RtoC. apply csum_ext; intros i _. apply Cconj_mult_self.
Qed.
