(** Vandermonde systems, and Taylor coefficients of cosine series. *)
From Coq Require Import Reals Lra Lia List Arith ZArith Psatz.
From Coquelicot Require Import Coquelicot.
From Verif Require Import ZLib Csum DFT NumPy Spec SpecBasis SpecOperator SpecDynamics Spectral Oscillator Taylor SpecTaylor.
Import ListNotations.
Local Open Scope R_scope.
Local Open Scope C_scope.

(** ** Systems with distinct nodes *)

Lemma nodes_products n (t x : nat -> C) : (forall m, (m < n)%nat -> csum (fun i => Cpow (t i) m * x i) n = 0) ->
  forall l m, (length l + m < n)%nat -> csum (fun i => Cpow (t i) m * fold_right (fun r z => (t i - r) * z) 1 l * x i) n = 0.
Proof.
  intros H. induction l as [|r l IH]; intros m Hm.
  - cbn. rewrite <- (H m) by (cbn in Hm; lia). apply csum_ext. intros. ring.
  - cbn [length] in Hm. cbn [fold_right].
    rewrite (csum_ext _ (fun i => Cpow (t i) (S m) * fold_right (fun r z => (t i - r) * z) 1 l * x i - r * (Cpow (t i) m * fold_right (fun r z => (t i - r) * z) 1 l * x i))).
    + rewrite csum_minus, csum_scal_l, !IH by lia. ring.
    + intros i Hi. cbn [Cpow]. ring.
Qed.

Lemma product_zero (a : C) l : In a l -> fold_right (fun r z => (a - r) * z) 1 l = 0.
Proof. induction l as [|r l IH]; [intros []|]. intros [->|H]; cbn; [ring|]. rewrite IH by assumption. ring. Qed.

Lemma product_nonzero (a : C) l : ~ In a l -> fold_right (fun r z => (a - r) * z) 1 l <> 0.
Proof.
  induction l as [|r l IH]; intros H; cbn; [intros E; injection E; lra|]. apply Cmult_neq_0.
  - intros E. apply H. left. transitivity (r + (a - r)); [rewrite E|]; ring.
  - apply IH. intros E. apply H. now right.
Qed.

Definition others (n j : nat) : list nat := filter (fun r => negb (r =? j)%nat) (seq 0 n).

Lemma others_in n j r : In r (others n j) <-> (r < n)%nat /\ r <> j.
Proof. unfold others. rewrite filter_In, in_seq. destruct (Nat.eqb_spec r j); cbn; split; intros; destruct H; split; try lia; try discriminate; congruence. Qed.

Lemma filter_all {A} (f : A -> bool) l : (forall x, In x l -> f x = true) -> filter f l = l.
Proof. induction l as [|a l IH]; intros H; [reflexivity|]. cbn. rewrite H by now left. f_equal. apply IH. intros. apply H. now right. Qed.

Lemma others_length n j : (j < n)%nat -> length (others n j) = (n - 1)%nat.
Proof.
  intros Hj. unfold others. replace n with (j + (1 + (n - j - 1)))%nat at 1 by lia. rewrite !seq_app, !filter_app, !app_length.
  cbn [seq filter]. rewrite Nat.add_0_l, Nat.eqb_refl. cbn [negb app length].
  rewrite !filter_all, !seq_length; [lia| |]; intros x Hx; apply in_seq in Hx; destruct (Nat.eqb_spec x j); try reflexivity; lia.
Qed.

(** With distinct nodes the only solution of the homogeneous system is zero. *)
Lemma nodes_injective n (t x : nat -> C) : (forall i j, (i < n)%nat -> (j < n)%nat -> t i = t j -> i = j) ->
  (forall m, (m < n)%nat -> csum (fun i => Cpow (t i) m * x i) n = 0) -> forall j, (j < n)%nat -> x j = 0.
Proof.
  intros Hd H j Hj. pose proof (nodes_products n t x H (map t (others n j)) 0) as E. rewrite map_length, others_length in E by assumption. specialize (E ltac:(lia)).
  rewrite (csum_single _ n j Hj) in E; [|intros i Hi Hne; rewrite product_zero by (apply in_map; apply others_in; split; assumption); ring].
  cbn [Cpow] in E. assert (P : fold_right (fun r z => (t j - r) * z) 1 (map t (others n j)) <> 0).
  { apply product_nonzero. intros Hin. apply in_map_iff in Hin. destruct Hin as [r [Er Hr]]. apply others_in in Hr. destruct Hr as [Hr Hne]. apply Hne. now apply Hd. }
  set (P0 := fold_right _ _ _) in *. transitivity (/ P0 * (1 * P0 * x j)); [field; exact P|]. rewrite E. ring.
Qed.

(** ** Square systems *)

Definition solution n (A : nat -> nat -> C) (b : nat -> C)
  (Hi : forall x, (forall i, (i < n)%nat -> csum (fun j => A i j * x j) n = 0) -> forall j, (j < n)%nat -> x j = 0) :
  {x : nat -> C | forall i, (i < n)%nat -> csum (fun j => A i j * x j) n = b i}.
Proof.
  destruct (kernel_exists n (S n) (fun i j => if (j <? n)%nat then A i j else b i) ltac:(lia)) as [x [Hx H]].
  assert (H' : forall i, (i < n)%nat -> csum (fun j => A i j * x j) n + b i * x n = 0).
  { intros i Hin. rewrite <- (H i Hin), csum_S. rewrite Nat.ltb_irrefl. f_equal. apply csum_ext. intros j Hj. rewrite (proj2 (Nat.ltb_lt j n) Hj). reflexivity. }
  assert (Hn : x n <> 0).
  { intros E. destruct Hx as [j [Hj Hne]]. apply Hne. destruct (Nat.eq_dec j n) as [->|]; [exact E|]. apply Hi; [|lia].
    intros i Hin. rewrite <- (H' i Hin), E. ring. }
  exists (fun j => - / x n * x j). intros i Hin. rewrite (csum_ext _ (fun j => - / x n * (A i j * x j))) by (intros; ring). rewrite csum_scal_l.
  transitivity (- / x n * (csum (fun j => A i j * x j) n + b i * x n) + b i); [field; exact Hn|]. rewrite H' by assumption. ring.
Qed.

Lemma injective_inverse n A : (forall x, (forall i, (i < n)%nat -> csum (fun j => A i j * x j) n = 0) -> forall j, (j < n)%nat -> x j = 0) ->
  exists W, inverse_matrices n A W.
Proof.
  intros Hi. set (W := fun j k => proj1_sig (solution n A (fun i => cdelta i k) Hi) j).
  assert (R : forall i k, (i < n)%nat -> csum (fun j => A i j * W j k) n = cdelta i k) by (intros i k Hin; unfold W; destruct (solution _ _ _ _) as [x Hx]; cbn; now apply Hx).
  exists W. split; intros i k Hin Hk; unfold matmul; [now apply R|].
  assert (Z : forall j, (j < n)%nat -> csum (fun l => W j l * A l k) n - cdelta j k = 0); [|transitivity (csum (fun l => W i l * A l k) n - cdelta i k + cdelta i k); [ring|]; rewrite Z by assumption; ring].
  apply Hi. intros i' Hi'. rewrite (csum_ext _ (fun j => A i' j * csum (fun l => W j l * A l k) n - A i' j * cdelta j k)) by (intros; ring).
  rewrite csum_minus. rewrite (csum_ext (fun j => A i' j * csum _ n) (fun j => csum (fun l => A i' j * W j l * A l k) n)) by (intros; rewrite <- csum_scal_l; apply csum_ext; intros; ring).
  rewrite csum_swap. rewrite (csum_ext _ (fun l => cdelta i' l * A l k)) by (intros l Hl; rewrite <- (R i' l Hi'), <- csum_scal_r; apply csum_ext; intros; ring).
  rewrite (csum_delta_l (fun l => A l k)), (csum_delta_r' (fun l => A i' l)) by assumption. ring.
Qed.
