(** Sums over all indices of an array of a given shape. *)
From Coq Require Import Reals.
From Verif Require Import ZLib Csum DFT NumPy IndexProofs BasisProofs.
Local Open Scope R_scope.
Local Open Scope C_scope.

Fixpoint isum (shape : list nat) (f : list nat -> C) : C :=
  match shape with
  | [] => f []
  | n :: shape => csum (fun i => isum shape (fun idx => f (i :: idx))) n
  end.

Lemma isum_ext shape : forall f g, (forall idx, in_shape idx shape -> f idx = g idx) -> isum shape f = isum shape g.
Proof.
  induction shape as [|n shape IH]; intros f g H; cbn [isum].
  - apply H. constructor.
  - apply csum_ext. intros i Hi. apply IH. intros idx Hx. apply H. constructor; assumption.
Qed.

Lemma isum_flat shape : forall (f : list nat -> C), csum (fun t => f (unravel shape t)) (nprod shape) = isum shape f.
Proof.
  induction shape as [|n shape IH]; intros f; cbn [isum nprod unravel].
  - rewrite csum_S. cbn [csum]. ring.
  - rewrite csum_mul. apply csum_ext. intros i Hi. rewrite <- IH. apply csum_ext. intros j Hj.
    replace ((i * nprod shape + j) / nprod shape)%nat with i
      by (rewrite Nat.div_add_l by lia; rewrite Nat.div_small by lia; lia).
    replace ((i * nprod shape + j) mod nprod shape)%nat with j
      by (rewrite Nat.add_comm, Nat.mod_add by lia; rewrite Nat.mod_small; lia).
    reflexivity.
Qed.

(** Flat data summed over all positions. *)
Lemma isum_ravel shape (v : nat -> C) : csum v (nprod shape) = isum shape (fun idx => v (ravel shape idx)).
Proof.
  rewrite <- isum_flat. apply csum_ext. intros t Ht. rewrite ravel_unravel by assumption. reflexivity.
Qed.

Lemma isum_plus shape : forall f g, isum shape (fun i => f i + g i) = isum shape f + isum shape g.
Proof.
  induction shape as [|n shape IH]; intros f g; cbn [isum]; [reflexivity|].
  rewrite <- csum_plus. apply csum_ext. intros i _. apply IH.
Qed.
Lemma isum_scal_l c shape : forall f, isum shape (fun i => c * f i) = c * isum shape f.
Proof.
  induction shape as [|n shape IH]; intros f; cbn [isum]; [reflexivity|].
  rewrite <- csum_scal_l. apply csum_ext. intros i _. apply IH.
Qed.
Lemma isum_scal_r c shape : forall f, isum shape (fun i => f i * c) = isum shape f * c.
Proof.
  induction shape as [|n shape IH]; intros f; cbn [isum]; [reflexivity|].
  rewrite <- csum_scal_r. apply csum_ext. intros i _. apply IH.
Qed.
Lemma isum_zero shape : isum shape (fun _ => 0) = 0.
Proof. induction shape as [|n shape IH]; cbn [isum]; [reflexivity|]. transitivity (csum (fun _ => 0) n); [apply csum_ext; intros; apply IH|apply csum_zero]. Qed.
Lemma isum_csum shape n : forall (f : list nat -> nat -> C),
  isum shape (fun i => csum (f i) n) = csum (fun j => isum shape (fun i => f i j)) n.
Proof.
  induction shape as [|m shape IH]; intros f; cbn [isum]; [reflexivity|].
  rewrite csum_swap. apply csum_ext. intros i _. apply (IH (fun idx => f (i :: idx))).
Qed.
Lemma isum_swap shape : forall shape' (f : list nat -> list nat -> C),
  isum shape (fun i => isum shape' (f i)) = isum shape' (fun j => isum shape (fun i => f i j)).
Proof.
  induction shape as [|m shape IH]; intros shape' f; cbn [isum]; [reflexivity|].
  rewrite isum_csum. apply csum_ext. intros i _. apply (IH shape' (fun idx => f (i :: idx))).
Qed.
Lemma isum_app s : forall s' f, isum (s ++ s') f = isum s (fun i => isum s' (fun j => f (i ++ j))).
Proof.
  induction s as [|n s IH]; intros s' f; cbn [isum app]; [reflexivity|].
  apply csum_ext. intros i _. apply (IH s' (fun idx => f (i :: idx))).
Qed.

(** Products over the axes. *)
Fixpoint iprod {A} (f : nat -> A -> C) (shape : list nat) (idx : list A) : C :=
  match shape, idx with
  | n :: shape, i :: idx => f n i * iprod f shape idx
  | _, _ => 1
  end.

(** Ravel of an index in two parts. *)
Lemma ravel_app s : forall s' i j, length i = length s ->
  ravel (s ++ s') (i ++ j) = (ravel s i * nprod s' + ravel s' j)%nat.
Proof.
  induction s as [|n s IH]; intros s' i j Hl; destruct i as [|a i]; try discriminate; [reflexivity|].
  cbn [app ravel]. rewrite IH by (cbn in Hl; lia).
  assert (nprod (s ++ s') = (nprod s * nprod s')%nat) as ->.
  { clear. induction s as [|x s IH]; cbn [app nprod]; [lia|]. rewrite IH. lia. }
  ring.
Qed.
