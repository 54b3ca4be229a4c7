(** Products of one-axis matrices acting on arrays. *)
From Coq Require Import Reals List ZArith Arith Bool Lia Lra FunctionalExtensionality.
From Verif Require Import ZLib Csum DFT NumPy Spec SpecBasis IndexSum InterpProofs InterpProofs2 BasisProofs Interp Fourier SpecFourier.
Import ListNotations.
Local Open Scope R_scope.
Local Open Scope C_scope.

Notation mat := (nat -> nat -> C).

Fixpoint lprod (Ks : list mat) (y x : list nat) : C :=
  match Ks, y, x with
  | K :: Ks, i :: y, j :: x => K i j * lprod Ks y x
  | _, _, _ => 1
  end.

(** Compose, summing over the intermediate shape. *)
Fixpoint lcomp (shape : list nat) (As Bs : list mat) : list mat :=
  match shape, As, Bs with
  | n :: shape, A :: As, B :: Bs => (fun i j => csum (fun t => A i t * B t j) n) :: lcomp shape As Bs
  | _, _, _ => []
  end.

Lemma lprod_cons K Ks i y j x : lprod (K :: Ks) (i :: y) (j :: x) = K i j * lprod Ks y x.
Proof. reflexivity. Qed.

Lemma lcomp_apply : forall sh' sh As Bs y (v : list nat -> C),
  length As = length sh' -> length Bs = length sh' -> length sh = length sh' -> length y = length sh' ->
  isum sh' (fun z => isum sh (fun x => v x * lprod Bs z x) * lprod As y z) = isum sh (fun x => v x * lprod (lcomp sh' As Bs) y x).
Proof.
  induction sh' as [|n' sh' IH]; intros sh As Bs y v LA LB LS LY.
  - destruct sh; [|discriminate]. destruct As; [|discriminate]. destruct Bs; [|discriminate]. destruct y; [|discriminate].
    cbn. ring.
  - destruct sh as [|n sh]; [discriminate|]. destruct As as [|A As]; [discriminate|]. destruct Bs as [|B Bs]; [discriminate|].
    destruct y as [|i y]; [discriminate|]. cbn [isum lcomp length] in *.
    transitivity (csum (fun t => csum (fun j => A i t * B t j * isum sh (fun x => v (j :: x) * lprod (lcomp sh' As Bs) y x)) n) n').
    + apply csum_ext. intros t Ht.
      transitivity (isum sh' (fun z => csum (fun j => A i t * B t j * (isum sh (fun x => v (j :: x) * lprod Bs z x) * lprod As y z)) n)).
      * apply isum_ext. intros z Hz. cbn [lprod]. rewrite <- csum_scal_r. apply csum_ext. intros j Hj.
        rewrite (isum_ext sh _ (fun x => B t j * (v (j :: x) * lprod Bs z x))) by (intros; ring). rewrite isum_scal_l. ring.
      * rewrite isum_csum. apply csum_ext. intros j Hj. rewrite isum_scal_l. f_equal. apply IH; lia.
    + rewrite csum_swap. apply csum_ext. intros j Hj. rewrite csum_scal_r, <- isum_scal_l. apply isum_ext. intros x Hx.
      cbn [lprod]. ring.
Qed.

Lemma in_shape_cons i y n sh : in_shape (i :: y) (n :: sh) -> (i < n)%nat /\ in_shape y sh.
Proof. intros H. inversion H; subst. now split. Qed.

Lemma lprod_ext : forall sh sh' Ks Ks' y x, length Ks = length sh -> length Ks' = length sh -> in_shape y sh' -> in_shape x sh ->
  (forall k i j, (k < length sh)%nat -> (i < nth k sh' 0)%nat -> (j < nth k sh 0)%nat -> nth k Ks cdelta i j = nth k Ks' cdelta i j) ->
  lprod Ks y x = lprod Ks' y x.
Proof.
  induction sh as [|n sh IH]; intros sh' Ks Ks' y x L L' Hy Hx H.
  - destruct Ks; [|discriminate]. destruct Ks'; [|discriminate]. reflexivity.
  - destruct Ks as [|K Ks]; [discriminate|]. destruct Ks' as [|K' Ks']; [discriminate|].
    destruct x as [|j x]; [inversion Hx|]. apply in_shape_cons in Hx. destruct Hx as [Hj Hx].
    destruct y as [|i y]; [reflexivity|]. destruct sh' as [|n' sh']; [inversion Hy|]. apply in_shape_cons in Hy. destruct Hy as [Hi Hy].
    cbn [lprod]. f_equal.
    + apply (H 0%nat); cbn; try lia; assumption.
    + apply (IH sh'); try assumption; [cbn in L; lia|cbn in L'; lia|]. intros k i0 j0 Hk. apply (H (S k)). cbn. lia.
Qed.

(** Identity except on one axis. *)
Fixpoint single (d a : nat) (M : mat) : list mat :=
  match d with
  | O => []
  | S d => match a with O => M :: repeat cdelta d | S a => cdelta :: single d a M end
  end.

Lemma single_length d : forall a M, length (single d a M) = d.
Proof. induction d as [|d IH]; intros [|a] M; cbn; [reflexivity|reflexivity|now rewrite repeat_length|now rewrite IH]. Qed.

Lemma nth_repeat_delta d k : nth k (repeat cdelta d) cdelta = cdelta.
Proof. revert k; induction d as [|d IH]; intros [|k]; cbn; auto. Qed.

Lemma single_nth d : forall a k M, (k < d)%nat -> nth k (single d a M) cdelta = if (k =? a)%nat then M else cdelta.
Proof.
  induction d as [|d IH]; intros [|a] [|k] M Hk; try lia; cbn; try reflexivity.
  - apply nth_repeat_delta.
  - apply IH. lia.
Qed.

Lemma lcomp_length : forall sh As Bs, length As = length sh -> length Bs = length sh -> length (lcomp sh As Bs) = length sh.
Proof. induction sh as [|n sh IH]; intros [|A As] [|B Bs] HA HB; cbn in *; try lia. rewrite IH; lia. Qed.

Lemma lcomp_nth : forall sh As Bs k, length As = length sh -> length Bs = length sh -> (k < length sh)%nat ->
  nth k (lcomp sh As Bs) cdelta = fun i j => csum (fun t => nth k As cdelta i t * nth k Bs cdelta t j) (nth k sh 0%nat).
Proof.
  induction sh as [|n sh IH]; intros [|A As] [|B Bs] [|k] HA HB Hk; cbn in *; try lia; try reflexivity. apply IH; lia.
Qed.

(** Identity on all axes. *)
Lemma lprod_delta : forall sh y (v : list nat -> C), in_shape y sh -> isum sh (fun x => v x * lprod (repeat cdelta (length sh)) y x) = v y.
Proof.
  induction sh as [|n sh IH]; intros y v Hy; inversion Hy; subst; cbn [isum length repeat lprod].
  - ring.
  - rewrite (csum_ext _ (fun j => cdelta x j * v (j :: l))).
    + apply csum_delta_l. assumption.
    + intros j Hj. rewrite <- (IH l (fun z => v (j :: z))) by assumption. rewrite <- isum_scal_l. apply isum_ext. intros; ring.
Qed.

Lemma single_apply : forall sh y a (M : mat) (v : list nat -> C), (a < length sh)%nat -> length y = length sh ->
  (forall k, (k < length sh)%nat -> k <> a -> (nth k y 0 < nth k sh 0)%nat) ->
  csum (fun j => v (update a j y) * M (nth a y 0%nat) j) (nth a sh 0%nat) = isum sh (fun x => v x * lprod (single (length sh) a M) y x).
Proof.
  induction sh as [|n sh IH]; intros [|i y] a M v Ha Hl H; cbn in Ha, Hl; try lia.
  destruct a as [|a].
  - cbn [nth update isum length single lprod].
    assert (Hy : in_shape y sh).
    { assert (H' : forall k, (k < length sh)%nat -> (nth k y 0 < nth k sh 0)%nat) by (intros k Hk; apply (H (S k)); cbn; lia).
      assert (Hl' : length y = length sh) by lia. clear -H' Hl'. revert y H' Hl'. induction sh as [|m sh IH]; intros [|i y] H' Hl'; cbn in *; try lia; constructor.
      - apply (H' 0%nat). lia.
      - apply IH; [|lia]. intros k Hk. apply (H' (S k)). lia. }
    apply csum_ext. intros j Hj.
    rewrite (isum_ext sh _ (fun x => M i j * (v (j :: x) * lprod (repeat cdelta (length sh)) y x))) by (intros; ring).
    rewrite isum_scal_l, lprod_delta by assumption. ring.
  - cbn [nth update isum length single lprod].
    assert (Hi : (i < n)%nat) by (apply (H 0%nat); cbn; lia).
    rewrite (csum_ext (fun t => isum sh _) (fun t => cdelta i t * isum sh (fun x => v (t :: x) * lprod (single (length sh) a M) y x)))
      by (intros t Ht; rewrite <- isum_scal_l; apply isum_ext; intros; ring).
    rewrite csum_delta_l by assumption. apply (IH y a M (fun z => v (i :: z))); [lia|lia|]. intros k Hk Hka. apply (H (S k)); cbn; lia.
Qed.

(** Matrices on a set of axes, identity elsewhere. *)
Definition on_axes (d : nat) (axes : list nat) (M : nat -> mat) : list mat :=
  map (fun k => if existsb (Nat.eqb k) axes then M k else cdelta) (seq 0 d).

Lemma on_axes_length d axes M : length (on_axes d axes M) = d.
Proof. unfold on_axes. rewrite map_length, seq_length. reflexivity. Qed.

Lemma on_axes_nth d axes M k : (k < d)%nat -> nth k (on_axes d axes M) cdelta = if existsb (Nat.eqb k) axes then M k else cdelta.
Proof.
  intros Hk. unfold on_axes. set (f := fun k => if existsb (Nat.eqb k) axes then M k else cdelta).
  rewrite (nth_indep _ cdelta (f 0%nat)) by (now rewrite map_length, seq_length). rewrite map_nth, seq_nth by assumption. reflexivity.
Qed.

Lemma existsb_in k l : existsb (Nat.eqb k) l = true <-> In k l.
Proof. rewrite existsb_exists. split; [intros [x [Hx E]]; apply Nat.eqb_eq in E; now subst|intros H; exists k; split; [assumption|apply Nat.eqb_refl]]. Qed.

Lemma existsb_notin k l : existsb (Nat.eqb k) l = false <-> ~ In k l.
Proof. rewrite <- existsb_in. destruct (existsb _ _); split; congruence. Qed.

Lemma distinct_spec l : distinct l = true <-> NoDup l.
Proof.
  induction l as [|a l IH]; cbn; [split; [constructor|reflexivity]|]. rewrite andb_true_iff, negb_true_iff, existsb_notin, IH.
  split; [intros [A B]; now constructor|intros H; inversion H; now split].
Qed.

Lemma in_shape_nth y sh : in_shape y sh <-> length y = length sh /\ forall k, (k < length sh)%nat -> (nth k y 0 < nth k sh 0)%nat.
Proof.
  revert y. induction sh as [|n sh IH]; intros y; split.
  - intros H; inversion H; subst. split; [reflexivity|]. cbn. lia.
  - intros [H _]. destruct y; [constructor|discriminate].
  - intros H; inversion H; subst. destruct (proj1 (IH _) H4) as [L K]. split; [cbn; lia|]. intros [|k] Hk; cbn in *; [assumption|]. apply K; lia.
  - intros [L H]. destruct y as [|i y]; [discriminate|]. constructor; [apply (H 0%nat); cbn; lia|].
    apply IH. split; [cbn in L; lia|]. intros k Hk. apply (H (S k)). cbn. lia.
Qed.

Lemma update_length {A} k (x : A) l : length (update k x l) = length l.
Proof. revert k. induction l as [|y l IH]; intros [|k]; cbn; auto. Qed.

Lemma update_nth {A} k (x d : A) l j : (k < length l)%nat -> nth j (update k x l) d = if (j =? k)%nat then x else nth j l d.
Proof.
  revert k j. induction l as [|y l IH]; intros [|k] [|j] Hk; cbn in *; try lia; try reflexivity. apply IH. lia.
Qed.

(** Sequential one-axis transforms are the product of the matrices. *)
Lemma fold_along (T : nat -> (nat -> C) -> nat -> C) (M : nat -> mat) sh axes v y :
  NoDup axes -> Forall (fun a => (a < length sh)%nat) axes -> in_shape y sh ->
  (forall a w i, T a w i = csum (fun j => w j * M a i j) (nth a sh 0%nat)) ->
  fold_right (fun a v => along a (T a) v) v axes y = isum sh (fun x => v x * lprod (on_axes (length sh) axes M) y x).
Proof.
  intros HD HF Hy HT. revert y Hy. induction axes as [|a axes IH]; intros y Hy.
  - cbn [fold_right]. rewrite (isum_ext sh _ (fun x => v x * lprod (repeat cdelta (length sh)) y x)).
    + now rewrite lprod_delta.
    + intros x Hx. f_equal. apply (lprod_ext sh sh); try assumption; [apply on_axes_length|apply repeat_length|].
      intros k i j Hk _ _. rewrite on_axes_nth, nth_repeat_delta by assumption. reflexivity.
  - cbn [fold_right]. inversion HD; subst. inversion HF; subst. unfold along at 1. rewrite HT.
    destruct (proj1 (in_shape_nth _ _) Hy) as [Ly Ky].
    rewrite (single_apply sh y a (M a) (fold_right (fun a v => along a (T a) v) v axes)) by (try assumption; intros; apply Ky; assumption).
    rewrite (isum_ext sh _ (fun z => isum sh (fun x => v x * lprod (on_axes (length sh) axes M) z x) * lprod (single (length sh) a (M a)) y z))
      by (intros z Hz; rewrite IH by assumption; reflexivity).
    rewrite lcomp_apply by (rewrite ?single_length, ?on_axes_length; congruence).
    apply isum_ext. intros x Hx. f_equal. apply (lprod_ext sh sh); try assumption;
      [rewrite lcomp_length; rewrite ?single_length, ?on_axes_length; reflexivity|apply on_axes_length|].
    intros k i j Hk Hi Hj. rewrite lcomp_nth, single_nth, !on_axes_nth by (rewrite ?single_length, ?on_axes_length; try assumption; reflexivity).
    cbn [existsb]. destruct (Nat.eqb_spec k a) as [->|Hne]; cbn [orb].
    + replace (existsb (Nat.eqb a) axes) with false by (symmetry; now apply existsb_notin). rewrite csum_delta_r' by assumption. reflexivity.
    + rewrite csum_delta_l by assumption. reflexivity.
Qed.
