(** Concrete cases for C105. *)
From Coq Require Import Reals List ZArith Arith Lia Lra.
From Verif Require Import ZLib Csum DFT NumPy Spec SpecBasis Index IndexProofs IndexSum Basis Operator OperatorProofs Fourier SpecFourier Uneven SpecUneven UnevenProofs UnevenProofs2.
Import ListNotations.
Local Open Scope R_scope.
Local Open Scope C_scope.

(** An interpolation defined for increasing coordinates, through all points and zero elsewhere. *)
Fixpoint pick (m : nat) (old f : nat -> R) (x : R) : R :=
  match m with O => 0%R | S m => if Req_EM_T x (old m) then f m else pick m old f x end.
Definition increasing (m : nat) (old : nat -> R) : bool :=
  forallb (fun j => if Rlt_dec (old j) (old (S j)) then true else false) (seq 0 (m - 1)).
Definition point_spline : spline_fn := fun m old f => if increasing m old then Some (pick m old f) else None.

Lemma increasing_lt m old : increasing m old = true -> forall j k, (j < k < m)%nat -> old j < old k.
Proof.
  unfold increasing. rewrite forallb_forall. intros H j k [Hjk Hk].
  induction k as [|k IH]; [lia|]. assert (Hs : old k < old (S k)).
  { specialize (H k). destruct (Rlt_dec (old k) (old (S k))); [assumption|]. discriminate H. apply in_seq. lia. }
  destruct (Nat.eq_dec j k) as [->|Hn]; [exact Hs|]. apply Rlt_trans with (old k); [apply IH; lia|exact Hs].
Qed.
Lemma pick_point m old f : (forall j k, (j < k < m)%nat -> old j < old k) -> forall j, (j < m)%nat -> pick m old f (old j) = f j.
Proof.
  intros H j Hj. induction m as [|m IH]; [lia|]. cbn. destruct (Req_EM_T (old j) (old m)) as [E|E].
  - destruct (Nat.eq_dec j m) as [->|Hn]; [reflexivity|]. specialize (H j m ltac:(lia)). lra.
  - apply IH; [intros a b Hab; apply H; lia|]. destruct (Nat.eq_dec j m) as [->|Hn]; [tauto|lia].
Qed.
Lemma point_spline_ok : spline_ok point_spline.
Proof.
  split.
  - intros m old f g H. unfold point_spline. destruct (increasing m old); [|reflexivity]. f_equal.
    apply FunctionalExtensionality.functional_extensionality. intros x. induction m as [|m IH]; [reflexivity|]. cbn.
    destruct (Req_EM_T x (old m)); [apply H; lia|apply IH]. intros j Hj. apply H. lia.
  - intros m old f s E j Hj. unfold point_spline in E. destruct (increasing m old) eqn:EI; [|discriminate]. injection E as <-.
    apply pick_point; [now apply increasing_lt|exact Hj].
Qed.
Lemma point_spline_defined m old : increasing m old = true -> spline_defined point_spline m old.
Proof. intros H f. unfold point_spline. now rewrite H. Qed.

(** Heights 0, 1, 3 above a plane of 2 by 3 points. *)
Definition heights (j : nat) : R := match j with O => 0 | S O => 1 | _ => 3 end%R.
Lemma heights_increasing : increasing 3 heights = true.
Proof. unfold increasing. cbn. destruct (Rlt_dec 0 1); [|lra]. destruct (Rlt_dec 1 3); [reflexivity|lra]. Qed.
Definition steps : uneven :=
  {| u0 := {| p_n := 2; p_delta := [1; 0]%R |}; u1 := {| p_n := 3; p_delta := [0; 1]%R |}; uz := 3; uz_points := heights;
     u_data := {| ashape := [2; 3; 3]%nat; aflat := fun t => RtoC (INR t) |} |}.
Lemma steps_wf : uneven_wf steps.
Proof. repeat split; cbn; lia. Qed.
Lemma steps_middle : even_spot (heights 0) (heights 2) 4 1 = heights 1.
Proof. unfold even_spot. cbn. field. Qed.
