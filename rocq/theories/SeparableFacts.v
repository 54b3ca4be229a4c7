(** A concrete potential which is a sum over two groups of axes (C139). *)
From Coq Require Import Reals List ZArith Arith Lia Lra Bool.
From Verif Require Import ZLib Csum DFT NumPy Spec SpecReal Index IndexProofs Basis SpecBasis BasisProofs Wavepacket SpecWavepacket Hamiltonian SpecHamiltonian LocalizeProofs4 SeparableProofs.
Import ListNotations.
Local Open Scope R_scope.
Local Open Scope C_scope.

(** Two skew axes in the plane and one perpendicular to it. *)
Definition slab_lattice (a c : nat) : R := nth c (nth a [[1; 0; 0]; [1; 2; 0]; [0; 0; 3]]%R []) 0%R.
Definition slab_inverse (a c : nat) : R := nth c (nth a [[1; 0; 0]; [- (1 / 2); 1 / 2; 0]; [0; 0; 1 / 3]]%R []) 0%R.
Lemma slab_inverse_ok : is_inverse 3 slab_lattice slab_inverse.
Proof.
  split; intros a b Ha Hb; destruct a as [|[|[|a]]]; try lia; destruct b as [|[|[|b]]]; try lia; cbn; field.
Qed.
Lemma slab_block a c : (a < 2)%nat -> (2 <= c < 2 + 1)%nat -> slab_lattice a c = 0%R /\ slab_lattice c a = 0%R.
Proof. intros Ha Hc. assert (c = 2%nat) by lia. subst. destruct a as [|[|a]]; try lia; cbn; split; reflexivity. Qed.

Definition in_plane (x : nat) : C := RtoC (INR x).
Definition upwards (z : nat) : C := RtoC (INR z ^ 2).
Definition both (x : nat) : C := in_plane (x / 3) + upwards (x mod 3).
Lemma both_separable x1 x2 : (x1 < bfund (BTuple [BFund 2; BFund 2]))%nat -> (x2 < bfund (BTuple [BFund 3]))%nat ->
  amplitude (BTuple ([BFund 2; BFund 2] ++ [BFund 3])) both (x1 * bfund (BTuple [BFund 3]) + x2)
  = amplitude (BTuple [BFund 2; BFund 2]) in_plane x1 + amplitude (BTuple [BFund 3]) upwards x2.
Proof.
  intros H1 H2.
  assert (Am : forall N v x, (x < nprod N)%nat -> amplitude (BTuple (map BFund N)) v x = v x).
  { intros N v x Hx. rewrite <- (ravel_unravel N x Hx). apply amplitude_position. apply unravel_in_shape. exact Hx. }
  change (bfund (BTuple [BFund 3])) with 3%nat in *. change (bfund (BTuple [BFund 2; BFund 2])) with 4%nat in H1.
  rewrite (Am [2; 2; 3]%nat both) by (cbn; lia). rewrite (Am [2; 2]%nat in_plane) by (cbn; lia). rewrite (Am [3]%nat upwards) by (cbn; lia).
  unfold both. rewrite flat_div, flat_mod by exact H2. reflexivity.
Qed.
Lemma in_plane_real : real_valued (BTuple [BFund 2; BFund 2]) in_plane.
Proof.
  intros x Hx. change (bfund (BTuple [BFund 2; BFund 2])) with (nprod [2; 2]%nat) in Hx. rewrite <- (ravel_unravel [2; 2]%nat x Hx).
  change [BFund 2; BFund 2] with (map BFund [2; 2]%nat). rewrite amplitude_position by (apply unravel_in_shape; exact Hx). reflexivity.
Qed.
Lemma upwards_real : real_valued (BTuple [BFund 3]) upwards.
Proof.
  intros x Hx. change (bfund (BTuple [BFund 3])) with (nprod [3]%nat) in Hx. rewrite <- (ravel_unravel [3]%nat x Hx).
  change [BFund 3] with (map BFund [3]%nat). rewrite amplitude_position by (apply unravel_in_shape; exact Hx). reflexivity.
Qed.
