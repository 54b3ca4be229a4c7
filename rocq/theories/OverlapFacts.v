(** Concrete wavepackets, states, lattices and orders. *)
From Coq Require Import Reals Lra Permutation.
From Verif Require Import ZLib Csum DFT NumPy Index Spec Basis SpecBasis BasisProofs Operator SpecOperator Wavepacket SpecWavepacket
  Overlap SpecOverlap.
Local Open Scope R_scope.
Local Open Scope C_scope.

(** Two samples along the first of two axes; cells of two points (momentum) and two points (position). *)
Definition ex_axes : list basis := [BFundT 2; BFund 2].
Definition ex_packet (z : C) : ndarray := {| ashape := [8%nat]; aflat := fun t => match t with 1%nat => z | 6%nat => 1 | _ => RtoC 0 end |}.
Lemma ex_packet_ok z : Forall (fun n => (0 < n)%nat) [2%nat; 1%nat] /\ bwf (BTuple ex_axes) /\ explicit_orthonormal (BTuple ex_axes) /\
  length [2%nat; 1%nat] = length ex_axes /\ nprod (ashape (ex_packet z)) = (nprod [2%nat; 1%nat] * bsize (BTuple ex_axes))%nat.
Proof. repeat split; cbn; repeat constructor. Qed.

(** Two states on a grid of two by three points. *)
Definition ex_states : ndarray := {| ashape := [12%nat]; aflat := fun t => match t with 0%nat => 1 | 7%nat => Ci | 9%nat => 1 | _ => RtoC 0 end |}.
Lemma ex_states_ok : nprod (ashape ex_states) = (2 * nprod [2%nat; 3%nat])%nat /\ Forall (fun n => (0 < n)%nat) [2%nat; 3%nat].
Proof. split; [reflexivity|repeat constructor]. Qed.

(** A slanted lattice and one of its reciprocal vectors. *)
Definition ex_lattice (a c : nat) : R := match a, c with 0%nat, 0%nat => 2 | 1%nat, 0%nat => 1 | 1%nat, 1%nat => 4 | _, _ => 0 end%R.
Definition ex_wavevector (c : nat) : R := match c with 0%nat => PI | _ => PI / 4 end%R.
Lemma ex_wavevector_ok : reciprocal 2 ex_lattice (fun _ => 1%Z) ex_wavevector.
Proof. intros [|[|a]] Ha; [| |lia]; cbn [rsum ex_lattice ex_wavevector]; field. Qed.

(** A lattice whose third vector is perpendicular to the first two. *)
Definition ex_upright (a c : nat) : R := if (a =? 2)%nat then (if (c =? 2)%nat then 1 else 0)%R else ex_lattice a c.
Lemma ex_upright_ok : forall c, (c < 2)%nat -> ex_upright (length [2%nat; 3%nat]) c = 0%R.
Proof. intros [|[|c]] Hc; [reflexivity|reflexivity|lia]. Qed.

(** An order of three moduli. *)
Definition ex_overlap (t : nat) : C := match t with 0%nat => RtoC 2 | 1%nat => RtoC 1 | 2%nat => RtoC 3 | _ => RtoC 0 end.
Lemma ex_order_ok : argsort_ok (nprod [3%nat]) (fun t => Cmod (flat_vector 1 ex_overlap t)) [1%nat; 0%nat; 2%nat].
Proof.
  split; [apply (perm_swap 1%nat 0%nat [2%nat])|].
  assert (E : forall t, flat_vector 1 ex_overlap t = ex_overlap t).
  { intros t. unfold flat_vector. cbn [csum]. rewrite Nat.mul_1_r, Nat.add_0_r. ring. }
  assert (M : forall t, (0 <= t)%R -> Cmod (RtoC t) = t) by (intros t Ht; rewrite Cmod_R; apply Rabs_pos_eq; exact Ht).
  intros i j [Hij Hj]. cbn [nprod Nat.mul Nat.add] in Hj. rewrite !E.
  destruct i as [|[|[|i]]], j as [|[|[|j]]]; try lia; cbn [nth ex_overlap]; rewrite !M by lra; lra.
Qed.
