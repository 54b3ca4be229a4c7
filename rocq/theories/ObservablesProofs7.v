(** The facts about observables, for the functions themselves. *)
From Coq Require Import Reals Lra Lia Psatz.
From Verif Require Import ZLib Csum DFT NumPy Index Spec IndexProofs Basis SpecBasis BasisProofs BasisProofs2 BasisProofs3 BasisFacts Lattice LatticeProofs Operator SpecOperator
  StateList SpecStateList Wavepacket SpecWavepacket WavepacketProofs WavepacketProofs2 Hamiltonian HamiltonianProofs Brillouin
  Observables SpecObservables ObservablesProofs ObservablesProofs2 ObservablesProofs3 ObservablesProofs4 ObservablesProofs5 ObservablesProofs6.
Local Open Scope R_scope.
Local Open Scope C_scope.

Lemma angle_zero : np_angle (RtoC 0) = 0%R.
Proof. unfold np_angle. rewrite Cmod_0. destruct (Req_EM_T 0 0); [reflexivity|congruence]. Qed.

Lemma position_turn (z : C) : exists th, (0 <= th < 2 * PI)%R /\ z = RtoC (Cmod z) * cis th /\ (z = 0 -> th = 0%R) /\
  forall L, periodic_position L z = (th * L / (2 * PI))%R.
Proof.
  pose proof PI_RGT_0. exists (rmod (np_angle z) (2 * PI)).
  destruct (rmod_spec (np_angle z) (2 * PI) ltac:(lra)) as (B & k & K).
  split; [exact B|]. split.
  - rewrite K, cis_shift. apply angle_spec.
  - split; [|reflexivity]. intros ->. rewrite angle_zero. apply (rmod_unique _ _ _ 0%Z); lra.
Qed.

Section Positions.
  Variable same : basis -> basis -> bool.
  Hypothesis Hs : identity_test same.
  Variable axes : list basis.
  Hypothesis Hw : bwf (BTuple axes).
  Hypothesis Ho : explicit_orthonormal (BTuple axes).
  Let shape := map bfund axes.
  Let nd := length axes.
  Variable delta : nat -> nat -> R.

  Lemma periodic_position_api s : sbasis s = BTuple axes -> well_formed_list s -> nd = 1%nat -> (0 < delta 0%nat 0%nat)%R ->
    let L := delta 0%nat 0%nat in let e := mean_phase shape (axis_direction 1 0) s in
    exists v, get_average_x_periodic same axes delta s 0 = Some (slist s, (bsize (slist s), v)) /\
      forall i, (i < bsize (slist s))%nat -> (0 <= v i < L)%R /\ e i = RtoC (Cmod (e i)) * cis (2 * PI * (v i / L)) /\ (e i = 0 -> v i = 0%R).
  Proof using Hs Hw Ho.
    intros Eb Ws H1 HL L e. destruct (average_x_periodic_1d same Hs axes Hw Ho delta s Eb Ws H1) as (v & G & V).
    exists v. split; [exact G|]. intros i Hi. rewrite (V i Hi). fold nd. rewrite H1. fold shape. fold (e i). fold L.
    destruct (periodic_position_spec L (e i) HL) as (A1 & A2). split; [exact A1|]. split; [exact A2|].
    intros ->. destruct (position_turn 0) as (th & _ & _ & T & F). rewrite F, T by reflexivity. unfold Rdiv. ring.
  Qed.

  Lemma positions_nd s axis : sbasis s = BTuple axes -> well_formed_list s -> (1 < nd)%nat -> (axis < nd)%nat ->
    let e := mean_phase shape (axis_direction nd axis) s in
    exists th : nat -> R, (forall i, (0 <= th i < 2 * PI)%R /\ e i = RtoC (Cmod (e i)) * cis (th i) /\ (e i = 0 -> th i = 0%R)) /\
    (bsize (slist s) = 1%nat -> exists v, get_average_x_periodic same axes delta s axis = Some (slist s, (nd, v)) /\
       forall c, v c = (th 0%nat * delta axis c / (2 * PI))%R) /\
    (bsize (slist s) = nd -> exists v, get_average_x_periodic same axes delta s axis = Some (slist s, (nd, v)) /\
       forall i, v i = (th i * delta axis i / (2 * PI))%R) /\
    (bsize (slist s) <> 1%nat -> bsize (slist s) <> nd -> get_average_x_periodic same axes delta s axis = None).
  Proof using Hs Hw Ho.
    intros Eb Ws H1 Ha e. destruct (average_x_periodic_nd same Hs axes Hw Ho delta s axis Eb Ws H1 Ha) as (P1 & P2 & P3).
    assert (T : forall i, exists th, (0 <= th < 2 * PI)%R /\ e i = RtoC (Cmod (e i)) * cis th /\ (e i = 0 -> th = 0%R) /\
      forall L, periodic_position L (e i) = (th * L / (2 * PI))%R) by (intros i; apply position_turn).
    exists (fun i => rmod (np_angle (e i)) (2 * PI)).
    assert (F : forall i L, periodic_position L (e i) = (rmod (np_angle (e i)) (2 * PI) * L / (2 * PI))%R) by reflexivity.
    assert (T' : forall i, (0 <= rmod (np_angle (e i)) (2 * PI) < 2 * PI)%R /\ e i = RtoC (Cmod (e i)) * cis (rmod (np_angle (e i)) (2 * PI)) /\ (e i = 0 -> rmod (np_angle (e i)) (2 * PI) = 0%R)).
    { intros i. destruct (T i) as (th & A1 & A2 & A3 & A4). pose proof (A4 1%R) as A5. rewrite F in A5. pose proof PI_RGT_0.
      assert (Q : rmod (np_angle (e i)) (2 * PI) = th).
      { apply (Rmult_eq_reg_r (1 / (2 * PI))); [lra|]. apply Rgt_not_eq. apply Rdiv_lt_0_compat; lra. }
      rewrite Q. auto. }
    split; [exact T'|]. split; [|split; [|exact P3]].
    - intros H. destruct (P1 H) as (v & G & V). exists v. split; [exact G|]. intros c. rewrite V. apply F.
    - intros H. destruct (P2 H) as (v & G & V). exists v. split; [exact G|]. intros c. rewrite V. apply F.
  Qed.

  Hypothesis H1 : nd = 1%nat.
  Let n := nprod shape.
  Let L := delta 0%nat 0%nat.
  Hypothesis HL : (0 < L)%R.

  Lemma shape_one : shape = [n] /\ (0 < n)%nat.
  Proof using H1 Hw Ho.
    assert (P : Forall (fun n => (0 < n)%nat) shape) by (apply fund_shape_pos; exact Hw).
    unfold n, shape, nd in *. destruct axes as [|b [|c l]]; try discriminate. cbn [map nprod] in *. rewrite Nat.mul_1_r.
    split; [reflexivity|]. inversion P. assumption.
  Qed.

  Lemma positions_moved s s' i j t x x' : sbasis s = BTuple axes -> well_formed_list s -> sbasis s' = BTuple axes -> well_formed_list s' ->
    (i < bsize (slist s))%nat -> (j < bsize (slist s'))%nat ->
    (forall y, (y < n)%nat -> density s' j ((y + t) mod n)%nat = density s i y) -> mean_phase shape (axis_direction 1 0) s i <> 0 ->
    get_average_x_periodic same axes delta s 0 = Some x -> get_average_x_periodic same axes delta s' 0 = Some x' ->
    snd (snd x') j = rmod (snd (snd x) i + INR t * (L / INR n)) L.
  Proof using Hs Hw Ho H1 HL.
    intros Eb Ws Eb' Ws' Hi Hj Hd He G G'.
    destruct (average_x_periodic_1d same Hs axes Hw Ho delta s Eb Ws H1) as (v & K & V). rewrite G in K. injection K as ->.
    destruct (average_x_periodic_1d same Hs axes Hw Ho delta s' Eb' Ws' H1) as (v' & K & V'). rewrite G' in K. injection K as ->.
    cbn [snd]. rewrite V, V' by assumption. fold nd. rewrite H1. fold shape L. destruct shape_one as (Sh & Hn).
    rewrite Sh in He |- *. apply position_move; assumption.
  Qed.

  Lemma positions_point s i x0 x : sbasis s = BTuple axes -> well_formed_list s -> (i < bsize (slist s))%nat -> (x0 < n)%nat ->
    (forall y, (y < n)%nat -> y <> x0 -> density s i y = 0%R) -> (0 < density s i x0)%R ->
    get_average_x_periodic same axes delta s 0 = Some x -> snd (snd x) i = (INR x0 * (L / INR n))%R.
  Proof using Hs Hw Ho H1 HL.
    intros Eb Ws Hi Hx Hd Hp G.
    destruct (average_x_periodic_1d same Hs axes Hw Ho delta s Eb Ws H1) as (v & K & V). rewrite G in K. injection K as ->.
    cbn [snd]. rewrite V by assumption. fold nd. rewrite H1. fold shape L. destruct shape_one as (Sh & Hn).
    rewrite Sh. apply position_point; assumption.
  Qed.

  (** Restored positions follow a true path. *)
  Lemma restored_api s rows cols : sbasis s = BTuple axes -> well_formed_list s -> bsize (slist s) = (rows * cols)%nat ->
    let e r i := mean_phase shape (axis_direction 1 0) s (r * cols + i)%nat in
    exists v, get_restored_x same axes delta s rows cols 0 = Some (slist s, (cols, v)) /\
    (forall r i, (i < cols)%nat -> e r i = RtoC (Cmod (e r i)) * cis (2 * PI * (v r i / L))) /\
    (forall r i, (S i < cols)%nat -> (Rabs (v r (S i) - v r i) <= L / 2)%R) /\
    (forall r, (0 < cols)%nat -> (- L / 2 < v r 0%nat <= L / 2)%R) /\
    (forall r (X rho : nat -> R),
       (forall i, (i < cols)%nat -> (0 < rho i)%R /\ e r i = RtoC (rho i) * cis (2 * PI * (X i / L))) ->
       (forall i, (S i < cols)%nat -> (Rabs (X (S i) - X i) < L / 2)%R) ->
       exists k : Z, forall i, (i < cols)%nat -> v r i = (X i + IZR k * L)%R).
  Proof using Hs Hw Ho H1 HL.
    intros Eb Ws Hn e. destruct (restored_x_1d same Hs axes Hw Ho delta s rows cols Eb Ws H1 Hn) as (v & G & _).
    destruct (restored_facts same Hs axes Hw Ho delta s rows cols v Eb Ws H1 Hn HL G) as (F1 & F2 & F3 & F4).
    fold nd in F1, F4. rewrite H1 in F1, F4. fold shape in F1, F4. fold L in F1, F2, F3, F4.
    exists v. split; [exact G|]. split; [exact F1|]. split; [exact F2|]. split; [exact F3|].
    intros r X rho HX Hstep. destruct (F4 r X rho HX Hstep) as ((k & K0) & K1). exists k. intros i Hi.
    specialize (K1 i Hi). specialize (K0 ltac:(lia)). lra.
  Qed.
End Positions.
