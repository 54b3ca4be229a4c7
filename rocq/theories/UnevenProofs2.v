(** Proofs about uneven potentials and lowest columns (C105). *)
From Coq Require Import Reals List ZArith Arith Lia Lra.
From Verif Require Import ZLib Csum DFT NumPy Spec SpecBasis Index IndexProofs IndexSum Basis Operator OperatorProofs Reduce Hamiltonian HamiltonianProofs4 Fourier SpecFourier FourierFacts Uneven SpecUneven UnevenProofs.
Import ListNotations.
Local Open Scope R_scope.
Local Open Scope C_scope.

Lemma plane_valid n0 n1 nz s0 s1 : (0 < n0)%nat -> (0 < n1)%nat -> (0 < s0)%nat -> (0 < s1)%nat ->
  valid_axes [n0; n1; nz] [s0; s1] [0; 1]%Z [0; 1]%nat.
Proof.
  intros H0 H1 H2 H3. repeat split.
  - constructor; [left; cbn; split; [lia|reflexivity]|]. constructor; [left; cbn; split; [lia|reflexivity]|constructor].
  - constructor; [intros [E|[]]; discriminate|]. constructor; [intros []|constructor].
  - repeat constructor; assumption.
  - repeat constructor; assumption.
Qed.
Lemma plane_resizes s0 s1 : resizes [0; 1]%nat [s0; s1] (in_plane s0 s1).
Proof.
  split; [intros [|[|j]] Hj; cbn in *; try reflexivity; lia|].
  intros [|[|k]] Hk; cbn in *; try reflexivity; exfalso; apply Hk; auto.
Qed.
Lemma plane_shape n0 n1 nz s0 s1 shape : resized_shape (in_plane s0 s1) [n0; n1; nz] shape -> shape = [s0; s1; nz].
Proof.
  intros [L H]. destruct shape as [|a [|b [|c [|]]]]; try discriminate.
  pose proof (H 0%nat ltac:(cbn; lia)) as E0. pose proof (H 1%nat ltac:(cbn; lia)) as E1. pose proof (H 2%nat ltac:(cbn; lia)) as E2.
  cbn in *. now subst.
Qed.

Lemma uneven_spec spline memory u s0 s1 s2 : uneven_wf u -> spline_ok spline -> spline_defined spline (uz u) (uz_points u) ->
  (0 < s0)%nat -> (0 < s1)%nat -> (0 < s2)%nat ->
  exists xy data, interpolate_points_rfftn [p_n (u0 u); p_n (u1 u); uz u] (value_at [p_n (u0 u); p_n (u1 u); uz u] (u_data u)) [s0; s1] (Some [0; 1]%Z) = Some ([s0; s1; uz u], xy) /\
    interpolate_uneven_potential spline memory u s0 s1 s2 = Some (uneven_axes u s0 s1 s2, data) /\
    forall i j k, (i < s0)%nat -> (j < s1)%nat -> (k < s2)%nat ->
      on_spline spline (uz u) (uz_points u) (fun l => xy [i; j; l])
        (even_spot (uz_points u 0%nat) (uz_points u (uz u - 1)%nat) s2 k) (data (ravel [s0; s1; s2] [i; j; k])).
Proof.
  intros [H0 [H1 [Hz Hd]]] Hok Hdef P0 P1 P2. set (sh := [p_n (u0 u); p_n (u1 u); uz u]) in *.
  destruct (rfftn_spec sh (value_at sh (u_data u)) [s0; s1] (Some [0; 1]%Z) [0; 1]%nat (in_plane s0 s1)
              (valid_accepted _ _ _ _ (plane_valid _ _ _ _ _ H0 H1 P0 P1)) ltac:(discriminate) (plane_resizes s0 s1)) as [shape [xy [E [HS _]]]].
  apply plane_shape in HS. subst shape.
  destruct (spline_last spline memory [s0; s1] (uz u) xy (uz_points u) s2 2) as [out [E2 Hout]]; try assumption.
  { left. cbn. split; [lia|reflexivity]. }
  exists xy, (fun t => out (unravel [s0; s1; s2] t)). split; [exact E|]. split.
  - unfold interpolate_uneven_potential. fold sh. rewrite (reshape_some _ _ Hd). cbn [ashape aflat].
    change (fun idx : list nat => fst (aflat (u_data u) (ravel sh idx))) with (value_at sh (u_data u)). rewrite E.
    change [s0; s1; uz u] with ([s0; s1] ++ [uz u]). rewrite E2. reflexivity.
  - intros i j k Hi Hj Hk.
    assert (HI : in_shape [i; j; k] [s0; s1; s2]) by (repeat constructor; assumption).
    rewrite (unravel_ravel _ _ HI). exact (Hout [i; j; k] HI).
Qed.

(** Every value. *)
Lemma uneven_values spline memory u s0 s1 s2 : uneven_wf u -> spline_ok spline -> spline_defined spline (uz u) (uz_points u) ->
  (0 < s0)%nat -> (0 < s1)%nat -> (0 < s2)%nat ->
  exists data, interpolate_uneven_potential spline memory u s0 s1 s2 = Some (uneven_axes u s0 s1 s2, data) /\
    forall i j k, (i < s0)%nat -> (j < s1)%nat -> (k < s2)%nat ->
      on_spline spline (uz u) (uz_points u)
        (plane_resampled (p_n (u0 u)) (p_n (u1 u)) (uz u) s0 s1 (value_at [p_n (u0 u); p_n (u1 u); uz u] (u_data u)) i j)
        (even_spot (uz_points u 0%nat) (uz_points u (uz u - 1)%nat) s2 k) (data (ravel [s0; s1; s2] [i; j; k])).
Proof.
  intros HU Hok Hdef P0 P1 P2. destruct (uneven_spec spline memory u s0 s1 s2 HU Hok Hdef P0 P1 P2) as [xy [data [E [E2 H]]]].
  exists data. split; [exact E2|]. intros i j k Hi Hj Hk. destruct (H i j k Hi Hj Hk) as [s [Es Ev]]. exists s. split; [|exact Ev].
  rewrite <- Es. apply (proj1 Hok). intros l Hl. destruct HU as [H0 [H1 [Hz Hd]]].
  destruct (rfftn_spec [p_n (u0 u); p_n (u1 u); uz u] (value_at [p_n (u0 u); p_n (u1 u); uz u] (u_data u)) [s0; s1] (Some [0; 1]%Z) [0; 1]%nat (in_plane s0 s1)
              (valid_accepted _ _ _ _ (plane_valid _ _ _ _ _ H0 H1 P0 P1)) ltac:(discriminate) (plane_resizes s0 s1)) as [shape [xy' [E' [HS HX]]]].
  rewrite E in E'. injection E' as <- <-. unfold plane_resampled. symmetry. rewrite HX by (repeat constructor; assumption). reflexivity.
Qed.

(** Values at shared points. *)
Lemma uneven_kept spline memory u s0 s1 s2 axes data : uneven_wf u -> spline_ok spline -> spline_defined spline (uz u) (uz_points u) ->
  (0 < s2)%nat -> (p_n (u0 u) <= s0)%nat -> (p_n (u1 u) <= s1)%nat -> Nat.odd (p_n (u1 u)) = true \/ s1 = p_n (u1 u) ->
  interpolate_uneven_potential spline memory u s0 s1 s2 = Some (axes, data) ->
  forall i j k x y l, (i < s0)%nat -> (j < s1)%nat -> (k < s2)%nat -> (x < p_n (u0 u))%nat -> (y < p_n (u1 u))%nat -> (l < uz u)%nat ->
    (i * p_n (u0 u) = x * s0)%nat -> (j * p_n (u1 u) = y * s1)%nat ->
    even_spot (uz_points u 0%nat) (uz_points u (uz u - 1)%nat) s2 k = uz_points u l ->
    data (ravel [s0; s1; s2] [i; j; k]) = value_at [p_n (u0 u); p_n (u1 u); uz u] (u_data u) [x; y; l].
Proof.
  intros HU Hok Hdef P2 L0 L1 Ho E i j k x y l Hi Hj Hk Hx Hy Hl Ei Ej Ek.
  assert (P0 : (0 < s0)%nat) by lia. assert (P1 : (0 < s1)%nat) by lia.
  destruct (uneven_spec spline memory u s0 s1 s2 HU Hok Hdef P0 P1 P2) as [xy [data' [E1 [E2 H]]]]. rewrite E in E2. injection E2 as _ <-.
  destruct (H i j k Hi Hj Hk) as [s [Es Ev]]. rewrite Ev, Ek, (proj2 Hok _ _ _ _ Es l Hl).
  destruct HU as [H0 [H1 [Hz Hd]]].
  apply (rfftn_through _ _ _ _ _ (in_plane s0 s1) _ _ (valid_accepted _ _ _ _ (plane_valid _ _ _ _ _ H0 H1 P0 P1)) ltac:(discriminate) (plane_resizes s0 s1)) with (2 := E1).
  - intros [|[|[|q]]] m Hq Hm; cbn in *; try discriminate; injection Hm as <-; assumption.
  - cbn. destruct Ho as [Ho|Ho]; [left; exact Ho|right; now rewrite Ho].
  - repeat constructor; assumption.
  - repeat constructor; assumption.
  - intros [|[|[|q]]] Hq; cbn in *; try assumption; try reflexivity; lia.
Qed.

(** The ends of the column. *)
Lemma spot_first a b n : even_spot a b n 0 = a.
Proof. unfold even_spot. cbn. unfold Rdiv. ring. Qed.
Lemma spot_last a b n : (1 < n)%nat -> even_spot a b n (n - 1) = b.
Proof. intros H. unfold even_spot. field. apply not_0_INR. lia. Qed.

(** The spacing of the basis is not that of the values. *)
Lemma spacing_differs a b n k : (0 < k < n)%nat -> a <> b -> ((b - a) * INR k / INR n)%R <> (even_spot a b n k - a)%R.
Proof.
  intros [K0 K1] Hab E. unfold even_spot in E.
  assert (N : INR n <> 0%R) by (apply not_0_INR; lia). assert (N1 : INR (n - 1) <> 0%R) by (apply not_0_INR; lia).
  assert (NK : INR k <> 0%R) by (apply not_0_INR; lia). assert (D : (b - a <> 0)%R) by lra.
  assert (E2 : ((b - a) * INR k * (INR (n - 1) - INR n))%R = 0%R).
  { replace ((b - a) * INR k * (INR (n - 1) - INR n))%R with ((((b - a) * INR k / INR n) - (a + (b - a) * (INR k / INR (n - 1)) - a)) * INR n * INR (n - 1))%R by (field; split; assumption).
    rewrite E. ring. }
  replace (INR (n - 1) - INR n)%R with (-1)%R in E2 by (rewrite minus_INR by lia; cbn; ring).
  apply Rmult_integral in E2. destruct E2 as [E2|E2]; [|lra]. apply Rmult_integral in E2. tauto.
Qed.

(** ** The lowest column *)

Lemma argmin_lt v n : (0 < n)%nat -> (argmin v n < n)%nat.
Proof. induction n as [|n IH]; [lia|]. intros _. cbn. destruct (clt (v n) (v (argmin v n))); [lia|]. destruct n; cbn in *; [lia|]. specialize (IH ltac:(lia)). lia. Qed.
Lemma cle_refl a : cle a a. Proof. right. split; [reflexivity|lra]. Qed.
Lemma cle_trans a b c : cle a b -> cle b c -> cle a c.
Proof. unfold cle. intros [H|[H1 H2]] [K|[K1 K2]]; [left; lra|left; lra|left; lra|right; split; lra]. Qed.
Lemma argmin_le v n k : (k < n)%nat -> cle (v (argmin v n)) (v k).
Proof.
  induction n as [|n IH]; [lia|]. intros Hk. cbn. destruct (clt (v n) (v (argmin v n))) eqn:E.
  - apply clt_spec in E. destruct (Nat.eq_dec k n) as [->|Hn]; [apply cle_refl|].
    apply cle_trans with (v (argmin v n)); [|apply IH; lia]. unfold cle. destruct E as [E|[E1 E2]]; [left; exact E|right; split; [exact E1|lra]].
  - destruct (Nat.eq_dec k n) as [->|Hn]; [|apply IH; lia]. apply clt_false in E. unfold cle. destruct E as [E|[E1 E2]]; [left; exact E|right; split; [now symmetry|exact E2]].
Qed.
Lemma argmin_first v n k : (k < argmin v n)%nat -> ~ cle (v k) (v (argmin v n)).
Proof.
  revert k. induction n as [|n IH]; intros k Hk; [cbn in Hk; lia|]. cbn in *. destruct (clt (v n) (v (argmin v n))) eqn:E; [|now apply IH].
  apply clt_spec in E. intros Hle.
  pose proof (argmin_le v n k Hk) as H. pose proof (cle_trans _ _ _ H Hle) as Hc. unfold cle in Hc. destruct E as [E|[E1 E2]], Hc as [Hc|[Hc1 Hc2]]; lra.
Qed.

Lemma lowest_column a0 a1 a2 (data : ndarray) dz : (0 < p_n a0)%nat -> (0 < p_n a1)%nat -> (0 < p_n a2)%nat ->
  nprod (ashape data) = nprod [p_n a0; p_n a1; p_n a2] -> nth_error (p_delta a2) 2 = Some dz ->
  let at_ x := aflat data (ravel [p_n a0; p_n a1; p_n a2] x) in
  exists out i j, select_minimum_potential_3d [a0; a1; a2] data = Some ({| p_n := p_n a2; p_delta := [dz] |}, out) /\
    ashape out = [p_n a2] /\ (i < p_n a0)%nat /\ (j < p_n a1)%nat /\
    (forall k, (k < p_n a2)%nat -> aflat out k = at_ [i; j; k]) /\
    (exists k, (k < p_n a2)%nat /\ (forall x, in_shape x [p_n a0; p_n a1; p_n a2] -> cle (aflat out k) (at_ x))).
Proof.
  intros H0 H1 H2 Hd Hz at_. unfold select_minimum_potential_3d. cbn [map].
  rewrite (reshape_some _ _ Hd). cbn [ashape aflat]. rewrite Hz.
  set (sh := [p_n a0; p_n a1; p_n a2]) in *.
  assert (HP : (0 < nprod sh)%nat) by (unfold sh; cbn; nia).
  rewrite (proj2 (Nat.eqb_neq (nprod sh) 0)) by lia. rewrite Hd.
  set (t := argmin (aflat data) (nprod sh)). assert (Ht : (t < nprod sh)%nat) by (apply argmin_lt; exact HP).
  assert (HI : in_shape (unravel sh t) sh) by (apply unravel_in_shape; exact Ht).
  destruct (unravel sh t) as [|i [|j [|k [|]]]] eqn:EU; try (apply in_shape_length in HI; discriminate).
  cbn [nth]. inversion HI as [|? ? ? ? Hi HI1]; subst. inversion HI1 as [|? ? ? ? Hj HI2]; subst. inversion HI2 as [|? ? ? ? Hk _]; subst.
  assert (EC : forall q, (q < p_n a2)%nat -> unravel [p_n a2] q = [q]).
  { intros q Hq. pose proof (unravel_ravel [p_n a2] [q]) as EQ. cbn [ravel nprod] in EQ. replace (q * 1 + 0)%nat with q in EQ by lia. apply EQ. constructor; [exact Hq|constructor]. }
  eexists. exists i, j. split; [reflexivity|]. cbn [ashape aflat]. split; [reflexivity|]. split; [exact Hi|]. split; [exact Hj|]. split.
  - intros q Hq. rewrite (EC q Hq). reflexivity.
  - exists k. split; [exact Hk|]. intros x Hx. rewrite (EC k Hk). unfold at_. rewrite <- EU, (ravel_unravel sh t Ht).
    apply argmin_le. apply ravel_lt. exact Hx.
Qed.
