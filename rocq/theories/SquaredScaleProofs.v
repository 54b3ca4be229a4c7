(** The squared scale (C126). *)
From Coq Require Import Reals List Lra Lia Psatz.
From Verif Require Import SquaredScale.
Import ListNotations.
Local Open Scope R_scope.

Lemma round_trip x y : apply_transform (inverted get_transform) (apply_transform get_transform x) = Rabs x /\
  apply_transform get_transform (apply_transform (inverted get_transform) y) = Rabs y /\
  apply_transform (inverted (inverted get_transform)) x = apply_transform get_transform x.
Proof.
  unfold get_transform, apply_transform, inverted, squared_transform, inverted_squared_transform. split; [|split; [|reflexivity]].
  - replace (x ^ 2) with (Rsqr x) by (unfold Rsqr; ring). rewrite (Rabs_pos_eq (Rsqr x)) by apply Rle_0_sqr. apply sqrt_Rsqr_abs.
  - replace (sqrt (Rabs y) ^ 2) with (sqrt (Rabs y) * sqrt (Rabs y)) by ring. apply sqrt_sqrt, Rabs_pos.
Qed.
Lemma order x y : apply_transform get_transform x < apply_transform get_transform y <-> Rabs x < Rabs y.
Proof.
  unfold get_transform, apply_transform, inverted, squared_transform. rewrite <- (pow2_abs x), <- (pow2_abs y). assert (A := Rabs_pos x). assert (B := Rabs_pos y).
  split; intros H; [|nra]. destruct (Rlt_le_dec (Rabs x) (Rabs y)) as [|L]; [assumption|nra].
Qed.
Lemma convex vmin vmax i : (i < 8)%nat -> 0 <= vmin ^ 2 + INR i * ((vmax ^ 2 - vmin ^ 2) / 7).
Proof.
  intros Hi. assert (0 <= INR i <= 7) by (split; [apply pos_INR|replace 7 with (INR 7) by (cbn; lra); apply le_INR; lia]).
  assert (A := pow2_ge_0 vmin). assert (B := pow2_ge_0 vmax). set (p := vmin ^ 2) in *. set (q := vmax ^ 2) in *. nra.
Qed.
Lemma tick_nth vmin vmax i : (i < 8)%nat -> nth i (squared_ticks vmin vmax) 0 = sqrt (vmin ^ 2 + INR i * ((vmax ^ 2 - vmin ^ 2) / 7)).
Proof.
  intros Hi. unfold squared_ticks. set (f := fun i => sqrt (vmin ^ 2 + INR i * ((vmax ^ 2 - vmin ^ 2) / 7))).
  rewrite (nth_indep _ 0 (f 0%nat)) by (rewrite map_length, seq_length; exact Hi). rewrite (map_nth f), seq_nth by exact Hi. reflexivity.
Qed.
Lemma ticks vmin vmax : length (squared_ticks vmin vmax) = 8%nat /\
  forall i, (i < 8)%nat -> 0 <= nth i (squared_ticks vmin vmax) 0 /\
    apply_transform get_transform (nth i (squared_ticks vmin vmax) 0) =
    apply_transform get_transform vmin + INR i / 7 * (apply_transform get_transform vmax - apply_transform get_transform vmin).
Proof.
  split; [reflexivity|]. intros i Hi. rewrite tick_nth by exact Hi. split; [apply sqrt_pos|]. unfold get_transform, apply_transform, squared_transform.
  set (z := vmin ^ 2 + INR i * ((vmax ^ 2 - vmin ^ 2) / 7)). replace (sqrt z ^ 2) with (sqrt z * sqrt z) by ring. rewrite sqrt_sqrt by (apply convex; exact Hi). unfold z. field.
Qed.
Lemma ticks_in_view vmin vmax : 0 <= vmin <= vmax ->
  nth 0 (squared_ticks vmin vmax) 0 = vmin /\ nth 7 (squared_ticks vmin vmax) 0 = vmax /\
  (forall t, In t (squared_ticks vmin vmax) -> vmin <= t <= vmax) /\
  (vmin < vmax -> forall i j, (i < j < 8)%nat -> nth i (squared_ticks vmin vmax) 0 < nth j (squared_ticks vmin vmax) 0).
Proof.
  intros H. rewrite !tick_nth by lia. split; [|split; [|split]].
  - cbn [INR]. replace (vmin ^ 2 + 0 * ((vmax ^ 2 - vmin ^ 2) / 7)) with (vmin * vmin) by ring. apply sqrt_square. lra.
  - replace (INR 7) with 7 by (cbn; lra). replace (vmin ^ 2 + 7 * ((vmax ^ 2 - vmin ^ 2) / 7)) with (vmax * vmax) by field. apply sqrt_square. lra.
  - intros t Ht. apply in_map_iff in Ht as (i & <- & Hi). apply in_seq in Hi.
    assert (0 <= INR i <= 7) by (split; [apply pos_INR|replace 7 with (INR 7) by (cbn; lra); apply le_INR; lia]).
    assert (vmin * vmin <= vmax * vmax) by nra.
    split.
    + rewrite <- (sqrt_square vmin) at 1 by lra. apply sqrt_le_1_alt. assert (0 <= INR i * ((vmax ^ 2 - vmin ^ 2) / 7)) by (apply Rmult_le_pos; lra). lra.
    + rewrite <- (sqrt_square vmax) at 2 by lra. apply sqrt_le_1_alt. assert (INR i * ((vmax ^ 2 - vmin ^ 2) / 7) <= 7 * ((vmax ^ 2 - vmin ^ 2) / 7)) by (apply Rmult_le_compat_r; lra). lra.
  - intros L i j Hij. rewrite !tick_nth by lia. apply sqrt_lt_1_alt. split; [apply convex; lia|]. assert (INR i < INR j) by (apply lt_INR; lia).
    assert (0 < (vmax ^ 2 - vmin ^ 2) / 7) by (assert (vmin * vmin < vmax * vmax) by nra; lra). nra.
Qed.
Lemma ticks_symmetric v : forall t, In t (squared_ticks (- v) v) -> t = Rabs v.
Proof.
  intros t Ht. apply in_map_iff in Ht as (i & <- & _). replace ((- v) ^ 2 + INR i * ((v ^ 2 - (- v) ^ 2) / 7)) with (Rsqr v) by (unfold Rsqr; field). apply sqrt_Rsqr_abs.
Qed.
Lemma ticks_outside_refuted : ~ (forall vmin vmax, vmin < vmax -> forall t, In t (squared_ticks vmin vmax) -> vmin <= t <= vmax).
Proof.
  intros H. specialize (H (-2) 1 ltac:(lra) (sqrt ((-2) ^ 2 + INR 0 * ((1 ^ 2 - (-2) ^ 2) / 7))) ltac:(left; reflexivity)).
  replace ((-2) ^ 2 + INR 0 * ((1 ^ 2 - (-2) ^ 2) / 7)) with (2 * 2) in H by (cbn; field). rewrite sqrt_square in H by lra. lra.
Qed.
