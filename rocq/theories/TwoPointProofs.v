(** Proofs about the localisation about a largest value. *)
From Coq Require Import Reals Lra.
From Verif Require Import ZLib Csum DFT NumPy Index IndexProofs Spec SpecReal Basis SpecBasis BasisProofs BasisProofs2 BasisProofs3
  Operator SpecOperator OperatorProofs OperatorProofs2 Reduce Wavepacket SpecWavepacket WavepacketProofs2 Localize SpecLocalize LocalizeProofs LocalizeProofs4
  Lattice LatticeProofs Paths PathsProofs3 SpecBloch TightCell SpecTightCell TightCellProofs TightCellProofs2 TightCellProofs3
  Projections SpecProjections ProjectionsProofs ProjectionsProofs2 TwoPoint SpecTwoPoint.
Local Open Scope R_scope.
Local Open Scope C_scope.

Lemma wrap_phases_spec x h : (0 < h)%R -> (- h <= wrap_phases x h < h)%R /\ exists z : Z, wrap_phases x h = (x + IZR z * (2 * h))%R.
Proof.
  intros Hh. unfold wrap_phases. destruct (rmod_spec (x + h) (2 * h) ltac:(lra)) as [B [z E]].
  split; [lra|]. exists z. rewrite E. ring.
Qed.

(** Half a turn more or less. *)
Lemma cis_half_turn (z : Z) : exists sg : R, (sg = 1 \/ sg = -1)%R /\ cis (IZR z * PI) = RtoC sg.
Proof.
  assert (P : forall n : nat, exists sg : R, (sg = 1 \/ sg = -1)%R /\ cis (INR n * PI) = RtoC sg /\ cis (- (INR n * PI)) = RtoC sg).
  { induction n as [|n [sg [Hs [E E']]]].
    - exists 1%R. split; [left; reflexivity|]. replace (INR 0 * PI)%R with 0%R by (cbn; ring). rewrite Ropp_0.
      unfold cis. rewrite cos_0, sin_0. split; reflexivity.
    - exists (- sg)%R. split; [destruct Hs as [-> | ->]; [right|left]; lra|].
      assert (C1 : cis PI = RtoC (-1)) by (unfold cis; rewrite cos_PI, sin_PI; reflexivity).
      assert (C2 : cis (- PI) = RtoC (-1)) by (unfold cis; rewrite cos_neg, sin_neg, cos_PI, sin_PI; unfold RtoC; f_equal; ring).
      split.
      + replace (INR (S n) * PI)%R with (INR n * PI + PI)%R by (rewrite S_INR; ring). rewrite cis_plus, E, C1, <- RtoC_mult. f_equal. ring.
      + replace (- (INR (S n) * PI))%R with (- (INR n * PI) + - PI)%R by (rewrite S_INR; ring).
        rewrite cis_plus, E', C2, <- RtoC_mult. f_equal. ring. }
  destruct (Z_le_gt_dec 0 z) as [H|H].
  - destruct (P (Z.to_nat z)) as [sg [Hs [E _]]]. exists sg. split; [exact Hs|]. rewrite INR_IZR_INZ, Z2Nat.id in E by exact H. exact E.
  - destruct (P (Z.to_nat (- z))) as [sg [Hs [_ E]]]. exists sg. split; [exact Hs|].
    rewrite INR_IZR_INZ, Z2Nat.id, opp_IZR in E by lia. rewrite <- E. f_equal. ring.
Qed.

(** Multiplying a matrix, or a flat array, by a column. *)
Lemma times_column_matrix n m d (f : nat -> C) : ashape d = [n; m] -> exists out,
  broadcast_op Cmult d {| ashape := [n; 1%nat]; aflat := f |} = Some out /\ ashape out = [n; m] /\
  forall s k, (s < n)%nat -> (k < m)%nat -> aflat out (s * m + k) = aflat d (s * m + k) * f s.
Proof.
  intros E. unfold broadcast_op. rewrite E. cbn [ashape rev app broadcast_rev]. rewrite Nat.eqb_refl.
  assert (S : exists r, (if m =? 1 then Some [m; n] else if m =? 1 then Some [1%nat; n] else if 1 =? 1 then Some [m; n] else None) = Some r /\ r = [m; n]).
  { destruct (Nat.eqb_spec m 1); [eexists; split; reflexivity|]. cbn. eexists. split; reflexivity. }
  destruct S as [r [Er ->]]. rewrite Er. clear Er. eexists. split; [reflexivity|]. split; [reflexivity|].
  intros s k Hs Hk. cbn [aflat rev app].
  assert (U : unravel [n; m] (s * m + k) = [s; k]).
  { replace (s * m + k)%nat with (ravel [n; m] [s; k]) by (cbn; lia). apply unravel_ravel. constructor; [exact Hs|constructor; [exact Hk|constructor]]. }
  rewrite U. cbn [rev app broadcast_index Nat.eqb].
  replace (if m =? 1 then 0%nat else k) with k by (destruct (Nat.eqb_spec m 1); lia).
  replace (if n =? 1 then 0%nat else s) with s by (destruct (Nat.eqb_spec n 1); lia).
  cbn [rev app ravel nprod]. rewrite !Nat.mul_1_r, !Nat.add_0_r. reflexivity.
Qed.
Lemma times_column_flat n m d (f : nat -> C) : ashape d = [m] -> exists out,
  broadcast_op Cmult d {| ashape := [n; 1%nat]; aflat := f |} = Some out /\ ashape out = [n; m] /\
  forall s k, (s < n)%nat -> (k < m)%nat -> aflat out (s * m + k) = aflat d k * f s.
Proof.
  intros E. unfold broadcast_op. rewrite E. cbn [ashape rev app broadcast_rev].
  assert (S : exists r, (if m =? 1 then Some [m; n] else if m =? 1 then Some [1%nat; n] else if 1 =? 1 then Some [m; n] else None) = Some r /\ r = [m; n]).
  { destruct (Nat.eqb_spec m 1); [eexists; split; reflexivity|]. cbn. eexists. split; reflexivity. }
  destruct S as [r [Er ->]]. rewrite Er. clear Er. eexists. split; [reflexivity|]. split; [reflexivity|].
  intros s k Hs Hk. cbn [aflat rev app].
  assert (U : unravel [n; m] (s * m + k) = [s; k]).
  { replace (s * m + k)%nat with (ravel [n; m] [s; k]) by (cbn; lia). apply unravel_ravel. constructor; [exact Hs|constructor; [exact Hk|constructor]]. }
  rewrite U. cbn [rev app broadcast_index Nat.eqb].
  replace (if m =? 1 then 0%nat else k) with k by (destruct (Nat.eqb_spec m 1); lia).
  replace (if n =? 1 then 0%nat else s) with s by (destruct (Nat.eqb_spec n 1); lia).
  cbn [rev app ravel nprod]. rewrite !Nat.mul_1_r, !Nat.add_0_r. reflexivity.
Qed.

(** ** The two points *)
Lemma wrap_from_length s : forall ax i o axes, length i = length s -> (length s <= length o)%nat ->
  length (wrap_index_from ax s i o axes) = length s.
Proof.
  induction s as [|n s IH]; intros ax [|a i] [|b o] axes Li Lo; try (cbn in *; lia); try reflexivity.
  cbn [wrap_index_from length]. f_equal. apply IH; cbn in *; lia.
Qed.
Lemma wrap_from_window s : forall ax i o r, Forall (fun n => (0 < n)%nat) s -> length i = length s -> length o = length s ->
  in_window s o (wrap_index_from ax s i (o ++ r) None).
Proof.
  induction s as [|n s IH]; intros ax [|a i] [|b o] r Hs Li Lo; try discriminate; [exact Logic.I|]. inversion Hs; subst.
  cbn [app wrap_index_from in_window]. split; [apply wrap_index_spec; lia|]. apply IH; [assumption|cbn in *; lia|cbn in *; lia].
Qed.
Lemma wrap_from_cell s : forall ax i o, Forall (fun n => (0 < n)%nat) s -> length i = length s -> (length s <= length o)%nat ->
  cell_point s (wrap_index_from ax s i o None) = cell_point s i.
Proof.
  induction s as [|n s IH]; intros ax [|a i] [|b o] Hs Li Lo; try (cbn in *; lia); try reflexivity. inversion Hs; subst.
  cbn [wrap_index_from cell_point]. f_equal; [|apply IH; [assumption|cbn in *; lia|cbn in *; lia]].
  f_equal. apply cong_mod_eq; [lia|]. apply wrap_index_spec. lia.
Qed.
Lemma cell_point_in_cell s : forall x, length x = length s -> cell_point s (map Z.of_nat x) = in_cell s x.
Proof.
  induction s as [|n s IH]; intros [|i x] L; try discriminate; [reflexivity|]. cbn [map cell_point in_cell]. f_equal; [|apply IH; cbn in L; lia].
  rewrite <- Nat2Z.inj_mod, Nat2Z.id. reflexivity.
Qed.
