(** Conversions of probability vectors (C111). *)
From Coq Require Import Reals Psatz.
From Verif Require Import ZLib Csum DFT NumPy Index IndexProofs AxesProofs Spec Basis SpecBasis BasisProofs BasisProofs2
  BasisProofs3 BasisFacts IndexSum Lattice SpecReal Operator Wavepacket SpecWavepacket WavepacketProofs WavepacketProofs2 Hamiltonian SpecHamiltonian
  HamiltonianProofs HamiltonianProofs3 LocalizeProofs4 VolumeBasis SpecVolumeBasis VolumeBasisProofs ProbConvert SpecProbConvert.
Local Open Scope R_scope.
Local Open Scope C_scope.

Notation cplx p := (fun k => RtoC (p k)).

Lemma fundamental_pos axes : bwf (stacked axes) -> Forall (fun n => (0 < n)%nat) (fundamental_shape axes).
Proof.
  intros Hw. rewrite <- shape_bases. apply Forall_forall. intros n Hn. apply in_map_iff in Hn. destruct Hn as [b [<- Hb]].
  apply (bfund_pos b). exact (proj1 (Forall_forall _ _) (proj1 (bwf_tuple _) Hw) b Hb).
Qed.
Lemma nprod_pos shape : Forall (fun n => (0 < n)%nat) shape -> (0 < nprod shape)%nat.
Proof. induction 1; cbn [nprod]; nia. Qed.

Lemma zero_wave shape x : Forall (fun n => (0 < n)%nat) shape -> (x < nprod shape)%nat -> bstate (BTuple (map BFundT shape)) 0 x = isqrt (nprod shape).
Proof.
  intros Hp Hx. assert (Z : (0 < nprod shape)%nat) by lia.
  assert (B := bstate_ravel (map BFundT shape) (unravel shape 0) (unravel shape x)).
  rewrite map_bsize_FundT, map_bfund_FundT in B. specialize (B (unravel_in_shape shape 0 Z) (unravel_in_shape shape x Hx)).
  rewrite !ravel_unravel in B by assumption. rewrite B, axis_states_turns by (apply unravel_in_shape; assumption).
  replace (HamiltonianProofs3.turns shape (unravel shape 0) _) with 0%R.
  { rewrite Rmult_0_r. unfold cis. rewrite cos_0, sin_0. change (1, 0)%R with (RtoC 1). ring. }
  unfold HamiltonianProofs3.turns. symmetry. transitivity (rsum (fun _ => 0%R) (length shape)).
  2:{ clear. induction (length shape) as [|n IH]; cbn [rsum]; [reflexivity|]. rewrite IH. ring. }
  apply rsum_ext. intros a Ha.
  replace (nth a (unravel shape 0) 0%nat) with 0%nat.
  2:{ clear -Hp. revert a. induction Hp as [|n shape Hn Hp IH]; intros a; [destruct a; reflexivity|].
      assert (P := nprod_pos shape Hp).
      cbn [unravel]. rewrite Nat.div_0_l by lia. rewrite ?Nat.mod_0_l by lia. destruct a; [reflexivity|]. apply IH. }
  assert (Q := proj1 (Forall_forall _ _) Hp (nth a shape 0%nat) (nth_In _ _ Ha)). cbv beta in Q.
  unfold freq. replace (Z.leb _ _) with true; [rewrite Rmult_0_r; reflexivity|].
  symmetry. apply Z.leb_le. apply Z.div_pos; lia.
Qed.

(** Both forms of a probability vector. *)
Lemma prob_forms same d axes : identity_test same -> in_space d axes -> bwf (stacked axes) -> explicit_orthonormal (stacked axes) ->
  let N := nprod (fundamental_shape axes) in
  exists P M G H, stacked_basis_as_fundamental_position_basis axes = Some P /\ stacked_basis_as_fundamental_momentum_basis axes = Some M /\
    convert same (stacked axes) (stacked P) = Some G /\ convert same (stacked axes) (stacked M) = Some H /\
    (forall v x, (x < N)%nat -> G v x = amplitude (stacked axes) v x) /\
    (forall v, H v 0%nat = isqrt N * csum (G v) N).
Proof.
  intros Hs Hd Hw He N. set (F := fundamental_shape axes).
  destruct (fundamental_forms d axes Hd) as [P [M [EP [EM [_ [_ [SP [SM _]]]]]]]].
  assert (FT : map bfund (map la_basis axes) = F) by apply shape_bases.
  assert (HF : Forall (fun n => (0 < n)%nat) F) by exact (fundamental_pos axes Hw).
  assert (CP : compatible (stacked axes) (stacked P)).
  { rewrite SP. unfold stacked_basis_as_fundamental_basis. fold F. rewrite <- FT. apply compatible_position. }
  assert (CM : compatible (stacked axes) (stacked M)).
  { rewrite SM. unfold stacked_basis_as_fundamental_transformed_basis. fold F. rewrite <- FT. apply compatible_momenta. }
  destruct (proj2 (convert_some_iff same _ _) CP) as [G EG]. destruct (proj2 (convert_some_iff same _ _) CM) as [H EH].
  exists P, M, G, H. do 4 (split; [assumption|]).
  rewrite SP in EG. rewrite SM in EH. unfold stacked_basis_as_fundamental_basis, stacked_basis_as_fundamental_transformed_basis in EG, EH. fold F in EG, EH.
  assert (NF : forall g : nat -> basis, (forall n, bfund (g n) = n) -> bfund (BTuple (map g F)) = N).
  { intros g Hg. cbn [bfund]. rewrite map_map. unfold N. f_equal. unfold F. rewrite <- (map_id (fundamental_shape axes)) at 2. apply map_ext. exact Hg. }
  assert (NS : forall g : nat -> basis, (forall n, bsize (g n) = n) -> bsize (BTuple (map g F)) = N).
  { intros g Hg. cbn [bsize]. rewrite map_map. unfold N. f_equal. unfold F. rewrite <- (map_id (fundamental_shape axes)) at 2. apply map_ext. exact Hg. }
  assert (WP := position_wf F HF). assert (FP := position_full F). assert (WM : bwf (BTuple (map BFundT F))) by exact (momenta_wf F HF).
  assert (N0 : (0 < N)%nat) by exact (nprod_pos F HF).
  assert (GV : forall v x, (x < N)%nat -> G v x = amplitude (stacked axes) v x).
  { intros v x Hx. assert (A := convert_amplitude same _ _ G Hs Hw WP He (proj1 (full_bases _ WP FP)) EG v x ltac:(rewrite NF; [exact Hx|reflexivity])).
    rewrite <- A. rewrite <- (ravel_unravel F x Hx) at 2. rewrite amplitude_position by (apply unravel_in_shape; exact Hx).
    rewrite ravel_unravel by exact Hx. reflexivity. }
  split; [exact GV|]. intros v.
  rewrite (convert_orthonormal same Hs _ _ H Hw WM He EH v 0%nat) by (rewrite NS; [exact N0|reflexivity]).
  transitivity (csum (fun k => csum (fun x => Cconj (bstate (BTuple (map BFundT F)) 0 x) * bstate (stacked axes) k x * v k) N) (bsize (stacked axes))).
  { apply csum_ext. intros k Hk. unfold overlap.
    replace (bfund (stacked axes)) with N by (unfold N, stacked, fundamental_shape; cbn [bfund]; rewrite map_map; reflexivity).
    rewrite <- csum_scal_r. reflexivity. }
  rewrite csum_swap, <- csum_scal_l. apply csum_ext. intros x Hx. rewrite (GV v x Hx). unfold amplitude.
  rewrite <- csum_scal_l. apply csum_ext. intros k Hk. rewrite (zero_wave F x HF Hx).
  assert (Cconj (isqrt (nprod F)) = isqrt N) as -> by (unfold isqrt, Cconj, RtoC; cbn; rewrite Ropp_0; reflexivity). ring.
Qed.

Lemma sqrt_isqrt N : (0 < N)%nat -> RtoC (sqrt (INR N)) * isqrt N = 1.
Proof.
  intros H. unfold isqrt. rewrite <- RtoC_mult. f_equal. apply Rinv_r. apply Rgt_not_eq, sqrt_lt_R0, lt_0_INR. exact H.
Qed.

Lemma position_form same d axes p : identity_test same -> in_space d axes -> bwf (stacked axes) -> explicit_orthonormal (stacked axes) ->
  let N := nprod (fundamental_shape axes) in
  exists P M r s, convert_probability_vector_to_position_basis same axes p = Some (P, r) /\
    convert_probability_vector_to_momentum_basis same axes p = Some (M, s) /\
    stacked P = stacked_basis_as_fundamental_basis axes /\ stacked M = stacked_basis_as_fundamental_transformed_basis axes /\
    (forall x, (x < N)%nat -> r x = amplitude (stacked axes) (cplx p) x) /\
    csum r N = RtoC (sqrt (INR N)) * s 0%nat.
Proof.
  intros Hs Hd Hw He N. destruct (prob_forms same d axes Hs Hd Hw He) as [P [M [G [H [EP [EM [EG [EH [HG HH]]]]]]]]].
  exists P, M, (G (cplx p)), (H (cplx p)).
  unfold convert_probability_vector_to_position_basis, convert_probability_vector_to_momentum_basis, convert_probability_vector_to_basis.
  rewrite EP, EM, EG, EH. do 2 (split; [reflexivity|]).
  destruct (fundamental_forms d axes Hd) as [P' [M' [EP' [EM' [_ [_ [SP [SM _]]]]]]]].
  rewrite EP in EP'. rewrite EM in EM'. injection EP' as <-. injection EM' as <-. do 2 (split; [assumption|]).
  split; [intros x Hx; exact (HG _ x Hx)|]. rewrite (HH (cplx p)). fold N.
  rewrite Cmult_assoc, (sqrt_isqrt N) by exact (nprod_pos _ (fundamental_pos axes Hw)). ring.
Qed.

(** ** Axes of points *)
Lemma point_state a k : point_axis a -> bwf (la_basis a) -> (k < bsize (la_basis a))%nat ->
  exists q, (q < bfund (la_basis a))%nat /\ forall x, bstate (la_basis a) k x = cdelta q x.
Proof.
  destruct a as [b dl]. unfold point_axis. cbn [la_basis]. destruct b; intros Hp Hw Hk; try contradiction; cbn in *.
  - exists k. auto.
  - exists (slot N (freq n k)). split; [apply slot_lt; lia|auto].
  - exists (sample_pos n step offset k). split; [apply sample_pos_lt; lia|auto].
Qed.
Lemma point_states axes : Forall point_axis axes -> bwf (stacked axes) -> forall k, in_shape k (map bsize (map la_basis axes)) ->
  isum (map bfund (map la_basis axes)) (axis_states (map la_basis axes) k) = 1 /\
  forall x, nonnegative (axis_states (map la_basis axes) k x).
Proof.
  intros Hp. induction Hp as [|a axes Ha Hp IH]; intros Hw k Hk.
  - inversion Hk; subst. cbn. split; [reflexivity|]. intros x. split; cbn; lra.
  - cbn [map] in Hk. inversion Hk as [|k1 n k' ns Hk1 Hk']; subst.
    assert (Wa : bwf (la_basis a) /\ bwf (stacked axes)) by exact Hw. destruct Wa as [Wa Wr].
    destruct (IH Wr k' Hk') as [I1 I2]. destruct (point_state a k1 Ha Wa Hk1) as [q [Hq Sq]]. split.
    + cbn [map isum axis_states].
      transitivity (csum (fun x => cdelta q x * isum (map bfund (map la_basis axes)) (axis_states (map la_basis axes) k')) (bfund (la_basis a))).
      { apply csum_ext. intros x Hx. rewrite isum_scal_l, Sq. reflexivity. }
      rewrite csum_delta_l by exact Hq. exact I1.
    + intros [|x1 x]; cbn [map axis_states]; [split; cbn; lra|]. rewrite Sq. destruct (I2 x) as [J1 J2]. unfold cdelta, nonnegative.
      destruct (q =? x1)%nat; cbn; rewrite J1; split; lra.
Qed.

Lemma nonneg_csum (f : nat -> C) n : (forall i, (i < n)%nat -> nonnegative (f i)) -> nonnegative (csum f n).
Proof.
  induction n as [|n IH]; intros H; [split; cbn; lra|]. rewrite csum_S. destruct (IH ltac:(auto)) as [A B]. destruct (H n ltac:(lia)) as [A' B'].
  split; cbn; lra.
Qed.

Lemma points_preserve same d axes p : identity_test same -> in_space d axes -> bwf (stacked axes) -> Forall point_axis axes ->
  (forall k, (k < bsize (stacked axes))%nat -> (0 <= p k)%R) ->
  exists P r, convert_probability_vector_to_position_basis same axes p = Some (P, r) /\
    csum r (nprod (fundamental_shape axes)) = RtoC (rsum p (bsize (stacked axes))) /\
    forall x, (x < nprod (fundamental_shape axes))%nat -> nonnegative (r x).
Proof.
  intros Hs Hd Hw Hp Hn.
  assert (He : explicit_orthonormal (stacked axes)).
  { clear -Hp. induction Hp as [|a axes Ha Hp IH]; [exact I|]. split; [|exact IH]. destruct a as [b dl]. unfold point_axis in Ha. cbn [la_basis] in *.
    destruct b; try contradiction; exact I. }
  destruct (position_form same d axes p Hs Hd Hw He) as [P [M [r [s [E [_ [_ [_ [Hr _]]]]]]]]]. exists P, r. split; [exact E|].
  set (F := fundamental_shape axes) in *. set (bs := map la_basis axes) in *.
  assert (FT : map bfund bs = F) by apply shape_bases.
  assert (V : forall x, in_shape x F -> r (ravel F x) = isum (map bsize bs) (fun k => RtoC (p (ravel (map bsize bs) k)) * axis_states bs k x)).
  { intros x Hx. rewrite Hr by (apply ravel_lt; exact Hx). unfold stacked. fold bs. rewrite <- FT. apply amplitude_isum. rewrite FT. exact Hx. }
  split.
  - rewrite isum_ravel. rewrite (isum_ext F _ _ V), isum_swap.
    transitivity (isum (map bsize bs) (fun k => RtoC (p (ravel (map bsize bs) k)))).
    { apply isum_ext. intros k Hk. rewrite isum_scal_l, <- FT. unfold bs. rewrite (proj1 (point_states axes Hp Hw k Hk)). ring. }
    rewrite <- isum_ravel with (v := cplx p). unfold stacked. fold bs. cbn [bsize]. apply csum_RtoC.
  - intros x Hx. rewrite <- (ravel_unravel F x Hx), V by (apply unravel_in_shape; exact Hx). 
    rewrite <- isum_flat. apply nonneg_csum. intros t Ht.
    destruct (proj2 (point_states axes Hp Hw (unravel (map bsize bs) t) (unravel_in_shape _ _ Ht)) (unravel F x)) as [A B].
    rewrite ravel_unravel by exact Ht. assert (Q := Hn t Ht). fold bs in A, B. split; cbn; rewrite A; [ring|].
    rewrite Rmult_0_r, Rminus_0_r. apply Rmult_le_pos; assumption.
Qed.

(** ** Axes of waves *)
Lemma waves_total same d axes p : identity_test same -> in_space d axes -> bwf (stacked axes) -> Forall wave_axis axes ->
  exists P r, convert_probability_vector_to_position_basis same axes p = Some (P, r) /\
    csum r (nprod (fundamental_shape axes)) = RtoC (sqrt (INR (nprod (fundamental_shape axes))) * p 0%nat).
Proof.
  intros Hs Hd Hw Hp.
  assert (EB : map la_basis axes = map BFundT (fundamental_shape axes)).
  { unfold fundamental_shape. rewrite map_map. apply map_ext_in. intros a Ha. assert (Q := proj1 (Forall_forall _ _) Hp a Ha).
    destruct a as [b dl]. unfold wave_axis in Q. cbn [la_basis] in *. destruct b; try contradiction. reflexivity. }
  assert (He : explicit_orthonormal (stacked axes)).
  { clear -Hp. induction Hp as [|a axes Ha Hp IH]; [exact I|]. split; [|exact IH]. destruct a as [b dl]. unfold wave_axis in Ha. cbn [la_basis] in *.
    destruct b; try contradiction; exact I. }
  destruct (prob_forms same d axes Hs Hd Hw He) as [P [M [G [H [EP [EM [EG [EH [HG HH]]]]]]]]].
  exists P, (G (cplx p)). unfold convert_probability_vector_to_position_basis, convert_probability_vector_to_basis. rewrite EP, EG. split; [reflexivity|].
  destruct (fundamental_forms d axes Hd) as [P' [M' [EP' [EM' [_ [_ [SP [SM _]]]]]]]]. rewrite EM in EM'. injection EM' as <-.
  assert (N0 : (0 < nprod (fundamental_shape axes))%nat) by exact (nprod_pos _ (fundamental_pos axes Hw)).
  assert (H0 : H (cplx p) 0%nat = RtoC (p 0%nat)).
  { assert (SE : stacked M = stacked axes) by (rewrite SM; unfold stacked; rewrite EB; reflexivity). rewrite SE in EH.
    assert (L0 : (0 < bsize (stacked axes))%nat) by (unfold stacked; cbn [bsize]; rewrite EB, map_bsize_FundT; exact N0).
    rewrite (convert_orthonormal same Hs _ _ H Hw Hw He EH (cplx p) 0%nat L0).
    rewrite (csum_ext _ (fun k => cdelta 0 k * RtoC (p k))).
    - apply csum_delta_l with (f := cplx p). exact L0.
    - intros k Hk. rewrite (explicit_orthonormal_sound _ Hw He 0%nat k L0 Hk). reflexivity. }
  assert (HH0 := HH (cplx p)). rewrite H0 in HH0. rewrite RtoC_mult, HH0, Cmult_assoc, sqrt_isqrt by exact N0. ring.
Qed.
