(** The mean phase of a state. *)
From Coq Require Import Reals Lra Lia Psatz.
From Verif Require Import ZLib Csum DFT NumPy Index Spec IndexProofs Basis SpecBasis BasisProofs BasisProofs2 BasisProofs3 BasisFacts Operator SpecOperator
  OperatorProofs OperatorProofs2 Wavepacket SpecWavepacket WavepacketProofs WavepacketProofs2 Hamiltonian HamiltonianProofs HamiltonianProofs3 StateList SpecStateList StateListProofs StateListProofs3
  FourierProofs4 Observables SpecObservables ObservablesProofs DynamicsProofs.
Local Open Scope R_scope.
Local Open Scope C_scope.

Lemma turns_sum shape : forall direction idx, length direction = length shape -> length idx = length shape ->
  rsum (fun a => (IZR (Z.of_nat (nth a idx 0%nat)) * (IZR (nth a direction 0%Z) / INR (nth a shape 0%nat)))%R) (length shape) = turns shape direction idx.
Proof.
  induction shape as [|n shape IH]; intros [|d direction] [|i idx] Hd Hi; try discriminate; [reflexivity|].
  cbn [length turns]. rewrite rsum_shift. cbn [nth]. rewrite IH by (cbn in *; lia). rewrite <- INR_IZR_INZ. unfold Rdiv. ring.
Qed.

Lemma phase_turns shape direction x : length direction = length shape -> (x < nprod shape)%nat ->
  periodic_phase shape direction x = (2 * PI * turns shape direction (unravel shape x))%R.
Proof.
  intros Hd Hx. unfold periodic_phase. f_equal.
  rewrite <- (turns_sum shape direction (unravel shape x) Hd).
  - apply rsum_ext. intros a Ha. unfold stacked_nx_points, meshgrid_ravel, flatten, nx_points. reflexivity.
  - pose proof (unravel_in_shape shape x Hx) as H. clear -H. induction H; cbn; congruence.
Qed.

Section Phase.
  Variable same : basis -> basis -> bool.
  Hypothesis Hs : identity_test same.
  Variable axes : list basis.
  Hypothesis Hw : bwf (BTuple axes).
  Hypothesis Ho : explicit_orthonormal (BTuple axes).
  Let B := BTuple axes.
  Let shape := map bfund axes.

  Lemma points_overlap_sum v x : (x < nprod shape)%nat ->
    csum (fun j => overlap (points axes) B x j * v j) (bsize B) = amplitude B v x.
  Proof using Hw.
    intros Hx. unfold amplitude. apply csum_ext. intros j Hj. unfold B. rewrite overlap_points by assumption. ring.
  Qed.

  Lemma points_ok : bwf (points axes) /\ explicit_orthonormal (points axes) /\ compatible (points axes) B /\ bsize (points axes) = nprod shape.
  Proof using Hw.
    split; [apply points_wf, Hw|]. split; [apply full_bases; [apply points_wf, Hw|apply points_full]|].
    split; [apply compatible_points|apply points_size].
  Qed.

  Lemma periodic_x_spec s direction : sbasis s = B -> well_formed_list s -> length direction = length axes ->
    exists f, get_periodic_x same axes s (Some direction) = Some (slist s, f) /\ forall i, f i = mean_phase shape direction s i.
  Proof using Hs Hw Ho.
    intros Eb Ws Hd. destruct points_ok as (P1 & P2 & P3 & P4).
    unfold get_periodic_x, get_periodic_x_operator. rewrite Hd, Nat.eqb_refl.
    set (d := {| ashape := _; aflat := _ |}). change (as_fundamental_position axes) with (points axes). fold shape B.
    assert (Sd : ashape d = [bsize (points axes)]) by (rewrite P4; reflexivity).
    destruct (diagonal_convert same Hs (points axes) B P1 P2 Hw Ho P3 d Sd) as (o & Eo & _). rewrite Eo.
    destruct (expectation_list_diagonal same Hs (points axes) B P1 P2 Hw Ho P3 d s o Sd Eb Ws Eo) as (f & Hf & Ef).
    exists f. split; [exact Hf|]. intros i. rewrite Ef, P4. unfold mean_phase. apply csum_ext. intros x Hx.
    unfold d. cbn [aflat]. rewrite points_overlap_sum by exact Hx. rewrite phase_turns; [|unfold shape; rewrite map_length; exact Hd|exact Hx].
    unfold density. rewrite Eb. apply Cmult_comm.
  Qed.

  Lemma periodic_x_default s : get_periodic_x same axes s None = get_periodic_x same axes s (Some (map (fun _ => 1%Z) axes)).
  Proof using. reflexivity. Qed.

  Lemma periodic_x_raises s direction : length direction <> length axes -> get_periodic_x same axes s (Some direction) = None.
  Proof using. intros H. unfold get_periodic_x, get_periodic_x_operator. apply Nat.eqb_neq in H. rewrite H. reflexivity. Qed.

  (** ** Probabilities *)
  Lemma density_sum s i : sbasis s = B -> rsum (density s i) (nprod shape) = squared_norm s i.
  Proof using Hw Ho.
    intros Eb. apply RtoC_inj. rewrite <- !csum_RtoC.
    pose proof (grid_inner_same B (state_of s i) (state_of s i) Hw Ho) as G. unfold grid_inner, inner_product in G.
    transitivity (csum (fun x => Cconj (amplitude B (state_of s i) x) * amplitude B (state_of s i) x) (nprod shape)).
    { apply csum_ext. intros x Hx. unfold density. rewrite Eb, Cconj_mult_self. reflexivity. }
    change (bfund B) with (nprod shape) in G. rewrite G. unfold squared_norm. rewrite <- csum_RtoC, Eb.
    apply csum_ext. intros k Hk. apply Cconj_mult_self.
  Qed.

  Lemma mean_phase_bound s i direction : sbasis s = B -> Cmod (mean_phase shape direction s i) <= squared_norm s i.
  Proof using Hw Ho.
    intros Eb. rewrite <- (density_sum s i Eb). unfold mean_phase. eapply Rle_trans; [apply Cmod_csum|].
    apply Req_le. apply rsum_ext. intros x Hx. rewrite Cmod_mult, cis_mod, Cmod_R, Rabs_right; [ring|].
    apply Rle_ge. apply Cnorm2_nonneg.
  Qed.
End Phase.

(** ** Moving a state *)

Lemma move_in_shape shape : forall shift x, length shift = length shape -> in_shape x shape -> in_shape (move shape shift x) shape.
Proof.
  induction shape as [|n shape IH]; intros [|t shift] x Hl Hx; try discriminate; inversion Hx; subst; cbn [move]; [constructor|].
  constructor; [apply Nat.mod_upper_bound; lia|]. apply IH; [cbn in Hl; lia|assumption].
Qed.

Lemma move_back shape : forall shift x, length shift = length shape -> in_shape x shape ->
  move shape (map (fun p => (fst p - snd p mod fst p)%nat) (combine shape shift)) (move shape shift x) = x /\
  move shape shift (move shape (map (fun p => (fst p - snd p mod fst p)%nat) (combine shape shift)) x) = x.
Proof.
  induction shape as [|n shape IH]; intros [|t shift] x Hl Hx; try discriminate; inversion Hx; subst; cbn [move combine map fst snd]; [split; reflexivity|].
  match goal with H : Forall2 _ _ shape |- _ => destruct (IH shift _ ltac:(cbn in Hl; lia) H) as (A & B) end. rewrite A, B.
  assert (Hn : (0 < n)%nat) by lia. pose proof (Nat.mod_upper_bound t n ltac:(lia)) as Ht.
  split; f_equal.
  - rewrite Nat.add_mod_idemp_l by lia. rewrite <- Nat.add_assoc.
    rewrite (Nat.div_mod t n) at 1 by lia.
    replace (x0 + (n * (t / n) + t mod n + (n - t mod n)))%nat with (x0 + (t / n + 1) * n)%nat by nia.
    rewrite Nat.mod_add by lia. apply Nat.mod_small. assumption.
  - rewrite Nat.add_mod_idemp_l by lia. rewrite <- Nat.add_assoc.
    rewrite (Nat.div_mod t n) at 2 by lia.
    replace (x0 + (n - t mod n + (n * (t / n) + t mod n)))%nat with (x0 + (t / n + 1) * n)%nat by nia.
    rewrite Nat.mod_add by lia. apply Nat.mod_small. assumption.
Qed.

Lemma csum_move shape shift (f : nat -> C) : length shift = length shape ->
  csum (fun x => f (ravel shape (move shape shift (unravel shape x)))) (nprod shape) = csum f (nprod shape).
Proof.
  intros Hl. set (back := map (fun p => (fst p - snd p mod fst p)%nat) (combine shape shift)).
  assert (Hb : length back = length shape) by (unfold back; rewrite map_length, combine_length; lia).
  apply (csum_bij f (nprod shape) (nprod shape) (fun x => ravel shape (move shape shift (unravel shape x)))
                  (fun x => ravel shape (move shape back (unravel shape x)))).
  - intros i Hi. pose proof (unravel_in_shape shape i Hi) as Hx. split; [apply ravel_lt, move_in_shape; assumption|].
    rewrite unravel_ravel by (apply move_in_shape; assumption).
    unfold back. rewrite (proj1 (move_back shape shift _ Hl Hx)). apply ravel_unravel; assumption.
  - intros i Hi. pose proof (unravel_in_shape shape i Hi) as Hx. split; [apply ravel_lt, move_in_shape; assumption|].
    rewrite unravel_ravel by (apply move_in_shape; assumption).
    unfold back. rewrite (proj2 (move_back shape shift _ Hl Hx)). apply ravel_unravel; assumption.
Qed.

Lemma turns_move shape : forall direction shift x, length direction = length shape -> length shift = length shape -> in_shape x shape ->
  exists z : Z, (turns shape direction (move shape shift x) = turns shape direction x + turns shape direction shift + IZR z)%R.
Proof.
  induction shape as [|n shape IH]; intros [|d direction] [|t shift] x Hd Hl Hx; try discriminate; inversion Hx; subst; cbn [move turns].
  - exists 0%Z. lra.
  - match goal with H : Forall2 _ _ shape |- _ => destruct (IH direction shift _ ltac:(cbn in Hd; lia) ltac:(cbn in Hl; lia) H) as (z & E) end.
    exists (z - d * Z.of_nat ((x0 + t) / n))%Z. rewrite E, minus_IZR, mult_IZR, <- INR_IZR_INZ.
    assert (Hn : (0 < n)%nat) by lia. assert (INR n <> 0%R) by (apply not_0_INR; lia).
    pose proof (Nat.div_mod (x0 + t) n ltac:(lia)) as Q. apply (f_equal INR) in Q. rewrite !plus_INR, mult_INR in Q.
    replace (INR ((x0 + t) mod n)) with (INR x0 + INR t - INR n * INR ((x0 + t) / n))%R by lra. field. assumption.
Qed.

Lemma cis_turn (t : R) (z : Z) : cis (2 * PI * (t + IZR z)) = cis (2 * PI * t).
Proof. rewrite Rmult_plus_distr_l, cis_plus, cis_2PI_Z. ring. Qed.

Lemma mean_phase_move shape direction shift s s' i j : length direction = length shape -> length shift = length shape ->
  (forall x, in_shape x shape -> density s' j (ravel shape (move shape shift x)) = density s i (ravel shape x)) ->
  mean_phase shape direction s' j = cis (2 * PI * turns shape direction shift) * mean_phase shape direction s i.
Proof.
  intros Hd Hl H. unfold mean_phase.
  rewrite <- (csum_move shape shift (fun x => RtoC (density s' j x) * cis (2 * PI * turns shape direction (unravel shape x))) Hl).
  rewrite <- csum_scal_l. apply csum_ext. intros x Hx. pose proof (unravel_in_shape shape x Hx) as Hi.
  rewrite H by exact Hi. rewrite ravel_unravel by exact Hx.
  rewrite unravel_ravel by (apply move_in_shape; assumption).
  destruct (turns_move shape direction shift _ Hd Hl Hi) as (z & ->). rewrite cis_turn, Rmult_plus_distr_l, cis_plus. ring.
Qed.

Lemma mean_phase_point shape direction s i x0 : in_shape x0 shape ->
  (forall x, (x < nprod shape)%nat -> x <> ravel shape x0 -> density s i x = 0%R) ->
  mean_phase shape direction s i = RtoC (density s i (ravel shape x0)) * cis (2 * PI * turns shape direction x0).
Proof.
  intros Hx0 H. unfold mean_phase. pose proof (ravel_lt shape x0 Hx0) as Hlt.
  rewrite (csum_ext _ (fun x => cdelta (ravel shape x0) x * (RtoC (density s i x) * cis (2 * PI * turns shape direction (unravel shape x))))).
  - rewrite csum_delta_l by exact Hlt. rewrite unravel_ravel by exact Hx0. reflexivity.
  - intros x Hx. destruct (Nat.eq_dec x (ravel shape x0)) as [->|N].
    + rewrite cdelta_refl. ring.
    + rewrite cdelta_neq by congruence. rewrite H by assumption. ring.
Qed.
