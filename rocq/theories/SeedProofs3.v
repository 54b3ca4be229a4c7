(** The free states are translations of one another and as concentrated as their momenta allow. *)
From Coq Require Import Reals Lra Lia FunctionalExtensionality.
From Verif Require Import ZLib Csum DFT NumPy Interp InterpProofs Index IndexProofs Spec Basis SpecBasis BasisProofs
  BasisProofs2 LatticeProofs Operator SpecOperator OperatorProofs IndexSum Reduce ReduceProofs2 Wavepacket SpecWavepacket WavepacketProofs WavepacketProofs2 WavepacketProofs3
  HamiltonianProofs DynamicsProofs Localize
  LocalizeProofs4 LocalizeProofs5 OverlapProofs3 StateList SpecStateList StateListProofs3 SeedStates SpecSeed SeedProofs SeedProofs2.
Local Open Scope R_scope.
Local Open Scope C_scope.

Lemma amplitude_ext b u v x : (forall k, (k < bsize b)%nat -> u k = v k) -> amplitude b u x = amplitude b v x.
Proof. intros H. unfold amplitude. apply csum_ext. intros k Hk. rewrite H by exact Hk. reflexivity. Qed.

Lemma sample_freqs_nth shape : forall f a, length f = length shape -> (a < length shape)%nat ->
  nth a (sample_freqs shape f) 0%Z = freq (nth a shape 0%nat) (nth a f 0%nat).
Proof. induction shape as [|n shape IH]; intros [|i f] a L Ha; cbn in L, Ha; try lia. destruct a as [|a]; [reflexivity|]. cbn [sample_freqs nth]. apply IH; lia. Qed.

Lemma band_freqs_sample shape f : in_shape f shape -> band_freqs shape (ravel shape f) = sample_freqs shape f.
Proof.
  intros Hf. assert (L := in_shape_length _ _ Hf). apply (nth_ext _ _ 0%Z 0%Z).
  - rewrite band_freqs_length, sample_freqs_length by lia. reflexivity.
  - rewrite band_freqs_length. intros a Ha. rewrite band_freqs_nth by exact Ha. rewrite unravel_ravel by exact Hf.
    rewrite sample_freqs_nth by lia. reflexivity.
Qed.

Lemma band_centre_map2 shape : forall q f, band_centre shape q f = map2 (fun a b => (a * Z.of_nat b)%Z) (sample_freqs shape f) q.
Proof. induction shape as [|n shape IH]; intros [|q1 q] [|i f]; try reflexivity. cbn [band_centre sample_freqs map2]. rewrite IH. reflexivity. Qed.

Lemma band_centre_length shape : forall q f, length q = length shape -> length f = length shape -> length (band_centre shape q f) = length shape.
Proof. induction shape as [|n shape IH]; intros [|q1 q] [|i f] L1 L2; cbn in *; try lia. rewrite IH by lia. reflexivity. Qed.

Lemma supercell_assoc ls : forall s q, supercell ls (supercell s q) = supercell (supercell ls s) q.
Proof. induction ls as [|l ls IH]; intros [|a s] [|b q]; try reflexivity. cbn [supercell]. rewrite IH. f_equal. lia. Qed.

Lemma supercell_le s : forall q, length q = length s -> Forall (fun l => (0 < l)%nat) q -> Forall2 le s (supercell s q).
Proof.
  induction s as [|a s IH]; intros [|b q] L H; cbn in L; try lia; [constructor|]. inversion H; subst. cbn [supercell]. constructor; [nia|]. apply IH; [lia|assumption].
Qed.

Lemma zero_freqs shape : Forall (fun l => (0 < l)%nat) shape -> forall n w, plane n (map Z.opp (sample_freqs shape (map (fun _ => 0%nat) shape))) w = 1.
Proof.
  induction 1 as [|a shape Ha Hs IH]; intros n w; [destruct n; reflexivity|]. cbn [map sample_freqs]. destruct n as [|m n]; [reflexivity|].
  destruct w as [|w1 w]; [reflexivity|]. cbn [plane]. rewrite IH. replace (freq a 0) with 0%Z; [rewrite Z.mul_0_l, omega_0; ring|].
  unfold freq. replace (Z.of_nat 0 <=? (Z.of_nat a - 1) / 2)%Z with true; [reflexivity|]. symmetry. apply Z.leb_le. apply Z.div_pos; lia.
Qed.

Section Localised.
  Variables (laxes saxes : list basis) (shape q : list nat).
  Let ls := map bfund laxes.
  Let ss := map bfund saxes.
  Let n := supercell ls shape.
  Let N := supercell ls ss.
  Hypothesis Hls : Forall (fun l => (0 < l)%nat) ls.
  Hypothesis Hshape : Forall (fun l => (0 < l)%nat) shape.
  Hypothesis Hq : Forall (fun l => (0 < l)%nat) q.
  Hypothesis Hne : shape <> [].
  Hypothesis L1 : length laxes = length shape.
  Hypothesis L2 : length q = length shape.
  Hypothesis Hss : ss = supercell shape q.

  Lemma lo_l2 : length saxes = length shape.
  Proof using L2 Hss. replace (length saxes) with (length ss) by apply map_length. rewrite Hss. apply supercell_length. symmetry; exact L2. Qed.
  Lemma lo_le : Forall2 le shape ss. Proof using L2 Hss Hq. rewrite Hss. apply supercell_le; [exact L2|exact Hq]. Qed.
  Lemma lo_N : N = supercell n q. Proof using Hss. unfold N, n. rewrite Hss. apply supercell_assoc. Qed.
  Lemma lo_ln : length n = length shape. Proof using L1. apply fr_ln. exact L1. Qed.
  Lemma lo_lN : length N = length shape. Proof using L1 L2 Hss. apply fr_lN; [exact L1|apply lo_l2]. Qed.
  Lemma lo_n_pos : Forall (fun l => (0 < l)%nat) n. Proof using Hls Hshape L1. apply fr_n_pos; assumption. Qed.
  Lemma lo_N_pos : Forall (fun l => (0 < l)%nat) N.
  Proof using Hls Hshape L1 L2 Hss Hq. unfold N. apply (fr_N_pos laxes saxes shape); try assumption; [apply lo_l2|apply lo_le]. Qed.

  Lemma free_translated s f x : free_states laxes saxes shape = Some s -> in_shape f shape -> in_shape x N ->
    amplitude (sbasis s) (state_of s (ravel shape f)) (ravel N x) =
    amplitude (sbasis s) (state_of s 0) (ravel N (displaced N (band_centre shape q f) x)).
  Proof using Hls Hshape L1 L2 Hss Hq Hne.
    intros E Hf Hx. destruct (free_spec laxes saxes shape Hls Hshape Hne L1 lo_l2 lo_le) as [s' [E1 [_ [E3 [_ E4]]]]].
    rewrite E in E1. injection E1 as <-. fold ls ss in E3. fold n N in E3. fold ls in E4. fold n in E4. rewrite E3.
    assert (Ln : length n = length N) by (rewrite lo_ln, lo_lN; reflexivity). assert (Lf := in_shape_length _ _ Hf).
    assert (Sz : bsize (BTuple (cut_momenta n N)) = nprod n) by (cbn [bsize]; rewrite cut_bsize by exact Ln; reflexivity).
    assert (Z0 : ravel shape (map (fun _ => 0%nat) shape) = 0%nat).
    { clear. induction shape as [|a sh IH]; [reflexivity|]. cbn [map ravel]. rewrite IH. reflexivity. }
    rewrite (amplitude_ext _ _ (fun k => isqrt (nprod n) * plane n (map Z.opp (sample_freqs shape f)) (map Z.of_nat (unravel n k)))).
    2:{ rewrite Sz. intros k Hk. rewrite E4 by (try exact Hk; apply ravel_lt; exact Hf). rewrite band_freqs_sample by exact Hf. reflexivity. }
    rewrite (amplitude_ext _ (state_of s 0) (fun k => isqrt (nprod n))).
    2:{ rewrite Sz. intros k Hk. rewrite E4 by (try exact Hk; apply nprod_pos; exact Hshape). rewrite <- Z0 at 1. rewrite band_freqs_sample by (apply zeros_in; exact Hshape).
        rewrite zero_freqs by exact Hshape. ring. }
    apply cut_translate; [apply lo_N_pos|exact Ln|exact Hx|rewrite band_centre_length by lia; symmetry; apply lo_lN|].
    intros t Ht. rewrite band_centre_map2. rewrite lo_N. apply free_phase; try assumption.
    - rewrite lo_ln. exact L2.
    - rewrite sample_freqs_length, lo_ln by lia. reflexivity.
    - apply IndexProofs.unravel_length.
    - apply lo_n_pos.
    - apply unravel_in_shape. exact Ht.
  Qed.

  Lemma free_peak s f : free_states laxes saxes shape = Some s -> in_shape f shape ->
    Cnorm2 (amplitude (sbasis s) (state_of s (ravel shape f)) (ravel N (on_grid N (band_centre shape q f)))) = (INR (nprod n) / INR (nprod N))%R.
  Proof using Hls Hshape L1 L2 Hss Hq Hne.
    intros E Hf. assert (Lf := in_shape_length _ _ Hf). assert (Lc : length (band_centre shape q f) = length N) by (rewrite band_centre_length by lia; symmetry; apply lo_lN).
    assert (Ln : length n = length N) by (rewrite lo_ln, lo_lN; reflexivity).
    rewrite free_translated; [|exact E|exact Hf|apply displaced_in; [apply lo_N_pos|rewrite map_length; exact Lc|apply map_length]].
    rewrite displaced_grid by (exact Lc || apply lo_N_pos).
    destruct (free_spec laxes saxes shape Hls Hshape Hne L1 lo_l2 lo_le) as [s' [E1 [_ [E3 [_ E4]]]]].
    rewrite E in E1. injection E1 as <-. fold ls ss in E3. fold n N in E3. fold ls in E4. fold n in E4. rewrite E3.
    rewrite cut_at_zero by (exact Ln || apply lo_N_pos).
    assert (Z0 : ravel shape (map (fun _ => 0%nat) shape) = 0%nat).
    { clear. induction shape as [|a sh IH]; [reflexivity|]. cbn [map ravel]. rewrite IH. reflexivity. }
    rewrite (csum_ext _ (fun _ => isqrt (nprod n))).
    2:{ intros k Hk. rewrite E4 by (try exact Hk; apply nprod_pos; exact Hshape). rewrite <- Z0 at 1. rewrite band_freqs_sample by (apply zeros_in; exact Hshape).
        rewrite zero_freqs by exact Hshape. ring. }
    rewrite csum_const, !Cnorm2_mult. unfold isqrt.
    assert (Pn : (0 < INR (nprod n))%R) by (apply lt_0_INR, nprod_pos, lo_n_pos).
    assert (PN : (0 < INR (nprod N))%R) by (apply lt_0_INR, nprod_pos, lo_N_pos).
    assert (NR : forall r : R, Cnorm2 (RtoC r) = (r * r)%R) by (intros r; unfold Cnorm2; cbn; ring). rewrite !NR.
    rewrite <- !Rinv_mult, !sqrt_sqrt by lra. field. lra.
  Qed.

  Lemma free_bound s v x : free_states laxes saxes shape = Some s -> in_shape x N ->
    (Cnorm2 (amplitude (sbasis s) v (ravel N x)) <= INR (nprod n) / INR (nprod N) * rsum (fun t => Cnorm2 (v t)) (bsize (sbasis s)))%R.
  Proof using Hls Hshape L1 L2 Hss Hq Hne.
    intros E Hx. destruct (free_spec laxes saxes shape Hls Hshape Hne L1 lo_l2 lo_le) as [s' [E1 [_ [E3 _]]]].
    rewrite E in E1. injection E1 as <-. fold ls ss in E3. fold n N in E3. rewrite E3.
    assert (Ln : length n = length N) by (rewrite lo_ln, lo_lN; reflexivity).
    replace (bsize (BTuple (cut_momenta n N))) with (nprod n) by (cbn [bsize]; rewrite cut_bsize by exact Ln; reflexivity).
    apply cut_bound; [apply lo_N_pos|exact Ln|exact Hx].
  Qed.
End Localised.
