(** The operators of [get_periodic_noise_operators_isotropic_stacked_fft]. *)
From Coq Require Import Reals Lra Lia Psatz.
From Verif Require Import ZLib Csum DFT NumPy Interp Index Spec IndexProofs InterpProofs InterpProofs2 Basis SpecBasis
  BasisProofs Operator SpecOperator OperatorProofs OperatorProofs2 Kernel SpecKernel KernelProofs KernelProofs2 KernelProofs3.
Local Open Scope R_scope.
Local Open Scope C_scope.

(** Product over the axes of omega(A_ax B_ax). *)
Fixpoint phase (F : list nat) (A B : nat -> Z) : C :=
  match F with
  | [] => 1
  | n :: F => omega n (A 0%nat * B 0%nat) * phase F (fun ax => A (S ax)) (fun ax => B (S ax))
  end.

Lemma phase_ext F : forall A B A' B', Forall (fun n => (0 < n)%nat) F ->
  (forall ax, (ax < length F)%nat -> Zcong (Z.of_nat (nth ax F 0%nat)) (A ax) (A' ax)) ->
  (forall ax, (ax < length F)%nat -> Zcong (Z.of_nat (nth ax F 0%nat)) (B ax) (B' ax)) ->
  phase F A B = phase F A' B'.
Proof.
  induction F as [|n F IH]; intros A B A' B' Hp HA HB; [reflexivity|]. apply Forall_cons_iff in Hp. destruct Hp as [Hn Hp].
  cbn [phase]. f_equal.
  - apply omega_cong; [assumption|]. specialize (HA 0%nat ltac:(cbn; lia)). specialize (HB 0%nat ltac:(cbn; lia)).
    cbn [nth] in *. destruct HA as [p HA], HB as [q HB]. rewrite HA, HB.
    exists (p * B' 0%nat + A' 0%nat * q + p * q * Z.of_nat n)%Z. ring.
  - apply IH; [assumption| |].
    + intros ax Hax. apply (HA (S ax)). cbn. lia.
    + intros ax Hax. apply (HB (S ax)). cbn. lia.
Qed.

Lemma phase_add F : forall A B B', phase F A (fun ax => (B ax + B' ax)%Z) = phase F A B * phase F A B'.
Proof.
  induction F as [|n F IH]; intros A B B'; cbn [phase]; [ring|]. rewrite IH.
  replace (A 0%nat * (B 0%nat + B' 0%nat))%Z with (A 0%nat * B 0%nat + A 0%nat * B' 0%nat)%Z by ring.
  rewrite omega_add. ring.
Qed.

Lemma phase_conj F : forall A B, Cconj (phase F A B) = phase F A (fun ax => (- B ax)%Z).
Proof.
  induction F as [|n F IH]; intros A B; cbn [phase]; [unfold Cconj, RtoC; cbn [fst snd]; f_equal; ring|].
  rewrite Cconj_mult, IH, omega_conj. f_equal. f_equal. ring.
Qed.

Definition at_axis (idx : list nat) (ax : nat) : Z := Z.of_nat (nth ax idx 0%nat).

Lemma phase_sum_0 F : forall B, Forall (fun n => (0 < n)%nat) F ->
  (forall ax, (ax < length F)%nat -> Zcong (Z.of_nat (nth ax F 0%nat)) (B ax) 0) ->
  csum (fun t => phase F (at_axis (unravel F t)) B) (nprod F) = RtoC (INR (nprod F)).
Proof.
  intros B Hp HB. rewrite (csum_ext _ (fun _ => 1)).
  - rewrite csum_const. ring.
  - intros t Ht. rewrite (phase_ext F _ B (at_axis (unravel F t)) (fun _ => 0%Z) Hp); [|intros; apply Zcong_refl|exact HB].
    generalize (at_axis (unravel F t)). clear. induction F as [|n F IH]; intros A; cbn [phase]; [reflexivity|].
    rewrite IH, Z.mul_0_r, omega_0. ring.
Qed.

Lemma phase_sum_neq F : forall B ax, Forall (fun n => (0 < n)%nat) F -> (ax < length F)%nat ->
  ~ Zcong (Z.of_nat (nth ax F 0%nat)) (B ax) 0 ->
  csum (fun t => phase F (at_axis (unravel F t)) B) (nprod F) = 0.
Proof.
  induction F as [|n F IH]; intros B ax Hp Hax HB; [cbn in Hax; lia|].
  apply Forall_cons_iff in Hp. destruct Hp as [Hn Hp].
  cbn [nprod]. rewrite csum_mul.
  assert (E : forall a, csum (fun j => phase (n :: F) (at_axis (unravel (n :: F) (a * nprod F + j))) B) (nprod F)
    = omega n (B 0%nat * Z.of_nat a) * csum (fun j => phase F (at_axis (unravel F j)) (fun ax => B (S ax))) (nprod F)).
  { intros a. rewrite <- csum_scal_l. apply csum_ext. intros j Hj. cbn [unravel phase].
    destruct (unravel_cons F a j Hj) as [-> ->]. unfold at_axis. cbn [nth]. f_equal. f_equal. ring. }
  rewrite (csum_ext _ _ _ (fun a _ => E a)). rewrite csum_scal_r.
  destruct ax as [|ax].
  - cbn [nth] in HB. rewrite omega_sum_neq by assumption. ring.
  - rewrite (IH (fun ax => B (S ax)) ax); [ring|assumption|cbn in Hax; lia|assumption].
Qed.

Lemma rsum_front (f : nat -> R) n : rsum f (S n) = (f 0%nat + rsum (fun i => f (S i)) n)%R.
Proof. induction n as [|n IH]; [cbn; ring|]. change (rsum f (S (S n))) with (rsum f (S n) + f (S n))%R. rewrite IH. cbn [rsum]. ring. Qed.

Lemma cis_phase F : forall A B,
  cis (rsum (fun ax => (2 * PI / INR (nth ax F 0%nat)) * IZR (A ax) * IZR (B ax))%R (length F)) = phase F A B.
Proof.
  induction F as [|n F IH]; intros A B; [apply cis_0|]. cbn [length]. rewrite rsum_front, cis_plus. cbn [phase nth]. f_equal.
  - unfold omega. f_equal. rewrite mult_IZR. unfold Rdiv. ring.
  - apply (IH (fun ax => A (S ax)) (fun ax => B (S ax))).
Qed.

Lemma omega_nd_phase F : forall a z, length a = length F -> length z = length F ->
  omega_nd F a z = phase F (at_axis a) (at_axis z).
Proof.
  induction F as [|n F IH]; intros [|i a] [|j z] Ha Hz; try discriminate; [reflexivity|].
  cbn [omega_nd phase]. rewrite IH by (injection Ha; injection Hz; auto). reflexivity.
Qed.

(** Rebuilding the padded kernel from its transform. *)
Lemma phase_rebuild F (p : list nat -> C) (u v : nat -> Z) d : Forall (fun n => (0 < n)%nat) F -> in_shape d F ->
  (forall ax, (ax < length F)%nat -> Zcong (Z.of_nat (nth ax F 0%nat)) (at_axis d ax) (u ax - v ax)) ->
  csum (fun t => csum (fun z => p (unravel F z) * phase F (at_axis (unravel F t)) (at_axis (unravel F z))) (nprod F)
                 * Cconj (phase F (at_axis (unravel F t)) u) * phase F (at_axis (unravel F t)) v) (nprod F)
  = RtoC (INR (nprod F)) * p d.
Proof.
  intros Hp Hd Hc.
  rewrite (csum_ext _ (fun t => csum (fun z => p (unravel F z) *
    phase F (at_axis (unravel F t)) (fun ax => (at_axis (unravel F z) ax + (- u ax + v ax))%Z)) (nprod F))).
  2:{ intros t Ht. rewrite <- csum_scal_r, <- csum_scal_r. apply csum_ext. intros z Hz.
      rewrite phase_conj, phase_add, phase_add. ring. }
  rewrite csum_swap.
  rewrite (csum_ext _ (fun z => p (unravel F z) * (RtoC (INR (nprod F)) * cdelta z (ravel F d)))).
  - rewrite (csum_ext _ (fun z => (p (unravel F z) * RtoC (INR (nprod F))) * cdelta z (ravel F d))) by (intros; ring).
    rewrite (csum_delta_r' (fun z => p (unravel F z) * RtoC (INR (nprod F)))) by (apply ravel_lt; assumption).
    rewrite unravel_ravel by assumption. ring.
  - intros z Hz. rewrite csum_scal_l. f_equal. destruct (Nat.eq_dec z (ravel F d)) as [->|Hne].
    + rewrite cdelta_refl, Cmult_1_r, unravel_ravel by assumption. apply phase_sum_0; [assumption|].
      intros ax Hax. destruct (Hc ax Hax) as [q ->]. exists q. ring.
    + rewrite cdelta_neq, Cmult_0_r by assumption.
      assert (Hidx : exists ax, (ax < length F)%nat /\ nth ax (unravel F z) 0%nat <> nth ax d 0%nat).
      { destruct (Forall_Exists_dec (fun ax => nth ax (unravel F z) 0%nat = nth ax d 0%nat)
          (fun ax => Nat.eq_dec _ _) (seq 0 (length F))) as [HA|HE].
        - exfalso. apply Hne. rewrite <- (ravel_unravel F z Hz). f_equal.
          apply (nth_ext _ _ 0%nat 0%nat).
          + rewrite unravel_length, (in_shape_length _ _ Hd). reflexivity.
          + intros ax Hax. rewrite unravel_length in Hax. rewrite Forall_forall in HA. apply HA. apply in_seq. lia.
        - apply Exists_exists in HE. destruct HE as [ax [Hin Hn]]. apply in_seq in Hin. exists ax. split; [lia|exact Hn]. }
      destruct Hidx as [ax [Hax Hn]]. apply (phase_sum_neq F _ ax Hp Hax).
      intros HZ. apply Hn. apply Nat2Z.inj. apply (Zcong_range_eq (Z.of_nat (nth ax F 0%nat)) 0).
      * change (Zcong (Z.of_nat (nth ax F 0%nat)) (at_axis (unravel F z) ax) (at_axis d ax)).
        destruct HZ as [q HZ]. destruct (Hc ax Hax) as [q' Hq']. exists (q - q')%Z. unfold at_axis in *. lia.
      * pose proof (in_shape_nth _ _ ax (unravel_in_shape F z Hz) Hax). lia.
      * pose proof (in_shape_nth _ _ ax Hd Hax). lia.
Qed.

Lemma periodic_sample_true shape : forall F, length F = length shape ->
  (forall ax, (ax < length F)%nat -> (0 < nth ax F 0 /\ nth ax shape 0 mod nth ax F 0 = 0)%nat) ->
  periodic_sample shape F = true.
Proof.
  induction shape as [|n shape IH]; intros [|f F] HL H; try discriminate; [reflexivity|]. cbn [periodic_sample].
  destruct (H 0%nat ltac:(cbn; lia)) as [H1 H2]. cbn [nth] in H1, H2. rewrite H2.
  destruct (Nat.eqb_spec f 0); [lia|]. cbn [negb andb Nat.eqb]. apply IH; [injection HL; auto|].
  intros ax Hax. apply (H (S ax)). cbn. lia.
Qed.

Lemma nprod_of_nth F : (forall ax, (ax < length F)%nat -> (0 < nth ax F 0)%nat) -> Forall (fun n => (0 < n)%nat) F.
Proof. intros H. apply Forall_forall. intros n Hn. apply (In_nth _ _ 0%nat) in Hn. destruct Hn as [ax [Hax <-]]. auto. Qed.

Lemma stacked_nk_freq shape ax i : (i < nprod shape)%nat -> (ax < length shape)%nat ->
  is_freq (nth ax shape 0%nat) (nth ax (unravel shape i) 0%nat) (stacked_nk_points shape ax i).
Proof.
  intros Hi Hax. destruct (stacked_nk_points_spec shape ax i Hi Hax) as [idx [E H]].
  unfold get_stacked_index in E. destruct (Z.leb_spec 0 (Z.of_nat i)); [|lia].
  destruct (Z.ltb_spec (Z.of_nat i) (Z.of_nat (nprod shape))); [|lia]. cbn [andb] in E. rewrite Nat2Z.id in E.
  injection E as <-. exact H.
Qed.

Section Stacked.
Variables (ap : bool) (b : basis) (shape F : list nat) (k : ndarray).
Hypothesis Hb : bsize b = nprod shape.
Hypothesis Hk : nprod (ashape k) = nprod shape.
Hypothesis HL : length F = length shape.
Hypothesis HF : forall ax, (ax < length F)%nat -> (0 < nth ax F 0 /\ nth ax shape 0 mod nth ax F 0 = 0)%nat.
Hypothesis Hpos : Forall (fun n => (0 < n)%nat) shape.

Lemma stacked_fft_rebuild :
  exists o D, get_periodic_noise_operators_isotropic_stacked_fft ap b shape shape k (Some F) = Some o /\
    diagonal_noise_wf o /\ noise_count o = nprod F /\
    get_diagonal_kernel_from_diagonal_operators o = Some D /\ ashape D = [(nprod shape * nprod shape)%nat] /\
    forall x y d e, in_shape x shape -> in_shape y shape -> displacement F d x y -> in_shape e shape ->
      same_slots (fun ax => Some (nth ax F 0%nat)) 0 shape e d ->
      entry2 (nprod shape) D (ravel shape x) (ravel shape y) = aflat k (ravel shape e).
Proof.
  assert (HpF : Forall (fun n => (0 < n)%nat) F) by (apply nprod_of_nth; intros; apply HF; assumption).
  assert (HnF := nprod_pos F HpF). assert (HnS := nprod_pos shape Hpos).
  unfold get_periodic_noise_operators_isotropic_stacked_fft, get_operators_for_isotropic_stacked_noise,
    get_noise_eigenvalues_isotropic_stacked_fft.
  rewrite periodic_sample_true by assumption. rewrite andb_false_r, HL, Nat.eqb_refl.
  rewrite (reshape_some k shape) by assumption.
  destruct (pad_ft_points_frequencies (RtoC 0) shape (stack shape (aflat k)) F (seq 0 (length shape))
    (fun ax => if Nat.ltb ax (length F) then Some (nth ax F 0%nat) else None)) as [s' [p [Hp [Hs HV]]]].
  { apply seq_NoDup. } { rewrite seq_length. symmetry. exact HL. }
  { apply Forall_forall. intros a Ha. apply in_seq in Ha. lia. }
  { split.
    - intros j Hj. rewrite seq_length in Hj. rewrite seq_nth by assumption. cbn [Nat.add].
      destruct (Nat.ltb_spec j (length F)); [reflexivity|lia].
    - intros a Ha. destruct (Nat.ltb_spec a (length F)); [|reflexivity]. exfalso. apply Ha. apply in_seq. lia. }
  cbn [aflat]. rewrite Hp.
  assert (s' = F) as ->.
  { destruct Hs as [H1 H2]. apply (nth_ext _ _ 0%nat 0%nat); [lia|]. intros ax Hax. rewrite H2 by lia.
    destruct (Nat.ltb_spec ax (length F)); [reflexivity|lia]. }
  cbv zeta. set (o := {| nops := _; neig := _ |}).
  assert (Hbs : nprod (map bsize (map BFund F)) = nprod F).
  { rewrite map_map. cbn [bsize]. rewrite map_id. reflexivity. }
  assert (Hc : noise_count o = nprod F) by exact Hbs.
  assert (Hw : diagonal_noise_wf o).
  { split; [split; [reflexivity|]|].
    - change (bsize (lbasis (nops o))) with (noise_count o). rewrite Hc.
      cbn [o nops ldata lrow ravel_array ashape array2 nprod]. rewrite Hb. ring.
    - rewrite Hc. reflexivity. }
  destruct (diagonal_kernel_spec o Hw) as [D [HD [HS HDE]]]; [lia|].
  cbn [o nops lrow] in HS, HDE. rewrite Hb in HS, HDE.
  exists o, D. split; [reflexivity|]. split; [exact Hw|]. split; [exact Hc|]. split; [exact HD|]. split; [exact HS|].
  intros x y d e Hx Hy Hd He Hsl.
  assert (Hdi : in_shape d F) by (apply (displacement_in_shape _ _ _ _ Hd)).
  rewrite HDE by (apply ravel_lt; assumption).
  transitivity (p d).
  2:{ rewrite (proj1 (HV d Hdi) e He).
      - unfold stack. reflexivity.
      - assert (G : forall sh e d m, (m + length sh = length F)%nat ->
          same_slots (fun ax => Some (nth ax F 0%nat)) m sh e d ->
          same_slots (fun ax => if Nat.ltb ax (length F) then Some (nth ax F 0%nat) else None) m sh e d).
        { induction sh as [|n sh IH]; intros [|i e'] [|j d'] m Hm; cbn [same_slots]; try tauto.
          cbn [length] in Hm. intros [A B]. split.
          - destruct (Nat.ltb_spec m (length F)); [exact A|lia].
          - apply IH; [lia|exact B]. }
        apply G; [lia|assumption]. }
  set (u := fun ax => stacked_nk_points shape ax (ravel shape x)).
  set (v := fun ax => stacked_nk_points shape ax (ravel shape y)).
  assert (Hcu : forall z ax, in_shape z shape -> (ax < length F)%nat ->
    Zcong (Z.of_nat (nth ax F 0%nat)) (stacked_nk_points shape ax (ravel shape z)) (at_axis z ax)).
  { intros z ax Hz Hax. destruct (HF ax Hax) as [F1 F2].
    destruct (stacked_nk_freq shape ax (ravel shape z) (ravel_lt _ _ Hz) ltac:(lia)) as [[q Hq] _].
    rewrite unravel_ravel in Hq by assumption. unfold at_axis.
    exists (q * Z.of_nat (nth ax shape 0 / nth ax F 0)%nat)%Z. rewrite Hq.
    rewrite (Nat.div_mod (nth ax shape 0) (nth ax F 0))%nat at 1 by lia. rewrite F2. nia. }
  assert (Hcd : forall ax, (ax < length F)%nat -> Zcong (Z.of_nat (nth ax F 0%nat)) (at_axis d ax) (u ax - v ax)).
  { intros ax Hax. eapply Zcong_trans with (at_axis x ax - at_axis y ax)%Z.
    - assert (G : forall F' d x y ax, displacement F' d x y -> (ax < length F')%nat ->
        Zcong (Z.of_nat (nth ax F' 0%nat)) (at_axis d ax) (at_axis x ax - at_axis y ax)).
      { induction F' as [|n F' IH]; intros [|a d'] [|b' x'] [|c y'] ax' Hd' Hax';
          cbn [displacement length] in *; try lia; try contradiction.
        destruct Hd' as [_ [Hc' Hd']]. destruct ax' as [|ax']; [exact Hc'|]. apply (IH d' x' y' ax' Hd'). lia. }
      apply G; assumption.
    - apply Zcong_sym. unfold u, v. destruct (Hcu x ax Hx Hax) as [q1 ->]. destruct (Hcu y ax Hy Hax) as [q2 ->].
      exists (q1 - q2)%Z. ring. }
  assert (E := phase_rebuild F p u v d HpF Hdi Hcd).
  assert (HIF : INR (nprod F) <> 0%R) by (apply not_0_INR; lia).
  assert (HIS : INR (nprod shape) <> 0%R) by (apply not_0_INR; lia).
  assert (Hent : forall t z, (t < nprod F)%nat -> in_shape z shape -> diag_entry (nops o) t (ravel shape z) =
    phase F (at_axis (unravel F t)) (fun ax => stacked_nk_points shape ax (ravel shape z)) * isqrt (nprod shape)).
  { intros t z Ht Hz. unfold diag_entry. cbn [o nops lrow ldata ravel_array aflat]. rewrite Hb.
    rewrite array2_flat by (apply ravel_lt; assumption). rewrite div_sqrt by assumption. f_equal.
    rewrite <- HL. rewrite (cis_phase F (fun ax => stacked_nk_points F ax t) (fun ax => stacked_nk_points shape ax (ravel shape z))).
    apply phase_ext; [assumption| |intros; apply Zcong_refl].
    intros ax Hax. destruct (stacked_nk_freq F ax t Ht Hax) as [H _]. exact H. }
  transitivity (RtoC (/ INR (nprod F)) * (RtoC (INR (nprod F)) * p d)).
  2:{ rewrite Cmult_assoc, <- RtoC_mult, Rinv_l by assumption. ring. }
  rewrite <- E, <- csum_scal_l. unfold diagonal_kernel_of. rewrite Hc. apply csum_ext. intros t Ht.
  rewrite !Hent by assumption. fold u v. unfold eigenvalue. cbn [o neig aflat]. unfold ifftn_forward.
  rewrite (csum_ext _ (fun z => p (unravel F z) * phase F (at_axis (unravel F t)) (at_axis (unravel F z)))).
  2:{ intros z Hz. rewrite omega_nd_phase by apply unravel_length. reflexivity. }
  set (S0 := csum _ _). rewrite Cconj_mult, isqrt_conj.
  unfold Rdiv. rewrite RtoC_mult.
  transitivity (RtoC (/ INR (nprod F)) * (isqrt (nprod shape) * isqrt (nprod shape) * RtoC (INR (nprod shape))) *
    (S0 * Cconj (phase F (at_axis (unravel F t)) u) * phase F (at_axis (unravel F t)) v)); [ring|].
  rewrite isqrt_sqr by assumption. ring.
Qed.
End Stacked.
