(** Continuous potentials, derivatives, truncation and normalisation of potentials. *)
From Coq Require Import Reals Psatz.
From Coquelicot Require Import Coquelicot.
From Verif Require Import ZLib Csum DFT NumPy Interp Spec InterpProofs Index IndexProofs SpecReal Lattice LatticeProofs
  Basis SpecBasis BasisProofs BasisProofs2 BasisProofs3 BasisFacts Operator SpecOperator OperatorProofs OperatorProofs2 IndexSum
  Wavepacket SpecWavepacket WavepacketProofs2 Hamiltonian SpecHamiltonian HamiltonianProofs HamiltonianProofs2 HamiltonianProofs3.
Local Open Scope R_scope.
Local Open Scope C_scope.

Section Cont.
  Variable same : basis -> basis -> bool.
  Hypothesis Hs : identity_test same.
  Variable axes : list basis.
  Hypothesis Hw : bwf (BTuple axes).
  Hypothesis Ho : explicit_orthonormal (BTuple axes).
  Variables delta inv : nat -> nat -> R.
  Hypothesis Hinv : is_inverse (length axes) delta inv.
  Let shape := map bfund axes.

  Lemma shape_inverse : is_inverse (length shape) delta inv.
  Proof using Hinv. unfold shape. rewrite map_length. exact Hinv. Qed.
  Lemma shape_pos : Forall (fun n => (0 < n)%nat) shape.
  Proof using Hw. apply fund_shape_pos. exact Hw. Qed.

  Lemma continuous_converts data : exists F, convert same (BTuple axes) (momenta shape) = Some F /\
    get_continuous_potential same axes inv data = Some (fourier_series shape inv (F data)) /\
    forall v x, (x < nprod shape)%nat -> amplitude (momenta shape) (F v) x = amplitude (BTuple axes) v x.
  Proof using Hs Hw Ho.
    assert (C : exists F, convert same (BTuple axes) (momenta shape) = Some F).
    { apply convert_some_iff; try assumption; apply compatible_momenta. }
    destruct C as [F E].
    exists F. split; [exact E|]. split.
    - unfold get_continuous_potential, convert_potential_to_basis. rewrite as_fundamental_transformed_momenta. fold shape.
      rewrite E. reflexivity.
    - intros v x Hx. apply (convert_amplitude same (BTuple axes) (momenta shape)); try assumption.
      + apply momenta_wf, shape_pos.
      + apply momenta_complete, shape_pos.
      + rewrite momenta_fund. assumption.
  Qed.

  Lemma continuous_total data : exists f, get_continuous_potential same axes inv data = Some f.
  Proof using Hs Hw Ho. destruct (continuous_converts data) as [F [_ [E _]]]. eexists. exact E. Qed.

  Lemma continuous_grid data f idx x : get_continuous_potential same axes inv data = Some f ->
    in_shape idx shape -> grid_point shape delta idx x -> f x = amplitude (BTuple axes) data (ravel shape idx).
  Proof using Hs Hw Ho Hinv.
    intros Hf Hi Hx. destruct (continuous_converts data) as [F [_ [E A]]]. rewrite Hf in E. injection E as ->.
    rewrite (series_grid shape delta inv _ idx x shape_inverse Hi Hx). apply A. apply ravel_lt. exact Hi.
  Qed.

  Lemma continuous_periodic data f a x x' : get_continuous_potential same axes inv data = Some f ->
    (a < length axes)%nat -> translated (length axes) delta a x x' -> f x' = f x.
  Proof using Hs Hw Ho Hinv.
    intros Hf Ha Hx. destruct (continuous_converts data) as [F [_ [E A]]]. rewrite Hf in E. injection E as ->.
    apply (series_periodic shape delta inv _ a); [exact shape_inverse| |]; unfold shape; rewrite map_length; assumption.
  Qed.

  Lemma continuous_real data f x : get_continuous_potential same axes inv data = Some f ->
    Forall Nat.Odd shape -> (forall i, (i < nprod shape)%nat -> snd (amplitude (BTuple axes) data i) = 0%R) ->
    snd (f x) = 0%R.
  Proof using Hs Hw Ho Hinv.
    intros Hf Hod Hr. destruct (continuous_converts data) as [F [_ [E A]]]. rewrite Hf in E. injection E as ->.
    apply (series_real shape delta); [exact shape_inverse|assumption|]. intros i Hi. rewrite A by assumption. auto.
  Qed.

  Lemma derivative_raises data axis :
    get_potential_derivative same axes inv data axis = None <-> python_index (length axes) axis = None.
  Proof using Hs Hw Ho.
    destruct (continuous_converts data) as [F [E _]].
    unfold get_potential_derivative, convert_potential_to_basis. rewrite as_fundamental_transformed_momenta. fold shape.
    rewrite E. destruct (python_index (length axes) axis); split; congruence.
  Qed.

  Lemma derivative_spec data axis c f d : get_continuous_potential same axes inv data = Some f ->
    python_index (length axes) axis = Some c -> get_potential_derivative same axes inv data axis = Some d ->
    exists g, get_continuous_potential same (map BFundT shape) inv (aflat d) = Some g /\
      forall x, cderivative (fun t => f (moved x c t)) (x c) (g x).
  Proof using Hs Hw Ho Hinv.
    intros Hf Hc Hd. destruct (continuous_converts data) as [F [E [G A]]]. rewrite Hf in G. injection G as ->.
    assert (Hlt : (c < length shape)%nat).
    { apply python_index_spec in Hc. unfold shape. rewrite map_length. tauto. }
    unfold get_potential_derivative, convert_potential_to_basis in Hd. rewrite as_fundamental_transformed_momenta in Hd.
    fold shape in Hd. rewrite E, Hc in Hd. injection Hd as <-. cbn [aflat].
    unfold get_continuous_potential, convert_potential_to_basis. rewrite as_fundamental_transformed_momenta, map_bfund_FundT.
    destruct (convert_momenta_self same shape Hs shape_pos) as [I [EI VI]].
    change (BTuple (map BFundT shape)) with (momenta shape). rewrite EI. eexists. split; [reflexivity|].
    intros x. cbn [aflat].
    assert (S : forall u v, (forall j, (j < nprod shape)%nat -> u j = v j) -> fourier_series shape inv u x = fourier_series shape inv v x).
    { intros u v H. unfold fourier_series. apply csum_ext. intros j Hj. rewrite H by assumption. reflexivity. }
    rewrite (S _ _ (fun j Hj => VI _ j Hj)). apply series_derive. exact Hlt.
  Qed.
End Cont.

(** A grid with an even number of points: real values, complex interpolant. *)
Lemma continuous_even same : identity_test same ->
  exists data f, get_continuous_potential same [BFund 2] (fun _ _ => 1%R) data = Some f /\
    (forall i, (i < 2)%nat -> snd (amplitude (BTuple [BFund 2]) data i) = 0%R) /\
    f (fun _ => 1 / 4)%R = - Ci.
Proof.
  intros Hs. set (data := fun i => match i with 0%nat => 1 | _ => - (1) end : C).
  assert (Hw : bwf (BTuple [BFund 2])) by (cbn; lia).
  assert (Ho : explicit_orthonormal (BTuple [BFund 2])) by (cbn; tauto).
  assert (Hi : is_inverse 1 (fun _ _ => 1%R) (fun _ _ => 1%R)).
  { split; intros a b Ha Hb; assert (a = 0%nat) by lia; assert (b = 0%nat) by lia; subst; unfold rdelta; simpl; ring. }
  assert (A : forall i, (i < 2)%nat -> amplitude (BTuple [BFund 2]) data i = data i).
  { intros i Hi'. destruct i as [|[|i]]; [| |lia]; unfold amplitude, csum; cbn; unfold cdelta; simpl; ring. }
  destruct (continuous_converts same Hs [BFund 2] Hw Ho (fun _ _ => 1%R) data) as [F [E [G V]]].
  exists data, (fourier_series [2%nat] (fun _ _ => 1%R) (F data)). split; [exact G|]. split.
  { intros i Hi'. rewrite A by assumption. destruct i as [|i]; simpl; ring. }
  assert (Q : forall t : R, fourier_series [2%nat] (fun _ _ => 1%R) (F data) (fun _ => t) =
     (F data 0%nat + F data 1%nat * cis (- (2 * PI * t))) * isqrt 2).
  { intros t. rewrite (series_turns [2%nat] (fun _ _ => 1%R) _ _ _ (fun _ => t) Hi).
    - cbn [isum csum ravel nprod Nat.mul Nat.add]. unfold turns. cbn [length rsum nth].
      change (freq 2 0) with 0%Z. change (freq 2 1) with (-1)%Z.
      rewrite Rplus_0_l, Rmult_0_r, Rmult_0_r, cis_0. rewrite Rplus_0_l.
      replace (2 * PI * (t * IZR (-1)))%R with (- (2 * PI * t))%R by ring. ring.
    - repeat constructor.
    - intros c Hc. simpl. ring. }
  assert (V0 : fourier_series [2%nat] (fun _ _ => 1%R) (F data) (fun _ => 0%R) = 1).
  { rewrite (continuous_grid same Hs [BFund 2] Hw Ho (fun _ _ => 1%R) (fun _ _ => 1%R) Hi data _ [0%nat] _ G).
    - change (ravel (map bfund [BFund 2]) [0%nat]) with 0%nat. rewrite A by lia. reflexivity.
    - repeat constructor.
    - intros c Hc. simpl. field. }
  assert (V1 : fourier_series [2%nat] (fun _ _ => 1%R) (F data) (fun _ => 1 / 2)%R = - (1)).
  { rewrite (continuous_grid same Hs [BFund 2] Hw Ho (fun _ _ => 1%R) (fun _ _ => 1%R) Hi data _ [1%nat] _ G).
    - change (ravel (map bfund [BFund 2]) [1%nat]) with 1%nat. rewrite A by lia. reflexivity.
    - repeat constructor.
    - intros c Hc. simpl. field. }
  rewrite Q in V0, V1 |- *.
  rewrite Rmult_0_r, Ropp_0, cis_0 in V0.
  replace (- (2 * PI * (1 / 2)))%R with (- PI)%R in V1 by field.
  replace (- (2 * PI * (1 / 4)))%R with (- (PI / 2))%R by field.
  unfold cis in *. rewrite cos_neg, sin_neg, cos_PI, sin_PI in V1. rewrite cos_neg, sin_neg, cos_PI2, sin_PI2.
  set (a := F data 0%nat) in *. set (b := F data 1%nat) in *. set (q := isqrt 2) in *.
  replace ((-1)%R, (-0)%R) with (RtoC (-1)) in V1 by (unfold RtoC; f_equal; ring).
  replace (0%R, (- (1))%R) with (- Ci) by (unfold Ci, Copp; simpl; f_equal; ring).
  assert (P1 : (a + b) * q = 1) by (rewrite <- V0; ring).
  assert (P2 : (a - b) * q = - (1)) by (rewrite <- V1; replace (RtoC (-1)) with (- (1)) by (unfold RtoC, Copp; simpl; f_equal; ring); ring).
  assert (B1 : RtoC 2 * (b * q) = RtoC 2 * 1).
  { replace (RtoC 2 * (b * q)) with ((a + b) * q - (a - b) * q) by (replace (RtoC 2) with (1 + 1) by (rewrite <- RtoC_plus; f_equal; ring); ring).
    rewrite P1, P2. replace (RtoC 2) with (1 + 1) by (rewrite <- RtoC_plus; f_equal; ring). ring. }
  assert (N2 : RtoC 2 <> 0) by (intros H; apply RtoC_inj in H; lra).
  assert (B2 : b * q = 1).
  { apply (f_equal (fun z => / RtoC 2 * z)) in B1. rewrite !Cmult_assoc, Cinv_l, !Cmult_1_l in B1 by exact N2. exact B1. }
  assert (A2 : a * q = 0) by (replace (a * q) with ((a + b) * q - b * q) by ring; rewrite P1, B2; ring).
  replace ((a + b * - Ci) * q) with (a * q - Ci * (b * q)) by ring. rewrite A2, B2. ring.
Qed.

Local Open Scope R_scope.

(** ** Normalisation *)
Lemma clt_irrefl a : clt a a = false.
Proof. unfold clt. destruct (Rlt_dec (fst a) (fst a)); [lra|]. destruct (Rlt_dec (snd a) (snd a)); [lra|reflexivity]. Qed.
Lemma clt_spec a b : clt a b = true <-> fst a < fst b \/ (fst a = fst b /\ snd a < snd b).
Proof.
  unfold clt. destruct (Rlt_dec (fst a) (fst b)); [intuition lra|]. destruct (Rlt_dec (fst b) (fst a)); [split; [discriminate|lra]|].
  destruct (Rlt_dec (snd a) (snd b)); split; try discriminate; intuition lra.
Qed.
Lemma clt_false a b : clt a b = false <-> (fst b < fst a \/ (fst a = fst b /\ snd b <= snd a)).
Proof.
  unfold clt. destruct (Rlt_dec (fst a) (fst b)); [split; [discriminate|lra]|]. destruct (Rlt_dec (fst b) (fst a)); [intuition lra|].
  destruct (Rlt_dec (snd a) (snd b)); split; try discriminate; intuition lra.
Qed.

Lemma array_min_from_spec v : forall n m,
  (array_min_from m v n = m \/ exists i, (i < n)%nat /\ array_min_from m v n = v i) /\
  clt m (array_min_from m v n) = false /\
  forall i, (i < n)%nat -> clt (v i) (array_min_from m v n) = false.
Proof.
  induction n as [|n IH]; intros m; cbn [array_min_from].
  - split; [left; reflexivity|]. split; [apply clt_irrefl|]. intros; lia.
  - destruct (IH m) as [A [B D]]. set (w := array_min_from m v n) in *.
    destruct (clt (v n) w) eqn:E.
    + split; [right; exists n; split; [lia|reflexivity]|]. split.
      * apply clt_spec in E. apply clt_false in B. apply clt_false. lra.
      * intros i Hi. destruct (Nat.eq_dec i n) as [->|Hne]; [apply clt_irrefl|].
        assert (F : (i < n)%nat) by lia. apply D in F. apply clt_spec in E. apply clt_false in F. apply clt_false. lra.
    + split; [destruct A as [A|[i [Hi A]]]; [left; exact A|right; exists i; split; [lia|exact A]]|]. split; [exact B|].
      intros i Hi. destruct (Nat.eq_dec i n) as [->|Hne]; [exact E|]. apply D. lia.
Qed.

Lemma array_min_spec n v m : array_min n v = Some m ->
  (exists i, (i < n)%nat /\ m = v i) /\ forall i, (i < n)%nat -> clt (v i) m = false.
Proof.
  destruct n as [|n]; [discriminate|]. unfold array_min. intros E. injection E as <-.
  destruct (array_min_from_spec v (S n) (v 0%nat)) as [A [B D]]. split; [|exact D].
  destruct A as [A|A]; [exists 0%nat; split; [lia|exact A]|exact A].
Qed.

Lemma normalize_spec n v w : normalize_potential n v = Some w ->
  (exists i, (i < n)%nat /\ w i = RtoC 0) /\
  (forall i, (i < n)%nat -> clt (w i) (RtoC 0) = false) /\
  (forall i j, (w i - w j = v i - v j)%C).
Proof.
  unfold normalize_potential. destruct (array_min n v) as [m|] eqn:E; [|discriminate]. intros F. injection F as <-.
  destruct (array_min_spec n v m E) as [[k [Hk Ek]] D]. split; [|split].
  - exists k. split; [exact Hk|]. subst m. unfold Cminus. apply Cplus_opp_r.
  - intros i Hi. specialize (D i Hi). apply clt_false in D. apply clt_false. simpl. lra.
  - intros i j. ring.
Qed.

Lemma normalize_raises n v : normalize_potential n v = None <-> n = 0%nat.
Proof. unfold normalize_potential, array_min. destruct n; split; congruence. Qed.

Lemma normalize_idempotent n v w : normalize_potential n v = Some w ->
  exists w', normalize_potential n w = Some w' /\ forall i, (i < n)%nat -> w' i = w i.
Proof.
  intros H. destruct (normalize_spec n v w H) as [[k [Hk Ek]] [D _]].
  unfold normalize_potential at 1. destruct (array_min n w) as [m|] eqn:E.
  - eexists. split; [reflexivity|]. intros i Hi. destruct (array_min_spec n w m E) as [[l [Hl El]] M].
    assert (m = RtoC 0).
    { specialize (D l Hl). specialize (M k Hk). rewrite Ek in M. subst m. apply clt_false in D. apply clt_false in M. simpl in *.
      destruct (w l) as [p q]. simpl in *. unfold RtoC. f_equal; lra. }
    subst m. rewrite H0. ring.
  - destruct n; [lia|discriminate].
Qed.

(** ** Truncation *)
Lemma undo_first cutoff offset E : 0 < cutoff -> - offset - cutoff < E ->
  exists d, truncate_potential cutoff 1 offset E = Some d /\ undo_truncate_potential cutoff 1 offset d = Some E.
Proof.
  intros Hc HE. unfold truncate_potential, undo_truncate_potential.
  destruct (Req_EM_T cutoff 0); [lra|]. rewrite pow_1. set (y := (E + offset) / cutoff).
  assert (Hy : -1 < y).
  { unfold y. apply (Rmult_lt_reg_r cutoff); [lra|]. unfold Rdiv. rewrite Rmult_assoc, Rinv_l by lra. lra. }
  destruct (Rlt_dec 0 (1 + y)); [|lra]. cbn [nth_root]. eexists. split; [reflexivity|]. f_equal.
  replace ((cutoff * ln (1 + y) - offset + offset) / cutoff) with (ln (1 + y)) by (field; lra).
  rewrite exp_ln by lra. unfold y. field. lra.
Qed.

Lemma pow_strict a b n : 0 <= a < b -> (1 <= n)%nat -> a ^ n < b ^ n.
Proof.
  intros [Ha Hb] Hn. destruct n as [|n]; [lia|]. clear Hn. induction n as [|n IH]; [rewrite !pow_1; lra|].
  change (a * a ^ S n < b * b ^ S n). assert (0 <= a ^ S n) by (apply pow_le; lra). nra.
Qed.
Lemma pow_strict_inv a b n : 0 <= b -> a ^ n < b ^ n -> a < b.
Proof.
  intros Hb H. destruct (Rlt_le_dec a b) as [L|L]; [exact L|]. exfalso.
  assert (b ^ n <= a ^ n) by (apply pow_incr; lra). lra.
Qed.
Lemma pow_inj a b n : 0 <= a -> 0 <= b -> (1 <= n)%nat -> a ^ n = b ^ n -> a = b.
Proof.
  intros Ha Hb Hn E. destruct (Rtotal_order a b) as [L|[L|L]]; [|exact L|].
  - assert (a ^ n < b ^ n) by (apply pow_strict; [lra|assumption]). lra.
  - assert (b ^ n < a ^ n) by (apply pow_strict; [lra|assumption]). lra.
Qed.
Lemma pow_fixed u n : 0 <= u -> (2 <= n)%nat -> u ^ n = u -> u = 0 \/ u = 1.
Proof.
  intros Hu Hn E. destruct n as [|n]; [lia|]. simpl in E.
  destruct (Req_dec u 0) as [Z|Z]; [left; exact Z|right].
  assert (P : u ^ n = 1) by (apply (Rmult_eq_reg_l u); [lra|exact Z]).
  apply (pow_inj u 1 n); try lra; try lia. rewrite pow1. exact P.
Qed.

Lemma nth_root_spec n x : (1 <= n)%nat -> 0 <= x -> exists r, nth_root n x = Some r /\ 0 <= r /\ r ^ n = x.
Proof.
  intros Hn Hx. destruct n as [|[|n]]; [lia| |].
  - exists x. split; [reflexivity|]. split; [exact Hx|]. apply pow_1.
  - unfold nth_root. destruct (Rlt_dec x 0); [lra|]. destruct (Rlt_dec 0 x).
    + eexists. split; [reflexivity|]. split; [left; apply exp_pos|].
      rewrite <- Rpower_pow by apply exp_pos. rewrite Rpower_mult.
      replace (1 / INR (S (S n)) * INR (S (S n))) with 1; [apply Rpower_1; assumption|].
      field. apply not_0_INR. lia.
    + exists 0. split; [reflexivity|]. split; [lra|]. rewrite pow_ne_zero by lia. lra.
Qed.

Section Trunc.
  Variables (cutoff offset : R) (n : nat).
  Hypothesis Hc : 0 < cutoff.
  Hypothesis Hn : (1 <= n)%nat.

  Lemma scaled_nonneg E : - offset <= E -> 0 <= (E + offset) / cutoff.
  Proof using Hc. intros H. apply Rmult_le_pos; [lra|]. left. apply Rinv_0_lt_compat. lra. Qed.

  Lemma truncate_spec E : - offset <= E -> let y := (E + offset) / cutoff in
    exists L, truncate_potential cutoff n offset E = Some (cutoff * L - offset) /\ 0 <= L /\ L ^ n = ln (1 + y ^ n).
  Proof using Hc Hn.
    intros HE y. assert (Hy : 0 <= y) by (apply scaled_nonneg; exact HE).
    assert (P : 0 <= y ^ n) by (apply pow_le; exact Hy).
    assert (U : 0 <= ln (1 + y ^ n)).
    { rewrite <- ln_1. destruct P as [P|<-]; [left; apply ln_increasing; lra|rewrite Rplus_0_r; lra]. }
    destruct (nth_root_spec n _ Hn U) as [L [EL [PL QL]]]. exists L. split; [|split; assumption].
    unfold truncate_potential. destruct (Req_EM_T cutoff 0); [lra|]. fold y. cbv zeta.
    destruct (Rlt_dec 0 (1 + y ^ n)); [|lra]. rewrite EL. reflexivity.
  Qed.

  Lemma truncate_monotone E E' d d' : - offset <= E -> E < E' ->
    truncate_potential cutoff n offset E = Some d -> truncate_potential cutoff n offset E' = Some d' -> d < d'.
  Proof using Hc Hn.
    intros H0 H1 T T'. destruct (truncate_spec E H0) as [L [TL [PL QL]]].
    destruct (truncate_spec E' ltac:(lra)) as [L' [TL' [PL' QL']]].
    rewrite T in TL. rewrite T' in TL'. injection TL as ->. injection TL' as ->.
    assert (Y : (E + offset) / cutoff < (E' + offset) / cutoff).
    { unfold Rdiv. apply Rmult_lt_compat_r; [apply Rinv_0_lt_compat; lra|lra]. }
    assert (Y0 := scaled_nonneg E H0).
    assert (P : ((E + offset) / cutoff) ^ n < ((E' + offset) / cutoff) ^ n) by (apply pow_strict; [lra|exact Hn]).
    assert (P0 : 0 <= ((E + offset) / cutoff) ^ n) by (apply pow_le; exact Y0).
    assert (L < L'). { apply (pow_strict_inv L L' n); [exact PL'|]. rewrite QL, QL'. apply ln_increasing; lra. }
    assert (cutoff * L < cutoff * L') by (apply Rmult_lt_compat_l; lra). lra.
  Qed.

  Lemma ln_upper z : 0 <= z -> ln (1 + z) <= z.
  Proof using.
    intros H. destruct H as [H|<-]; [|rewrite Rplus_0_r, ln_1; lra].
    left. rewrite <- (ln_exp z) at 2. apply ln_increasing; [lra|]. apply exp_ineq1. lra.
  Qed.
  Lemma ln_lower z : 0 <= z -> z / (1 + z) <= ln (1 + z).
  Proof using.
    intros H. assert (E := exp_ineq1_le (- ln (1 + z))).
    rewrite exp_Ropp, exp_ln in E by lra.
    replace (z / (1 + z)) with (1 - / (1 + z)) by (field; lra). lra.
  Qed.

  Lemma truncate_bounds E d : - offset <= E -> truncate_potential cutoff n offset E = Some d ->
    let y := (E + offset) / cutoff in d <= E /\ (E + offset) / (1 + y ^ n) <= d + offset.
  Proof using Hc Hn.
    intros HE T y. destruct (truncate_spec E HE) as [L [TL [PL QL]]]. rewrite T in TL. injection TL as ->. fold y in QL.
    assert (Y0 : 0 <= y) by (apply scaled_nonneg; exact HE).
    assert (P : 0 <= y ^ n) by (apply pow_le; exact Y0).
    assert (EY : E + offset = cutoff * y) by (unfold y; field; lra).
    split.
    - assert (L <= y).
      { destruct (Rle_lt_dec L y) as [A|A]; [exact A|exfalso].
        assert (y ^ n < L ^ n) by (apply pow_strict; [lra|exact Hn]). rewrite QL in H. assert (U := ln_upper (y ^ n) P). lra. }
      assert (cutoff * L <= cutoff * y) by (apply Rmult_le_compat_l; lra). lra.
    - assert (G : y / (1 + y ^ n) <= L).
      { destruct (Rle_lt_dec (y / (1 + y ^ n)) L) as [A|A]; [exact A|exfalso].
        assert (B : L ^ n < (y / (1 + y ^ n)) ^ n) by (apply pow_strict; [lra|exact Hn]). rewrite QL in B.
        assert (U := ln_lower (y ^ n) P).
        unfold Rdiv in B at 1. rewrite Rpow_mult_distr in B.
        assert (V : (/ (1 + y ^ n)) ^ n <= / (1 + y ^ n)).
        { destruct n as [|m]; [lia|]. set (w := / (1 + y ^ S m)).
          assert (W : 0 <= w <= 1).
          { unfold w. split; [left; apply Rinv_0_lt_compat; lra|]. rewrite <- Rinv_1. apply Rinv_le_contravar; lra. }
          simpl. assert (w ^ m <= 1) by (rewrite <- (pow1 m); apply pow_incr; lra).
          assert (0 <= w ^ m) by (apply pow_le; lra). nra. }
        unfold Rdiv in U. assert (y ^ n * (/ (1 + y ^ n)) ^ n <= y ^ n * / (1 + y ^ n)) by (apply Rmult_le_compat_l; assumption).
        lra. }
      rewrite EY. replace (cutoff * L - offset + offset) with (cutoff * L) by ring.
      unfold Rdiv in *. rewrite Rmult_assoc. apply Rmult_le_compat_l; lra.
  Qed.

  Lemma undo_truncate_iff E d : (2 <= n)%nat -> - offset <= E -> truncate_potential cutoff n offset E = Some d ->
    let y := (E + offset) / cutoff in
    (undo_truncate_potential cutoff n offset d = Some E <-> y = 0 \/ 1 + y ^ n = exp 1).
  Proof using Hc Hn.
    intros H2 HE T y. destruct (truncate_spec E HE) as [L [TL [PL QL]]]. rewrite T in TL. injection TL as ->. fold y in QL.
    assert (Y0 : 0 <= y) by (apply scaled_nonneg; exact HE).
    assert (P : 0 <= y ^ n) by (apply pow_le; exact Y0).
    assert (EY : E = cutoff * y - offset) by (unfold y; field; lra).
    unfold undo_truncate_potential. destruct (Req_EM_T cutoff 0); [lra|].
    replace ((cutoff * L - offset + offset) / cutoff) with L by (field; lra).
    assert (X : 0 <= exp L - 1) by (assert (A := exp_ineq1_le L); lra).
    destruct (nth_root_spec n _ Hn X) as [r [Er [Pr Qr]]]. rewrite Er.
    assert (K : Some (cutoff * r - offset) = Some E <-> r = y).
    { split; [intros A; injection A as A|intros ->; f_equal; lra].
      rewrite EY in A. apply (Rmult_eq_reg_l cutoff); lra. }
    rewrite K. clear K.
    assert (K : r = y <-> L ^ n = L).
    { split.
      - intros ->. rewrite QL, Qr. replace (1 + (exp L - 1)) with (exp L) by ring. apply ln_exp.
      - intros A. rewrite A in QL. apply (pow_inj r y n); try assumption. rewrite Qr.
        rewrite QL, exp_ln by lra. ring. }
    rewrite K. clear K. split.
    - intros A. destruct (pow_fixed L n PL H2 A) as [Z|Z].
      + left. assert (B : ln (1 + y ^ n) = 0) by (rewrite <- QL, Z; try rewrite !pow_ne_zero by lia; lra).
        assert (D : y ^ n = 0). { assert (Q := f_equal exp B). rewrite exp_ln, exp_0 in Q by lra. lra. }
        apply (pow_inj y 0 n); try lra; try exact Hn. rewrite pow_ne_zero by lia. exact D.
      + right. assert (B : ln (1 + y ^ n) = 1) by (rewrite <- QL, Z, ?pow1; lra).
        assert (Q := f_equal exp B). rewrite exp_ln in Q by lra. exact Q.
    - intros [Z|Z].
      + rewrite Z, pow_ne_zero, Rplus_0_r, ln_1 in QL by lia.
        assert (L = 0) by (apply (pow_inj L 0 n); try lra; try exact Hn; rewrite QL, pow_ne_zero by lia; reflexivity).
        subst L. apply pow_ne_zero. lia.
      + rewrite Z, ln_exp in QL. assert (L = 1) by (apply (pow_inj L 1 n); try lra; try exact Hn; rewrite pow1; exact QL).
        subst L. apply pow1.
  Qed.
End Trunc.

Lemma truncate_zero cutoff offset E : truncate_potential cutoff 0 offset E = None /\ undo_truncate_potential cutoff 0 offset E = None.
Proof.
  unfold truncate_potential, undo_truncate_potential. destruct (Req_EM_T cutoff 0); [tauto|]. cbn [nth_root].
  split; [destruct (Rlt_dec _ _); reflexivity|reflexivity].
Qed.

Lemma python_index_none n i : python_index n i = None <-> (i < - Z.of_nat n \/ Z.of_nat n <= i)%Z.
Proof.
  unfold python_index.
  destruct (Z.leb_spec 0 i), (Z.ltb_spec i (Z.of_nat n)); cbn [andb];
    destruct (Z.leb_spec (- Z.of_nat n) i), (Z.ltb_spec i 0); cbn [andb];
    split; intros E; try discriminate; try reflexivity; lia.
Qed.
