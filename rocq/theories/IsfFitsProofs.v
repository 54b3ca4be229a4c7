(** Proofs about fits of scattering functions. *)
From Coq Require Import Reals Psatz List.
From Coquelicot Require Import Coquelicot.
From Verif Require Import ZLib Csum DFT NumPy Kernel Reduce SpecHamiltonian Dynamics SpecDynamics DynamicsProofs8 IsfFits SpecIsfFits.
Import ListNotations.
Local Open Scope R_scope.

Lemma exp_le' x z : x <= z -> exp x <= exp z.
Proof. intros [H|H]; [left; apply exp_increasing; exact H|right; rewrite H; reflexivity]. Qed.
Lemma scaled_exp_le a r s t : 0 <= a -> 0 <= r -> s <= t -> a * exp (- (r * t)) <= a * exp (- (r * s)).
Proof. intros Ha Hr Hst. apply Rmult_le_compat_l; [exact Ha|]. apply exp_le'. nra. Qed.

(** ** The double exponential *)
Lemma two_decays_decreasing a0 r0 a1 r1 off s t : 0 <= a0 -> 0 <= a1 -> 0 <= r0 -> 0 <= r1 -> s <= t ->
  two_decays a0 r0 a1 r1 off t <= two_decays a0 r0 a1 r1 off s.
Proof.
  intros. unfold two_decays. pose proof (scaled_exp_le a0 r0 s t ltac:(assumption) ltac:(assumption) ltac:(assumption)).
  pose proof (scaled_exp_le a1 r1 s t ltac:(assumption) ltac:(assumption) ltac:(assumption)). lra.
Qed.
Lemma two_decays_0 a0 r0 a1 r1 off : two_decays a0 r0 a1 r1 off 0 = a0 + a1 + off.
Proof. unfold two_decays. rewrite !Rmult_0_r, Ropp_0, exp_0. ring. Qed.
Lemma two_decays_above a0 r0 a1 r1 off t : 0 <= a0 -> 0 <= a1 -> off <= two_decays a0 r0 a1 r1 off t.
Proof.
  intros. unfold two_decays. pose proof (exp_pos (- (r0 * t))). pose proof (exp_pos (- (r1 * t))). nra.
Qed.
Lemma isf_of_fit4 fit times : get_isf_from_4_variable_fit fit times =
  map (fun t => RtoC (two_decays (f4_fast_amplitude fit) (f4_fast_rate fit) (f4_slow_amplitude fit) (f4_slow_rate fit) (f4_baseline fit) t)) times.
Proof.
  apply map_ext. intros t. unfold two_decays. rewrite !Ropp_mult_distr_l. reflexivity.
Qed.

Lemma double_fit cf isf m fit : curve_fit_ok cf -> fit_isf_to_double_exponential cf isf m = Some fit ->
  let g := two_decays (f4_fast_amplitude fit) (f4_fast_rate fit) (f4_slow_amplitude fit) (f4_slow_rate fit) (f4_baseline fit) in
  (forall times, get_isf_from_4_variable_fit fit times = map (fun t => RtoC (g t)) times) /\
  0 <= f4_fast_rate fit /\ 0 <= f4_slow_rate fit /\ 0 <= f4_fast_amplitude fit <= 1 /\ 0 <= f4_slow_amplitude fit <= 1 /\
  g 0 = 1 /\ (forall s t, s <= t -> g t <= g s) /\ (forall t, 0 <= t -> f4_baseline fit <= g t <= 1) /\
  squared_error g (isf_times isf) (map (measured m) (isf_values isf)) <=
  squared_error (two_decays (/ 2) 20000000000 (/ 2) 10000000000 0) (isf_times isf) (map (measured m) (isf_values isf)).
Proof.
  intros Hok H g. unfold fit_isf_to_double_exponential in H.
  destruct (cf _ _ _ _ _) as [p|] eqn:E; [|discriminate].
  destruct (Hok _ _ _ _ _ _ E) as [_ [Hb Hle]].
  destruct p as [|p0 [|p1 [|p2 [|p3 [|]]]]]; try discriminate. injection H as <-. cbn [f4_fast_rate f4_slow_rate f4_fast_amplitude f4_slow_amplitude f4_baseline] in *.
  unfold double_exponential_bounds in Hb. inversion Hb as [|? ? ? ? B0 Hb1]; subst. inversion Hb1 as [|? ? ? ? B1 Hb2]; subst.
  inversion Hb2 as [|? ? ? ? B2 Hb3]; subst. inversion Hb3 as [|? ? ? ? B3 Hb4]; subst.
  unfold within in B0, B1, B2, B3. cbn [fst snd] in *.
  assert (G0 : g 0 = 1) by (unfold g; rewrite two_decays_0; ring).
  assert (Gd : forall s t, s <= t -> g t <= g s) by (intros s t Hst; apply two_decays_decreasing; lra).
  split; [intros; apply isf_of_fit4|]. split; [lra|]. split; [lra|]. split; [lra|]. split; [lra|]. split; [exact G0|]. split; [exact Gd|]. split.
  - intros t Ht. split; [apply two_decays_above; lra|]. rewrite <- G0. apply Gd. exact Ht.
  - apply Hle.
    + intros t. unfold double_exponential_start, double_exponential, two_decays. f_equal. rewrite !Ropp_mult_distr_l. field.
    + intros t. unfold double_exponential, g, two_decays. f_equal. rewrite !Ropp_mult_distr_l. reflexivity.
Qed.

Lemma exchanged_isf fit times : get_isf_from_4_variable_fit (exchanged fit) times = get_isf_from_4_variable_fit fit times.
Proof. apply map_ext. intros t. cbn [exchanged f4_fast_rate f4_slow_rate f4_fast_amplitude f4_slow_amplitude f4_baseline]. f_equal. ring. Qed.

(** A fit that returns the start with its two pairs exchanged. *)
Definition within_b (x : R) (b : bound) : bool :=
  (if Rle_dec (fst b) x then true else false) && match snd b with Some u => if Rle_dec x u then true else false | None => true end.
Lemma within_b_ok x b : within_b x b = true -> within x b.
Proof.
  unfold within_b, within. destruct (Rle_dec (fst b) x); [|discriminate]. destruct (snd b) as [u|]; [|intros; split; [assumption|exact I]].
  destruct (Rle_dec x u); [|discriminate]. intros; split; assumption.
Qed.
Fixpoint all_within (l : list R) (bs : list bound) : bool :=
  match l, bs with [], [] => true | x :: l, b :: bs => within_b x b && all_within l bs | _, _ => false end.
Lemma all_within_ok l : forall bs, all_within l bs = true -> Forall2 within l bs.
Proof.
  induction l as [|x l IH]; intros [|b bs] H; try discriminate; [constructor|]. cbn [all_within] in H. apply andb_prop in H as [H1 H2].
  constructor; [apply within_b_ok; exact H1|apply IH; exact H2].
Qed.
Definition value_or_zero (o : option R) : R := match o with Some x => x | None => 0 end.
Definition exchanging_fit : curve_fit_fn := fun f times data p0 bounds =>
  if negb (all_within p0 bounds) then None else
  match p0 with
  | [a; b; c; d] =>
      let q := [c; d; a; b] in
      if all_within q bounds then
        if Rle_dec (squared_error (fun t => value_or_zero (f t q)) times data) (squared_error (fun t => value_or_zero (f t p0)) times data)
        then Some q else Some p0
      else Some p0
  | _ => Some p0
  end.
Lemma squared_error_ext f g times data : (forall t, f t = g t) -> squared_error f times data = squared_error g times data.
Proof.
  intros H. unfold squared_error. induction (combine times data) as [|[t d] l IH]; [reflexivity|]. cbn [fold_right fst snd]. rewrite IH, H. reflexivity.
Qed.
Lemma exchanging_fit_ok : curve_fit_ok exchanging_fit.
Proof.
  intros f times data p0 bs p H. unfold exchanging_fit in H. destruct (all_within p0 bs) eqn:E0; [|discriminate]. cbn [negb] in H.
  pose proof (all_within_ok _ _ E0) as W0. split; [exact W0|].
  assert (Same : p0 = p -> Forall2 within p bs /\ forall g0 g, (forall t, f t p0 = Some (g0 t)) -> (forall t, f t p = Some (g t)) -> squared_error g times data <= squared_error g0 times data).
  { intros <-. split; [exact W0|]. intros g0 g H0 Hg. right. apply squared_error_ext. intros t. specialize (H0 t). specialize (Hg t). congruence. }
  destruct p0 as [|a [|b [|c [|d [|e l]]]]]; try (apply Same; congruence).
  cbv zeta in H. destruct (all_within [c; d; a; b] bs) eqn:E1; [|apply Same; congruence].
  destruct (Rle_dec _ _) as [L|L]; [|apply Same; congruence]. injection H as <-. split; [apply all_within_ok; exact E1|].
  intros g0 g H0 Hg. rewrite (squared_error_ext g (fun t => value_or_zero (f t [c; d; a; b]))) by (intros; rewrite Hg; reflexivity).
  rewrite (squared_error_ext g0 (fun t => value_or_zero (f t [a; b; c; d]))) by (intros; rewrite H0; reflexivity). exact L.
Qed.
Lemma labels_exchanged isf m : exists fit, fit_isf_to_double_exponential exchanging_fit isf m = Some fit /\ f4_fast_rate fit < f4_slow_rate fit.
Proof.
  unfold fit_isf_to_double_exponential, exchanging_fit, double_exponential_start, double_exponential_bounds.
  assert (A : forall b d, 0 <= b -> 0 <= d -> all_within [/ 2; b; / 2; d] [(0, Some 1); (0, None); (0, Some 1); (0, None)] = true).
  { intros b d Hb Hd. unfold all_within, within_b. cbn [fst snd].
    repeat (destruct (Rle_dec _ _) as [?|Q]; [|exfalso; lra]). reflexivity. }
  rewrite A by lra. cbn [negb]. cbv zeta. rewrite A by lra. destruct (Rle_dec _ _) as [L|L].
  - eexists. split; [reflexivity|]. cbn. lra.
  - exfalso. apply L. right. apply squared_error_ext. intros t. unfold double_exponential, value_or_zero. ring.
Qed.

(** ** The rates of the two-site model *)
Lemma decay_iff fast slow T r0 r1 : decay_rates fast slow T r0 r1 <->
  r1 <= r0 /\ r0 + r1 = fast + slow /\ r0 * r1 = fast * slow * (1 - Cnorm2 T / 9).
Proof.
  unfold decay_rates. split; intros [L H]; (split; [exact L|]).
  - pose proof (H 0) as H0. pose proof (H 1) as H1. split; nra.
  - destruct H as [H1 H2]. intros x. rewrite <- H1, <- H2. ring.
Qed.
Lemma decay_exchange fast slow T r0 r1 : decay_rates fast slow T r0 r1 -> decay_rates slow fast T r0 r1.
Proof. rewrite !decay_iff. intros [L [H1 H2]]. split; [exact L|]. split; [lra|]. rewrite H2. ring. Qed.
Lemma decay_nonneg fast slow T r0 r1 : 0 < fast -> 0 < slow -> Cnorm2 T <= 9 -> decay_rates fast slow T r0 r1 -> 0 < r0 /\ 0 <= r1.
Proof.
  rewrite decay_iff. intros Hf Hs HT [L [H1 H2]].
  assert (P : 0 <= r0 * r1). { rewrite H2. apply Rmult_le_pos; [apply Rmult_le_pos; lra|]. lra. }
  assert (R0 : 0 < r0) by lra. split; [exact R0|]. destruct (Rle_dec 0 r1) as [Q|Q]; [exact Q|]. exfalso. nra.
Qed.

Lemma fey_equations_iff fit nu lam : 0 < nu -> 0 < lam ->
  fey_equations fit (nu, lam) = Some (0, 0) <-> decay_rates (nu / lam) nu (phases_112bar 2) (f4_fast_rate fit) (f4_slow_rate fit).
Proof.
  intros Hn Hl. rewrite decay_iff. rewrite phases_112_norm. unfold fey_equations.
  set (c := cos (2 * sqrt 3 / 2)). assert (Hc : -1 <= c <= 1) by apply COS_bound.
  set (X := lam ^ 2 + 2 * lam * (8 * c + 1) / 9 + 1).
  assert (HX : 9 * X = 9 * ((lam - 1) * (lam - 1)) + 4 * lam * (5 + 4 * c)) by (unfold X; field).
  assert (HX0 : 0 <= X). { pose proof (Rle_0_sqr (lam - 1)) as P. unfold Rsqr in P. assert (0 < lam * (5 + 4 * c)) by (apply Rmult_lt_0_compat; lra). lra. }
  rewrite rsqrt_some by exact HX0. cbn [obind]. rewrite !rdiv_some by lra. cbn [obind]. rewrite ?rdiv_some by lra. cbn [obind].
  set (y := sqrt X). assert (Hy0 : 0 <= y) by apply sqrt_pos. assert (Hy : y * y = X) by (apply sqrt_sqrt; exact HX0).
  set (F := f4_fast_rate fit). set (G := f4_slow_rate fit). set (fa := nu / lam). assert (Hfa : 0 < fa) by (apply Rdiv_lt_0_compat; assumption).
  assert (Enu : nu = fa * lam) by (unfold fa; field; lra).
  assert (E0 : nu * (lam + 1 + y) / (2 * lam) = fa * (lam + 1 + y) / 2) by (unfold fa; field; lra).
  assert (E1 : nu * (lam + 1 - y) / (2 * lam) = fa * (lam + 1 - y) / 2) by (unfold fa; field; lra).
  rewrite E0, E1. split.
  - intros H. injection H as H0 H1. assert (EF : F = fa * (lam + 1 + y) / 2) by lra. assert (EG : G = fa * (lam + 1 - y) / 2) by lra.
    rewrite EF, EG, Enu. split; [nra|]. split; [field|].
    transitivity (fa * fa * ((lam + 1) * (lam + 1) - y * y) / 4); [field|]. rewrite Hy.
    replace X with (((lam - 1) * (lam - 1)) + 4 * lam * (5 + 4 * c) / 9) by lra. field.
  - intros [L [H1 H2]].
    assert (Q : (fa * y) * (fa * y) = (F - G) * (F - G)).
    { replace ((F - G) * (F - G)) with ((F + G) * (F + G) - 4 * (F * G)) by ring. rewrite H1, H2, Enu.
      transitivity (fa * fa * (y * y)); [ring|]. rewrite Hy. replace X with (((lam - 1) * (lam - 1)) + 4 * lam * (5 + 4 * c) / 9) by lra. field. }
    assert (Z : fa * y = F - G). { assert (0 <= fa * y) by nra. apply Rsqr_inj; [assumption|lra|exact Q]. }
    assert (S2 : fa * lam = F + G - fa) by lra.
    f_equal. f_equal; nra.
Qed.

Lemma rates_exist (F G k : R) : 0 < G -> G <= F -> 0 < k <= 1 ->
  (exists fast slow, 0 < fast /\ 0 < slow /\ F + G = fast + slow /\ F * G = fast * slow * k) <-> 4 * F * G <= k * ((F + G) * (F + G)).
Proof.
  intros HG HF Hk. split.
  - intros [fa [sl [Hfa [Hsl [H1 H2]]]]]. rewrite H1. replace (4 * F * G) with (4 * (F * G)) by ring. rewrite H2. pose proof (Rle_0_sqr (fa - sl)) as P. unfold Rsqr in P.
    assert (0 <= k * ((fa - sl) * (fa - sl))) by (apply Rmult_le_pos; lra). nra.
  - intros H. set (s := F + G). set (p := F * G / k). assert (Hp : 0 < p) by (unfold p; apply Rdiv_lt_0_compat; nra).
    assert (D : 0 <= s * s - 4 * p).
    { unfold p. apply (Rmult_le_reg_l k); [lra|]. rewrite Rmult_0_r. replace (k * (s * s - 4 * (F * G / k))) with (k * (s * s) - 4 * F * G) by (field; lra). unfold s. lra. }
    set (w := sqrt (s * s - 4 * p)). assert (Hw : w * w = s * s - 4 * p) by (apply sqrt_sqrt; exact D). assert (Hw0 : 0 <= w) by apply sqrt_pos.
    assert (Hs : 0 < s) by (unfold s; lra). assert (Hlt : w < s) by nra.
    exists ((s + w) / 2), ((s - w) / 2). split; [lra|]. split; [lra|]. split; [unfold s; field|].
    transitivity (p * k); [unfold p; field; lra|]. replace p with ((s * s - w * w) / 4) by lra. field.
Qed.

(** ** The four variable model *)
Lemma four_variable_value fast slow a : 0 < fast -> 0 < slow -> exists r0 r1, decay_rates fast slow (phases_110 a) r0 r1 /\
  forall t fa sa off, calculate_isf_fey_4_variable_model_110 t fast fa slow sa off a = Some (two_decays fa r0 sa r1 off t).
Proof.
  intros Hf Hs. assert (Hl : 0 < slow / fast) by (apply Rdiv_lt_0_compat; assumption).
  set (lam := slow / fast) in *. assert (El : slow = fast * lam) by (unfold lam; field; lra).
  set (X := 9 * lam ^ 2 + 16 * lam * cos (a / 2) ^ 2 + 16 * lam * cos (a / 2) - 14 * lam + 9).
  pose proof (phases_110_norm a) as HN.
  assert (HX : X = 9 * ((lam - 1) * (lam - 1)) + 4 * lam * Cnorm2 (phases_110 a)) by (unfold X; rewrite HN; ring).
  assert (HX0 : 0 <= X).
  { rewrite HX, HN. pose proof (Rle_0_sqr (lam - 1)) as P. pose proof (Rle_0_sqr (2 * cos (a / 2) + 1)) as Q. unfold Rsqr in P, Q.
    assert (0 <= lam * ((2 * cos (a / 2) + 1) * (2 * cos (a / 2) + 1))) by (apply Rmult_le_pos; lra). lra. }
  set (z := sqrt X). assert (Hz : z * z = X) by (apply sqrt_sqrt; exact HX0). assert (Hz0 : 0 <= z) by apply sqrt_pos.
  exists (fast * (3 * lam + 3 + z) / 6), (fast * (3 * lam + 3 - z) / 6). split.
  - rewrite decay_iff. split; [nra|]. split; [rewrite El; field|].
    transitivity (fast * fast * (9 * ((lam + 1) * (lam + 1)) - z * z) / 36); [field|]. rewrite Hz, HX, El. field.
  - intros t fa sa off. unfold calculate_isf_fey_4_variable_model_110. rewrite rdiv_some by lra. cbn [obind]. fold lam. fold X.
    rewrite rsqrt_some by exact HX0. cbn [obind]. fold z. rewrite !rdiv_some by lra. cbn [obind]. rewrite ?rdiv_some by lra. cbn [obind].
    unfold two_decays. do 2 f_equal. f_equal; f_equal; f_equal; rewrite El; field; lra.
Qed.
Lemma phases_110_le a : Cnorm2 (phases_110 a) <= 9.
Proof. rewrite phases_110_norm. pose proof (COS_bound (a / 2)). nra. Qed.
Lemma phases_112_le a : 0 < Cnorm2 (phases_112bar a) <= 9.
Proof. rewrite phases_112_norm. pose proof (COS_bound (a * sqrt 3 / 2)). lra. Qed.

(** The scattering function of the Fey model is one of these curves. *)
Lemma fey_curve slow fast T y : 0 < slow -> 0 < fast -> 0 <= y ->
  9 * (y * y) = 9 * ((slow / fast - 1) * (slow / fast - 1)) + 4 * (slow / fast) * Cnorm2 T -> 0 < Cnorm2 T <= 9 ->
  exists a0 a1 r0 r1, 0 <= a0 /\ 0 <= a1 /\ a0 + a1 = 1 /\ decay_rates fast slow T r0 r1 /\
    forall t, fey slow (slow / fast) T y t = two_decays a0 r0 a1 r1 0 t.
Proof.
  intros Hs Hf Hy0 Hy HT. assert (Hl : 0 < slow / fast) by (apply Rdiv_lt_0_compat; assumption).
  set (lam := slow / fast) in *. assert (El : slow = fast * lam) by (unfold lam; field; lra).
  assert (W0 : 0 <= w0 lam T y) by exact (w0_nonneg slow fast lam T y Hs Hf eq_refl Hy0 Hy HT).
  assert (W1 : 0 <= w1 lam T y) by exact (w1_nonneg slow fast lam T y Hs Hf eq_refl Hy0 Hy HT).
  assert (Wt : w0 lam T y + w1 lam T y = 1 + lam) by exact (w_total slow fast lam T y Hs Hf eq_refl Hy0 Hy HT).
  assert (P : 0 < / (1 + lam)) by (apply Rinv_0_lt_compat; lra).
  exists (/ (1 + lam) * w0 lam T y), (/ (1 + lam) * w1 lam T y), (r0 slow lam y), (r1 slow lam y).
  split; [apply Rmult_le_pos; lra|]. split; [apply Rmult_le_pos; lra|].
  split. { rewrite <- Rmult_plus_distr_l, Wt. field. lra. }
  split.
  - rewrite decay_iff. unfold r0, r1. replace (slow * (lam + 1 + y) / (2 * lam)) with (fast * (lam + 1 + y) / 2) by (rewrite El; field; lra).
    replace (slow * (lam + 1 - y) / (2 * lam)) with (fast * (lam + 1 - y) / 2) by (rewrite El; field; lra).
    split; [nra|]. split; [rewrite El; field|].
    transitivity (fast * fast * ((lam + 1) * (lam + 1) - y * y) / 4); [field|].
    replace (y * y) with ((lam - 1) * (lam - 1) + 4 * lam * Cnorm2 T / 9) by lra. rewrite El. field.
  - intros t. unfold fey, two_decays. rewrite !Ropp_mult_distr_l. ring.
Qed.
