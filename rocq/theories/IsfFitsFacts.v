(** Extracted Fey rates, windows of times, bounds and starts of the fits. *)
From Coq Require Import Reals Psatz List.
From Coquelicot Require Import Coquelicot.
From Verif Require Import ZLib Csum DFT NumPy Kernel Dynamics SpecDynamics DynamicsProofs8 IsfFits SpecIsfFits IsfFitsProofs.
Import ListNotations.
Local Open Scope R_scope.

Lemma as_complex_some (f : R -> option R) (g : R -> R) (times : list R) : (forall t, f t = Some (g t)) -> as_complex (map f times) = Some (map (fun t => RtoC (g t)) times).
Proof.
  intros H. unfold as_complex. assert (E : all_some (map f times) = Some (map g times)).
  { induction times as [|t l IH]; [reflexivity|]. cbn [map all_some]. rewrite H, IH. reflexivity. }
  rewrite E, map_map. reflexivity.
Qed.
Lemma decay_unique fast slow T r0 r1 s0 s1 : decay_rates fast slow T r0 r1 -> decay_rates fast slow T s0 s1 -> r0 = s0 /\ r1 = s1.
Proof.
  intros [L H] [L' H']. assert (E : forall x, (x - r0) * (x - r1) = (x - s0) * (x - s1)) by (intros; rewrite H, H'; reflexivity).
  assert (Hs : r0 + r1 = s0 + s1) by (pose proof (E 0); pose proof (E 1); lra).
  pose proof (E r0) as E0. rewrite Rminus_diag_eq in E0 by reflexivity. rewrite Rmult_0_l in E0. symmetry in E0. apply Rmult_integral in E0 as [E0|E0]; [lra|].
  assert (r0 = s1) by lra. assert (r1 = s0) by lra. lra.
Qed.

Lemma fey_extracted fsolve fit nu lam : fey_root fsolve fit = Some (nu, lam) -> 0 < nu -> 0 < lam ->
  fey_equations fit (nu, lam) = Some (0, 0) ->
  exists r, extract_fey_rate_from_4_variables_fit_112bar fsolve fit = Some r /\ 0 < ff_fast_rate r /\ 0 < ff_slow_rate r /\
    decay_rates (ff_fast_rate r) (ff_slow_rate r) (phases_112bar (ff_a_dk r)) (f4_fast_rate fit) (f4_slow_rate fit) /\
    exists a0 a1, 0 <= a0 /\ 0 <= a1 /\ a0 + a1 = 1 /\ forall times,
      get_isf_from_fey_model_fit_112bar r times =
      Some (get_isf_from_4_variable_fit {| f4_fast_rate := f4_fast_rate fit; f4_fast_amplitude := a0; f4_slow_rate := f4_slow_rate fit; f4_slow_amplitude := a1; f4_baseline := 0 |} times).
Proof.
  intros Hr Hn Hl He. assert (Hq : 0 < nu / lam) by (apply Rdiv_lt_0_compat; assumption).
  exists {| ff_fast_rate := nu / lam; ff_slow_rate := nu; ff_a_dk := 2 |}.
  split. { unfold extract_fey_rate_from_4_variables_fit_112bar. rewrite Hr. cbn [obind fst snd]. rewrite rdiv_some by lra. reflexivity. }
  cbn [ff_fast_rate ff_slow_rate ff_a_dk]. split; [exact Hq|]. split; [exact Hn|].
  pose proof (proj1 (fey_equations_iff fit nu lam Hn Hl) He) as D. split; [exact D|].
  destruct (fey_112_value nu (nu / lam) 2 Hn Hq) as [y [Hy0 [Hy [HT G]]]].
  destruct (fey_curve nu (nu / lam) (phases_112bar 2) y Hn Hq Hy0 Hy HT) as [a0 [a1 [r0 [r1 [A0 [A1 [As [D' C]]]]]]]].
  destruct (decay_unique _ _ _ _ _ _ _ D D') as [<- <-].
  exists a0, a1. split; [exact A0|]. split; [exact A1|]. split; [exact As|]. intros times.
  rewrite isf_of_fit4. unfold get_isf_from_fey_model_fit_112bar. cbn [ff_fast_rate ff_slow_rate ff_a_dk f4_fast_rate f4_slow_rate f4_fast_amplitude f4_slow_amplitude f4_baseline].
  apply as_complex_some. intros t. rewrite G, C. reflexivity.
Qed.
Lemma fey_root_exchange fit nu lam : 0 < nu -> 0 < lam -> fey_equations fit (nu, lam) = Some (0, 0) -> fey_equations fit (nu / lam, / lam) = Some (0, 0).
Proof.
  intros Hn Hl He. assert (Hq : 0 < nu / lam) by (apply Rdiv_lt_0_compat; assumption). assert (Hi : 0 < / lam) by (apply Rinv_0_lt_compat; exact Hl).
  apply (fey_equations_iff fit (nu / lam) (/ lam) Hq Hi). apply (fey_equations_iff fit nu lam Hn Hl) in He.
  replace (nu / lam / / lam) with nu by (field; lra). apply decay_exchange. exact He.
Qed.
Lemma fey_exchanged fsolve fsolve' fit nu lam r r' : fey_root fsolve fit = Some (nu, lam) -> 0 < nu -> 0 < lam ->
  fey_root fsolve' fit = Some (nu / lam, / lam) ->
  extract_fey_rate_from_4_variables_fit_112bar fsolve fit = Some r -> extract_fey_rate_from_4_variables_fit_112bar fsolve' fit = Some r' ->
  ff_fast_rate r' = ff_slow_rate r /\ ff_slow_rate r' = ff_fast_rate r.
Proof.
  intros H1 Hn Hl H2. assert (Hi : 0 < / lam) by (apply Rinv_0_lt_compat; exact Hl).
  unfold extract_fey_rate_from_4_variables_fit_112bar. rewrite H1, H2. cbn [obind fst snd]. rewrite !rdiv_some by lra. cbn [obind].
  intros E E'. injection E as <-. injection E' as <-. cbn [ff_fast_rate ff_slow_rate]. split; [field; lra|reflexivity].
Qed.
Lemma norm_112_lt : Cnorm2 (phases_112bar 2) < 9.
Proof.
  rewrite phases_112_norm. replace (2 * sqrt 3 / 2) with (2 * (sqrt 3 / 2)) by field. rewrite cos_2a_sin.
  assert (P : 0 < sin (sqrt 3 / 2)).
  { assert (0 < sqrt 3) by (apply sqrt_lt_R0; lra). assert (sqrt 3 < 2). { rewrite <- (sqrt_square 2) by lra. apply sqrt_lt_1; lra. }
    apply sin_gt_0; [lra|]. pose proof PI2_3_2. unfold Rdiv in *. lra. }
  nra.
Qed.
Lemma fey_rates_exist F G : 0 < G -> G <= F ->
  (exists fast slow, 0 < fast /\ 0 < slow /\ decay_rates fast slow (phases_112bar 2) F G) <->
  4 * F * G <= (1 - Cnorm2 (phases_112bar 2) / 9) * ((F + G) * (F + G)).
Proof.
  intros HG HF. pose proof norm_112_lt as N. pose proof (phases_112_le 2) as N'.
  rewrite <- (rates_exist F G (1 - Cnorm2 (phases_112bar 2) / 9) HG HF) by lra. split; intros [fa [sl [Hf [Hs H]]]]; exists fa, sl; (split; [exact Hf|split; [exact Hs|]]).
  - rewrite decay_iff in H. apply H.
  - rewrite decay_iff. split; [exact HF|exact H].
Qed.
Lemma fey_roots_rates fit : (exists nu lam, 0 < nu /\ 0 < lam /\ fey_equations fit (nu, lam) = Some (0, 0)) <->
  exists fast slow, 0 < fast /\ 0 < slow /\ decay_rates fast slow (phases_112bar 2) (f4_fast_rate fit) (f4_slow_rate fit).
Proof.
  split.
  - intros [nu [lam [Hn [Hl H]]]]. exists (nu / lam), nu. split; [apply Rdiv_lt_0_compat; assumption|]. split; [exact Hn|]. apply fey_equations_iff; assumption.
  - intros [fa [sl [Hf [Hs H]]]]. exists sl, (sl / fa). assert (0 < sl / fa) by (apply Rdiv_lt_0_compat; assumption). split; [exact Hs|]. split; [assumption|].
    apply fey_equations_iff; [assumption|assumption|]. replace (sl / (sl / fa)) with fa by (field; lra). exact H.
Qed.

(** ** Windows *)
Lemma masked_agree keep ts d d' : length d = length d' ->
  (forall i, (i < length ts)%nat -> keep (nth i ts 0) = true -> nth i d 0 = nth i d' 0) -> masked keep ts d = masked keep ts d'.
Proof.
  intros L H. unfold masked. rewrite <- L. destruct (Nat.eqb_spec (length ts) (length d)) as [E|E]; [|reflexivity].
  assert (X : filter (fun p => keep (fst p)) (combine ts d) = filter (fun p => keep (fst p)) (combine ts d')).
  { revert d d' L H E. induction ts as [|t ts IH]; intros d d' L H E; [reflexivity|].
    destruct d as [|x d]; [discriminate|]. destruct d' as [|x' d']; [discriminate|]. cbn [combine filter fst].
    rewrite (IH d d'); [|cbn in L; lia|intros i Hi; apply (H (S i)); cbn; lia|cbn in E; lia].
    destruct (keep t) eqn:K; [|reflexivity]. assert (Ex : x = x') by (apply (H 0%nat); [cbn; lia|exact K]). rewrite Ex. reflexivity. }
  cbv zeta. rewrite X. reflexivity.
Qed.
Lemma nth_measured m l i : nth i (map (measured m) l) 0 = measured m (nth i l (RtoC 0)).
Proof.
  assert (E : measured m (RtoC 0) = 0) by (destruct m; cbn [measured]; [reflexivity|reflexivity|rewrite Cmod_R; apply Rabs_R0]).
  rewrite <- (map_nth (measured m)), E. reflexivity.
Qed.
Lemma bars_ok x : bars_fit x -> deviation_fits x = true.
Proof. unfold bars_fit, deviation_fits. destruct (isf_deviation x); [intros ->; apply Nat.eqb_refl|reflexivity]. Qed.
Lemma above_true x t : above x t = true <-> x < t.
Proof. unfold above. destruct (Rlt_dec x t); split; intros; [assumption|reflexivity|discriminate|contradiction]. Qed.

Lemma free_window cf x y m a start : agree_between start None x y -> bars_fit x -> bars_fit y ->
  fit_isf_to_fey_4_variable_model_110 cf x m a start = fit_isf_to_fey_4_variable_model_110 cf y m a start.
Proof.
  intros [Et [El Hv]] Bx By. unfold fit_isf_to_fey_4_variable_model_110. rewrite (bars_ok x Bx), (bars_ok y By), <- Et.
  rewrite (masked_agree (above start) (isf_times x) (map (measured m) (isf_values x)) (map (measured m) (isf_values y))); [reflexivity|rewrite !map_length; exact El|].
  intros i Hi K. apply above_true in K. rewrite !nth_measured, (Hv i Hi K I). reflexivity.
Qed.
Lemma fixed_window cf x y lam m a start e : agree_between start (Some e) x y -> bars_fit x -> bars_fit y ->
  fit_isf_to_fey_4_variable_model_110_fixed_ratio cf x lam m a start (Some e) = fit_isf_to_fey_4_variable_model_110_fixed_ratio cf y lam m a start (Some e).
Proof.
  intros [Et [El Hv]] Bx By. unfold fit_isf_to_fey_4_variable_model_110_fixed_ratio. rewrite (bars_ok x Bx), (bars_ok y By), <- Et. cbn [obind].
  rewrite (masked_agree (fun t => (above start t && above t e)%bool) (isf_times x) (map (measured m) (isf_values x)) (map (measured m) (isf_values y))); [reflexivity|rewrite !map_length; exact El|].
  intros i Hi K. apply andb_prop in K as [K1 K2]. apply above_true in K1, K2. rewrite !nth_measured, (Hv i Hi K1 K2). reflexivity.
Qed.
Lemma fixed_end cf x lam m a start : isf_times x <> [] ->
  fit_isf_to_fey_4_variable_model_110_fixed_ratio cf x lam m a start None =
  fit_isf_to_fey_4_variable_model_110_fixed_ratio cf x lam m a start (Some (last (isf_times x) 0)).
Proof.
  intros H. unfold fit_isf_to_fey_4_variable_model_110_fixed_ratio. destruct (exists_last H) as [l [e E]].
  rewrite E, rev_app_distr, last_last. reflexivity.
Qed.

(** ** Bounds and starts *)
Lemma free_bounds cf x m a start fit : curve_fit_ok cf -> fit_isf_to_fey_4_variable_model_110 cf x m a start = Some fit ->
  y4_a_dk fit = a /\ 0 <= y4_fast_rate fit /\ 0 <= y4_slow_rate fit /\ 0 <= y4_fast_amplitude fit /\ 0 <= y4_slow_amplitude fit /\ 0 <= y4_offset fit <= / 5.
Proof.
  intros Hok H. unfold fit_isf_to_fey_4_variable_model_110 in H. destruct (deviation_fits x); [|discriminate].
  destruct (masked _ _ _) as [kept|]; [|discriminate]. cbn [obind] in H.
  destruct (cf _ _ _ _ _) as [p|] eqn:E; [|discriminate]. destruct (Hok _ _ _ _ _ _ E) as [_ [B _]].
  destruct p as [|p0 [|p1 [|p2 [|p3 [|p4 [|]]]]]]; try discriminate. injection H as <-. cbn [y4_a_dk y4_fast_rate y4_slow_rate y4_fast_amplitude y4_slow_amplitude y4_offset].
  unfold free_ratio_bounds in B. inversion B as [|? ? ? ? B0 C1]; subst. inversion C1 as [|? ? ? ? B1 C2]; subst. inversion C2 as [|? ? ? ? B2 C3]; subst.
  inversion C3 as [|? ? ? ? B3 C4]; subst. inversion C4 as [|? ? ? ? B4 C5]; subst. unfold within in *. cbn [fst snd] in *.
  split; [reflexivity|]. repeat split; lra.
Qed.
Lemma fixed_start lam p0 : fixed_ratio_start lam = Some p0 -> Forall2 within p0 fixed_ratio_bounds -> 0 <= lam.
Proof.
  unfold fixed_ratio_start, rdiv. destruct (Req_EM_T (1 + lam) 0) as [E|E]; [discriminate|]. cbn [obind]. intros H B. injection H as <-.
  unfold fixed_ratio_bounds in B. inversion B as [|? ? ? ? B0 C1]; subst. inversion C1 as [|? ? ? ? B1 C2]; subst. inversion C2 as [|? ? ? ? B2 C3]; subst.
  unfold within in *. cbn [fst snd] in *. destruct B1 as [B1 _]. destruct B2 as [B2 _].
  assert (P : 0 < 1 + lam). { destruct (Rtotal_order 0 (1 + lam)) as [Q|[Q|Q]]; [exact Q|lra|]. exfalso. pose proof (Rinv_lt_0_compat _ Q). unfold Rdiv in B2. lra. }
  pose proof (Rinv_0_lt_compat _ P). destruct (Rle_dec 0 lam) as [Q|Q]; [exact Q|]. exfalso. unfold Rdiv in B1. nra.
Qed.
Lemma fixed_start_inside lam : 0 <= lam -> exists p0, fixed_ratio_start lam = Some p0 /\ Forall2 within p0 fixed_ratio_bounds.
Proof.
  intros H. unfold fixed_ratio_start. rewrite !rdiv_some by lra. cbn [obind]. eexists. split; [reflexivity|]. unfold fixed_ratio_bounds.
  assert (P : 0 < / (1 + lam)) by (apply Rinv_0_lt_compat; lra).
  assert (P2 : 0 <= lam * / (1 + lam)) by (apply Rmult_le_pos; lra).
  apply Forall2_cons; [split; cbn [fst snd]; [lra|exact I]|]. apply Forall2_cons; [split; cbn [fst snd]; [exact P2|exact I]|].
  apply Forall2_cons; [split; cbn [fst snd]; [lra|exact I]|]. apply Forall2_cons; [split; cbn [fst snd]; lra|apply Forall2_nil].
Qed.
Lemma fixed_bounds cf x lam m a start e fit : curve_fit_ok cf -> fit_isf_to_fey_4_variable_model_110_fixed_ratio cf x lam m a start e = Some fit ->
  0 <= lam /\ y4_a_dk fit = a /\ y4_slow_rate fit = lam * y4_fast_rate fit /\ 0 <= y4_fast_rate fit /\ 0 <= y4_slow_rate fit /\
  0 <= y4_fast_amplitude fit /\ 0 <= y4_slow_amplitude fit /\ 0 <= y4_offset fit <= / 5.
Proof.
  intros Hok H. unfold fit_isf_to_fey_4_variable_model_110_fixed_ratio in H.
  match type of H with obind ?o _ = _ => destruct o as [e'|]; [|discriminate] end. cbn [obind] in H.
  destruct (deviation_fits x); [|discriminate].
  destruct (masked _ _ _) as [kept|]; [|discriminate]. cbn [obind] in H. destruct (fixed_ratio_start lam) as [p0|] eqn:Ep; [|discriminate]. cbn [obind] in H.
  destruct (cf _ _ _ _ _) as [p|] eqn:E; [|discriminate]. destruct (Hok _ _ _ _ _ _ E) as [A [B _]].
  pose proof (fixed_start lam p0 Ep A) as Hl.
  destruct p as [|q0 [|q1 [|q2 [|q3 [|]]]]]; try discriminate. injection H as <-. cbn [y4_a_dk y4_fast_rate y4_slow_rate y4_fast_amplitude y4_slow_amplitude y4_offset].
  unfold fixed_ratio_bounds in B. inversion B as [|? ? ? ? B0 C1]; subst. inversion C1 as [|? ? ? ? B1 C2]; subst. inversion C2 as [|? ? ? ? B2 C3]; subst.
  inversion C3 as [|? ? ? ? B3 C4]; subst. unfold within in *. cbn [fst snd] in *.
  split; [exact Hl|]. split; [reflexivity|]. split; [reflexivity|]. repeat split; try lra. apply Rmult_le_pos; lra.
Qed.
Lemma fey_bounds calc start cf x m a fit : curve_fit_ok cf -> fit_isf_to_fey_model calc start cf x m a = Some fit ->
  ff_a_dk fit = a /\ 0 <= ff_fast_rate fit /\ 0 <= ff_slow_rate fit.
Proof.
  intros Hok H. unfold fit_isf_to_fey_model in H. destruct (cf _ _ _ _ _) as [p|] eqn:E; [|discriminate]. destruct (Hok _ _ _ _ _ _ E) as [_ [B _]].
  destruct p as [|p0 [|p1 [|]]]; try discriminate. injection H as <-. cbn.
  inversion B as [|? ? ? ? B0 C1]; subst. inversion C1 as [|? ? ? ? B1 C2]; subst. unfold within in *. cbn [fst snd] in *. repeat split; lra.
Qed.

(** ** The four variable model *)
Lemma four_variable_isf fit : 0 < y4_fast_rate fit -> 0 < y4_slow_rate fit ->
  exists r0 r1, decay_rates (y4_fast_rate fit) (y4_slow_rate fit) (phases_110 (y4_a_dk fit)) r0 r1 /\ 0 < r0 /\ 0 <= r1 /\
    forall times, get_isf_from_fey_4_variable_model_110 fit times =
      Some (get_isf_from_4_variable_fit {| f4_fast_rate := r0; f4_fast_amplitude := y4_fast_amplitude fit; f4_slow_rate := r1; f4_slow_amplitude := y4_slow_amplitude fit; f4_baseline := y4_offset fit |} times).
Proof.
  intros Hf Hs. destruct (four_variable_value _ _ (y4_a_dk fit) Hf Hs) as [r0 [r1 [D V]]]. exists r0, r1. split; [exact D|].
  destruct (decay_nonneg _ _ _ _ _ Hf Hs (phases_110_le _) D) as [P0 P1]. split; [exact P0|]. split; [exact P1|]. intros times.
  rewrite isf_of_fit4. cbn [f4_fast_rate f4_slow_rate f4_fast_amplitude f4_slow_amplitude f4_baseline]. apply as_complex_some. intros t. apply V.
Qed.
Lemma four_variable_fey fast slow a : 0 < fast -> 0 < slow -> cos (a / 2) <> - / 2 ->
  exists a0 a1, 0 <= a0 /\ 0 <= a1 /\ a0 + a1 = 1 /\ forall times,
    get_isf_from_fey_model_fit_110 {| ff_fast_rate := fast; ff_slow_rate := slow; ff_a_dk := a |} times =
    get_isf_from_fey_4_variable_model_110 {| y4_a_dk := a; y4_fast_rate := fast; y4_fast_amplitude := a0; y4_slow_rate := slow; y4_slow_amplitude := a1; y4_offset := 0 |} times.
Proof.
  intros Hf Hs Hc. destruct (fey_110_value slow fast a Hs Hf Hc) as [y [Hy0 [Hy [HT G]]]].
  destruct (fey_curve slow fast (phases_110 a) y Hs Hf Hy0 Hy HT) as [a0 [a1 [r0 [r1 [A0 [A1 [As [D' C]]]]]]]].
  destruct (four_variable_value fast slow a Hf Hs) as [s0 [s1 [D V]]]. destruct (decay_unique _ _ _ _ _ _ _ D D') as [-> ->].
  exists a0, a1. split; [exact A0|]. split; [exact A1|]. split; [exact As|]. intros times.
  unfold get_isf_from_fey_model_fit_110, get_isf_from_fey_4_variable_model_110. cbn [ff_fast_rate ff_slow_rate ff_a_dk y4_a_dk y4_fast_rate y4_slow_rate y4_fast_amplitude y4_slow_amplitude y4_offset].
  rewrite (as_complex_some _ (two_decays a0 r0 a1 r1 0)) by (intros; rewrite G, C; reflexivity).
  rewrite (as_complex_some _ (two_decays a0 r0 a1 r1 0)) by (intros; apply V). reflexivity.
Qed.

(** ** Concrete cases *)
Lemma all_within_complete l : forall bs, Forall2 within l bs -> all_within l bs = true.
Proof.
  induction l as [|x l IH]; intros bs H; inversion H as [|? b ? bs' Hx Hl]; subst; [reflexivity|]. cbn [all_within]. rewrite (IH _ Hl), Bool.andb_true_r.
  destruct Hx as [H1 H2]. unfold within_b. destruct (Rle_dec (fst b) x) as [_|N]; [|contradiction]. cbn [andb]. destruct (snd b) as [u|]; [|reflexivity].
  destruct (Rle_dec x u) as [_|N]; [reflexivity|contradiction].
Qed.
Definition sample_isf (bars : option (list R)) : isf_data :=
  {| isf_times := [0; 1; 2; 3]; isf_values := [RtoC 1; (/ 2, / 3); (/ 4, 0); RtoC (/ 5)]; isf_deviation := bars |}.
Lemma exchanging_some f times data p0 bounds : Forall2 within p0 bounds -> exists p, exchanging_fit f times data p0 bounds = Some p /\ length p = length p0.
Proof.
  intros H. unfold exchanging_fit. rewrite (all_within_complete _ _ H). cbn [negb].
  destruct p0 as [|a [|b [|c [|d [|]]]]]; try (eexists; split; reflexivity).
  destruct (all_within _ _); [|eexists; split; reflexivity]. destruct (Rle_dec _ _); eexists; split; reflexivity.
Qed.
Lemma sample_fixed m a lam : 0 <= lam -> exists fit, fit_isf_to_fey_4_variable_model_110_fixed_ratio exchanging_fit (sample_isf (Some [1; 1; 1; 1])) lam m a (/ 2) None = Some fit.
Proof.
  intros H. unfold fit_isf_to_fey_4_variable_model_110_fixed_ratio. cbn [isf_times sample_isf rev app obind deviation_fits isf_deviation length Nat.eqb isf_values map masked].
  destruct (fixed_start_inside lam H) as [p0 [E B]]. rewrite E. cbn [obind].
  match goal with |- context [exchanging_fit ?f ?t ?d p0 ?b] => destruct (exchanging_some f t d p0 b B) as [p [Ep L]]; rewrite Ep end.
  unfold fixed_ratio_bounds in B. inversion B as [|? ? ? ? _ C1]; subst. inversion C1 as [|? ? ? ? _ C2]; subst. inversion C2 as [|? ? ? ? _ C3]; subst. inversion C3 as [|? ? ? ? _ C4]; subst. inversion C4; subst.
  cbn in L. destruct p as [|q0 [|q1 [|q2 [|q3 [|]]]]]; cbn in L; try lia. eexists; reflexivity.
Qed.
Lemma sample_free m a : exists fit, fit_isf_to_fey_4_variable_model_110 exchanging_fit (sample_isf None) m a (/ 2) = Some fit.
Proof.
  unfold fit_isf_to_fey_4_variable_model_110. cbn [isf_times sample_isf obind deviation_fits isf_deviation length Nat.eqb isf_values map masked].
  assert (B : Forall2 within free_ratio_start free_ratio_bounds).
  { unfold free_ratio_start, free_ratio_bounds. repeat (apply Forall2_cons; [split; cbn [fst snd]; [lra|exact I || lra]|]). apply Forall2_nil. }
  match goal with |- context [exchanging_fit ?f ?t ?d ?p0 ?b] => destruct (exchanging_some f t d p0 b B) as [p [Ep L]]; rewrite Ep end.
  cbn in L. destruct p as [|q0 [|q1 [|q2 [|q3 [|q4 [|]]]]]]; cbn in L; try lia. eexists; reflexivity.
Qed.
Lemma sample_fey m a : (exists fit, fit_isf_to_fey_model_110 exchanging_fit (sample_isf None) m a = Some fit) /\
  (exists fit, fit_isf_to_fey_model_112bar exchanging_fit (sample_isf None) m a = Some fit).
Proof.
  split; [unfold fit_isf_to_fey_model_110|unfold fit_isf_to_fey_model_112bar]; unfold fit_isf_to_fey_model;
    match goal with |- context [exchanging_fit ?f ?t ?d ?p0 ?b] =>
      destruct (exchanging_some f t d p0 b) as [p [Ep L]]; [repeat (apply Forall2_cons; [split; cbn [fst snd]; [lra|exact I]|]); apply Forall2_nil|rewrite Ep] end;
    cbn in L; destruct p as [|q0 [|q1 [|]]]; cbn in L; try lia; eexists; reflexivity.
Qed.
Lemma equal_rates : exists F G, 0 < G /\ G < F /\ decay_rates 1 1 (phases_112bar 2) F G.
Proof.
  pose proof norm_112_lt as N. pose proof (phases_112_le 2) as [N0 _]. set (n := Cnorm2 (phases_112bar 2)) in *.
  assert (Q : sqrt n * sqrt n = n) by (apply sqrt_sqrt; lra). assert (Q0 : 0 < sqrt n) by (apply sqrt_lt_R0; exact N0). assert (Q3 : sqrt n < 3) by nra.
  exists (1 + sqrt n / 3), (1 - sqrt n / 3). split; [lra|]. split; [lra|]. apply decay_iff. fold n. split; [lra|]. split; [lra|]. nra.
Qed.
Lemma sample_root : exists fsolve fit, fey_root fsolve fit = Some (1, 1) /\ fey_equations fit (1, 1) = Some (0, 0).
Proof.
  destruct equal_rates as [F [G [HG [HF D]]]].
  exists (fun _ _ => (1, 1)), {| f4_fast_rate := F; f4_fast_amplitude := / 2; f4_slow_rate := G; f4_slow_amplitude := / 2; f4_baseline := 0 |}.
  split; [unfold fey_root; cbn [f4_fast_rate f4_slow_rate]; rewrite rdiv_some by lra; reflexivity|].
  apply fey_equations_iff; [lra|lra|]. cbn [f4_fast_rate f4_slow_rate]. replace (1 / 1) with 1 by field. exact D.
Qed.
Lemma no_rates F : 0 < F -> ~ exists fast slow, 0 < fast /\ 0 < slow /\ decay_rates fast slow (phases_112bar 2) F F.
Proof.
  intros HF H. apply (fey_rates_exist F F HF (Rle_refl F)) in H. pose proof (phases_112_le 2) as [N0 _]. set (n := Cnorm2 (phases_112bar 2)) in *.
  assert (0 < F * F) by nra. assert (0 < n * (F * F)) by (apply Rmult_lt_0_compat; assumption). nra.
Qed.
