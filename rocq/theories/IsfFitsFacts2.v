(** Fits are no further from the data in their window than their starts. *)
From Coq Require Import Reals List Lra Psatz.
From Verif Require Import ZLib Csum DFT NumPy Kernel Dynamics IsfFits SpecIsfFits SpecIsfFits2 DynamicsProofs8 IsfFitsProofs IsfFitsFacts.
Import ListNotations.
Local Open Scope R_scope.

Lemma combine_map_r {A B D} (f : B -> D) (l : list A) (l' : list B) : combine l (map f l') = map (fun p => (fst p, f (snd p))) (combine l l').
Proof. revert l'. induction l as [|a l IH]; intros [|b l']; cbn [combine map]; try reflexivity. rewrite IH. reflexivity. Qed.
Lemma combine_split_map {A B} (l : list (A * B)) : combine (map fst l) (map snd l) = l.
Proof. induction l as [|[a b] l IH]; cbn [map combine fst snd]; [reflexivity|]. rewrite IH. reflexivity. Qed.

Lemma kept_error lo hi keep m isf kept g : (forall t, keep t = in_window lo hi t) ->
  masked keep (isf_times isf) (map (measured m) (isf_values isf)) = Some kept ->
  squared_error g (fst kept) (snd kept) = window_error lo hi m isf g.
Proof.
  intros K H. unfold masked in H. destruct (Nat.eqb _ _); [|discriminate]. injection H as <-. cbn [fst snd].
  unfold squared_error, window_error. rewrite combine_split_map, combine_map_r.
  induction (combine (isf_times isf) (isf_values isf)) as [|[t z] l IH]; [reflexivity|].
  cbn [map filter fst snd fold_right]. rewrite K. destruct (in_window lo hi t); cbn [fold_right fst snd]; rewrite IH; ring.
Qed.
Lemma whole_error m isf g : squared_error g (isf_times isf) (map (measured m) (isf_values isf)) = window_error None None m isf g.
Proof.
  unfold squared_error, window_error. rewrite combine_map_r. induction (combine (isf_times isf) (isf_values isf)) as [|[t z] l IH]; [reflexivity|].
  cbn [map fold_right fst snd]. rewrite IH. cbn. ring.
Qed.

Lemma as_complex_one f (y : R) : as_complex [f] = Some [RtoC y] -> f = Some y.
Proof. unfold as_complex. cbn. destruct f as [x|]; [|discriminate]. cbn. intros H. injection H as ->. reflexivity. Qed.

(** The value of a curve. *)
Definition curve_of (f : list R -> option (list C)) (g : R -> R) : Prop := forall t, f [t] = Some [RtoC (g t)].

Lemma free_no_worse cf x m a start fit g g0 : curve_fit_ok cf -> fit_isf_to_fey_4_variable_model_110 cf x m a start = Some fit ->
  (forall t, get_isf_from_fey_4_variable_model_110 fit [t] = Some [RtoC (g t)]) ->
  (forall t, get_isf_from_fey_4_variable_model_110
     {| y4_a_dk := a; y4_fast_rate := 1400000000; y4_fast_amplitude := / 5; y4_slow_rate := 700000000; y4_slow_amplitude := 4 / 5; y4_offset := / 20 |} [t] = Some [RtoC (g0 t)]) ->
  window_error (Some start) None m x g <= window_error (Some start) None m x g0.
Proof.
  intros Hok H Hg Hg0. unfold fit_isf_to_fey_4_variable_model_110 in H. destruct (deviation_fits x); [|discriminate].
  destruct (masked _ _ _) as [kept|] eqn:Em; [|discriminate]. cbn [obind] in H.
  destruct (cf _ _ _ _ _) as [p|] eqn:E; [|discriminate]. destruct (Hok _ _ _ _ _ _ E) as [_ [_ Hle]].
  destruct p as [|p0 [|p1 [|p2 [|p3 [|p4 [|]]]]]]; try discriminate. injection H as <-.
  assert (K : forall t, above start t = in_window (Some start) None t) by (intros t; unfold above, in_window; destruct (Rlt_dec start t); reflexivity).
  rewrite <- !(kept_error _ _ _ _ _ _ _ K Em). apply Hle.
  - intros t. exact (as_complex_one _ _ (Hg0 t)).
  - intros t. exact (as_complex_one _ _ (Hg t)).
Qed.

Lemma fixed_no_worse cf x lam m a start e fit g g0 : curve_fit_ok cf ->
  fit_isf_to_fey_4_variable_model_110_fixed_ratio cf x lam m a start e = Some fit ->
  (forall t, get_isf_from_fey_4_variable_model_110 fit [t] = Some [RtoC (g t)]) ->
  (forall t, get_isf_from_fey_4_variable_model_110
     {| y4_a_dk := a; y4_fast_rate := 1400000000; y4_fast_amplitude := lam / (1 + lam); y4_slow_rate := lam * 1400000000; y4_slow_amplitude := 1 / (1 + lam);
        y4_offset := / 20 |} [t] = Some [RtoC (g0 t)]) ->
  let e' := match e with Some e => e | None => last (isf_times x) 0 end in
  window_error (Some start) (Some e') m x g <= window_error (Some start) (Some e') m x g0.
Proof.
  intros Hok H Hg Hg0 e'. destruct (fixed_bounds _ _ _ _ _ _ _ _ Hok H) as [Hl _].
  assert (H' : fit_isf_to_fey_4_variable_model_110_fixed_ratio cf x lam m a start (Some e') = Some fit).
  { destruct e as [e|]; [exact H|]. unfold e'. rewrite <- fixed_end; [exact H|]. intros E. unfold fit_isf_to_fey_4_variable_model_110_fixed_ratio in H. rewrite E in H. discriminate. }
  clear H. unfold fit_isf_to_fey_4_variable_model_110_fixed_ratio in H'. cbn [obind] in H'.
  destruct (deviation_fits x); [|discriminate].
  destruct (masked _ _ _) as [kept|] eqn:Em; [|discriminate]. cbn [obind] in H'. unfold fixed_ratio_start in H'. rewrite !rdiv_some in H' by lra. cbn [obind] in H'.
  destruct (cf _ _ _ _ _) as [p|] eqn:E; [|discriminate]. destruct (Hok _ _ _ _ _ _ E) as [_ [_ Hle]].
  destruct p as [|q0 [|q1 [|q2 [|q3 [|]]]]]; try discriminate. injection H' as <-.
  assert (K : forall t, (above start t && above t e')%bool = in_window (Some start) (Some e') t) by reflexivity.
  rewrite <- !(kept_error _ _ _ _ _ _ _ K Em). apply Hle.
  - intros t. exact (as_complex_one _ _ (Hg0 t)).
  - intros t. exact (as_complex_one _ _ (Hg t)).
Qed.

Lemma fey_no_worse calc start cf x m a fit g g0 s0 s1 : start = [s0; s1] -> curve_fit_ok cf -> fit_isf_to_fey_model calc start cf x m a = Some fit ->
  (forall t, as_complex (map (fun t => calc t (ff_fast_rate fit) (ff_slow_rate fit) (ff_a_dk fit)) [t]) = Some [RtoC (g t)]) ->
  (forall t, as_complex (map (fun t => calc t s0 s1 a) [t]) = Some [RtoC (g0 t)]) ->
  window_error None None m x g <= window_error None None m x g0.
Proof.
  intros -> Hok H Hg Hg0. unfold fit_isf_to_fey_model in H. destruct (cf _ _ _ _ _) as [p|] eqn:E; [|discriminate]. destruct (Hok _ _ _ _ _ _ E) as [_ [_ Hle]].
  destruct p as [|p0 [|p1 [|]]]; try discriminate. injection H as <-. rewrite <- !whole_error. apply Hle.
  - intros t. exact (as_complex_one _ _ (Hg0 t)).
  - intros t. exact (as_complex_one _ _ (Hg t)).
Qed.

Lemma curves_exist fit : 0 < y4_fast_rate fit -> 0 < y4_slow_rate fit -> exists g, forall t, get_isf_from_fey_4_variable_model_110 fit [t] = Some [RtoC (g t)].
Proof.
  intros H1 H2. destruct (four_variable_isf fit H1 H2) as (r0 & r1 & _ & _ & _ & E).
  exists (fun t => y4_fast_amplitude fit * exp (- r0 * t) + y4_slow_amplitude fit * exp (- r1 * t) + y4_offset fit). intros t. rewrite E. reflexivity.
Qed.

(** A fit that returns its start. *)
Lemma sample_curves : exists fit g, fit_isf_to_fey_4_variable_model_110 exchanging_fit (sample_isf None) MReal 2 (/ 2) = Some fit /\
  (forall t, get_isf_from_fey_4_variable_model_110 fit [t] = Some [RtoC (g t)]) /\ 0 < window_error (Some (/ 2)) None MReal (sample_isf None) (fun _ => 0).
Proof.
  unfold fit_isf_to_fey_4_variable_model_110. cbn [isf_times sample_isf obind deviation_fits isf_deviation length Nat.eqb isf_values map masked].
  assert (B : Forall2 within free_ratio_start free_ratio_bounds).
  { unfold free_ratio_start, free_ratio_bounds. repeat (apply Forall2_cons; [split; cbn [fst snd]; [lra|exact I || lra]|]). apply Forall2_nil. }
  unfold exchanging_fit. rewrite (all_within_complete _ _ B). cbn [negb]. unfold free_ratio_start. eexists.
  destruct (curves_exist {| y4_a_dk := 2; y4_fast_rate := 1400000000; y4_fast_amplitude := / 5; y4_slow_rate := 700000000; y4_slow_amplitude := 4 / 5; y4_offset := / 20 |}) as [g Hg];
    cbn [y4_fast_rate y4_slow_rate]; [lra|lra|].
  exists g. split; [reflexivity|]. split; [exact Hg|].
  unfold window_error, in_window. cbn [isf_times isf_values sample_isf combine fold_right fst snd measured RtoC].
  repeat (destruct (Rlt_dec _ _); [|try lra]); cbn [andb]; nra.
Qed.
