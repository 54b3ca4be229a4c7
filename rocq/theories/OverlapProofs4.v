(** The interpolator without the last axis, and the average over angles. *)
From Coq Require Import Reals Lra Permutation.
From Verif Require Import ZLib Csum DFT NumPy Interp Index IndexProofs AxesProofs Spec InterpProofs SpecReal Basis SpecBasis
  Operator SpecOperator Reduce ReduceProofs SpecWavepacket OperatorProofs WavepacketProofs GeneratorProofs DynamicsProofs WannierProofs6 Lattice LatticeProofs Overlap SpecOverlap OverlapProofs OverlapProofs3.
Local Open Scope R_scope.
Local Open Scope C_scope.

Lemma fold_csum (f : nat -> C) l : fold_right (fun t acc => f t + acc) (RtoC 0) l = csum (fun i => f (nth i l 0%nat)) (length l).
Proof.
  induction l as [|a l IH]; [reflexivity|]. cbn [fold_right length]. rewrite IH, csum_S_head. reflexivity.
Qed.

Lemma fold_seq (f : nat -> C) n : fold_right (fun t acc => f t + acc) (RtoC 0) (seq 0 n) = csum f n.
Proof. rewrite fold_csum, seq_length. apply csum_ext. intros i Hi. rewrite seq_nth by exact Hi. reflexivity. Qed.

Lemma fold_perm (f : nat -> C) l l' : Permutation l l' ->
  fold_right (fun t acc => f t + acc) (RtoC 0) l = fold_right (fun t acc => f t + acc) (RtoC 0) l'.
Proof. induction 1; cbn; try congruence. ring. Qed.

Lemma fold_app (f : nat -> C) l l' :
  fold_right (fun t acc => f t + acc) (RtoC 0) (l ++ l') =
  fold_right (fun t acc => f t + acc) (RtoC 0) l + fold_right (fun t acc => f t + acc) (RtoC 0) l'.
Proof. induction l as [|a l IH]; cbn; [ring|]. rewrite IH. ring. Qed.

Lemma unravel_last front last : (0 < last)%nat -> Forall (fun n => (0 < n)%nat) front -> forall t z, (t < nprod front)%nat -> (z < last)%nat ->
  unravel (front ++ [last]) (t * last + z) = unravel front t ++ [z].
Proof.
  intros Hl P. induction P as [|n front Hn P IH]; intros t z Ht Hz.
  - cbn in Ht. assert (t = 0)%nat by lia. subst. cbn [app unravel nprod Nat.mul Nat.add]. rewrite Nat.div_1_r. reflexivity.
  - cbn [app unravel nprod] in *. rewrite nprod_app. cbn [nprod]. rewrite Nat.mul_1_r.
    assert (R0 := nprod_pos front P). set (R := nprod front) in *.
    assert (Dt := Nat.div_mod t R ltac:(lia)). assert (Mt := Nat.mod_upper_bound t R ltac:(lia)).
    assert (E1 : ((t * last + z) / (R * last) = t / R)%nat).
    { symmetry. apply (Nat.div_unique _ _ _ ((t mod R) * last + z)%nat); [nia|]. nia. }
    assert (E2 : ((t * last + z) mod (R * last) = (t mod R) * last + z)%nat).
    { symmetry. apply (Nat.mod_unique _ _ (t / R)%nat); [nia|]. nia. }
    rewrite E1, E2. rewrite IH by assumption. reflexivity.
Qed.

Lemma flat_some front last delta data order n_points k : front <> [] ->
  flat_interpolation front last delta data order n_points k =
  Some (fold_right (fun t acc => flat_term front last delta data k t + acc) (RtoC 0)
    (match n_points with None => seq 0 (nprod front) | Some n => firstn n (rev order) end)).
Proof. intros H. unfold flat_interpolation. destruct front; [congruence|reflexivity]. Qed.

Section Flat.
  Context (front : list nat) (last : nat) (delta : nat -> nat -> R).
  Context (Hne : front <> []) (P : Forall (fun n => (0 < n)%nat) front) (Hl : (0 < last)%nat).
  Context (Hd : forall c, (c < 2)%nat -> delta (length front) c = 0%R).
  Let nd := S (length front).
  Let sh := front ++ [last].

  Lemma shape_length : length sh = nd.
  Proof using. unfold sh, nd. rewrite app_length. apply Nat.add_1_r. Qed.

  (** The first two components of the points do not see the last axis. *)
  Lemma flat_points t z c : (t < nprod front)%nat -> (z < last)%nat -> (c < 2)%nat ->
    x_point_at_index (front ++ [1%nat]) delta (wrapped_points sh (unravel (front ++ [1%nat]) t)) c =
    x_point_at_index sh delta (wrapped_points sh (unravel sh (t * last + z))) c.
  Proof using P Hl Hd.
    intros Ht Hz Hc. unfold x_point_at_index, tensordot00.
    rewrite shape_length. replace (length (front ++ [1%nat])) with nd by (unfold nd; rewrite app_length; cbn; lia).
    unfold nd. rewrite !rsum_S, Hd by exact Hc. f_equal.
    2:{ unfold Rdiv. rewrite !Rmult_0_l. reflexivity. }
    apply rsum_ext. intros a Ha.
    assert (Lt : length (unravel front t) = length front) by (apply unravel_length; exact Ht).
    assert (U1 : unravel (front ++ [1%nat]) t = unravel front t ++ [0%nat]).
    { assert (Q := unravel_last front 1 ltac:(lia) P t 0 Ht ltac:(lia)). rewrite Nat.mul_1_r, Nat.add_0_r in Q. exact Q. }
    rewrite U1. unfold sh. rewrite unravel_last by assumption.
    rewrite !app_nth1 with (l := front) by exact Ha. f_equal. f_equal.
    assert (La : (a < length (front ++ [last]))%nat) by (rewrite app_length; cbn; lia).
    rewrite !wrapped_nth by (rewrite ?app_length, ?Lt; cbn; lia).
    rewrite !(app_nth1 (unravel front t)) by (rewrite Lt; exact Ha). reflexivity.
  Qed.

  Lemma flat_term_sum data (k : nat -> R) t : (t < nprod front)%nat -> (forall c, (2 <= c)%nat -> k c = 0%R) ->
    flat_term front last delta data k t =
    csum (fun z => data (t * last + z)%nat *
       cis (rsum (fun c => x_point_at_index sh delta (wrapped_points sh (unravel sh (t * last + z))) c * k c) nd)%R) last.
  Proof using P Hl Hd Hne.
    intros Ht Hk. unfold flat_term, flat_vector. rewrite <- csum_scal_r. apply csum_ext. intros z Hz. f_equal. f_equal.
    fold sh.
    assert (E : exists m, nd = (2 + m)%nat).
    { unfold nd. exists (length front - 1)%nat. assert (length front <> 0%nat) by (intros Z; apply Hne, length_zero_iff_nil, Z). lia. }
    destruct E as [m Em]. rewrite Em.
    assert (K : forall g : nat -> R, rsum (fun c => g c * k c)%R (2 + m) = rsum (fun c => g c * k c)%R 2).
    { intros g. clear Em. induction m as [|m IH]; [reflexivity|]. replace (2 + S m)%nat with (S (2 + m)) by lia. rewrite rsum_S, IH, Hk by lia. ring. }
    rewrite K. apply rsum_ext. intros c Hc. rewrite (flat_points t z c) by assumption. reflexivity.
  Qed.

  Lemma flat_full data order (k : nat -> R) : (forall c, (2 <= c)%nat -> k c = 0%R) ->
    flat_interpolation front last delta data order None k = Some (momentum_interpolator sh delta data k).
  Proof using P Hl Hd Hne.
    intros Hk. rewrite flat_some by exact Hne. f_equal.
    rewrite fold_seq. unfold momentum_interpolator. rewrite shape_length. unfold sh. rewrite nprod_app. cbn [nprod]. rewrite Nat.mul_1_r.
    rewrite csum_mul. apply csum_ext. intros t Ht. apply flat_term_sum; assumption.
  Qed.
End Flat.

(** ** Keeping only the largest terms *)
Lemma truncated_terms front last delta data order n (k : nat -> R) : front <> [] ->
  argsort_ok (nprod front) (fun t => Cmod (flat_vector last data t)) order ->
  exists full part dropped, flat_interpolation front last delta data order None k = Some full /\
    flat_interpolation front last delta data order (Some n) k = Some part /\
    Permutation (seq 0 (nprod front)) (firstn n (rev order) ++ dropped) /\
    length dropped = (nprod front - n)%nat /\
    (forall s t, In s (firstn n (rev order)) -> In t dropped ->
       (Cmod (flat_vector last data t) <= Cmod (flat_vector last data s))%R) /\
    (Cmod (full - part)%C <= fold_right (fun t acc => Cmod (flat_vector last data t) + acc) 0 dropped)%R.
Proof.
  intros Hne [Hp Hs]. rewrite !flat_some by exact Hne.
  set (N := nprod front) in *. assert (Lo : length order = N) by (rewrite <- (Permutation_length Hp), seq_length; reflexivity).
  assert (PP : Permutation (seq 0 N) (firstn n (rev order) ++ skipn n (rev order))).
  { rewrite firstn_skipn. apply (Permutation_trans Hp), Permutation_rev. }
  eexists. eexists. exists (skipn n (rev order)). split; [reflexivity|]. split; [reflexivity|]. split; [exact PP|].
  split; [rewrite skipn_length, rev_length, Lo; reflexivity|]. split.
  - intros s t Hs' Ht.
    destruct (In_nth _ _ 0%nat Hs') as [i [Hi Ei]]. destruct (In_nth _ _ 0%nat Ht) as [j [Hj Ej]].
    rewrite firstn_length, rev_length, Lo in Hi. rewrite skipn_length, rev_length, Lo in Hj.
    assert (E1 : nth i (firstn n (rev order)) 0%nat = nth i (rev order) 0%nat).
    { rewrite <- (firstn_skipn n (rev order)) at 2. rewrite app_nth1; [reflexivity|]. rewrite firstn_length, rev_length, Lo. lia. }
    assert (E2 : nth j (skipn n (rev order)) 0%nat = nth (n + j) (rev order) 0%nat).
    { rewrite <- (firstn_skipn n (rev order)) at 2. rewrite app_nth2; rewrite firstn_length, rev_length, Lo; [|lia]. f_equal. lia. }
    rewrite E1 in Ei. rewrite E2 in Ej. rewrite rev_nth in Ei, Ej by (rewrite Lo; lia). rewrite Lo in Ei, Ej. subst s t.
    apply Hs. lia.
  - set (f := flat_term front last delta data k). rewrite (fold_perm f _ _ PP), fold_app.
    set (l := skipn n (rev order)). replace (_ + _ - _) with (fold_right (fun t acc => f t + acc) (RtoC 0) l) by ring.
    generalize l. clear. intros l. induction l as [|a l IH]; cbn [fold_right]; [rewrite Cmod_0; lra|].
    apply (Rle_trans _ _ _ (Cmod_triangle _ _)). apply Rplus_le_compat; [|exact IH].
    unfold f, flat_term. rewrite Cmod_mult, cis_mod. lra.
Qed.

Lemma no_truncation front last delta data order n (k : nat -> R) : front <> [] -> (nprod front <= n)%nat ->
  Permutation (seq 0 (nprod front)) order ->
  flat_interpolation front last delta data order (Some n) k = flat_interpolation front last delta data order None k.
Proof.
  intros Hne Hn Hp. rewrite !flat_some by exact Hne. f_equal.
  rewrite firstn_all2 by (rewrite rev_length, <- (Permutation_length Hp), seq_length; exact Hn).
  symmetry. apply fold_perm. apply (Permutation_trans Hp), Permutation_rev.
Qed.

(** ** Average over angles *)
Lemma angle_average f q m : (2 <= m)%nat ->
  angle_averaged f q m = Some ((INR (m - 1) * circle_mean f q (m - 1) + Cnorm2 (f (q, 0%R))) / INR m)%R.
Proof.
  intros Hm. unfold angle_averaged. destruct (Nat.eqb_spec m 0) as [|_]; [lia|]. f_equal. f_equal.
  unfold circle_mean. assert (M0 : INR (m - 1) <> 0%R) by (apply not_0_INR; lia).
  rewrite <- (Nat.sub_add 1 m) at 1 by lia. rewrite Nat.add_1_r, rsum_S.
  replace (INR (m - 1) * (rsum (fun j => Cnorm2 (f (q * cos (2 * PI * INR j / INR (m - 1)), q * sin (2 * PI * INR j / INR (m - 1)))%R)) (m - 1) / INR (m - 1)))%R
    with (rsum (fun j => Cnorm2 (f (q * cos (2 * PI * INR j / INR (m - 1)), q * sin (2 * PI * INR j / INR (m - 1)))%R)) (m - 1)) by (field; exact M0).
  f_equal.
  - apply rsum_ext. intros j Hj. unfold theta_sample. destruct (Nat.eqb_spec m 1) as [|_]; [lia|]. reflexivity.
  - unfold theta_sample. destruct (Nat.eqb_spec m 1) as [|_]; [lia|].
    replace (2 * PI * INR (m - 1) / INR (m - 1))%R with (2 * PI)%R by (field; exact M0).
    rewrite cos_2PI, sin_2PI, Rmult_1_r, Rmult_0_r. reflexivity.
Qed.

Lemma angle_average_one f q : angle_averaged f q 1 = Some (Cnorm2 (f (q, 0%R))).
Proof.
  unfold angle_averaged, theta_sample. cbn [Nat.eqb rsum INR]. rewrite cos_0, sin_0, Rmult_1_r, Rmult_0_r. f_equal. field.
Qed.

Lemma angle_average_none f q : angle_averaged f q 0 = None.
Proof. reflexivity. Qed.

Lemma angle_average_constant f q m c : (1 <= m)%nat -> (forall t, Cnorm2 (f (q * cos t, q * sin t)%R) = c) ->
  angle_averaged f q m = Some c.
Proof.
  intros Hm H. unfold angle_averaged. destruct (Nat.eqb_spec m 0) as [|_]; [lia|]. f_equal.
  rewrite (rsum_ext _ (fun _ => c * 1)%R) by (intros j Hj; rewrite H; ring). rewrite LatticeProofs.rsum_scal_l.
  assert (E : rsum (fun _ => 1%R) m = INR m).
  { clear. induction m as [|m IH]; [reflexivity|]. rewrite rsum_S, IH, S_INR. reflexivity. }
  rewrite E. field. apply not_0_INR. lia.
Qed.

Lemma cos_squares m : (3 <= m)%nat ->
  rsum (fun j => cos (2 * PI * INR j / INR m) * cos (2 * PI * INR j / INR m))%R m = (INR m / 2)%R.
Proof.
  intros Hm. assert (M0 : INR m <> 0%R) by (apply not_0_INR; lia).
  assert (S0 := omega_sum_neq m 2 ltac:(lia)).
  assert (NC : ~ Zcong (Z.of_nat m) 2 0) by (intros [q Q]; destruct (Z_le_gt_dec q 0); nia). specialize (S0 NC).
  apply (f_equal fst) in S0. cbn [fst RtoC] in S0.
  assert (F : forall (g : nat -> C) n, fst (csum g n) = rsum (fun j => fst (g j)) n).
  { intros g n. induction n as [|n IH]; [reflexivity|]. rewrite rsum_S, <- IH. reflexivity. }
  rewrite F in S0.
  rewrite (rsum_ext _ (fun j => 2 * (cos (2 * PI * INR j / INR m) * cos (2 * PI * INR j / INR m)) + -1 * 1))%R in S0.
  - rewrite LatticeProofs.rsum_plus, !LatticeProofs.rsum_scal_l in S0.
    assert (E : rsum (fun _ => 1%R) m = INR m) by (clear; induction m as [|m IH]; [reflexivity|]; rewrite rsum_S, IH, S_INR; reflexivity).
    rewrite E in S0. lra.
  - intros j Hj. unfold omega, cis. cbn [fst]. rewrite mult_IZR, <- INR_IZR_INZ.
    replace (2 * PI * (2 * INR j) / INR m)%R with (2 * (2 * PI * INR j / INR m))%R by (field; exact M0).
    rewrite cos_2a_cos. ring.
Qed.

(** The first angle counts twice: the average of k_x^2 over a circle is not q^2/2. *)
Lemma angle_average_biased q m : (4 <= m)%nat ->
  let f := fun k : R * R => RtoC (fst k) in
  circle_mean f q (m - 1) = (q * q / 2)%R /\
  angle_averaged f q m = Some (q * q / 2 * (INR (m + 1) / INR m))%R.
Proof.
  intros Hm f. assert (M0 : INR (m - 1) <> 0%R) by (apply not_0_INR; lia). assert (M1 : INR m <> 0%R) by (apply not_0_INR; lia).
  assert (A : circle_mean f q (m - 1) = (q * q / 2)%R).
  { unfold circle_mean. rewrite (rsum_ext _ (fun j => q * q * (cos (2 * PI * INR j / INR (m - 1)) * cos (2 * PI * INR j / INR (m - 1))))%R).
    - rewrite LatticeProofs.rsum_scal_l, cos_squares by lia. field. exact M0.
    - intros j Hj. unfold f, Cnorm2, RtoC. cbn [fst snd]. ring. }
  split; [exact A|]. rewrite angle_average by lia. f_equal. rewrite A. unfold f, Cnorm2, RtoC. cbn [fst snd].
  rewrite plus_INR, minus_INR by lia. cbn [INR]. field. exact M1.
Qed.

(** ** Overlaps of states *)
Lemma rsum_moved_back (f : nat -> R) n (s : Z) :
  rsum (fun x => f (Z.to_nat ((Z.of_nat x - s) mod Z.of_nat n))) n = rsum f n.
Proof.
  apply RtoC_inj. rewrite <- !csum_RtoC.
  assert (K : forall (a b : Z) x, (x < n)%nat -> (a + b = 0)%Z ->
    (Z.to_nat ((Z.of_nat x + a) mod Z.of_nat n) < n)%nat /\
    Z.to_nat ((Z.of_nat (Z.to_nat ((Z.of_nat x + a) mod Z.of_nat n)) + b) mod Z.of_nat n) = x).
  { intros a b x Hx Hab. assert (B := Z.mod_pos_bound (Z.of_nat x + a) (Z.of_nat n) ltac:(lia)). split; [lia|].
    rewrite Z2Nat.id by lia. rewrite Zplus_mod_idemp_l. replace (Z.of_nat x + a + b)%Z with (Z.of_nat x) by lia.
    rewrite Z.mod_small by lia. apply Nat2Z.id. }
  apply (csum_bij (fun x => RtoC (f x)) n n (fun x => Z.to_nat ((Z.of_nat x - s) mod Z.of_nat n))
    (fun x => Z.to_nat ((Z.of_nat x + s) mod Z.of_nat n))); intros x Hx.
  - apply (K (- s)%Z s x Hx). lia.
  - apply (K s (- s)%Z x Hx). lia.
Qed.

Section States.
  Context (n : nat) (shape : list nat) (data : ndarray) (Hd : nprod (ashape data) = (n * nprod shape)%nat).
  Let psi j := row (nprod shape) (aflat data) j.

  Lemma single_of_list s j i : (j < n)%nat -> (i < n)%nat ->
    exists all one, calculate_state_vector_list_overlap n shape data (IFlat s) = Some all /\
      get_single_overlap (nprod shape) n n all (IStacked [Z.of_nat j; Z.of_nat i]) = Some one /\
      forall x, (x < nprod shape)%nat -> aflat one x = Cconj (psi j x) * psi i (Z.to_nat ((Z.of_nat x - s) mod Z.of_nat (nprod shape))).
  Proof using Hd.
    intros Hj Hi. destruct (list_overlap n shape data s Hd) as [all [E [Sh V]]].
    destruct (single_overlap n (nprod shape) all j i Hj Hi) as [one [E1 [_ [_ V1]]]].
    { rewrite Sh. cbn [nprod]. lia. }
    exists all, one. split; [exact E|]. split; [exact E1|]. intros x Hx. rewrite V1 by exact Hx. apply V; assumption.
  Qed.

  Lemma interpolated_bound s j i all one delta k : (j < n)%nat -> (i < n)%nat ->
    calculate_state_vector_list_overlap n shape data (IFlat s) = Some all ->
    get_single_overlap (nprod shape) n n all (IStacked [Z.of_nat j; Z.of_nat i]) = Some one ->
    (Cnorm2 (momentum_interpolator shape delta (aflat one) k) <=
       rsum (fun x => Cnorm2 (psi j x)) (nprod shape) * rsum (fun x => Cnorm2 (psi i x)) (nprod shape))%R.
  Proof using Hd.
    intros Hj Hi E E1. destruct (single_of_list s j i Hj Hi) as [all' [one' [F [F1 V]]]].
    rewrite E in F. injection F as <-. rewrite E1 in F1. injection F1 as <-.
    rewrite <- (rsum_moved_back (fun x => Cnorm2 (psi i x)) (nprod shape) s).
    apply (interpolator_bound shape delta (aflat one) (psi j) (fun x => psi i (Z.to_nat ((Z.of_nat x - s) mod Z.of_nat (nprod shape))))).
    exact V.
  Qed.

  Lemma interpolated_hermitian j i all one one' delta k : (j < n)%nat -> (i < n)%nat ->
    calculate_state_vector_list_overlap n shape data (IFlat 0) = Some all ->
    get_single_overlap (nprod shape) n n all (IStacked [Z.of_nat j; Z.of_nat i]) = Some one ->
    get_single_overlap (nprod shape) n n all (IStacked [Z.of_nat i; Z.of_nat j]) = Some one' ->
    momentum_interpolator shape delta (aflat one') (fun c => - k c)%R = Cconj (momentum_interpolator shape delta (aflat one) k).
  Proof using Hd.
    intros Hj Hi E E1 E2. apply interpolator_conj. intros x Hx.
    destruct (list_overlap_hermitian n shape data all Hd E j i Hj Hi) as [H _].
    destruct (list_overlap n shape data 0 Hd) as [all' [F [Sh _]]]. rewrite E in F. injection F as <-.
    destruct (single_overlap n (nprod shape) all j i Hj Hi) as [o [F1 [_ [_ V1]]]]; [rewrite Sh; cbn [nprod]; lia|].
    destruct (single_overlap n (nprod shape) all i j Hi Hj) as [o' [F2 [_ [_ V2]]]]; [rewrite Sh; cbn [nprod]; lia|].
    rewrite E1 in F1. injection F1 as <-. rewrite E2 in F2. injection F2 as <-. rewrite V1, V2 by exact Hx. apply H. exact Hx.
  Qed.

  Lemma interpolated_zero j i all one delta k : (j < n)%nat -> (i < n)%nat -> (forall c, (c < length shape)%nat -> k c = 0%R) ->
    calculate_state_vector_list_overlap n shape data (IFlat 0) = Some all ->
    get_single_overlap (nprod shape) n n all (IStacked [Z.of_nat j; Z.of_nat i]) = Some one ->
    momentum_interpolator shape delta (aflat one) k = inner_product (nprod shape) (psi j) (psi i).
  Proof using Hd.
    intros Hj Hi Hk E E1. rewrite interpolator_zero by exact Hk.
    destruct (list_overlap_hermitian n shape data all Hd E j i Hj Hi) as [_ H]. unfold psi. rewrite <- H.
    destruct (list_overlap n shape data 0 Hd) as [all' [F [Sh _]]]. rewrite E in F. injection F as <-.
    destruct (single_overlap n (nprod shape) all j i Hj Hi) as [o [F1 [_ [_ V1]]]]; [rewrite Sh; cbn [nprod]; lia|].
    rewrite E1 in F1. injection F1 as <-. apply csum_ext. exact V1.
  Qed.
End States.
