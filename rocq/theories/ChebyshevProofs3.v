(** The operators fitted to an isotropic kernel, along one axis and stacked. *)
From Coq Require Import Reals Lra Lia List Arith ZArith Psatz.
From Coquelicot Require Import Coquelicot.
From Verif Require Import ZLib Csum DFT NumPy Interp InterpProofs Index Spec SpecBasis BasisProofs3 Basis Operator SpecOperator Kernel SpecKernel KernelProofs KernelProofs2 KernelProofs3 KernelFacts
  IndexProofs BasisProofs BasisProofs2 LatticeProofs Dynamics SpecDynamics Spectral Taylor SpecTaylor TaylorProofs TaylorProofs3 ChebyshevProofs ChebyshevProofs2.
Import ListNotations.
Local Open Scope R_scope.
Local Open Scope C_scope.

Lemma complex_kernel b N n L c e : bsize b = N -> (0 < N)%nat -> (0 < n)%nat ->
  get_periodic_operators_for_real_isotropic_noise true b (Some n) None = Some L ->
  ashape e = [(n + (n - 1))%nat] ->
  (forall a, (a < n + (n - 1))%nat -> aflat e a = RtoC (INR N) * (if (a <? n)%nat then c a else c (n - 1 - (a - n))%nat)) ->
  let o := {| nops := L; neig := e |} in
  diagonal_noise_wf o /\ noise_count o = (n + (n - 1))%nat /\ bsize (lrow (nops o)) = N /\
  forall x y, (x < N)%nat -> (y < N)%nat -> diagonal_kernel_of o x y = csum (fun m => c m * RtoC (cos (2 * PI * INR m * (INR x - INR y) / INR N))) n.
Proof.
  intros Hb HN Hn HL Se He o.
  pose proof HL as HL'. unfold get_periodic_operators_for_real_isotropic_noise in HL'. rewrite Hb in HL'.
  destruct (true && negb (periodic_sample [N] [N]))%bool eqn:P; [discriminate|]. injection HL' as EL.
  assert (K : noise_count o = (n + (n - 1))%nat) by (unfold o, noise_count; cbn [nops]; rewrite <- EL; reflexivity).
  assert (W : diagonal_noise_wf o).
  { unfold o, diagonal_noise_wf. split; [|cbn [neig]; fold o; now rewrite K].
    unfold diag_list_wf. cbn [nops]. rewrite <- EL. cbn. rewrite Hb. repeat split; try reflexivity; lia. }
  assert (B : bsize (lrow (nops o)) = N) by (unfold o; cbn [nops]; rewrite <- EL; exact Hb).
  split; [exact W|]. split; [exact K|]. split; [exact B|]. intros x y Hx Hy.
  destruct (cos_sin_kernel true b n None N L c Hb HN Hn HN (Nat.mod_same N ltac:(lia)) HL) as [D [ED [SD HD]]]. cbv zeta in ED.
  set (e' := {| nops := L; neig := _ |}) in ED.
  assert (We : diagonal_noise_wf e').
  { destruct W as [W1 W2]. split; [exact W1|]. unfold noise_count in *. unfold e', o in *. cbn [nops neig ashape] in *. now rewrite K. }
  destruct (diagonal_kernel_spec e' We) as [D' [ED' [_ HD']]]; [unfold noise_count in *; unfold e', o in *; cbn [nops] in *; lia|].
  rewrite ED in ED'. injection ED' as <-. change (bsize (lrow (nops e'))) with (bsize (lrow (nops o))) in HD'. rewrite B in HD'.
  transitivity (diagonal_kernel_of e' x y).
  - unfold diagonal_kernel_of. change (noise_count e') with (noise_count o). rewrite K. apply csum_ext. intros a Ha. do 2 f_equal.
    unfold eigenvalue, o, e'. cbn [neig aflat]. now apply He.
  - rewrite <- HD' by assumption. now apply HD.
Qed.

Lemma cong_cos N m (x y : nat) (z : Z) : (0 < N)%nat -> Zcong (Z.of_nat N) z (Z.of_nat x - Z.of_nat y) ->
  cos (2 * PI * INR m * (INR x - INR y) / INR N) = cos (INR m * (IZR z * (2 * PI / INR N))).
Proof.
  intros HN [q Hq]. assert (INR N <> 0%R) by (apply not_0_INR; lia).
  assert (E : (INR x - INR y = IZR z + IZR (- q) * INR N)%R).
  { rewrite !INR_IZR_INZ, <- minus_IZR, <- mult_IZR, <- plus_IZR. f_equal. lia. }
  rewrite E. replace (2 * PI * INR m * (IZR z + IZR (- q) * INR N) / INR N)%R with (INR m * (IZR z * (2 * PI / INR N)) + 2 * IZR (Z.of_nat m * - q) * PI)%R.
  - set (t := (INR m * (IZR z * (2 * PI / INR N)))%R). destruct (Z_le_dec 0 (Z.of_nat m * - q)) as [P|P].
    + rewrite <- (Z2Nat.id _ P), <- INR_IZR_INZ. apply cos_period.
    + symmetry. rewrite <- (cos_period (t + 2 * IZR (Z.of_nat m * - q) * PI) (Z.to_nat (- (Z.of_nat m * - q)))). f_equal.
      rewrite INR_IZR_INZ, Z2Nat.id by lia. rewrite opp_IZR. ring.
  - rewrite mult_IZR, <- INR_IZR_INZ. field. assumption.
Qed.


Lemma fit_operators fit b N k n : fit_ok fit -> bfund b = N -> (0 < N)%nat -> ashape k = [N] ->
  exists o, get_periodic_noise_operators_real_isotropic_taylor_expansion fit b k n = Some o /\
    diagonal_noise_wf o /\ (0 < noise_count o)%nat /\ bsize (lrow (nops o)) = N /\
    forall x y i j z, (x < N)%nat -> (y < N)%nat -> (i < N)%nat -> (j < N)%nat ->
      Zcong (Z.of_nat N) (Z.of_nat i) (Z.of_nat x - Z.of_nat y) -> Zcong (Z.of_nat N) (Z.of_nat j) (Z.of_nat y - Z.of_nat x) ->
      Zcong (Z.of_nat N) z (Z.of_nat x - Z.of_nat y) -> (Z.abs z <= Z.of_nat (fit_size n N))%Z ->
      diagonal_kernel_of o x y = (aflat k i + aflat k j) * RtoC (/ 2).
Proof.
  intros Hfit Hb HN Hk. unfold get_periodic_noise_operators_real_isotropic_taylor_expansion. rewrite Hb, Hk. cbn [bsize]. rewrite Nat.eqb_refl. fold (fit_size n N). set (m := fit_size n N).
  destruct (weights_spec m N) as [w [Ew Hw]]. rewrite Ew.
  destruct (periodic_operators_exist (BFund N) (m + 1) HN) as [L EL]. rewrite EL.
  set (points := fun j => cos (INR j * (2 * PI / INR N))). set (coef := fit N points (aflat k) m w).
  set (e := {| ashape := _; aflat := _ |}).
  destruct (complex_kernel (BFund N) N (m + 1) L coef e eq_refl HN ltac:(lia) EL) as [W [K [B V]]].
  { unfold e. cbn [ashape]. f_equal. lia. }
  { intros a Ha. unfold e. cbn [aflat]. replace (m + 1 - 1 - (a - (m + 1)))%nat with (m - (a - (m + 1)))%nat by lia. destruct (a <? m + 1)%nat; ring. }
  eexists. split; [reflexivity|]. split; [exact W|]. split; [rewrite K; lia|]. split; [exact B|].
  intros x y i j z Hx Hy Hi Hj Ci Cj Cz Hz. rewrite V by assumption.
  assert (Fi : (Z.abs (slot_freq N i) <= Z.of_nat m)%Z).
  { destruct (slot_freq_ok N i Hi) as [[q Hq] Hr]. destruct Ci as [q1 Hq1], Cz as [q2 Hq2].
    assert (E : exists t, z = (slot_freq N i + t * Z.of_nat N)%Z) by (exists (q2 - q1 - q)%Z; lia). destruct E as [t E].
    destruct (Z_dec t 0) as [[T|T]|T]; [| |subst t; lia]; nia. }
  assert (Ej : j = mirror N i).
  { destruct (mirror_cong N i Hi) as [q Hq]. pose proof (mirror_lt N i Hi). destruct Ci as [q1 Hq1], Cj as [q2 Hq2].
    assert (exists t, (Z.of_nat j - Z.of_nat (mirror N i) = t * Z.of_nat N)%Z) as [t Ht] by (exists (q2 + q1 - q)%Z; lia). assert (t = 0%Z) by nia. subst t. lia. }
  rewrite Ej. rewrite <- (fit_value N m (aflat k) w HN Hw coef (fun c' => Hfit N points (aflat k) m w c') i Hi Fi).
  apply csum_ext. intros l Hl. rewrite (cong_cos N l x y (Z.of_nat i) HN Ci), chebyshev_cos, <- INR_IZR_INZ. ring.
Qed.

Lemma fit_kernel fit b N k n : fit_ok fit -> bfund b = N -> (0 < N)%nat -> ashape k = [N] ->
  exists o D, get_periodic_noise_operators_real_isotropic_taylor_expansion fit b k n = Some o /\
    get_diagonal_kernel_from_diagonal_operators o = Some D /\ ashape D = [(N * N)%nat] /\
    forall x y i j z, (x < N)%nat -> (y < N)%nat -> (i < N)%nat -> (j < N)%nat ->
      Zcong (Z.of_nat N) (Z.of_nat i) (Z.of_nat x - Z.of_nat y) -> Zcong (Z.of_nat N) (Z.of_nat j) (Z.of_nat y - Z.of_nat x) ->
      Zcong (Z.of_nat N) z (Z.of_nat x - Z.of_nat y) -> (Z.abs z <= Z.of_nat (fit_size n N))%Z ->
      entry2 N D x y = (aflat k i + aflat k j) * RtoC (/ 2).
Proof.
  intros Hf Hb HN Hk. destruct (fit_operators fit b N k n Hf Hb HN Hk) as [o [Eo [W [K [B V]]]]].
  destruct (diagonal_kernel_spec o W K) as [D [ED [SD HD]]]. rewrite B in SD, HD. exists o, D. split; [exact Eo|]. split; [exact ED|]. split; [exact SD|].
  intros x y i j z Hx Hy Hi Hj Ci Cj Cz Hz. rewrite HD by assumption. now apply (V x y i j z).
Qed.

(** ** Stacked *)

Definition symmetric_array (n : nat) (k : ndarray) : Prop :=
  forall i j, (i < n)%nat -> (j < n)%nat -> Zcong (Z.of_nat n) (Z.of_nat i) (- Z.of_nat j) -> aflat k i = aflat k j.

Lemma fit_rebuilds fit n k : fit_ok fit -> (0 < n)%nat -> ashape k = [n] -> symmetric_array n k ->
  exists o, get_periodic_noise_operators_real_isotropic_taylor_expansion fit (BFund (nprod (ashape k))) k None = Some o /\ rebuilds n k o.
Proof.
  intros Hf Hn Hk Hs. destruct (fit_operators fit (BFund (nprod (ashape k))) n k None Hf) as [o [Eo [W [K [B V]]]]]; try assumption.
  { cbn [bfund]. rewrite Hk. cbn. lia. }
  exists o. split; [exact Eo|]. split; [exact W|]. split; [exact K|]. split; [exact B|]. intros i j d Hi Hj Hd Cd.
  rewrite (V i j d (mirror n d) (slot_freq n d) Hi Hj Hd (mirror_lt n d Hd) Cd).
  - rewrite (Hs d (mirror n d) Hd (mirror_lt n d Hd)).
    + transitivity (aflat k (mirror n d) * (RtoC (/ 2) + RtoC (/ 2))); [ring|]. rewrite RtoC_half. ring.
    + destruct (mirror_cong n d Hd) as [q Hq]. exists q. lia.
  - destruct (mirror_cong n d Hd) as [q Hq], Cd as [q' Hq']. exists (q - q')%Z. lia.
  - destruct (slot_freq_ok n d Hd) as [[q Hq] _], Cd as [q' Hq']. exists (q + q')%Z. lia.
  - cbn [fit_size]. pose proof (freq_slot n d Hd) as [_ H]. pose proof (Nat2Z.inj_div (n + 1) 2). lia.
Qed.

Lemma taylor_axes fit : forall l, (forall k, In k l -> exists o, get_periodic_noise_operators_real_isotropic_taylor_expansion fit (BFund (nprod (ashape k))) k None = Some o /\ rebuilds (nprod (ashape k)) k o) ->
  exists r, taylor_axis_operators fit l (repeat None (length l)) = Some r /\ Forall2 (fun k o => rebuilds (nprod (ashape k)) k o) l r.
Proof.
  induction l as [|k l IH]; intros H; [exists []; split; [reflexivity|constructor]|].
  destruct (H k (or_introl eq_refl)) as [o [Eo Ro]]. destruct IH as [r [Er Fr]]; [intros; apply H; now right|].
  exists (o :: r). cbn [length repeat taylor_axis_operators]. rewrite Eo, Er. split; [reflexivity|now constructor].
Qed.

Section Stacked.
Variable shape : list nat.
Variable k : ndarray.
Let nd := length shape.
Hypothesis Hnd : (0 < nd)%nat.
Hypothesis Hpos : Forall (fun n => (0 < n)%nat) shape.
Hypothesis Hk : nprod (ashape k) = nprod shape.
Hypothesis Hk0 : aflat k 0 <> 0.
Hypothesis Hsym : forall ax i j, (ax < nd)%nat -> (i < nth ax shape 0)%nat -> (j < nth ax shape 0)%nat ->
  Zcong (Z.of_nat (nth ax shape 0%nat)) (Z.of_nat i) (- Z.of_nat j) ->
  aflat k (ravel shape (axis_point nd ax i)) = aflat k (ravel shape (axis_point nd ax j)).

Lemma stacked_fit fit : fit_ok fit -> exists l o D,
  as_axis_kernel_from_isotropic shape k = Some l /\
  get_periodic_noise_operators_real_isotropic_stacked_taylor_expansion fit shape k None = Some o /\
  diagonal_noise_wf o /\
  get_diagonal_kernel_from_diagonal_operators o = Some D /\
  ashape D = [(nprod shape * nprod shape)%nat] /\
  forall x y d, in_shape x shape -> in_shape y shape -> displacement shape d x y ->
    entry2 (nprod shape) D (ravel shape x) (ravel shape y) =
    aflat (as_isotropic_kernel_from_axis l) (ravel shape d).
Proof.
  intros Hf. destruct (axis_kernels_spec shape k Hnd Hk Hk0) as [l [Hl [Hn Hv]]]. change (length l = nd) in Hn. exists l.
  unfold get_periodic_noise_operators_real_isotropic_stacked_taylor_expansion. rewrite Hl.
  destruct (taylor_axes fit l) as [r [Hr HF]].
  { intros a Hin. apply (In_nth _ _ no_array) in Hin. destruct Hin as [ax [Hax <-]]. rewrite Hn in Hax. destruct (Hv ax Hax) as [Sa Va].
    rewrite Sa. cbn [nprod]. rewrite Nat.mul_1_r.
    destruct (fit_rebuilds fit (nth ax shape 0%nat) (nth ax l no_array) Hf) as [o [Eo Ro]]; [rewrite Forall_forall in Hpos; apply Hpos, nth_In; exact Hax|exact Sa| |].
    - intros i j Hi Hj Hc. rewrite !Va. f_equal. now apply Hsym.
    - rewrite Sa in Eo. cbn [nprod] in Eo. rewrite Nat.mul_1_r in Eo. exists o. split; assumption. }
  rewrite Hr. destruct (Forall2_nth_all _ _ _ no_array no_operators HF) as [HL HP].
  assert (HP' : forall ax, (ax < nd)%nat -> rebuilds (nth ax shape 0%nat) (nth ax l no_array) (nth ax r no_operators)).
  { intros ax Hax. specialize (HP ax ltac:(lia)). rewrite (proj1 (Hv ax Hax)) in HP. cbn [nprod] in HP. now rewrite Nat.mul_1_r in HP. }
  assert (HFr : Forall (fun o => diagonal_noise_wf o /\ (0 < noise_count o)%nat) r).
  { apply Forall_forall. intros o Ho. apply (In_nth _ _ no_operators) in Ho. destruct Ho as [ax [Hax <-]].
    destruct (HP' ax ltac:(lia)) as [A [B _]]. split; assumption. }
  assert (Hsz : map (fun o => bsize (lrow (nops o))) r = shape).
  { apply (nth_ext _ _ 0%nat 0%nat); [rewrite map_length; fold nd; lia|]. intros ax Hax. rewrite map_length in Hax.
    etransitivity; [apply (map_nth (fun o => bsize (lrow (nops o))) r no_operators)|]. apply (HP' ax). lia. }
  destruct (axis_operators_kernel r HFr) as [o [Ho [Hw [Hc [Hb HK]]]]]. rewrite Hsz in Hb, HK.
  assert (Hcp : (0 < noise_count o)%nat).
  { rewrite Hc. apply nprod_pos. apply Forall_map. apply Forall_forall. intros q Hq.
    rewrite Forall_forall in HFr. apply HFr. assumption. }
  destruct (diagonal_kernel_spec o Hw Hcp) as [D [HD [HS HE]]]. rewrite Hb in HS, HE.
  exists o, D. split; [reflexivity|]. split; [exact Ho|]. split; [exact Hw|]. split; [exact HD|]. split; [exact HS|].
  intros x y d Hx Hy Hd. rewrite HE by (apply ravel_lt; assumption). rewrite HK by assumption.
  rewrite (product_of_kernels_displacement shape l r d x y); try assumption; try lia.
  assert (Hdi := displacement_in_shape _ _ _ _ Hd).
  assert (Hms : map (fun a => nprod (ashape a)) l = shape) by (apply axis_sizes; [exact Hn|]; intros; apply Hv; assumption).
  rewrite (from_axis_spec l shape d Hms Hdi). rewrite (outer_entry_spec l d 0).
  - apply axis_product_ext. intros ax i _ _. rewrite Nat.sub_0_r. reflexivity.
  - rewrite (in_shape_length _ _ Hdi). fold nd. lia.
Qed.

Lemma stacked_fit_product fit : fit_ok fit -> product_kernel shape k -> exists o D K,
  get_periodic_noise_operators_real_isotropic_stacked_taylor_expansion fit shape k None = Some o /\
  get_diagonal_kernel_from_diagonal_operators o = Some D /\
  as_diagonal_kernel_from_isotropic_stacked shape k = Some K /\
  forall t, (t < nprod shape * nprod shape)%nat -> aflat D t = aflat K t.
Proof.
  intros Hf Hp. destruct (stacked_fit fit Hf) as [l [o [D [Hl [Ho [Hw [HD [HS HE]]]]]]]].
  assert (Hnp := nprod_pos shape Hpos).
  destruct (diagonal_from_isotropic_stacked shape k Hnp Hk) as [K [HK [_ HKE]]].
  exists o, D, K. split; [exact Ho|]. split; [exact HD|]. split; [exact HK|].
  intros t Ht. destruct (pair_split _ _ t Ht) as [i [j [Hi [Hj ->]]]].
  rewrite <- (ravel_unravel shape i Hi), <- (ravel_unravel shape j Hj).
  assert (Ii := unravel_in_shape shape i Hi). assert (Ij := unravel_in_shape shape j Hj).
  set (x := unravel shape i) in *. set (y := unravel shape j) in *.
  assert (Hd := displacement_list_spec shape x y Hpos (in_shape_length _ _ Ii) (in_shape_length _ _ Ij)).
  set (d := displacement_list shape x y) in *.
  etransitivity; [apply (HE x y d Ii Ij Hd)|]. symmetry. etransitivity; [apply (HKE x y d Ii Ij Hd)|]. symmetry.
  apply (proj2 (axis_round_trip_iff shape k Hnd Hpos Hk Hk0 l Hl) Hp).
  apply ravel_lt. apply (displacement_in_shape _ _ _ _ Hd).
Qed.
End Stacked.
