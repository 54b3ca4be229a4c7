(** Facts about positions, spreads and momenta of lists of states. *)
From Coq Require Import Reals Lra Lia Psatz.
From Coquelicot Require Import Rcomplements.
From Verif Require TrajectoryProofs.
From Verif Require Import ZLib Csum DFT NumPy Index Spec IndexProofs Basis SpecBasis BasisProofs BasisProofs2 BasisProofs3 BasisFacts Lattice LatticeProofs Operator SpecOperator OperatorProofs OperatorProofs2
  StateList SpecStateList StateListProofs StateListProofs3 Wavepacket SpecWavepacket WavepacketProofs WavepacketProofs2 Hamiltonian HamiltonianProofs HamiltonianProofs3 Brillouin
  FourierProofs4 Observables SpecObservables ObservablesProofs ObservablesProofs2 ObservablesProofs3 ObservablesProofs4.
Local Open Scope R_scope.

Lemma rsum_bij (f : nat -> R) n m (s t : nat -> nat) :
  (forall i, (i < n)%nat -> (s i < m)%nat /\ t (s i) = i) -> (forall j, (j < m)%nat -> (t j < n)%nat /\ s (t j) = j) ->
  rsum (fun i => f (s i)) n = rsum f m.
Proof. intros H1 H2. apply RtoC_inj. rewrite <- !csum_RtoC. apply (csum_bij (fun i => RtoC (f i)) n m s t H1 H2). Qed.

Lemma rsum_pos_exists (f : nat -> R) n : (forall i, (i < n)%nat -> 0 <= f i) -> 0 < rsum f n -> exists i, (i < n)%nat /\ 0 < f i.
Proof.
  induction n as [|n IH]; cbn; intros Hf H; [lra|]. destruct (Rlt_dec 0 (f n)) as [L|L]; [exists n; split; [lia|exact L]|].
  destruct IH as (i & Hi & P); [intros; apply Hf; lia|pose proof (Hf n ltac:(lia)); lra|]. exists i. split; [lia|exact P].
Qed.

Lemma density_nonneg s i x : 0 <= density s i x.
Proof. apply Cnorm2_nonneg. Qed.

(** ** Periodic positions *)
Lemma turns_single n t : turns [n] (axis_direction 1 0) [t] = INR t / INR n.
Proof. cbn. unfold Rdiv. ring. Qed.

Lemma position_move L n t s s' i j : 0 < L -> (0 < n)%nat ->
  (forall x, (x < n)%nat -> density s' j ((x + t) mod n)%nat = density s i x) ->
  mean_phase [n] (axis_direction 1 0) s i <> RtoC 0 ->
  periodic_position L (mean_phase [n] (axis_direction 1 0) s' j) = rmod (periodic_position L (mean_phase [n] (axis_direction 1 0) s i) + INR t * (L / INR n)) L.
Proof.
  intros HL Hn H Hz. set (e := mean_phase [n] (axis_direction 1 0) s i) in *.
  assert (HI : INR n <> 0) by (apply not_0_INR; lia).
  apply (periodic_position_unique L _ (Cmod e)); [exact HL|apply Cmod_gt_0; exact Hz|].
  rewrite (mean_phase_move [n] (axis_direction 1 0) [t] s s' i j); try reflexivity.
  2: { intros x Hx. inversion Hx; subst. match goal with Q : Forall2 _ _ [] |- _ => inversion Q; subst end. cbn [move ravel nprod].
       rewrite !Nat.mul_1_r, !Nat.add_0_r. apply H. assumption. }
  fold e. destruct (periodic_position_spec L e HL) as (_ & E). rewrite turns_single.
  rewrite E at 1. rewrite Cmult_assoc, (Cmult_comm (cis _)), <- Cmult_assoc, <- cis_plus. f_equal. f_equal. field. split; [exact HI|lra].
Qed.

Lemma position_point L n s i x0 : 0 < L -> (x0 < n)%nat -> (forall x, (x < n)%nat -> x <> x0 -> density s i x = 0) -> 0 < density s i x0 ->
  periodic_position L (mean_phase [n] (axis_direction 1 0) s i) = INR x0 * (L / INR n).
Proof.
  intros HL Hx H Hp. assert (HI : 0 < INR n) by (apply lt_0_INR; lia).
  assert (R0 : ravel [n] [x0] = x0) by (cbn; lia).
  rewrite (periodic_position_unique L _ (density s i x0) (INR x0 * (L / INR n))); [|exact HL|exact Hp|].
  - apply (rmod_unique _ _ _ 0); [exact HL| |lra].
    assert (0 <= INR x0) by apply pos_INR. assert (INR x0 < INR n) by (apply lt_INR; exact Hx).
    assert (Q : 0 < L / INR n) by (apply Rdiv_lt_0_compat; assumption). split; [nra|].
    replace L with (INR n * (L / INR n)) at 2 by (field; lra). apply Rmult_lt_compat_r; assumption.
  - rewrite (mean_phase_point [n] _ s i [x0]).
    + rewrite R0, turns_single. f_equal. f_equal. f_equal. field. split; lra.
    + constructor; [exact Hx|constructor].
    + rewrite R0. intros x Hx' N. apply H; [cbn in Hx'; lia|exact N].
Qed.

(** ** Equal phases *)
Lemma phases_equal (p th : nat -> R) n : (forall x, (x < n)%nat -> 0 <= p x) ->
  Cmod (csum (fun x => Cmult (RtoC (p x)) (cis (th x))) n) = rsum p n ->
  forall x y, (x < n)%nat -> (y < n)%nat -> 0 < p x -> 0 < p y -> cis (th x) = cis (th y).
Proof.
  intros Hp Hm. set (e := csum _ n) in *. destruct (angle_spec e) as (_ & E). set (phi := np_angle e) in *.
  assert (S0 : rsum (fun x => p x * (1 - cos (th x - phi))) n = 0).
  { assert (A : rsum (fun x => p x * cos (th x - phi)) n = Cmod e).
    { transitivity (fst (Cmult e (cis (- phi)))).
      - unfold e. rewrite <- csum_scal_r, fst_csum. apply rsum_ext. intros x Hx.
        rewrite <- Cmult_assoc, <- cis_plus. unfold cis, Cmult, RtoC, Rminus. cbn. ring.
      - rewrite E at 1. rewrite <- Cmult_assoc, <- cis_plus, Rplus_opp_r, cis_0, Cmult_1_r. reflexivity. }
    rewrite Hm in A. rewrite (rsum_ext _ (fun x => p x - p x * cos (th x - phi))) by (intros; ring). rewrite TrajectoryProofs.rsum_sub. lra. }
  assert (K : forall x, (x < n)%nat -> 0 < p x -> cis (th x) = cis phi).
  { intros x Hx Hpx. pose proof (rsum_zero_nonneg (fun x => p x * (1 - cos (th x - phi))) n) as Z.
    specialize (Z ltac:(intros k Hk; pose proof (Hp k Hk); pose proof (COS_bound (th k - phi)); nra) S0 x Hx). cbn beta in Z.
    assert (C1 : cos (th x - phi) = 1) by nra.
    assert (S1 : sin (th x - phi) = 0) by (pose proof (sin2_cos2 (th x - phi)) as Q; unfold Rsqr in Q; rewrite C1 in Q; nra).
    replace (th x) with ((th x - phi) + phi) by ring. rewrite cis_plus. unfold cis at 1. rewrite C1, S1. apply Cmult_1_l. }
  intros x y Hx Hy Px Py. rewrite (K x), (K y) by assumption. reflexivity.
Qed.

Lemma turns_distinct n i j : (i < n)%nat -> (j < n)%nat -> cis (2 * PI * (INR i / INR n)) = cis (2 * PI * (INR j / INR n)) -> i = j.
Proof.
  intros Hi Hj H. apply cis_eq_turns in H. destruct H as (z & H). pose proof PI_RGT_0 as HP.
  assert (HI : 0 < INR n) by (apply lt_0_INR; lia).
  assert (E : INR i = INR j + IZR z * INR n).
  { apply (Rmult_eq_reg_l (2 * PI / INR n)); [|apply Rgt_not_eq, Rdiv_lt_0_compat; lra].
    replace (2 * PI / INR n * INR i) with (2 * PI * (INR i / INR n)) by (field; lra). rewrite H. field. lra. }
  rewrite !INR_IZR_INZ, <- mult_IZR, <- plus_IZR in E. apply eq_IZR in E.
  destruct (Z.lt_trichotomy z 0) as [Q|[Q|Q]]; [exfalso; nia|subst z; lia|exfalso; nia].
Qed.

(** ** Normalised states *)
Lemma state_norm_spec s i : state_norm s i = sqrt (squared_norm s i).
Proof. reflexivity. Qed.

Lemma squared_norm_nonneg s i : 0 <= squared_norm s i.
Proof. apply rsum_nonneg. intros. apply Cnorm2_nonneg. Qed.

Lemma normalise_spec s : well_formed_list s ->
  (normalise_states s = None <-> exists i, (i < bsize (slist s))%nat /\ squared_norm s i = 0) /\
  forall s', normalise_states s = Some s' -> slist s' = slist s /\ sbasis s' = sbasis s /\ well_formed_list s' /\
    forall i k, (i < bsize (slist s))%nat -> (k < bsize (sbasis s))%nat -> 0 < squared_norm s i /\
      state_of s' i k = Cdiv (state_of s i k) (RtoC (sqrt (squared_norm s i))).
Proof.
  intros Ws. unfold normalise_states, as_matrix. rewrite (reshape_some (sdata s)) by (unfold well_formed_list in Ws; rewrite Ws; cbn [nprod]; ring).
  assert (Z : forall i, state_norm s i = 0 <-> squared_norm s i = 0).
  { intros i. rewrite state_norm_spec. pose proof (squared_norm_nonneg s i). split; [intros E; apply sqrt_eq_0; assumption|intros ->; apply sqrt_0]. }
  destruct (forallb _ (seq 0 (bsize (slist s)))) eqn:F.
  - assert (P : forall i, (i < bsize (slist s))%nat -> 0 < squared_norm s i).
    { intros i Hi. rewrite forallb_forall in F. specialize (F i ltac:(apply in_seq; lia)).
      destruct (Req_EM_T (state_norm s i) 0) as [E|E]; [discriminate|]. pose proof (squared_norm_nonneg s i). rewrite Z in E. lra. }
    split; [split; [discriminate|intros (i & Hi & E); pose proof (P i Hi); lra]|].
    intros s' E. injection E as <-. cbn [slist sbasis]. repeat split.
    + unfold well_formed_list. cbn [sdata slist sbasis ravel_array array2 ashape nprod]. ring.
    + apply P. assumption.
    + unfold state_of, row. cbn [sdata sbasis ravel_array aflat]. rewrite array2_flat by assumption. unfold at2. cbn [ashape aflat nth]. reflexivity.
  - split; [|discriminate]. split; [intros _|reflexivity].
    assert (Q : existsb (fun i => if Req_EM_T (state_norm s i) 0 then true else false) (seq 0 (bsize (slist s))) = true).
    { clear -F. induction (seq 0 (bsize (slist s))) as [|a l IH]; [discriminate|]. cbn in *. destruct (Req_EM_T (state_norm s a) 0); [reflexivity|]. apply IH. exact F. }
    apply existsb_exists in Q. destruct Q as (i & Hi & E). exists i. apply in_seq in Hi. split; [lia|].
    destruct (Req_EM_T (state_norm s i) 0) as [E0|]; [apply Z; exact E0|discriminate].
Qed.

Lemma normalised_density s s' i x : well_formed_list s -> normalise_states s = Some s' -> (i < bsize (slist s))%nat ->
  density s' i x = density s i x / squared_norm s i.
Proof.
  intros Ws E Hi. destruct (normalise_spec s Ws) as (_ & N). destruct (N s' E) as (E1 & E2 & W' & V).
  unfold density. rewrite E2.
  destruct (Nat.eq_dec (bsize (sbasis s)) 0) as [B0|B0].
  { unfold amplitude. rewrite B0. cbn. unfold Cnorm2. cbn. unfold Rdiv. ring. }
  pose proof (proj1 (V i 0%nat Hi ltac:(lia))) as P.
  assert (R : amplitude (sbasis s) (state_of s' i) x = Cmult (RtoC (/ sqrt (squared_norm s i))) (amplitude (sbasis s) (state_of s i) x)).
  { unfold amplitude. rewrite <- csum_scal_l. apply csum_ext. intros k Hk. rewrite (proj2 (V i k Hi Hk)).
    unfold Cdiv. rewrite RtoC_inv by (apply Rgt_not_eq, sqrt_lt_R0; exact P). rewrite Cmult_assoc. f_equal. apply Cmult_comm. }
  rewrite R, Cnorm2_mult. unfold Cnorm2 at 1. cbn [fst snd RtoC].
  replace (/ sqrt (squared_norm s i) * / sqrt (squared_norm s i) + 0 * 0) with (/ squared_norm s i).
  - unfold Rdiv. ring.
  - rewrite <- (sqrt_sqrt (squared_norm s i)) at 1 by lra. field. apply Rgt_not_eq, sqrt_lt_R0. exact P.
Qed.

Lemma normalised_phase shape direction s s' i : well_formed_list s -> normalise_states s = Some s' -> (i < bsize (slist s))%nat ->
  mean_phase shape direction s' i = Cmult (RtoC (/ squared_norm s i)) (mean_phase shape direction s i).
Proof.
  intros Ws E Hi. unfold mean_phase. rewrite <- csum_scal_l. apply csum_ext. intros x Hx.
  rewrite (normalised_density s s' i x Ws E Hi). unfold Rdiv. rewrite RtoC_mult, (Cmult_comm (RtoC (density s i x))), Cmult_assoc. reflexivity.
Qed.

(** ** The spread *)
Lemma spread_of_spec q m : 0 < q -> 0 <= m <= 1 ->
  (spread_of q m = None <-> m = 0) /\
  forall sg, spread_of q m = Some sg -> 0 <= sg /\ m = exp (- (sg * q) ^ 2 / 4) /\ (sg = 0 <-> m = 1).
Proof.
  intros Hq Hm. unfold spread_of. destruct (Req_EM_T m 0) as [E|E]; [split; [tauto|discriminate]|].
  split; [split; [discriminate|contradiction]|]. intros sg H. injection H as <-.
  assert (L : ln m <= 0).
  { destruct (Req_dec m 1) as [->|N]; [rewrite ln_1; lra|]. left. rewrite <- ln_1. apply ln_increasing; lra. }
  assert (Q : 0 < 4 / (q * q)) by (apply Rdiv_lt_0_compat; nra).
  assert (A : 0 <= - (4 / (q * q)) * ln m) by nra.
  split; [apply sqrt_pos|]. split.
  - replace (- (sqrt (- (4 / (q * q)) * ln m) * q) ^ 2 / 4) with (ln m); [rewrite exp_ln; lra|].
    replace ((sqrt (- (4 / (q * q)) * ln m) * q) ^ 2) with (sqrt (- (4 / (q * q)) * ln m) * sqrt (- (4 / (q * q)) * ln m) * (q * q)) by ring.
    rewrite sqrt_sqrt by exact A. field. lra.
  - split; intros H.
    + apply sqrt_eq_0 in H; [|exact A]. assert (ln m = 0) by nra. rewrite <- (exp_ln m) by lra. rewrite H0. apply exp_0.
    + rewrite H, ln_1, Rmult_0_r. apply sqrt_0.
Qed.

Section Spread.
  Variable same : basis -> basis -> bool.
  Hypothesis Hs : identity_test same.
  Variable axes : list basis.
  Hypothesis Hw : bwf (BTuple axes).
  Hypothesis Ho : explicit_orthonormal (BTuple axes).
  Let shape := map bfund axes.
  Let nd := length axes.
  Variable delta : nat -> nat -> R.
  Variable s : state_list.
  Hypothesis Eb : sbasis s = BTuple axes.
  Hypothesis Ws : well_formed_list s.
  Variable axis : nat.
  Hypothesis Ha : (axis < nd)%nat.

  Lemma spread_raises : get_x_spread same axes delta s axis = None <-> exists i, (i < bsize (slist s))%nat /\ squared_norm s i = 0.
  Proof using Hs Hw Ho Eb Ws Ha.
    destruct (normalise_spec s Ws) as (N0 & N). rewrite <- N0. unfold get_x_spread. fold nd.
    destruct (normalise_states s) as [s'|]; [|tauto]. destruct (N s' eq_refl) as (E1 & E2 & W' & V).
    destruct (periodic_phases same Hs axes Hw Ho s' axis ltac:(congruence) W') as (f & Hf & _). fold nd in Hf. rewrite Hf.
    replace (axis <? nd)%nat with true by (symmetry; apply Nat.ltb_lt; exact Ha). split; discriminate.
  Qed.

  Let q := 2 * PI / vector_length nd (delta axis).
  Let e := mean_phase shape (axis_direction nd axis) s.

  Lemma spread_spec s' lb sg : get_x_spread same axes delta s axis = Some (s', (lb, sg)) -> 0 < vector_length nd (delta axis) ->
    lb = slist s /\ slist s' = slist s /\ sbasis s' = sbasis s /\ well_formed_list s' /\
    forall i, (i < bsize (slist s))%nat ->
      (forall k, (k < bsize (sbasis s))%nat -> state_of s' i k = Cdiv (state_of s i k) (RtoC (sqrt (squared_norm s i)))) /\
      squared_norm s' i = 1 /\
      (sg i = None <-> e i = RtoC 0) /\
      forall sigma, sg i = Some sigma -> 0 <= sigma /\ Cmod (e i) = squared_norm s i * exp (- (sigma * q) ^ 2 / 4).
  Proof using Hs Hw Ho Eb Ws Ha.
    intros G HL. unfold get_x_spread in G. fold nd in G. destruct (normalise_spec s Ws) as (N0 & N).
    destruct (normalise_states s) as [s1|] eqn:En; [|discriminate]. destruct (N s1 eq_refl) as (E1 & E2 & W' & V).
    destruct (periodic_phases same Hs axes Hw Ho s1 axis ltac:(congruence) W') as (f & Hf & Ef). fold nd in Hf, Ef. rewrite Hf in G.
    replace (axis <? nd)%nat with true in G by (symmetry; apply Nat.ltb_lt; exact Ha). injection G as <- <- <-.
    split; [exact E1|]. split; [exact E1|]. split; [exact E2|]. split; [exact W'|]. intros i Hi.
    assert (Bp : (0 < bsize (sbasis s))%nat) by (rewrite Eb; apply bsize_pos; exact Hw).
    pose proof (proj1 (V i 0%nat Hi Bp)) as P.
    split; [intros k Hk; apply (V i k Hi Hk)|]. fold q.
    assert (S1 : squared_norm s1 i = 1).
    { rewrite <- (density_sum axes Hw Ho s1 i) by congruence. fold shape.
      rewrite (rsum_ext _ (fun x => / squared_norm s i * density s i x)).
      2: { intros x Hx. rewrite (normalised_density s s1 i x Ws En Hi). unfold Rdiv. ring. }
      rewrite LatticeProofs.rsum_scal_l. unfold shape. rewrite (density_sum axes Hw Ho s i Eb). field. lra. }
    split; [exact S1|].
    assert (Me : f i = Cmult (RtoC (/ squared_norm s i)) (e i)).
    { rewrite Ef. apply (normalised_phase _ _ s s1 i Ws En Hi). }
    assert (Mm : Cmod (f i) = Cmod (e i) / squared_norm s i).
    { rewrite Me, Cmod_mult, Cmod_R, Rabs_right by (left; apply Rinv_0_lt_compat; exact P). unfold Rdiv. ring. }
    assert (Hb : 0 <= Cmod (f i) <= 1).
    { split; [apply Cmod_ge_0|]. rewrite Ef, <- S1. apply (mean_phase_bound axes Hw Ho s1 i). congruence. }
    assert (Hq : 0 < q) by (unfold q; pose proof PI_RGT_0; apply Rdiv_lt_0_compat; lra).
    destruct (spread_of_spec q (Cmod (f i)) Hq Hb) as (D1 & D2). split.
    - rewrite D1. split; intros H.
      + apply Cmod_eq_0. rewrite Mm in H. apply (Rmult_eq_reg_r (/ squared_norm s i)); [|apply Rinv_neq_0_compat; lra]. rewrite Rmult_0_l. exact H.
      + rewrite Mm, H, Cmod_0. unfold Rdiv. ring.
    - intros sigma H. destruct (D2 sigma H) as (A1 & A2 & _). split; [exact A1|]. rewrite <- A2, Mm. field. lra.
  Qed.

  (** Zero exactly for states on one plane of the grid. *)
  Lemma spread_zero s' lb sg i : get_x_spread same axes delta s axis = Some (s', (lb, sg)) -> 0 < vector_length nd (delta axis) ->
    (i < bsize (slist s))%nat ->
    sg i = Some 0 <-> (forall x y, (x < nprod shape)%nat -> (y < nprod shape)%nat -> 0 < density s i x -> 0 < density s i y ->
      nth axis (unravel shape x) 0%nat = nth axis (unravel shape y) 0%nat).
  Proof using Hs Hw Ho Eb Ws Ha.
    intros G HL Hi. destruct (spread_spec s' lb sg G HL) as (_ & _ & _ & _ & K). destruct (K i Hi) as (_ & _ & K1 & K2). clear K.
    assert (P : 0 < squared_norm s i).
    { destruct (Req_dec (squared_norm s i) 0) as [E0|E0]; [|pose proof (squared_norm_nonneg s i); lra]. exfalso.
      assert (get_x_spread same axes delta s axis = None) by (apply spread_raises; exists i; split; assumption). congruence. }
    assert (Hq : 0 < q) by (unfold q; pose proof PI_RGT_0; apply Rdiv_lt_0_compat; lra).
    assert (Ln : length shape = nd) by (unfold shape, nd; apply map_length).
    assert (Tn : forall x, (x < nprod shape)%nat -> turns shape (axis_direction nd axis) (unravel shape x) = INR (nth axis (unravel shape x) 0%nat) / INR (nth axis shape 0%nat)).
    { intros x Hx. rewrite <- Ln. apply turns_along; [|lia]. pose proof (unravel_in_shape shape x Hx) as H. clear -H. induction H; cbn; congruence. }
    assert (Lt : forall x, (x < nprod shape)%nat -> (nth axis (unravel shape x) 0 < nth axis shape 0)%nat).
    { intros x Hx. pose proof (unravel_in_shape shape x Hx) as H. clear -H Ha Ln. rewrite <- Ln in Ha. clear Ln. revert axis Ha.
      induction H as [|a b l l' H1 H2 IH]; intros axis Ha; [cbn in Ha; lia|]. destruct axis; cbn; [exact H1|]. apply IH. cbn in Ha; lia. }
    assert (Md : sg i = Some 0 <-> Cmod (e i) = squared_norm s i).
    { split.
      - intros E. destruct (K2 0 E) as (_ & ->). replace (- (0 * q) ^ 2 / 4) with 0 by field. rewrite exp_0. ring.
      - intros E. destruct (sg i) as [sigma|] eqn:Es.
        + destruct (K2 sigma eq_refl) as (A1 & A2). f_equal. rewrite E in A2.
          assert (X : exp (- (sigma * q) ^ 2 / 4) = exp 0) by (rewrite exp_0; apply (Rmult_eq_reg_l (squared_norm s i)); lra).
          apply exp_inv in X. assert (Y : (sigma * q) ^ 2 = 0) by lra. assert (W : sigma * q = 0) by (apply Rsqr_0_uniq; unfold Rsqr; lra). apply Rmult_integral in W. destruct W; lra.
        + exfalso. assert (e i = RtoC 0) by (apply K1; reflexivity). rewrite H, Cmod_0 in E. lra. }
    rewrite Md. pose proof (density_sum axes Hw Ho s i Eb) as Ds. fold shape in Ds. rewrite <- Ds. split.
    - intros E x y Hx Hy Px Py.
      pose proof (phases_equal (density s i) (fun x => 2 * PI * turns shape (axis_direction nd axis) (unravel shape x)) (nprod shape)
                    ltac:(intros; apply density_nonneg) E x y Hx Hy Px Py) as C. cbn beta in C.
      rewrite !Tn in C by assumption. eapply turns_distinct; [apply Lt; exact Hx|apply Lt; exact Hy|exact C].
    - intros H.
      assert (X : exists x0, (x0 < nprod shape)%nat /\ 0 < density s i x0).
      { apply rsum_pos_exists; [intros; apply density_nonneg|lra]. }
      destruct X as (x0 & Hx0 & P0).
      assert (E : e i = Cmult (RtoC (rsum (density s i) (nprod shape))) (cis (2 * PI * turns shape (axis_direction nd axis) (unravel shape x0)))).
      { unfold e, mean_phase. rewrite <- csum_RtoC, <- csum_scal_r. apply csum_ext. intros x Hx.
        destruct (Req_dec (density s i x) 0) as [Z|Z]; [rewrite Z, !Cmult_0_l; reflexivity|]. f_equal. f_equal. f_equal. rewrite !Tn by assumption.
        f_equal. f_equal. apply H; try assumption. pose proof (density_nonneg s i x). lra. }
      rewrite E, Cmod_mult, cis_mod, Cmod_R, Rabs_right by lra. ring.
  Qed.
End Spread.
