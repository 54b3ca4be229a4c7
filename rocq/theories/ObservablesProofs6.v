(** Facts about momenta, and the coherent coordinates. *)
From Coq Require Import Reals Lra Lia Psatz.
From Verif Require TrajectoryProofs.
From Verif Require Import ZLib Csum DFT NumPy Index Spec IndexProofs Basis SpecBasis BasisProofs BasisProofs2 BasisProofs3 BasisFacts Lattice LatticeProofs Operator SpecOperator OperatorProofs OperatorProofs2
  StateList SpecStateList StateListProofs StateListProofs3 Wavepacket SpecWavepacket WavepacketProofs WavepacketProofs2 Hamiltonian HamiltonianProofs HamiltonianProofs3 Brillouin
  FourierProofs4 Observables SpecObservables ObservablesProofs ObservablesProofs2 ObservablesProofs3 ObservablesProofs4 ObservablesProofs5.
Local Open Scope R_scope.
Local Open Scope C_scope.

Lemma momentum_state n p x : (x < n)%nat -> (p < n)%nat -> bstate (momenta [n]) p x = isqrt n * omega n (Z.of_nat p * Z.of_nat x).
Proof.
  intros Hx Hp. unfold momenta. cbn [map bstate product_states nprod bsize bfund]. rewrite !Nat.div_1_r.
  unfold plane_wave. rewrite freq_wave by exact Hp. ring.
Qed.

Lemma md_sum n s i p : (p < n)%nat -> momentum_density [n] s i p =
  Cnorm2 (csum (fun x => isqrt n * (omega n (- (Z.of_nat p * Z.of_nat x)) * amplitude (sbasis s) (state_of s i) x)) n).
Proof.
  intros Hp. unfold momentum_density. cbn [nprod]. rewrite Nat.mul_1_r. f_equal. apply csum_ext. intros x Hx.
  rewrite momentum_state by assumption. rewrite Cconj_mult, omega_conj.
  replace (Cconj (isqrt n)) with (isqrt n) by (unfold isqrt; rewrite Cconj_RtoC; reflexivity). ring.
Qed.

(** The whole probability. *)
Lemma momentum_density_sum axes s i : bwf (BTuple axes) -> explicit_orthonormal (BTuple axes) -> sbasis s = BTuple axes ->
  rsum (momentum_density (map bfund axes) s i) (nprod (map bfund axes)) = squared_norm s i.
Proof.
  intros Hw Ho Eb. rewrite <- (density_sum axes Hw Ho s i Eb). set (shape := map bfund axes).
  assert (PM : Forall (fun n => (0 < n)%nat) shape) by (apply fund_shape_pos; assumption).
  pose proof (momenta_complete shape PM) as CM. unfold complete in CM. rewrite momenta_fund, momenta_size in CM.
  apply RtoC_inj. rewrite <- !csum_RtoC. set (a := amplitude (sbasis s) (state_of s i)).
  transitivity (csum (fun p => csum (fun x => csum (fun y => (a y * Cconj (a x)) * (bstate (momenta shape) p x * Cconj (bstate (momenta shape) p y))) (nprod shape)) (nprod shape)) (nprod shape)).
  { apply csum_ext. intros p Hp. unfold momentum_density. fold a. rewrite <- Cconj_mult_self, Cconj_csum, LinAlg.csum_mult.
    apply csum_ext. intros x Hx. apply csum_ext. intros y Hy. rewrite Cconj_mult, Cconj_conj. ring. }
  rewrite csum_swap. transitivity (csum (fun x => csum (fun y => cdelta x y * (a y * Cconj (a x))) (nprod shape)) (nprod shape)).
  { apply csum_ext. intros x Hx. rewrite csum_swap. apply csum_ext. intros y Hy. rewrite csum_scal_l, CM by assumption. ring. }
  apply csum_ext. intros x Hx. rewrite csum_delta_l by exact Hx. unfold density. fold a. rewrite <- Cconj_mult_self. ring.
Qed.

(** Multiplying by a plane wave moves the momenta. *)
Lemma momentum_boost n m s s' i j p : (p < n)%nat ->
  (forall x, (x < n)%nat -> amplitude (sbasis s') (state_of s' j) x = omega n (m * Z.of_nat x) * amplitude (sbasis s) (state_of s i) x) ->
  momentum_density [n] s' j (Z.to_nat ((Z.of_nat p + m) mod Z.of_nat n)) = momentum_density [n] s i p.
Proof.
  intros Hp H. set (p' := Z.to_nat ((Z.of_nat p + m) mod Z.of_nat n)).
  pose proof (Z.mod_pos_bound (Z.of_nat p + m) (Z.of_nat n) ltac:(lia)) as B.
  assert (Hp' : (p' < n)%nat) by (unfold p'; lia).
  rewrite !md_sum by assumption. f_equal. apply csum_ext. intros x Hx. rewrite H by exact Hx. f_equal. rewrite Cmult_assoc. f_equal.
  rewrite <- omega_add. apply omega_cong; [lia|].
  exists ((Z.of_nat p + m) / Z.of_nat n * Z.of_nat x)%Z. unfold p'. rewrite Z2Nat.id by lia.
  pose proof (Z.div_mod (Z.of_nat p + m) (Z.of_nat n) ltac:(lia)). nia.
Qed.

(** The mirrored momentum. *)
Definition mirror_slot (n p : nat) : nat := ((n - p) mod n)%nat.

Lemma mirror_lt n p : (p < n)%nat -> (mirror_slot n p < n)%nat.
Proof. intros. apply Nat.mod_upper_bound. lia. Qed.
Lemma mirror_cases n p : (p < n)%nat -> (p = 0%nat /\ mirror_slot n p = 0%nat) \/ ((0 < p)%nat /\ mirror_slot n p = (n - p)%nat).
Proof.
  intros H. unfold mirror_slot. destruct (Nat.eq_dec p 0) as [->|N].
  - left. rewrite Nat.sub_0_r, Nat.mod_same by lia. auto.
  - right. rewrite Nat.mod_small by lia. split; lia.
Qed.
Lemma mirror_mirror n p : (p < n)%nat -> mirror_slot n (mirror_slot n p) = p.
Proof.
  intros H. destruct (mirror_cases n p H) as [(-> & E)|(H0 & E)]; rewrite E.
  - destruct (mirror_cases n 0 H) as [(_ & E')|]; lia.
  - destruct (mirror_cases n (n - p) ltac:(lia)) as [|(_ & E')]; lia.
Qed.

Lemma freq_mirror n p : (p < n)%nat -> (freq n p + freq n (mirror_slot n p) = if (Nat.even n && (2 * p =? n))%nat%bool then - Z.of_nat n else 0)%Z.
Proof.
  intros H. unfold freq. destruct (mirror_cases n p H) as [(-> & E)|(H0 & E)]; rewrite E.
  - destruct (Nat.eqb_spec (2 * 0) n); [lia|]. rewrite Bool.andb_false_r.
    destruct (Z.leb_spec (Z.of_nat 0) ((Z.of_nat n - 1) / 2)); [lia|]. exfalso. assert (0 <= (Z.of_nat n - 1) / 2)%Z by (apply Z.div_pos; lia). lia.
  - pose proof (Z.div_mod (Z.of_nat n - 1) 2 ltac:(lia)) as D. pose proof (Z.mod_pos_bound (Z.of_nat n - 1) 2 ltac:(lia)) as M.
    destruct (Nat.eqb_spec (2 * p) n) as [E2|E2].
    + replace (Nat.even n) with true by (symmetry; apply Nat.even_spec; exists p; lia). cbn [andb].
      repeat match goal with |- context [Z.leb ?a ?b] => destruct (Z.leb_spec a b) end; lia.
    + rewrite Bool.andb_false_r. repeat match goal with |- context [Z.leb ?a ?b] => destruct (Z.leb_spec a b) end; lia.
Qed.

(** A real wavefunction has opposite momenta with equal probability. *)
Lemma real_momentum_symmetric n s i (c : C) (g : nat -> R) p : (p < n)%nat ->
  (forall x, (x < n)%nat -> amplitude (sbasis s) (state_of s i) x = c * RtoC (g x)) ->
  momentum_density [n] s i (mirror_slot n p) = momentum_density [n] s i p.
Proof.
  intros Hp H. rewrite !md_sum by (try apply mirror_lt; assumption).
  assert (S1 : forall q, (q < n)%nat -> csum (fun x => isqrt n * (omega n (- (Z.of_nat q * Z.of_nat x)) * amplitude (sbasis s) (state_of s i) x)) n
             = c * csum (fun x => RtoC (/ sqrt (INR n) * g x) * omega n (- (Z.of_nat q * Z.of_nat x))) n).
  { intros q Hq. rewrite <- csum_scal_l. apply csum_ext. intros x Hx. rewrite H by exact Hx. unfold isqrt. rewrite RtoC_mult. ring. }
  rewrite !S1 by (try apply mirror_lt; assumption). rewrite !Cnorm2_mult. f_equal.
  rewrite <- (Cnorm2_conj (csum _ n)). f_equal. rewrite Cconj_csum. apply csum_ext. intros x Hx.
  rewrite Cconj_mult, omega_conj, Csum.Cconj_RtoC. f_equal. apply omega_cong; [lia|].
  destruct (mirror_cases n p Hp) as [(-> & E)|(H0 & E)]; rewrite E; [exists 0%Z; lia|].
  exists (Z.of_nat x). nia.
Qed.

Lemma real_momentum n s i (c : C) (g : nat -> R) : (0 < n)%nat ->
  (forall x, (x < n)%nat -> amplitude (sbasis s) (state_of s i) x = c * RtoC (g x)) ->
  rsum (fun p => (momentum_density [n] s i p * IZR (freq n p))%R) n =
  (if Nat.even n then - (INR n / 2) * momentum_density [n] s i (n / 2) else 0)%R.
Proof.
  intros Hn H. set (d := momentum_density [n] s i).
  assert (A : rsum (fun p => (d p * IZR (freq n p))%R) n = rsum (fun p => (d p * IZR (freq n (mirror_slot n p)))%R) n).
  { symmetry. rewrite <- (rsum_bij (fun p => (d p * IZR (freq n p))%R) n n (mirror_slot n) (mirror_slot n)).
    - apply rsum_ext. intros p Hp. unfold d. rewrite (real_momentum_symmetric n s i c g p Hp H). reflexivity.
    - intros p Hp. split; [apply mirror_lt|apply mirror_mirror]; exact Hp.
    - intros p Hp. split; [apply mirror_lt|apply mirror_mirror]; exact Hp. }
  assert (T : (2 * rsum (fun p => d p * IZR (freq n p)) n = rsum (fun p => d p * IZR (freq n p + freq n (mirror_slot n p))) n)%R).
  { rewrite (rsum_ext (fun p => d p * IZR (freq n p + freq n (mirror_slot n p)))%R (fun p => d p * IZR (freq n p) + d p * IZR (freq n (mirror_slot n p)))%R) by (intros; rewrite plus_IZR; ring).
    rewrite TrajectoryProofs.rsum_add, <- A. ring. }
  destruct (Nat.even n) eqn:Ev.
  - apply Nat.even_spec in Ev. destruct Ev as (h & Eh).
    assert (Q : (n / 2 = h)%nat) by (rewrite Eh, Nat.mul_comm; apply Nat.div_mul; lia). rewrite Q.
    assert (W : rsum (fun p => d p * IZR (freq n p + freq n (mirror_slot n p)))%R n = (- INR n * d h)%R).
    { rewrite (rsum_ext _ (fun p => if Nat.eqb p h then (- INR n * d h)%R else 0%R)).
      - apply RtoC_inj. rewrite <- csum_RtoC. rewrite (csum_ext _ (fun p => cdelta h p * RtoC (- INR n * d h))).
        + apply csum_delta_l with (f := fun _ => RtoC (- INR n * d h)). lia.
        + intros p Hp. destruct (Nat.eqb_spec p h) as [->|N]; [rewrite cdelta_refl|rewrite cdelta_neq by congruence]; ring.
      - intros p Hp. rewrite freq_mirror by exact Hp. replace (Nat.even n) with true by (symmetry; apply Nat.even_spec; exists h; exact Eh).
        cbn [andb]. destruct (Nat.eqb_spec (2 * p) n) as [E|E]; destruct (Nat.eqb_spec p h) as [E'|E']; try lia; [|ring].
        rewrite E', opp_IZR, <- INR_IZR_INZ. ring. }
    rewrite W in T. lra.
  - assert (W : rsum (fun p => d p * IZR (freq n p + freq n (mirror_slot n p)))%R n = 0%R).
    { rewrite (rsum_ext _ (fun _ => 0%R)); [clear; induction n as [|n IH]; cbn; [|rewrite IH]; ring|].
      intros p Hp. rewrite freq_mirror, Ev by exact Hp. cbn [andb]. ring. }
    rewrite W in T. lra.
Qed.

(** ** The coherent coordinates do not depend on the scale of the states *)
Lemma amplitude_scaled (b : basis) v v' (c : C) x : (forall k, (k < bsize b)%nat -> v' k = c * v k) -> amplitude b v' x = c * amplitude b v x.
Proof. intros H. unfold amplitude. rewrite <- csum_scal_l. apply csum_ext. intros k Hk. rewrite H by exact Hk. ring. Qed.

Section Scaled.
  Variables s t : state_list.
  Variable c : nat -> C.
  Hypothesis Es : slist t = slist s.
  Hypothesis Eb : sbasis t = sbasis s.
  Hypothesis Hc : forall i, (i < bsize (slist s))%nat -> c i <> 0 /\ forall k, (k < bsize (sbasis s))%nat -> state_of t i k = c i * state_of s i k.
  Hypothesis Ws : well_formed_list s.
  Hypothesis Wt : well_formed_list t.

  Lemma scaled_norm i : (i < bsize (slist s))%nat -> squared_norm t i = (Cnorm2 (c i) * squared_norm s i)%R.
  Proof using Hc Eb.
    intros Hi. unfold squared_norm. rewrite Eb, <- LatticeProofs.rsum_scal_l. apply rsum_ext. intros k Hk.
    rewrite (proj2 (Hc i Hi) k Hk). apply Cnorm2_mult.
  Qed.

  Lemma scaled_states s' t' i : normalise_states s = Some s' -> normalise_states t = Some t' -> (i < bsize (slist s))%nat ->
    exists u, Cnorm2 u = 1%R /\ forall k, (k < bsize (sbasis s))%nat -> state_of t' i k = u * state_of s' i k.
  Proof using Hc Eb Es Ws Wt.
    intros E1 E2 Hi. destruct (normalise_spec s Ws) as (_ & N1). destruct (N1 s' E1) as (_ & _ & _ & V1).
    destruct (normalise_spec t Wt) as (_ & N2). destruct (N2 t' E2) as (_ & _ & _ & V2).
    destruct (Hc i Hi) as (C0 & Ck). exists (c i / RtoC (Cmod (c i))).
    assert (Pm : (0 < Cmod (c i))%R) by (apply Cmod_gt_0; exact C0).
    assert (Pn : RtoC (Cmod (c i)) <> 0) by (intros Q; apply RtoC_inj in Q; lra).
    split.
    - rewrite Cnorm2_Cmod. rewrite Cmod_div by exact Pn. rewrite Cmod_R, Rabs_right by lra. field. lra.
    - intros k Hk. destruct (V1 i k Hi Hk) as (P1 & ->). destruct (V2 i k ltac:(rewrite Es; exact Hi) ltac:(rewrite Eb; exact Hk)) as (P2 & ->).
      rewrite Ck by exact Hk. rewrite scaled_norm by exact Hi. rewrite sqrt_mult by (try apply Cnorm2_nonneg; lra).
      rewrite Cnorm2_Cmod, sqrt_square by lra. rewrite RtoC_mult.
      assert (RtoC (sqrt (squared_norm s i)) <> 0).
      { intros Q. apply RtoC_inj in Q. pose proof (sqrt_lt_R0 _ P1). lra. }
      field. split; assumption.
  Qed.
End Scaled.

Lemma phase_density s s' i (u : C) x : sbasis s' = sbasis s -> Cnorm2 u = 1%R -> (forall k, (k < bsize (sbasis s))%nat -> state_of s' i k = u * state_of s i k) ->
  density s' i x = density s i x.
Proof.
  intros Eb Hu H. unfold density. rewrite Eb, (amplitude_scaled _ (state_of s i) (state_of s' i) u x H), Cnorm2_mult, Hu. ring.
Qed.

Lemma phase_momentum shape s s' i (u : C) p : sbasis s' = sbasis s -> Cnorm2 u = 1%R -> (forall k, (k < bsize (sbasis s))%nat -> state_of s' i k = u * state_of s i k) ->
  momentum_density shape s' i p = momentum_density shape s i p.
Proof.
  intros Eb Hu H. unfold momentum_density. rewrite Eb.
  transitivity (Cnorm2 (u * csum (fun x => Cconj (bstate (momenta shape) p x) * amplitude (sbasis s) (state_of s i) x) (nprod shape))).
  - f_equal. rewrite <- csum_scal_l. apply csum_ext. intros x Hx. rewrite (amplitude_scaled _ (state_of s i) (state_of s' i) u x H). ring.
  - rewrite Cnorm2_mult, Hu. ring.
Qed.

Section Coherent.
  Variable same : basis -> basis -> bool.
  Hypothesis Hs : identity_test same.
  Variable axes : list basis.
  Hypothesis Hw : bwf (BTuple axes).
  Hypothesis Ho : explicit_orthonormal (BTuple axes).
  Hypothesis H1 : length axes = 1%nat.
  Variables delta inv : nat -> nat -> R.
  Let shape := map bfund axes.
  Let L := delta 0%nat 0%nat.
  Hypothesis HL : (0 < L)%R.

  Lemma length_1d : vector_length 1 (delta 0%nat) = L.
  Proof using HL. unfold vector_length. cbn [rsum]. rewrite Rplus_0_l. fold L. apply sqrt_square. lra. Qed.

  Lemma coherent_spec s : sbasis s = BTuple axes -> well_formed_list s ->
    (get_coherent_coordinates same axes delta inv s 0 = None <-> exists i, (i < bsize (slist s))%nat /\ squared_norm s i = 0%R) /\
    forall n x0 k0 sg, get_coherent_coordinates same axes delta inv s 0 = Some (n, x0, k0, sg) ->
      n = bsize (slist s) /\ forall i, (i < n)%nat ->
      let e := mean_phase shape (axis_direction 1 0) s i in
      (0 <= x0 i < L)%R /\ e = RtoC (Cmod e) * cis (2 * PI * (x0 i / L)) /\
      k0 i = RtoC (rsum (fun p => momentum_density shape s i p / squared_norm s i * (2 * PI * inv 0%nat 0%nat * IZR (freq (nprod shape) p)))%R (nprod shape)) /\
      (sg i = None <-> e = 0) /\
      forall sigma, sg i = Some sigma -> (0 <= sigma)%R /\ Cmod e = (squared_norm s i * exp (- (sigma * (2 * PI / L)) ^ 2 / 4))%R.
  Proof using Hs Hw Ho H1 HL.
    intros Eb Ws. unfold get_coherent_coordinates.
    assert (Ha : (0 < length axes)%nat) by lia.
    pose proof (spread_raises same Hs axes Hw Ho delta s Eb Ws 0 Ha) as SR.
    destruct (get_x_spread same axes delta s 0) as [[s' [lb sg]]|] eqn:G; [|split; [split; [intros _; apply SR; reflexivity|reflexivity]|discriminate]].
    pose proof (spread_spec same Hs axes Hw Ho delta s Eb Ws 0 Ha s' lb sg G) as SS. rewrite H1, length_1d in SS.
    destruct (SS HL) as (E1 & E2 & E3 & W' & K). clear SS.
    destruct (average_x_periodic_1d same Hs axes Hw Ho delta s' ltac:(congruence) W' H1) as (v & Gx & Ev). rewrite Gx.
    destruct (average_k_1d same Hs axes Hw Ho inv s' ltac:(congruence) W' H1) as (f & Gk & Ef). rewrite Gk.
    split; [split; [discriminate|]|].
    - intros X. apply SR in X. discriminate.
    - intros n x0 k0 sg0 E. injection E as <- <- <- <-. rewrite E2. split; [reflexivity|]. intros i Hi. set (e := mean_phase shape (axis_direction 1 0) s i). try (cbv zeta; fold e).
      assert (En : normalise_states s = Some s').
      { unfold get_x_spread in G. destruct (normalise_states s); [|discriminate]. destruct (get_periodic_x _ _ _ _) as [[? ?]|]; [|discriminate].
        destruct (0 <? length axes)%nat; [|discriminate]. injection G as -> _ _. reflexivity. }
      assert (Bp : (0 < bsize (sbasis s))%nat) by (rewrite Eb; apply bsize_pos; exact Hw).
      destruct (normalise_spec s Ws) as (_ & N). destruct (N s' En) as (_ & _ & _ & V). pose proof (proj1 (V i 0%nat Hi Bp)) as P.
      pose proof (normalised_phase shape (axis_direction 1 0) s s' i Ws En Hi) as Me. fold e in Me.
      rewrite (Ev i) by (rewrite E2; exact Hi). rewrite H1. fold shape L. rewrite Me.
      set (e' := RtoC (/ squared_norm s i) * e) in *.
      destruct (periodic_position_spec L e' HL) as (B1 & B2). split; [exact B1|].
      assert (Mm : Cmod e' = (/ squared_norm s i * Cmod e)%R).
      { unfold e'. rewrite Cmod_mult, Cmod_R, Rabs_right by (left; apply Rinv_0_lt_compat; exact P). reflexivity. }
      split.
      { rewrite Mm, RtoC_mult in B2. apply (f_equal (Cmult (RtoC (squared_norm s i)))) in B2. unfold e' in B2 at 1.
        rewrite !Cmult_assoc, <- !RtoC_mult in B2. rewrite Rinv_r, Cmult_1_l in B2 by lra.
        rewrite Rmult_1_l in B2. exact B2. }
      split.
      { rewrite Ef. fold shape. apply f_equal. apply rsum_ext. intros p Hp. f_equal.
        unfold momentum_density. rewrite E3.
        assert (Q : csum (fun x => Cconj (bstate (momenta shape) p x) * amplitude (sbasis s) (state_of s' i) x) (nprod shape)
          = RtoC (/ sqrt (squared_norm s i)) * csum (fun x => Cconj (bstate (momenta shape) p x) * amplitude (sbasis s) (state_of s i) x) (nprod shape)).
        { rewrite <- csum_scal_l. apply csum_ext. intros x Hx. rewrite (amplitude_scaled (sbasis s) (state_of s i) (state_of s' i) (RtoC (/ sqrt (squared_norm s i)))); [ring|].
          intros k Hk. rewrite (proj2 (V i k Hi Hk)). unfold Cdiv. rewrite RtoC_inv by (apply Rgt_not_eq, sqrt_lt_R0; exact P). ring. }
        rewrite Q, Cnorm2_mult. unfold Cnorm2 at 1. cbn [fst snd RtoC].
        replace (/ sqrt (squared_norm s i) * / sqrt (squared_norm s i) + 0 * 0)%R with (/ squared_norm s i)%R; [unfold Rdiv; ring|].
        rewrite <- (sqrt_sqrt (squared_norm s i)) at 1 by lra. field. apply Rgt_not_eq, sqrt_lt_R0. exact P. }
      destruct (K i Hi) as (_ & _ & K1 & K2). split; [exact K1|exact K2].
  Qed.

  Lemma coherent_scaled s t (c : nat -> C) n x0 k0 sg : sbasis s = BTuple axes -> well_formed_list s -> slist t = slist s -> sbasis t = sbasis s -> well_formed_list t ->
    (forall i, (i < bsize (slist s))%nat -> c i <> 0 /\ forall k, (k < bsize (sbasis s))%nat -> state_of t i k = c i * state_of s i k) ->
    get_coherent_coordinates same axes delta inv s 0 = Some (n, x0, k0, sg) ->
    exists x0' k0' sg', get_coherent_coordinates same axes delta inv t 0 = Some (n, x0', k0', sg') /\
      forall i, (i < n)%nat -> x0' i = x0 i /\ k0' i = k0 i /\ sg' i = sg i.
  Proof using Hs Hw Ho H1 HL.
    intros Eb Ws Es Et Wt Hc G.
    assert (Ha : (0 < length axes)%nat) by lia.
    assert (Ebt : sbasis t = BTuple axes) by congruence.
    unfold get_coherent_coordinates, get_x_spread in G |- *. rewrite H1 in *. cbn [Nat.ltb Nat.leb] in G |- *.
    destruct (normalise_spec s Ws) as (_ & N1). destruct (normalise_states s) as [s'|] eqn:Gs; [|discriminate]. destruct (N1 s' eq_refl) as (A1 & A2 & A3 & V1).
    destruct (normalise_spec t Wt) as (Nn & N2). destruct (normalise_states t) as [t'|] eqn:Gt.
    2: { exfalso. destruct (proj1 Nn eq_refl) as (i & Hi & E). rewrite Es in Hi. rewrite (scaled_norm s t c Et Hc i Hi) in E.
         assert (Bp : (0 < bsize (sbasis s))%nat) by (rewrite Eb; apply bsize_pos; exact Hw).
         pose proof (proj1 (V1 i 0%nat Hi Bp)) as P. destruct (Hc i Hi) as (C0 & _). apply Rmult_integral in E. destruct E as [E|E]; [|lra].
         apply C0, Cnorm2_eq_0, E. }
    destruct (N2 t' eq_refl) as (B1 & B2 & B3 & V2).
    assert (Ea : sbasis s' = BTuple axes) by congruence. assert (Ec : sbasis t' = BTuple axes) by congruence.
    destruct (periodic_phases same Hs axes Hw Ho s' 0 Ea A3) as (f & Hf & Ff). destruct (periodic_phases same Hs axes Hw Ho t' 0 Ec B3) as (f' & Hf' & Ff').
    rewrite H1 in *. rewrite Hf in G. rewrite Hf'.
    destruct (average_x_periodic_1d same Hs axes Hw Ho delta s' Ea A3 H1) as (v & Gx & Ev). rewrite Gx in G.
    destruct (average_k_1d same Hs axes Hw Ho inv s' Ea A3 H1) as (h & Gk & Eh). rewrite Gk in G.
    destruct (average_x_periodic_1d same Hs axes Hw Ho delta t' Ec B3 H1) as (v' & Gx' & Ev'). rewrite Gx'.
    destruct (average_k_1d same Hs axes Hw Ho inv t' Ec B3 H1) as (h' & Gk' & Eh'). rewrite Gk'.
    injection G as <- <- <- <-. replace (bsize (slist t')) with (bsize (slist s')) by congruence.
    do 3 eexists. split; [reflexivity|]. intros i Hi. rewrite A1 in Hi.
    destruct (scaled_states s t c Es Et Hc Ws Wt s' t' i Gs Gt Hi) as (u & Hu & Ku). rewrite <- A2 in Ku.
    assert (Eq : sbasis t' = sbasis s') by congruence.
    assert (Mp : mean_phase shape (axis_direction 1 0) t' i = mean_phase shape (axis_direction 1 0) s' i).
    { unfold mean_phase. apply csum_ext. intros x Hx. rewrite (phase_density s' t' i u x Eq Hu Ku). reflexivity. }
    split; [|split].
    - rewrite (Ev i), (Ev' i) by congruence. rewrite H1. fold shape. rewrite Mp. reflexivity.
    - rewrite Eh, Eh'. fold shape. f_equal. apply rsum_ext. intros p Hp. rewrite (phase_momentum shape s' t' i u p Eq Hu Ku). reflexivity.
    - rewrite Ff, Ff'. fold shape. rewrite Mp. reflexivity.
  Qed.
End Coherent.
