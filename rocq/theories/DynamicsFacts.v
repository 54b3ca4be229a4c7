(** The simulation and its equilibrium put together, rates on a lattice, and the cases used
    as examples. *)
From Coq Require Import Reals Psatz Permutation.
From Coquelicot Require Import Coquelicot.
From Verif Require Import ZLib Csum DFT NumPy Index IndexProofs Lattice LatticeProofs LinAlg Basis SpecBasis Operator SpecOperator OperatorProofs SpecReal Spectral
  SpecMatrix SpecLocalize SpecHamiltonian Dynamics SpecDynamics DynamicsProofs DynamicsProofs2 DynamicsProofs3 DynamicsProofs4 DynamicsProofs5
  DynamicsProofs6 DynamicsProofs7 DynamicsProofs8.
Local Open Scope R_scope.
Local Open Scope C_scope.

Lemma at2_array2 n m f i j : (i < n)%nat -> (j < m)%nat -> at2 (array2 n m f) i j = f i j.
Proof. intros Hi Hj. unfold at2. apply array2_flat. exact Hj. Qed.

Lemma simulation_facts eig solve n m M A' : (0 < n)%nat -> square n m -> rates n (op_entry m) ->
  get_tunnelling_m_matrix m = Some (M, A') -> eig_diagonalises eig n (op_entry M) -> solve_ok solve ->
  forall p0, exists p : R -> nat -> C,
    (forall nt times, exists out, calculate_tunnelling_simulation_state eig solve M p0 nt times = Some out /\
       ashape out = [nt; n] /\ forall s i, (s < nt)%nat -> (i < n)%nat -> at2 out s i = p (times s) i) /\
    (forall i, (i < n)%nat -> p 0%R i = p0 i) /\
    (forall t i, (i < n)%nat -> cderivative (fun s => p s i) t (applied n (op_entry M) (p t) i)) /\
    (forall t, csum (p t) n = csum p0 n) /\
    (distribution n p0 -> forall t, (0 <= t)%R -> distribution n (p t)).
Proof.
  intros Hn Hsq Hr HM Heig Hsolve p0.
  destruct (eigenstates_spec n m M A' eig Hn Hsq Hr HM Heig) as [es [W [E1 [E2 [E3 [E4 [E5 E6]]]]]]].
  destruct (decomposition n solve Hsolve es W E2 E4 p0) as [c [D1 D2]].
  exists (evolve n es c). split; [|split; [|split; [|split]]].
  - intros nt times. unfold calculate_tunnelling_simulation_state. rewrite E1. unfold get_tunnelling_simulation_state. rewrite D1, E2.
    eexists. split; [reflexivity|]. split; [reflexivity|]. intros s i Hs Hi. rewrite at2_array2 by assumption. reflexivity.
  - apply (evolve_0 n es c p0 D2).
  - intros t i Hi. apply (evolve_derivative n M es); assumption.
  - intros t. apply (evolve_conserved n m M A' Hsq Hr HM es E3 c p0 t D2).
  - intros Hd t Ht. apply (evolve_distribution n m M A' Hsq Hr HM es E3 c p0 t D2 Hd Ht).
Qed.

Lemma equilibrium_facts eig solve n m M A' : (0 < n)%nat -> square n m -> rates n (op_entry m) ->
  get_tunnelling_m_matrix m = Some (M, A') -> eig_diagonalises eig n (op_entry M) -> solve_ok solve ->
  connected n (op_entry m) ->
  exists q, calculate_equilibrium_state eig solve M = Some q /\ distribution n q /\
    (forall i, (i < n)%nat -> (0 < fst (q i))%R) /\
    (forall i, (i < n)%nat -> applied n (op_entry M) q i = 0) /\
    (forall q', csum q' n = 1 -> (forall i, (i < n)%nat -> applied n (op_entry M) q' i = 0) -> forall i, (i < n)%nat -> q' i = q i) /\
    (forall p0 p, csum p0 n = 1 ->
       (forall times : nat -> R, exists out, calculate_tunnelling_simulation_state eig solve M p0 1 times = Some out /\
          forall i, (i < n)%nat -> at2 out 0 i = p (times 0%nat) i) -> tends_to n p q).
Proof.
  intros Hn Hsq Hr HM Heig Hsolve Hcon.
  destruct (eigenstates_spec n m M A' eig Hn Hsq Hr HM Heig) as [es [W [E1 [E2 [E3 [E4 [E5 [z [Hz [Harg Hzero]]]]]]]]]].
  assert (K : exists q, get_equilibrium_state solve es = Some q /\ forall i, (i < n)%nat -> q i = equilibrium n es z i) by (eapply equilibrium_state_spec; eassumption).
  destruct K as [q [Q1 Q2]].
  assert (D : distribution n (equilibrium n es z) /\ forall i, (i < n)%nat -> (0 < fst (equilibrium n es z i))%R) by (eapply equilibrium_distribution; eassumption).
  destruct D as [[D1 D2] D3].
  exists q. split; [unfold calculate_equilibrium_state; rewrite E1; exact Q1|].
  split; [split|split; [|split; [|split]]].
  - intros i Hi. rewrite Q2 by exact Hi. apply D1. exact Hi.
  - rewrite (csum_ext q (equilibrium n es z) n Q2). exact D2.
  - intros i Hi. rewrite Q2 by exact Hi. apply D3. exact Hi.
  - intros i Hi. transitivity (applied n (op_entry M) (equilibrium n es z) i).
    + unfold applied. apply csum_ext. intros j Hj. rewrite Q2 by exact Hj. reflexivity.
    + eapply equilibrium_kernel; eassumption.
  - intros q' H1 H2 i Hi. rewrite Q2 by exact Hi. revert i Hi. eapply equilibrium_unique; eassumption.
  - intros p0 p Hp0 Hp.
    destruct (decomposition n solve Hsolve es W E2 E4 p0) as [c [C1 C2]].
    assert (Hconv : tends_to n (evolve n es c) (equilibrium n es z)) by (eapply evolve_converges; eassumption).
    intros eps He. destruct (Hconv eps He) as [T HT]. exists T. intros t Ht i Hi.
    destruct (Hp (fun _ => t)) as [out [O1 O2]]. rewrite <- (O2 i Hi), Q2 by exact Hi.
    unfold calculate_tunnelling_simulation_state in O1. rewrite E1 in O1. unfold get_tunnelling_simulation_state in O1. rewrite C1, E2 in O1.
    assert (EO : out = array2 1 n (fun s i => csum (fun k => Cmult (Cmult (c k) (cexp (Cmult (es_value es k) (RtoC t)))) (es_state es k i)) n)) by congruence.
    rewrite EO, at2_array2 by lia. apply HT; assumption.
Qed.

(** ** Rates between the sites of a lattice *)
Section Rates.
  Context (nb n0 n1 : nat) (f : nat -> nat -> nat -> C) (H0 : (3 <= n0)%nat) (H1 : (3 <= n1)%nat).
  Let jump := get_jump_matrix_from_function nb f.

  Lemma jump_size : nprod (ashape jump) = (nb * nb * 9)%nat.
  Proof using nb n0 n1 f H0 H1. unfold jump, get_jump_matrix_from_function. cbn. lia. Qed.
  Lemma jump_entry b0 b1 hop : (b0 < nb)%nat -> (b1 < nb)%nat -> (hop < 9)%nat -> aflat jump ((b0 * nb + b1) * 9 + hop)%nat = f b0 b1 hop.
  Proof using nb n0 n1 f H0 H1. intros Hb0 Hb1 Hh. unfold jump, get_jump_matrix_from_function, ravel_array. cbn [aflat]. apply array3_flat; assumption. Qed.
  Lemma a_matrix_facts : exists A, get_a_matrix_from_jump_matrix nb jump n0 n1 (Some nb) = Some A /\ square (n0 * n1 * nb) A /\
    (forall x0 x1 b0 hop b1, (x0 < n0)%nat -> (x1 < n1)%nat -> (b0 < nb)%nat -> (hop < 9)%nat -> (b1 < nb)%nat ->
       op_entry A (site n1 nb x0 x1 b0) (site n1 nb (moved_by n0 x0 (hop_step (hop / 3))) (moved_by n1 x1 (hop_step (hop mod 3))) b1) = f b0 b1 hop) /\
    (forall x0 x1 b0 y0 y1 b1, (x0 < n0)%nat -> (x1 < n1)%nat -> (b0 < nb)%nat -> (y0 < n0)%nat -> (y1 < n1)%nat -> (b1 < nb)%nat ->
       (forall hop, (hop < 9)%nat -> hops_to n0 n1 hop x0 x1 y0 y1 = false) -> op_entry A (site n1 nb x0 x1 b0) (site n1 nb y0 y1 b1) = 0).
  Proof using nb n0 n1 f H0 H1.
    destruct (a_matrix_spec nb jump n0 n1 jump_size) as [A [A1 [A2 A3]]]. exists A. split; [exact A1|]. split; [exact A2|]. split.
    - intros x0 x1 b0 hop b1 Hx0 Hx1 Hb0 Hh Hb1. rewrite A3; try assumption; try (apply moved_lt; lia).
      assert (Q : hops_to n0 n1 hop x0 x1 (moved_by n0 x0 (hop_step (hop / 3))) (moved_by n1 x1 (hop_step (hop mod 3))) = true).
      { unfold hops_to. rewrite !Nat.eqb_refl. reflexivity. }
      rewrite (csum_single _ 9 hop Hh).
      + rewrite Q. apply jump_entry; assumption.
      + intros h Hlt Hne. destruct (hops_to n0 n1 h x0 x1 _ _) eqn:E; [|reflexivity]. exfalso. apply Hne.
        eapply (hops_distinct n0 n1); eassumption.
    - intros x0 x1 b0 y0 y1 b1 Hx0 Hx1 Hb0 Hy0 Hy1 Hb1 Hno. rewrite A3 by assumption. apply csum_zero_ext. intros h Hh. rewrite Hno by exact Hh. reflexivity.
  Qed.
End Rates.

Lemma a_matrix_translated nb jump n0 n1 A : nprod (ashape jump) = (nb * nb * 9)%nat ->
  get_a_matrix_from_jump_matrix nb jump n0 n1 (Some nb) = Some A ->
  forall x0 x1 b0 y0 y1 b1 d0 d1, (x0 < n0)%nat -> (x1 < n1)%nat -> (b0 < nb)%nat -> (y0 < n0)%nat -> (y1 < n1)%nat -> (b1 < nb)%nat ->
    op_entry A (site n1 nb (moved_by n0 x0 d0) (moved_by n1 x1 d1) b0) (site n1 nb (moved_by n0 y0 d0) (moved_by n1 y1 d1) b1) =
    op_entry A (site n1 nb x0 x1 b0) (site n1 nb y0 y1 b1).
Proof.
  intros Hj HA x0 x1 b0 y0 y1 b1 d0 d1 Hx0 Hx1 Hb0 Hy0 Hy1 Hb1. destruct (a_matrix_spec nb jump n0 n1 Hj) as [A2 [E1 [_ E3]]].
  assert (A2 = A) by congruence. subst A2. rewrite !E3 by (first [assumption|apply moved_lt; lia]).
  apply csum_ext. intros h Hh. rewrite hops_translate by assumption. reflexivity.
Qed.
Lemma a_matrix_totals nb jump n0 n1 A : nprod (ashape jump) = (nb * nb * 9)%nat ->
  get_a_matrix_from_jump_matrix nb jump n0 n1 (Some nb) = Some A ->
  forall x0 x1 b0 b1, (x0 < n0)%nat -> (x1 < n1)%nat -> (b0 < nb)%nat -> (b1 < nb)%nat ->
    csum (fun y0 => csum (fun y1 => op_entry A (site n1 nb x0 x1 b0) (site n1 nb y0 y1 b1)) n1) n0 =
      csum (fun hop => aflat jump ((b0 * nb + b1) * 9 + hop)%nat) 9 /\
    csum (fun y0 => csum (fun y1 => op_entry A (site n1 nb y0 y1 b0) (site n1 nb x0 x1 b1)) n1) n0 =
      csum (fun hop => aflat jump ((b0 * nb + b1) * 9 + hop)%nat) 9.
Proof.
  intros Hj HA x0 x1 b0 b1 Hx0 Hx1 Hb0 Hb1. destruct (a_matrix_spec nb jump n0 n1 Hj) as [A2 [E1 [_ E3]]].
  assert (A2 = A) by congruence. subst A2. split.
  - transitivity (csum (fun hop => csum (fun y0 => csum (fun y1 => if hops_to n0 n1 hop x0 x1 y0 y1 then aflat jump ((b0 * nb + b1) * 9 + hop)%nat else 0) n1) n0) 9).
    + symmetry. etransitivity; [apply csum_swap|]. apply csum_ext. intros y0 Hy0. etransitivity; [apply csum_swap|]. apply csum_ext. intros y1 Hy1. symmetry. apply E3; assumption.
    + apply csum_ext. intros h Hh. apply hops_outgoing; lia.
  - transitivity (csum (fun hop => csum (fun y0 => csum (fun y1 => if hops_to n0 n1 hop y0 y1 x0 x1 then aflat jump ((b0 * nb + b1) * 9 + hop)%nat else 0) n1) n0) 9).
    + symmetry. etransitivity; [apply csum_swap|]. apply csum_ext. intros y0 Hy0. etransitivity; [apply csum_swap|]. apply csum_ext. intros y1 Hy1. symmetry. apply E3; assumption.
    + apply csum_ext. intros h Hh. apply hops_incoming; assumption.
Qed.

(** ** Two sites *)
Definition two_rates : operator :=
  {| orow := BFund 2; ocol := BFund 2;
     odata := {| ashape := [4%nat]; aflat := fun k => match k with 0%nat => RtoC 7 | 1%nat => RtoC 1 | 2%nat => RtoC 2 | _ => RtoC 9 end |} |}.
Definition two_values (k : nat) : C := match k with 0%nat => RtoC 0 | _ => RtoC (-3) end.
Definition two_vectors (i k : nat) : C :=
  match i, k with 0%nat, 0%nat => RtoC 2 | 0%nat, _ => RtoC 1 | _, 0%nat => RtoC 1 | _, _ => RtoC (-1) end.
Definition two_inverse (i k : nat) : C :=
  match i, k with 0%nat, _ => RtoC (1 / 3) | _, 0%nat => RtoC (1 / 3) | _, _ => RtoC (-2 / 3) end.
Definition two_eig : eig_fn := fun _ _ => (two_values, two_vectors).

Lemma two_square : square 2 two_rates.
Proof. split; [reflexivity|split; reflexivity]. Qed.
Lemma two_rates_ok : rates 2 (op_entry two_rates).
Proof.
  intros i j Hi Hj Hne. destruct i as [|[|i]]; [| |lia]; destruct j as [|[|j]]; try lia; unfold op_entry; cbn; split; lra.
Qed.
Lemma two_connected : connected 2 (op_entry two_rates).
Proof.
  assert (S01 : op_entry two_rates 0 1 <> RtoC 0) by (unfold op_entry; cbn; intros E; apply (f_equal fst) in E; cbn in E; lra).
  assert (S10 : op_entry two_rates 1 0 <> RtoC 0) by (unfold op_entry; cbn; intros E; apply (f_equal fst) in E; cbn in E; lra).
  intros i j Hi Hj. destruct i as [|[|i]]; [| |lia]; destruct j as [|[|j]]; try lia; try apply reaches_here.
  - apply (reaches_step 2 _ 0 1 1); [lia|lia|exact S01|apply reaches_here].
  - apply (reaches_step 2 _ 1 0 0); [lia|lia|exact S10|apply reaches_here].
Qed.
Ltac pair_reals := apply injective_projections; cbn; lra.
Lemma two_diagonalised M A' : get_tunnelling_m_matrix two_rates = Some (M, A') -> eig_diagonalises two_eig 2 (op_entry M).
Proof.
  intros HM. destruct (m_matrix_spec two_rates 2 two_square) as [M2 [A2 [E1 [_ [_ [_ [Eoff [Ediag _]]]]]]]].
  assert (M2 = M) by congruence. subst M2.
  assert (N00 : op_entry M 0 0 = RtoC (-1)) by (rewrite Ediag by lia; unfold outgoing, op_entry; pair_reals).
  assert (N11 : op_entry M 1 1 = RtoC (-2)) by (rewrite Ediag by lia; unfold outgoing, op_entry; pair_reals).
  assert (N01 : op_entry M 0 1 = RtoC 2) by (rewrite Eoff by lia; reflexivity).
  assert (N10 : op_entry M 1 0 = RtoC 1) by (rewrite Eoff by lia; reflexivity).
  intros B HB. exists two_inverse. unfold two_eig. cbn [fst snd]. split; [split|].
  - intros i j Hi Hj. unfold matmul. destruct i as [|[|i]]; [| |lia]; destruct j as [|[|j]]; try lia; pair_reals.
  - intros i j Hi Hj. unfold matmul. destruct i as [|[|i]]; [| |lia]; destruct j as [|[|j]]; try lia; pair_reals.
  - intros k i Hk Hi. rewrite (csum_ext _ (fun j => op_entry M i j * two_vectors j k)) by (intros j Hj; rewrite HB by assumption; reflexivity).
    destruct i as [|[|i]]; [| |lia]; destruct k as [|[|k]]; try lia; cbn [csum]; rewrite ?N00, ?N01, ?N10, ?N11; pair_reals.
Qed.

(** A complex Hermitian Hamiltonian. *)
Definition two_level : operator :=
  {| orow := BFund 2; ocol := BFund 2;
     odata := {| ashape := [4%nat]; aflat := fun k => match k with 0%nat => RtoC 1 | 1%nat => Ci | 2%nat => - Ci | _ => RtoC 2 end |} |}.
Lemma two_level_square : square 2 two_level.
Proof. split; [reflexivity|split; reflexivity]. Qed.
Lemma two_level_hermitian : hermitian 2 (op_entry two_level).
Proof.
  intros i j Hi Hj. unfold adjoint, op_entry. destruct i as [|[|i]]; [| |lia]; destruct j as [|[|j]]; try lia; cbn; pair_reals.
Qed.

(** An entry of modulus greater than the threshold that is lost. *)
Lemma banded_lost : exists (n : nat) (a : nat -> nat -> C) (thr : R), (0 < thr)%R /\
  from_bands n (get_banded_operator n a thr) 0 0 = 0 /\ (thr < Cmod (a 0%nat 0%nat))%R /\
  (exists k, (k < n)%nat /\ (thr < list_norm (nth k (get_operator_diagonals n a) []))%R).
Proof.
  exists 1%nat, (fun _ _ => (9 / 10, 9 / 10)%R), 1%R. split; [lra|]. 
  assert (Q : (1 < Cmod (9 / 10, 9 / 10))%R).
  { unfold Cmod. cbn [fst snd]. rewrite <- sqrt_1 at 1. apply sqrt_lt_1; lra. }
  split; [|split; [exact Q|]].
  - rewrite banded_value by lia. destruct (Rlt_dec _ _); [|reflexivity]. unfold clean_value. cbn [fst snd].
    assert (N : (Rabs (9 / 10) < 1)%R) by (rewrite Rabs_right; lra). destruct (Rlt_dec (Rabs (9 / 10)) 1) as [N2|N2]; [|contradiction]. cbn [fst snd RtoC].
    destruct (Rlt_dec (Rabs (9 / 10)) 1) as [N3|N3]; [|contradiction]. ring.
  - exists 0%nat. split; [lia|]. destruct (diagonal_row 1 (fun _ _ => (9 / 10, 9 / 10)%R) 0) as [L1 L2]; [lia|].
    pose proof (list_norm_member 0%nat (fun _ _ => RtoC 0) (nth 0 (get_operator_diagonals 1 (fun _ _ => (9 / 10, 9 / 10)%R)) []) 0) as P. rewrite L1 in P. specialize (P Nat.lt_0_1).
    rewrite L2 in P by lia. eapply Rlt_le_trans; [exact Q|exact P].
Qed.

(** ** Scattering from sites at their approximate locations *)
Lemma location_site b n0 n1 x0 x1 k c : (x0 < n0)%nat -> (x1 < n1)%nat -> (k < band_count b)%nat ->
  approximate_location b n0 n1 (site n1 (band_count b) x0 x1 k) c = band_position b x0 x1 k c.
Proof.
  intros H0 H1 Hk. unfold approximate_location, band_position, tensordot00.
  replace (site n1 (band_count b) x0 x1 k) with (ravel [n0; n1; band_count b] [x0; x1; k]) by (unfold site; cbn; lia).
  rewrite unravel_ravel by (repeat constructor; assumption). cbn [rsum nth]. ring.
Qed.
Lemma rsum_sites f n0 n1 nb : rsum f (nprod [n0; n1; nb]) =
  rsum (fun x0 => rsum (fun x1 => rsum (fun k => f (site n1 nb x0 x1 k)) nb) n1) n0.
Proof.
  replace (nprod [n0; n1; nb]) with (n0 * n1 * nb)%nat by (cbn; lia). rewrite rsum_flat, rsum_flat. reflexivity.
Qed.
Lemma csum_sites f n0 n1 nb : csum f (nprod [n0; n1; nb]) =
  csum (fun x0 => csum (fun x1 => csum (fun k => f (site n1 nb x0 x1 k)) nb) n1) n0.
Proof.
  replace (nprod [n0; n1; nb]) with (n0 * n1 * nb)%nat by (cbn; lia). rewrite !csum_mul. reflexivity.
Qed.
Lemma rsum2_ext f g : f 0%nat = g 0%nat -> f 1%nat = g 1%nat -> rsum f 2 = rsum g 2.
Proof. intros H0 H1. cbn [rsum]. rewrite H0, H1. reflexivity. Qed.
Lemma supercell_eq b n0 n1 a c : (a < 2)%nat -> supercell_vectors b n0 n1 a c = (band_cell b a c * INR (nth a [n0; n1] 0%nat))%R.
Proof. intros Ha. unfold supercell_vectors. destruct a as [|[|a]]; [reflexivity|reflexivity|lia]. Qed.

Lemma isf_position b n0 n1 inv initial final dk isf s :
  let L a c := (band_cell b a c * INR (nth a [n0; n1] 0%nat))%R in
  is_inverse 2 L inv ->
  (forall a, (a < 2)%nat -> exists z : Z, rsum (fun c => dk c * L a c)%R 2 = (2 * PI * IZR z)%R) ->
  calculate_isf_approximate_locations b n0 n1 inv initial final dk = Some isf ->
  let nb := band_count b in
  let mean c := (rsum (fun x0 => rsum (fun x1 => rsum (fun k => band_position b x0 x1 k c * initial (site n1 nb x0 x1 k)) nb) n1) n0 /
                 rsum initial (n0 * n1 * nb))%R in
  isf s = csum (fun x0 => csum (fun x1 => csum (fun k =>
    RtoC (final s (site n1 nb x0 x1 k)) *
    cis (rsum (fun c => dk c * (band_position b x0 x1 k c - mean c))%R 2)) nb) n1) n0.
Proof.
  intros L [I1 I2] Hdk Hisf nb mean.
  assert (HI : is_inverse 2 (supercell_vectors b n0 n1) inv).
  { split; intros a a' Ha Ha'.
    - rewrite <- (I1 a a' Ha Ha'). apply rsum_ext. intros c Hc. unfold L. rewrite supercell_eq by exact Ha. reflexivity.
    - rewrite <- (I2 a a' Ha Ha'). apply rsum_ext. intros c Hc. unfold L. rewrite supercell_eq by exact Hc. reflexivity. }
  rewrite (isf_unwrapped b n0 n1 inv initial final dk isf s HI).
  - cbv zeta. rewrite csum_sites. apply csum_ext. intros x0 Hx0. apply csum_ext. intros x1 Hx1. apply csum_ext. intros k Hk.
    rewrite Cmult_comm. f_equal. unfold cexp. 
    replace (fst (Ci * RtoC (rsum (fun c => dk c * (approximate_location b n0 n1 (site n1 (band_count b) x0 x1 k) c -
      rsum (fun x => approximate_location b n0 n1 x c * initial x) (nprod [n0; n1; band_count b]) / rsum initial (nprod [n0; n1; band_count b])))%R 2)%R)) with 0%R
      by (generalize (rsum (fun c => dk c * (approximate_location b n0 n1 (site n1 (band_count b) x0 x1 k) c -
      rsum (fun x => approximate_location b n0 n1 x c * initial x) (nprod [n0; n1; band_count b]) / rsum initial (nprod [n0; n1; band_count b])))%R 2); intros; cbn; ring).
    rewrite exp_0, Cmult_1_l. f_equal.
    match goal with |- snd (Ci * RtoC ?u) = _ => transitivity u; [generalize u; intros; cbn; ring|] end.
    apply rsum_ext. intros c Hc. rewrite location_site by assumption. f_equal. f_equal. unfold mean. f_equal.
    + rewrite rsum_sites. apply rsum_ext. intros y0 Hy0. apply rsum_ext. intros y1 Hy1. apply rsum_ext. intros k' Hk'.
      rewrite location_site by assumption. reflexivity.
    + f_equal. f_equal. cbn. unfold nb. lia.
  - intros a Ha. destruct (Hdk a Ha) as [z Hz]. exists z. rewrite <- Hz. apply rsum_ext. intros c Hc. unfold L. rewrite supercell_eq by exact Ha. reflexivity.
  - exact Hisf.
Qed.

(** A skew cell with two bands on a 2 x 3 lattice, and a momentum reciprocal to it. *)
Definition skew_bands : bands :=
  {| band_count := 2; band_location := fun a k => match k with 0%nat => 0%R | _ => (1 / 3)%R end;
     band_cell := fun a c => match a, c with 0%nat, 0%nat => 1%R | 0%nat, _ => 0%R | _, 0%nat => 1%R | _, _ => 2%R end |}.
Definition skew_super_inv (a c : nat) : R :=
  match a, c with 0%nat, 0%nat => (1 / 2)%R | 0%nat, _ => 0%R | _, 0%nat => (- 1 / 4)%R | _, _ => (1 / 6)%R end.
Definition skew_dk (c : nat) : R := match c with 0%nat => PI | _ => (- PI / 6)%R end.
Lemma skew_super_inverse : is_inverse 2 (fun a c => band_cell skew_bands a c * INR (nth a [2%nat; 3%nat] 0%nat))%R skew_super_inv.
Proof.
  split; intros a a' Ha Ha'; (destruct a as [|[|a]]; [| |lia]); (destruct a' as [|[|a']]; [| |lia]); cbn; unfold rdelta; cbn; lra.
Qed.
Lemma skew_reciprocal : forall a, (a < 2)%nat -> exists z : Z,
  rsum (fun c => skew_dk c * (band_cell skew_bands a c * INR (nth a [2%nat; 3%nat] 0%nat)))%R 2 = (2 * PI * IZR z)%R.
Proof.
  intros a Ha. destruct a as [|[|a]]; [| |lia]; cbn.
  - exists 1%Z. ring.
  - exists 1%Z. field.
Qed.

Lemma m_matrix_columns n m M A' : square n m -> get_tunnelling_m_matrix m = Some (M, A') ->
  forall j, (j < n)%nat -> csum (fun i => op_entry M i j) n = 0.
Proof.
  intros Hsq HM j Hj. destruct (m_matrix_spec m n Hsq) as [M2 [A2 [E1 [_ [_ [_ [Eoff [Ediag _]]]]]]]].
  assert (M2 = M) by congruence. subst M2. rewrite (csum_split_at _ n j Hj). rewrite Ediag by exact Hj. unfold outgoing.
  rewrite (csum_ext (fun k => if Nat.eqb j k then 0 else op_entry M k j) (fun k => if Nat.eqb j k then 0 else op_entry m j k)); [ring|].
  intros k Hk. destruct (Nat.eqb_spec j k) as [->|Hne]; [reflexivity|]. apply Eoff; lia.
Qed.
Lemma m_matrix_eigenvalues n m M A' : square n m -> rates n (op_entry m) -> get_tunnelling_m_matrix m = Some (M, A') ->
  forall lam v, (forall i, (i < n)%nat -> applied n (op_entry M) v i = lam * v i) ->
    (exists i, (i < n)%nat /\ v i <> 0) -> (fst lam < 0)%R \/ lam = 0.
Proof.
  intros Hsq Hr HM lam v Hv Hnz. destruct (rates_generator n m M A' Hsq Hr HM) as [_ [Hreal [Hg _]]].
  apply (generator_eigenvalue n (fun i j => fst (op_entry M i j)) lam v Hg); [|exact Hnz].
  intros i Hi. rewrite <- (Hv i Hi). unfold applied. apply csum_ext. intros j Hj. rewrite <- Hreal by assumption. reflexivity.
Qed.

Lemma collapse_rates n a i j : (i < n)%nat -> (j < n)%nat -> i <> j -> snd (a i j) = 0%R ->
  jump_rate (get_collapse_operators_from_a_matrix n a) i j = (fst (a i j) * fst (a i j))%R.
Proof.
  intros Hi Hj Hne Hs. rewrite collapse_from_a by assumption. destruct (Nat.eqb_spec i j) as [E|_]; [contradiction|].
  destruct (Req_EM_T (Cnorm2 (a i j)) 0) as [E|_]; [|reflexivity]. unfold Cnorm2 in E. rewrite Hs in E. cbn in E. nra.
Qed.
Lemma collapse_rates_wrong : exists n a i j, (i < n)%nat /\ (j < n)%nat /\ i <> j /\ rates n a /\
  jump_rate (get_collapse_operators_from_a_matrix n a) j i <> fst (a i j) /\
  jump_rate (get_collapse_operators_from_a_matrix n a) i j <> fst (a i j).
Proof.
  exists 2%nat, (fun i j => if Nat.eqb i 0 then RtoC 2 else RtoC 3), 0%nat, 1%nat. split; [lia|]. split; [lia|]. split; [lia|]. split.
  - intros i j Hi Hj Hne. destruct (Nat.eqb i 0); cbn; lra.
  - rewrite !collapse_rates by (try reflexivity; lia). cbn. lra.
Qed.
Lemma simplified_rates n0 n1 nb m factor : (3 <= n0)%nat -> (3 <= n1)%nat -> square (n0 * n1 * nb) m ->
  (forall x0 x1 b0 y0 y1 b1 d0 d1, (x0 < n0)%nat -> (x1 < n1)%nat -> (b0 < nb)%nat -> (y0 < n0)%nat -> (y1 < n1)%nat -> (b1 < nb)%nat ->
     op_entry m (site n1 nb (moved_by n0 x0 d0) (moved_by n1 x1 d1) b0) (site n1 nb (moved_by n0 y0 d0) (moved_by n1 y1 d1) b1) =
     op_entry m (site n1 nb x0 x1 b0) (site n1 nb y0 y1 b1)) ->
  exists ops, get_simplified_collapse_operators n0 n1 nb (odata m) factor = Some ops /\
  forall x0 x1 b0 hop b1, (x0 < n0)%nat -> (x1 < n1)%nat -> (b0 < nb)%nat -> (hop < 9)%nat -> (b1 < nb)%nat ->
    let y0 := moved_by n0 x0 (hop_step (hop / 3)) in let y1 := moved_by n1 x1 (hop_step (hop mod 3)) in
    let rate := (factor * fst (op_entry m (site n1 nb x0 x1 b0) (site n1 nb y0 y1 b1)))%R in
    (b0 <> b1 -> (1 <= rate)%R -> jump_rate ops (site n1 nb y0 y1 b1) (site n1 nb x0 x1 b0) = rate) /\
    (b0 = b1 \/ (rate < 1)%R -> jump_rate ops (site n1 nb y0 y1 b1) (site n1 nb x0 x1 b0) = 0%R).
Proof.
  intros H0 H1 Hsq Hinv. destruct (simplified_spec n0 n1 nb m factor) as [ops [O1 O2]]; [lia|lia|exact Hsq|].
  exists ops. split; [exact O1|]. intros x0 x1 b0 hop b1 Hx0 Hx1 Hb0 Hh Hb1. cbv zeta.
  destruct (Nat.eq_dec b0 b1) as [E|Hne].
  - split; [intros Q; contradiction|]. intros _. rewrite O2 by (first [assumption|apply moved_lt; lia]). rewrite E, Nat.eqb_refl. reflexivity.
  - pose proof (simplified_invariant n0 n1 nb m factor ops H0 H1 Hsq Hinv O1 x0 x1 b0 hop b1 Hx0 Hx1 Hb0 Hh Hb1 Hne) as P. cbv zeta in P.
    rewrite P. unfold kept_rate. split.
    + intros _ Hge. destruct (Rlt_dec _ 1) as [Q|Q]; [exfalso; lra|reflexivity].
    + intros [E|Hlt]; [contradiction|]. destruct (Rlt_dec _ 1) as [Q|Q]; [reflexivity|contradiction].
Qed.
Lemma isf_bounds b n0 n1 inv initial final dk :
  let n := (n0 * n1 * band_count b)%nat in
  (calculate_isf_approximate_locations b n0 n1 inv initial final dk = None <-> rsum initial n = 0%R) /\
  forall isf s, calculate_isf_approximate_locations b n0 n1 inv initial final dk = Some isf ->
    ((forall x, (x < n)%nat -> (0 <= final s x)%R) -> rsum (final s) n = 1%R -> (Cmod (isf s) <= 1)%R) /\
    (dk 0%nat = 0%R -> dk 1%nat = 0%R -> isf s = RtoC (rsum (final s) n)).
Proof.
  intros n. assert (En : n = nprod [n0; n1; band_count b]) by (unfold n; cbn; lia). rewrite En.
  split; [apply isf_none|]. intros isf s H. split.
  - apply isf_bound with (1 := H).
  - apply isf_still with (1 := H).
Qed.
