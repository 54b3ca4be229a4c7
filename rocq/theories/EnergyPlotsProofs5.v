(** The components of the energies at the neighbouring site (C125). *)
From Coq Require Import Reals Psatz.
From Coquelicot Require Import Coquelicot.
From Verif Require Import ZLib Csum DFT NumPy Index IndexProofs AxesProofs Spec Basis SpecBasis BasisProofs BasisProofs2 BasisProofs3 BasisFacts IndexSum Lattice SpecReal Operator
  OperatorProofs OperatorProofs2 Wavepacket SpecWavepacket WavepacketProofs WavepacketProofs2 Hamiltonian SpecHamiltonian HamiltonianProofs LatticeProofs Paths SpecPaths SpecReduce SpecStateList VolumeBasis SpecVolumeBasis
  VolumeBasisProofs WaveLists SpecWaveLists WaveListsProofs WaveListsFacts Plots SpecPlots PlotsProofs PlotsProofs2 PlotsProofs3 PlotsProofs4 PlotsProofs5 Localize Dynamics EffectiveMass SpecEffectiveMass EffectiveMassProofs
  EffectiveMassProofs2 EffectiveMassFacts EffectiveMassFacts2 EnergyPlots SpecEnergyPlots EnergyPlotsProofs EnergyPlotsProofs2 EnergyPlotsProofs3 DynamicsProofs8 SpecKernel ValuePlotsProofs.
Local Open Scope R_scope.

Section Components.
  Variables (same : basis -> basis -> bool) (hbar : R) (axes : list length_axis) (ls : list nat) (inv inv' : nat -> nat -> R) (nb : nat) (data ev : ndarray).
  Let nd := length axes.
  Notation E := (band_value (nprod ls) (aflat ev)).
  Hypothesis Hs : identity_test same.
  Hypothesis Hd : in_space nd axes.
  Hypothesis Hl : length ls = nd.
  Hypothesis Hp : Forall (fun n => (0 < n)%nat) ls.
  Hypothesis Hi : is_inverse nd (lattice_of axes) inv.
  Hypothesis Hi' : is_inverse nd (fun a c => lattice_of axes a c * INR (nth a ls 0%nat)) inv'.
  Hypothesis Hw : bwf (stacked axes).
  Hypothesis Ho : explicit_orthonormal (stacked axes).
  Hypothesis Hdata : nprod (ashape data) = (nb * nprod ls * bsize (stacked axes))%nat.
  Hypothesis Hev : nprod (ashape ev) = (nb * nprod ls)%nat.

  Lemma at_sites : exists d e,
    convert_wavepacket_with_eigenvalues_to_basis same nb (BTuple (map BFundT ls)) (stacked axes) (Some (BTuple (map BFund ls))) None data ev = Some (d, e) /\
    forall b full, (b < nb)%nat -> in_shape full ls -> at2 e b (ravel ls full) = at_site axes ls inv (E b) full.
  Proof using All.
    assert (W := fundt_bwf ls Hp).
    assert (PW : bwf (BTuple (map BFund ls))).
    { clear - Hp. induction Hp as [|n l Hn Hl IH]; [exact I|]. split; [exact Hn|exact (IH Hl)]. }
    destruct (conv_some same nb (BTuple (map BFundT ls)) (stacked axes) (Some (BTuple (map BFund ls))) None data ev Hs) as (d & e & E1 & _ & Se & _ & V);
      try assumption; try apply explicit_orthonormal_fundt; try apply compatible_refl; try (rewrite fundt_size; assumption).
    { assert (Q := LocalizeProofs4.compatible_position (map BFundT ls)). rewrite map_bfund_FundT in Q. exact Q. }
    exists d, e. split; [exact E1|]. intros b full Hb Hf.
    destruct (sample_ok axes ls Hd Hl Hp) as (B & EB & St & _).
    rewrite <- (site_amplitude same axes ls inv inv' Hs Hd Hl Hp Hi Hi' B (E b) full EB Hf). rewrite St. unfold amplitude. rewrite fundt_size.
    assert (Hk := ravel_lt ls full Hf). set (k := ravel ls full) in *.
    assert (SB : bsize (BTuple (map BFund ls)) = nprod ls) by (cbn [bsize]; rewrite map_map, (map_ext (fun x => bsize (BFund x)) (fun x => x)), map_id by reflexivity; reflexivity).
    specialize (V b k Hb). cbv zeta in V. rewrite SB in V. specialize (V Hk). unfold at2. rewrite Se. cbn [nth]. rewrite SB. unfold band_value in V at 1.
    rewrite V, fundt_size. apply csum_ext. intros s Hss.
    assert (Q := overlap_points (map BFundT ls) k s W). unfold points, as_fundamental_position in Q. cbn [bfund] in Q. rewrite ?map_bfund_FundT in Q. rewrite map_map in Q. change (map (fun x => BFund (bfund (BFundT x))) ls) with (map BFund ls) in Q.
    rewrite Q by exact Hk. apply Cmult_comm.
  Qed.

  Lemma component_line bands a m free : Forall (fun b => (b < nb)%nat) (drawn_bands nb bands) -> (a < nd)%nat -> (2 <= nth a ls 0)%nat ->
    (forall mass, free = Some mass -> mass <> 0) ->
    exists line, plot_wavepacket_transformed_energy_1d same hbar nb (map BFundT ls) axes data ev free (Z.of_nat a) bands m =
        Some (line, option_map (fun mass => map (fun b => (INR b, sqrt (INR (nprod ls)) * (hbar ^ 2 * (2 * INR b + 1) / (mass * norm nd (lattice_of axes a) ^ 2)))) (drawn_bands nb bands)) free) /\
      length line = length (drawn_bands nb bands) /\
      (forall i, (i < length (drawn_bands nb bands))%nat -> let b := nth i (drawn_bands nb bands) 0%nat in
         line_x line i = INR b /\ shows m (at_site axes ls inv (E b) (unit_idx (length ls) a)) (line_y line i)).
  Proof using All.
    intros Hb Ha H2 Hm. destruct at_sites as (d & e & E1 & V). assert (Ha' : (a < length ls)%nat) by (rewrite Hl; exact Ha).
    assert (U := unit_in_shape ls a Hp Ha' H2). set (l := drawn_bands nb bands) in *.
    destruct (plain_line (length l) (fun i => at2 e (nth i l 0%nat) (ravel ls (unit_idx (length ls) a))) (fun i => INR (nth i l 0%nat)) m) as (line & L1 & L2 & L3).
    exists line. unfold plot_wavepacket_transformed_energy_1d. rewrite map_bfund_FundT, E1, (chosen_some nb bands Hb), (neighbour_some ls a Hp Ha' H2). fold l. rewrite L1.
    split; [|split; [exact L2|]].
    - destruct free as [mass|]; [|reflexivity]. specialize (Hm mass eq_refl). rewrite axis_length_some by exact Ha. fold nd. set (delta := norm nd (lattice_of axes a)).
      assert (Hdel : delta <> 0).
      { destruct (inverse_nonzero nd _ _ a Hi Ha) as ((c & Hc & Nz) & _). intros D. unfold delta, norm in D. apply Nz.
        assert (N : forall i, (i < nd)%nat -> 0 <= lattice_of axes a i * lattice_of axes a i) by (intros; nra).
        apply sqrt_eq_0 in D; [|apply Csum.rsum_nonneg; exact N]. assert (Q := Csum.rsum_zero_nonneg _ _ N D c Hc). cbv beta in Q. nra. }
      rewrite rdiv_some by (apply Rmult_integral_contrapositive_currified; [lra|apply pow_nonzero, Hdel]). cbn [option_map]. f_equal. f_equal. f_equal.
      apply map_ext. intros b. f_equal. rewrite fundt_size. assert (P := PI_RGT_0). field. repeat split; lra.
    - intros i Hii. destruct (L3 i Hii) as (X & _ & Y). cbv zeta. split; [exact X|]. rewrite <- V; [exact Y| |exact U]. rewrite Forall_forall in Hb. apply Hb, nth_In, Hii.
  Qed.

  Lemma component_raise free bands a m : (a < nd)%nat -> (nth a ls 0 < 2)%nat -> plot_wavepacket_transformed_energy_1d same hbar nb (map BFundT ls) axes data ev free (Z.of_nat a) bands m = None.
  Proof using Hl.
    intros Ha H2. unfold plot_wavepacket_transformed_energy_1d. rewrite map_bfund_FundT. destruct (convert_wavepacket_with_eigenvalues_to_basis _ _ _ _ _ _ _ _) as [(d, e)|]; [|reflexivity].
    destruct (chosen_bands nb bands); [|reflexivity]. rewrite neighbour_short by (rewrite ?Hl; assumption). reflexivity.
  Qed.

  Lemma component_mean b a F : (a < nd)%nat -> (2 <= nth a ls 0)%nat -> (b < nb)%nat -> (forall s, (s < nprod ls)%nat -> E b s = RtoC (F s)) ->
    at_site axes ls inv (E b) (unit_idx (length ls) a) = Cmult (RtoC (sqrt (INR (nprod ls)))) (neighbour_component ls a F).
  Proof using All.
    intros Ha H2 Hb HF. assert (Ha' : (a < length ls)%nat) by (rewrite Hl; exact Ha). assert (U := unit_in_shape ls a Hp Ha' H2).
    destruct (sample_ok axes ls Hd Hl Hp) as (B & EB & St & _). rewrite <- (site_amplitude same axes ls inv inv' Hs Hd Hl Hp Hi Hi' B (E b) _ EB U). rewrite St.
    unfold amplitude, neighbour_component. rewrite fundt_size.
    assert (T := total_pos ls Hp). assert (HI : 0 < INR (nprod ls)) by (apply lt_0_INR; exact T). assert (Hq := sqrt_lt_R0 _ HI).
    rewrite (csum_ext _ (fun s => Cmult (isqrt (nprod ls)) (Cmult (RtoC (F s)) (cis (2 * PI * INR (nth a (unravel ls s) 0%nat) / INR (nth a ls 0%nat)))))).
    - rewrite csum_scal_l. unfold Cdiv. set (T' := csum _ _). unfold isqrt.
      replace (/ RtoC (INR (nprod ls)))%C with (RtoC (/ INR (nprod ls))) by (apply RtoC_inv; lra).
      replace (RtoC (/ sqrt (INR (nprod ls)))) with (Cmult (RtoC (sqrt (INR (nprod ls)))) (RtoC (/ INR (nprod ls)))); [ring|].
      rewrite <- RtoC_mult. f_equal. apply (Rmult_eq_reg_r (sqrt (INR (nprod ls)))); [|lra]. rewrite Rinv_l by lra. replace (sqrt (INR (nprod ls)) * / INR (nprod ls) * sqrt (INR (nprod ls))) with (sqrt (INR (nprod ls)) * sqrt (INR (nprod ls)) * / INR (nprod ls)) by ring.
      rewrite sqrt_sqrt by lra. field. lra.
    - intros s Hss. rewrite HF by exact Hss. rewrite state_unit by assumption. ring.
  Qed.
End Components.

(** ** The free particle *)
Lemma free_even_cos delta N : 0 < delta -> is_RInt (fun k => free_band delta N k * cos (k * delta)) (- (PI / delta)) (PI / delta)
  ((if Nat.even N then -1 else 1) * (4 * PI * (2 * INR N + 1) / delta ^ 3)).
Proof.
  intros Hd. assert (P := PI_RGT_0). assert (Pd : 0 < PI / delta) by (apply Rdiv_lt_0_compat; lra).
  assert (G : forall w e, (e = 1 \/ e = -1) -> is_RInt (fun k => (w + e * k) ^ 2 * cos (k * delta)) 0 (PI / delta) (- (2 * e * (w + e * (PI / delta)) + 2 * e * w) / delta ^ 2)).
  { intros w e He.
    assert (F := is_RInt_derive (fun k => (w + e * k) ^ 2 * sin (k * delta) / delta + 2 * e * (w + e * k) * cos (k * delta) / delta ^ 2 - 2 * e ^ 2 * sin (k * delta) / delta ^ 3)
      (fun k => (w + e * k) ^ 2 * cos (k * delta)) 0 (PI / delta)).
    assert (Q := F ltac:(intros x _; auto_derive; [repeat split; lra|field; lra]) ltac:(intros x _; apply continuity_pt_filterlim; reg)).
    eapply is_RInt_ext; [intros; reflexivity|]. cbv beta in Q.
    replace (- (2 * e * (w + e * (PI / delta)) + 2 * e * w) / delta ^ 2) with
      (minus ((w + e * (PI / delta)) ^ 2 * sin (PI / delta * delta) / delta + 2 * e * (w + e * (PI / delta)) * cos (PI / delta * delta) / delta ^ 2 - 2 * e ^ 2 * sin (PI / delta * delta) / delta ^ 3)
        ((w + e * 0) ^ 2 * sin (0 * delta) / delta + 2 * e * (w + e * 0) * cos (0 * delta) / delta ^ 2 - 2 * e ^ 2 * sin (0 * delta) / delta ^ 3)); [exact Q|].
    replace (PI / delta * delta) with PI by (field; lra). rewrite Rmult_0_l, sin_PI, cos_PI, sin_0, cos_0. unfold minus, plus, opp. cbn. field. lra. }
  set (J := (if Nat.even N then -1 else 1) * (2 * PI * (2 * INR N + 1) / delta ^ 3)).
  assert (H : is_RInt (fun k => free_band delta N k * cos (k * delta)) 0 (PI / delta) J).
  { unfold J, free_band. destruct (Nat.even N).
    - eapply is_RInt_ext; [|replace (-1 * (2 * PI * (2 * INR N + 1) / delta ^ 3)) with (- (2 * 1 * (INR N * PI / delta + 1 * (PI / delta)) + 2 * 1 * (INR N * PI / delta)) / delta ^ 2) by (field; lra); apply G; left; reflexivity].
      intros x Hx. rewrite Rmin_left, Rmax_right in Hx by lra. cbv beta. rewrite Rabs_pos_eq by lra. f_equal. f_equal. ring.
    - eapply is_RInt_ext; [|replace (1 * (2 * PI * (2 * INR N + 1) / delta ^ 3)) with (- (2 * -1 * (INR (N + 1) * PI / delta + -1 * (PI / delta)) + 2 * -1 * (INR (N + 1) * PI / delta)) / delta ^ 2) by (rewrite plus_INR; cbn [INR]; field; lra); apply G; right; reflexivity].
      intros x Hx. rewrite Rmin_left, Rmax_right in Hx by lra. cbv beta. rewrite Rabs_pos_eq by lra. f_equal. f_equal. ring. }
  assert (H' : is_RInt (fun k => free_band delta N k * cos (k * delta)) (- (PI / delta)) 0 J).
  { assert (Q := is_RInt_comp_opp (fun k => free_band delta N k * cos (k * delta)) (- (PI / delta)) 0 (opp J)).
    rewrite Ropp_involutive, Ropp_0 in Q. specialize (Q (is_RInt_swap _ _ _ _ H)). apply is_RInt_opp in Q. rewrite opp_opp in Q.
    eapply is_RInt_ext; [|exact Q]. intros x _. cbv beta. rewrite opp_opp. unfold free_band. rewrite Rabs_Ropp. replace (- x * delta) with (- (x * delta)) by ring. rewrite cos_neg. reflexivity. }
  replace ((if Nat.even N then -1 else 1) * (4 * PI * (2 * INR N + 1) / delta ^ 3)) with (plus J J); [exact (is_RInt_Chasles _ _ _ _ _ _ H' H)|].
  unfold plus, J. cbn. field. lra.
Qed.
Lemma free_odd_sin delta N : 0 < delta -> is_RInt (fun k => free_band delta N k * sin (k * delta)) (- (PI / delta)) (PI / delta) 0.
Proof.
  intros Hd. assert (P := PI_RGT_0). assert (Pd : 0 < PI / delta) by (apply Rdiv_lt_0_compat; lra).
  assert (H : ex_RInt (fun k => free_band delta N k * sin (k * delta)) 0 (PI / delta)).
  { apply (ex_RInt_continuous (V := R_CompleteNormedModule)). intros x _. apply (continuous_mult (fun k => free_band delta N k) (fun k => sin (k * delta))).
    - unfold free_band. destruct (Nat.even N).
      + apply (continuous_comp (fun k => INR N * PI / delta + Rabs k) (fun y => y ^ 2)); [apply (continuous_plus (fun _ => INR N * PI / delta) Rabs); [apply continuous_const|apply continuous_Rabs]|].
        apply continuity_pt_filterlim; reg.
      + apply (continuous_comp (fun k => INR (N + 1) * PI / delta - Rabs k) (fun y => y ^ 2)); [apply (continuous_minus (fun _ => INR (N + 1) * PI / delta) Rabs); [apply continuous_const|apply continuous_Rabs]|].
        apply continuity_pt_filterlim; reg.
    - apply continuity_pt_filterlim; reg. }
  destruct H as (J & H).
  assert (H' : is_RInt (fun k => free_band delta N k * sin (k * delta)) (- (PI / delta)) 0 (opp J)).
  { assert (Q := is_RInt_comp_opp (fun k => free_band delta N k * sin (k * delta)) (- (PI / delta)) 0 (opp J)).
    rewrite Ropp_involutive, Ropp_0 in Q. specialize (Q (is_RInt_swap _ _ _ _ H)).
    eapply is_RInt_ext; [|exact Q]. intros x _. cbv beta. unfold free_band, opp. cbn. rewrite Rabs_Ropp. replace (- x * delta) with (- (x * delta)) by ring. rewrite sin_neg. ring. }
  assert (Q := is_RInt_Chasles _ _ _ _ _ _ H' H). rewrite plus_opp_l in Q. exact Q.
Qed.

Section Free.
  Variables (same : basis -> basis -> bool) (hbar : R) (la : length_axis) (n : nat) (inv inv' : nat -> nat -> R) (nb : nat) (data ev : ndarray) (mass : R).
  Notation delta := (norm 1 (lattice_of [la] 0)).
  Hypothesis Hs : identity_test same.
  Hypothesis Hh : hbar <> 0.
  Hypothesis Hm : 0 < mass.
  Hypothesis Hd : in_space 1 [la].
  Hypothesis Hn : (2 <= n)%nat.
  Hypothesis Hi : is_inverse 1 (lattice_of [la]) inv.
  Hypothesis Hi' : is_inverse 1 (fun a c => lattice_of [la] a c * INR (nth a [n] 0%nat)) inv'.
  Hypothesis Hw : bwf (stacked [la]).
  Hypothesis Ho : explicit_orthonormal (stacked [la]).
  Hypothesis Hdata : nprod (ashape data) = (nb * n * bsize (stacked [la]))%nat.
  Hypothesis Hev : nprod (ashape ev) = (nb * n)%nat.
  Hypothesis HE : forall b s, (b < nb)%nat -> (s < n)%nat -> aflat ev (b * n + s)%nat = RtoC (hbar ^ 2 / (2 * mass) * free_band delta b (sample_momentum delta n s)).

  Lemma free_lines bands : Forall (fun b => (b < nb)%nat) (drawn_bands nb bands) ->
    exists line free, plot_wavepacket_transformed_energy_1d same hbar nb [BFundT n] [la] data ev (Some mass) 0 bands PAbs = Some (line, Some free) /\
      length line = length (drawn_bands nb bands) /\ length free = length (drawn_bands nb bands) /\
      forall i, (i < length (drawn_bands nb bands))%nat -> line_x line i = line_x free i /\
        (Nat.Even n -> line_y free i = line_y line i * (sin (PI / INR n) / (PI / INR n)) ^ 2) /\
        line_y line i * (1 - (PI / INR n) ^ 2 / 3) <= line_y free i /\ line_y free i * cos (PI / INR n) <= line_y line i.
  Proof using All.
    intros Hb. assert (Hp : Forall (fun k => (0 < k)%nat) [n]) by (constructor; [lia|constructor]).
    assert (Np : nprod [n] = n) by (cbn; lia).
    assert (Hdel : 0 < delta).
    { assert (Q := norm_nonneg' 1 (lattice_of [la] 0)). destruct (Rle_lt_or_eq_dec _ _ Q) as [|Z]; [assumption|exfalso].
      destruct (inverse_nonzero 1 _ _ 0%nat Hi ltac:(lia)) as ((c & Hc & Nz) & _). apply Nz. symmetry in Z. unfold norm in Z. assert (c = 0%nat) by lia. subst c.
      apply sqrt_eq_0 in Z; cbn in Z |- *; nra. }
    destruct (component_line same hbar [la] [n] inv inv' nb data ev Hs Hd eq_refl Hp Hi Hi' Hw Ho) with (bands := bands) (a := 0%nat) (m := PAbs) (free := Some mass) as (line & L1 & L2 & L3);
      [rewrite Np; exact Hdata|rewrite Np; exact Hev|exact Hb|cbn; lia|exact Hn|intros k [= <-]; lra|].
    cbn [option_map] in L1. set (l := drawn_bands nb bands) in *. change (map BFundT [n]) with [BFundT n] in L1. change (Z.of_nat 0) with 0%Z in L1. change (length [la]) with 1%nat in L1.
    eexists line, _. split; [exact L1|]. split; [exact L2|]. split; [rewrite map_length; reflexivity|]. intros i Hii. destruct (L3 i Hii) as (X & Y). cbv zeta in X, Y.
    unfold line_x at 2, line_y at 1 4 5. set (g := fun b => (INR b, sqrt (INR (nprod [n])) * (hbar ^ 2 * (2 * INR b + 1) / (mass * delta ^ 2)))).
    rewrite (nth_indep _ (0, 0) (g 0%nat)) by (rewrite map_length; exact Hii). rewrite (map_nth g). unfold g. cbn [fst snd]. set (b := nth i l 0%nat) in *.
    assert (Hbb : (b < nb)%nat) by (rewrite Forall_forall in Hb; apply Hb, nth_In, Hii).
    split; [exact X|].
    destruct (free_mass same hbar nb n la data ev Hs Hh Hn Hw Ho Hdata Hev ltac:(lra) mass Hm HE) as (M & M1 & M2).
    destruct (chain_mass same hbar nb n la data ev Hs Hn Hw Ho Hdata Hev ltac:(lra) _ HE) as (M' & M1' & M2'). rewrite M1 in M1'. injection M1' as <-.
    destruct (M2 b Hbb) as (x & Ex & V1 & V2 & V3). rewrite M2' in Ex by exact Hbb.
    rewrite (component_mean same hbar [la] [n] inv inv' nb data ev Hs Hd eq_refl Hp Hi Hi') with (F := fun s => hbar ^ 2 / (2 * mass) * free_band delta b (sample_momentum delta n s)) in Y;
      try assumption; try (rewrite Np; assumption); [|cbn; lia|intros s Hss; unfold band_value; rewrite Np in *; apply HE; assumption].
    cbn [shows] in Y. rewrite Cmod_mult, Cmod_R, Np in Y. rewrite Np. rewrite Y. set (K := Cmod _) in *.
    assert (HI : 0 < INR n) by (apply lt_0_INR; lia). assert (Hq := sqrt_lt_R0 _ HI). rewrite Rabs_pos_eq by lra.
    assert (K0 : 0 <= K) by (unfold K; apply Cmod_ge_0).
    unfold rdiv in Ex. destruct (Req_EM_T (delta ^ 2 * K) 0) as [|Nz]; [discriminate|]. injection Ex as Ex.
    assert (KP : 0 < K) by (destruct (Rle_lt_or_eq_dec _ _ K0) as [|Z]; [assumption|exfalso; apply Nz; rewrite <- Z; ring]).
    replace (sqrt (INR n) * (hbar ^ 2 * (2 * INR b + 1) / (mass * delta ^ 2))) with (sqrt (INR n) * K * (x / mass)) by (rewrite <- Ex; field; lra).
    assert (QK : 0 < sqrt (INR n) * K) by (apply Rmult_lt_0_compat; assumption).
    split; [|split].
    - intros Ev. rewrite (V1 Ev). field. assert (P := PI_RGT_0). lra.
    - apply Rmult_le_compat_l; [lra|]. apply (Rmult_le_reg_l mass); [exact Hm|]. replace (mass * (x / mass)) with x by (field; lra). exact V2.
    - rewrite Rmult_assoc. rewrite <- (Rmult_1_r (sqrt (INR n) * K)) at 2. apply Rmult_le_compat_l; [lra|]. apply (Rmult_le_reg_l mass); [exact Hm|]. replace (mass * (x / mass * cos (PI / INR n))) with (x * cos (PI / INR n)) by (field; lra). lra.
  Qed.
End Free.
