(** Plots of the energies of all bands (C125). *)
From Coq Require Import Reals Psatz.
From Verif Require Import ZLib Csum DFT NumPy Index IndexProofs AxesProofs Spec Basis SpecBasis BasisProofs BasisProofs2 BasisProofs3 BasisFacts IndexSum Lattice SpecReal Operator
  OperatorProofs OperatorProofs2 Wavepacket SpecWavepacket WavepacketProofs WavepacketProofs2 Hamiltonian SpecHamiltonian HamiltonianProofs LatticeProofs Paths SpecPaths SpecReduce SpecStateList VolumeBasis SpecVolumeBasis
  VolumeBasisProofs WaveLists SpecWaveLists WaveListsProofs WaveListsFacts Plots SpecPlots PlotsProofs PlotsProofs2 PlotsProofs3 PlotsProofs4 PlotsProofs5 Localize Dynamics EffectiveMass SpecEffectiveMass EffectiveMassProofs
  EnergyPlots SpecEnergyPlots EnergyPlotsProofs EnergyPlotsProofs2 DynamicsProofs8 SpecKernel ValuePlotsProofs.
Local Open Scope R_scope.

Lemma through_ext ls a order (V V' : list nat -> C) X step m line : (forall full, in_shape full ls -> V full = V' full) ->
  line_through_largest ls a order V X step m line -> line_through_largest ls a order V' X step m line.
Proof.
  intros H (top & T & M & L & P & R). exists top. split; [exact T|]. split; [intros o Ho; rewrite <- !H by assumption; apply M; exact Ho|]. split; [exact L|]. split; [|exact R].
  intros i full Hi At. destruct (P i full Hi At) as (A & B & D). split; [exact A|]. split; [exact B|]. rewrite <- H by exact A. exact D.
Qed.
Lemma fundt_bwf ls : Forall (fun n => (0 < n)%nat) ls -> bwf (BTuple (map BFundT ls)).
Proof. intros Hp. induction Hp as [|n l Hn Hl IH]; [exact I|]. split; [exact Hn|exact IH]. Qed.
Lemma fundt_size ls : bsize (BTuple (map BFundT ls)) = nprod ls.
Proof. cbn [bsize]. rewrite map_bsize_FundT. reflexivity. Qed.

Section Bands.
  Variables (same : basis -> basis -> bool) (axes : list length_axis) (ls : list nat) (inv inv' : nat -> nat -> R) (nb : nat) (data ev : ndarray).
  Let nd := length axes.
  Notation E := (band_value (nprod ls) (aflat ev)).
  Hypothesis Hs : identity_test same.
  Hypothesis Hd : in_space nd axes.
  Hypothesis Hl : length ls = nd.
  Hypothesis Hp : Forall (fun n => (0 < n)%nat) ls.
  Hypothesis Hi : is_inverse nd (lattice_of axes) inv.
  Hypothesis Hi' : is_inverse nd (fun a c => lattice_of axes a c * INR (nth a ls 0%nat)) inv'.
  Hypothesis Hw : bwf (stacked axes).
  Hypothesis Ho : explicit_orthonormal (stacked axes).
  Hypothesis Hdata : nprod (ashape data) = (nb * nprod ls * bsize (stacked axes))%nat.
  Hypothesis Hev : nprod (ashape ev) = (nb * nprod ls)%nat.
  Hypothesis Hnb : (0 < nb)%nat.

  Lemma energies_some bands : Forall (fun b => (b < nb)%nat) (drawn_bands nb bands) ->
    exists e, wavepacket_energies same nb (map BFundT ls) axes data ev bands = Some (e, drawn_bands nb bands) /\
      forall b s, (b < nb)%nat -> (s < nprod ls)%nat -> e b s = E b s.
  Proof using Hs Hl Hp Hw Ho Hdata Hev Hnb.
    intros Hb. destruct (conv_some same nb (BTuple (map BFundT ls)) (stacked axes) (Some (BTuple (map BFundT ls))) None data ev Hs) as (d & e & E1 & _ & Se & _ & V);
      try apply fundt_bwf; try assumption; try apply explicit_orthonormal_fundt; try apply compatible_refl; try (rewrite fundt_size; assumption).
    exists (at2 e). unfold wavepacket_energies. rewrite map_bfund_FundT, E1, chosen_some by exact Hb. destruct (Nat.eqb_spec nb 0); [lia|]. split; [reflexivity|].
    intros b s Hb' Hs'. specialize (V b s Hb'). cbv zeta in V. rewrite fundt_size in V. specialize (V Hs'). unfold at2. rewrite Se. cbn [nth]. rewrite fundt_size.
    unfold band_value in V at 1. rewrite V. rewrite (csum_ext _ (fun s' => Cmult (cdelta s s') (E b s'))); [apply csum_delta_l; exact Hs'|].
    intros s' Hs''. destruct (picks_self _ (fundt_bwf ls Hp) (explicit_orthonormal_fundt ls) s) as [_ Pk]; [rewrite fundt_size; exact Hs'|]. rewrite Pk by (rewrite fundt_size; exact Hs''). reflexivity.
  Qed.

  Lemma lines_k bands a m : Forall (fun b => (b < nb)%nat) (drawn_bands nb bands) -> (a < nd)%nat -> (2 <= nth a ls 0)%nat ->
    exists lines, plot_wavepacket_eigenvalues_1d_k same nb (map BFundT ls) axes inv' data ev a bands m = Some lines /\
      Forall2 (fun b line => line_through_largest ls a (ascending (nth a ls 0%nat)) (fun full => E b (ravel ls full))
        (fun full => along nd (fun c => 2 * PI * inv c a) (sample_vector ls inv full)) (sqrt (rsum (fun c => (2 * PI * inv c a) ^ 2) nd) / INR (nth a ls 0%nat)) m line)
        (drawn_bands nb bands) lines.
  Proof using All.
    intros Hb Ha H2. destruct (energies_some bands Hb) as (e & Ee & Ve). destruct (sample_ok axes ls Hd Hl Hp) as (B & EB & _).
    unfold plot_wavepacket_eigenvalues_1d_k. rewrite Ee, map_bfund_FundT, EB. apply band_lines_ok. intros b Ib. rewrite Forall_forall in Hb. specialize (Hb b Ib).
    destruct (energy_line_k same axes ls inv inv' Hs Hd Hl Hp Hi Hi' B (e b) a m EB Ha H2) as (line & L1 & L2). exists line. split; [exact L1|].
    eapply through_ext; [|exact L2]. intros full Hf. apply Ve; [exact Hb|apply ravel_lt; exact Hf].
  Qed.
  Lemma lines_x bands a m : Forall (fun b => (b < nb)%nat) (drawn_bands nb bands) -> (a < nd)%nat -> (2 <= nth a ls 0)%nat ->
    exists lines, plot_wavepacket_eigenvalues_1d_x same nb (map BFundT ls) axes data ev a bands m = Some lines /\
      Forall2 (fun b line => line_through_largest ls a (fun i => i) (at_site axes ls inv (E b))
        (fun full => along nd (lattice_of axes a) (site axes full)) (sqrt (rsum (fun c => lattice_of axes a c ^ 2) nd)) m line)
        (drawn_bands nb bands) lines.
  Proof using All.
    intros Hb Ha H2. destruct (energies_some bands Hb) as (e & Ee & Ve). destruct (sample_ok axes ls Hd Hl Hp) as (B & EB & _).
    unfold plot_wavepacket_eigenvalues_1d_x. rewrite Ee, map_bfund_FundT, EB. apply band_lines_ok. intros b Ib. rewrite Forall_forall in Hb. specialize (Hb b Ib).
    destruct (energy_line_x same axes ls inv inv' Hs Hd Hl Hp Hi Hi' B (e b) a m EB Ha H2) as (line & L1 & L2). exists line. split; [exact L1|].
    eapply through_ext; [|exact L2]. intros full Hf. unfold at_site. f_equal. apply csum_ext. intros s Hs'. rewrite Ve by assumption. reflexivity.
  Qed.
End Bands.

Lemma lines_raise same nb ls axes inv' data ev a bands m :
  (~ Forall (fun b => (b < nb)%nat) (drawn_bands nb bands) ->
     plot_wavepacket_eigenvalues_1d_k same nb (map BFundT ls) axes inv' data ev a bands m = None /\
     plot_wavepacket_eigenvalues_1d_x same nb (map BFundT ls) axes data ev a bands m = None).
Proof.
  intros N. unfold plot_wavepacket_eigenvalues_1d_k, plot_wavepacket_eigenvalues_1d_x, wavepacket_energies. rewrite (chosen_none nb bands N).
  destruct (convert_wavepacket_with_eigenvalues_to_basis _ _ _ _ _ _ _ _) as [(d, e)|]; [destruct (nb =? 0)%nat|]; split; reflexivity.
Qed.

(** ** Uneven samples *)
Section Uneven.
  Variables (argsort : (nat -> R) -> nat -> nat -> nat) (nd : nat) (D inv : nat -> nat -> R) (nb ns : nat) (fraction : nat -> nat -> R) (ev : ndarray).
  Hypothesis Hso : SpecKernel.is_argsort argsort.
  Hypothesis Hi : is_inverse nd D inv.
  Hypothesis Hev : nprod (ashape ev) = (nb * ns)%nat.
  Notation momentum := (fun s c => rsum (fun i => fraction i s * (2 * PI * inv c i)) nd).

  Lemma uneven bands a m : Forall (fun b => (b < nb)%nat) (drawn_bands nb bands) -> (a < nd)%nat ->
    exists order lines, (forall i, (i < ns)%nat -> (order i < ns)%nat) /\ (forall i j, (i < ns)%nat -> (j < ns)%nat -> order i = order j -> i = j) /\
      plot_uneven_wavepacket_eigenvalues_1d_k argsort nd inv nb ns fraction ev a bands m = Some lines /\
      Forall2 (fun b line => length line = ns /\
        (forall i, (i < ns)%nat -> line_x line i = along nd (fun c => 2 * PI * inv c a) (momentum (order i)) /\ shows m (band_value ns (aflat ev) b (order i)) (line_y line i)) /\
        (forall i j, (i <= j < ns)%nat -> line_x line i <= line_x line j) /\
        (m = PAngle -> forall i, (S i < ns)%nat -> Rabs (line_y line (S i) - line_y line i) <= PI)) (drawn_bands nb bands) lines.
  Proof using Hso Hi Hev.
    intros Hb Ha. unfold plot_uneven_wavepacket_eigenvalues_1d_k. replace (a <? nd)%nat with true by (symmetry; apply Nat.ltb_lt; exact Ha).
    assert (Nz : norm nd (dk_stacked inv a) <> 0).
    { destruct (proj2 (inverse_nonzero nd D inv a Hi Ha)) as (c & Hc & Nc). unfold norm. apply Rgt_not_eq, sqrt_lt_R0.
      assert (P := PI_RGT_0). assert (K : 0 < dk_stacked inv a c * dk_stacked inv a c).
      { apply Rsqr_pos_lt. unfold dk_stacked. apply Rmult_integral_contrapositive. split; [lra|exact Nc]. }
      clear -K Hc. revert Hc. induction nd as [|n IH]; intros Hc; [lia|]. rewrite rsum_S. assert (0 <= dk_stacked inv a n * dk_stacked inv a n) by nra.
      destruct (Nat.eq_dec c n) as [->|N]; [|assert (0 < rsum (fun c => dk_stacked inv a c * dk_stacked inv a c) n) by (apply IH; lia); lra].
      assert (0 <= rsum (fun c => dk_stacked inv a c * dk_stacked inv a c) n); [|lra]. clear. induction n as [|n IH]; [cbn; lra|]. rewrite rsum_S. assert (0 <= dk_stacked inv a n * dk_stacked inv a n) by nra. lra. }
    destruct (band_lines_ok (get_projected_bloch_phases nd inv fraction (dk_stacked inv a)) (fun s x => x = along nd (fun c => 2 * PI * inv c a) (momentum s)) (seq 0 ns)) as (phases & Ep & Fp).
    { intros s _. unfold get_projected_bloch_phases. rewrite DynamicsProofs8.rdiv_some by exact Nz. eexists. split; [reflexivity|]. unfold along, norm. f_equal.
      - apply rsum_ext. intros c Hc. unfold dk_stacked. ring.
      - f_equal. apply rsum_ext. intros c Hc. unfold dk_stacked. ring. }
    assert (Pn : forall s, (s < ns)%nat -> nth s phases 0 = along nd (fun c => 2 * PI * inv c a) (momentum s)).
    { intros s Hs. assert (G : forall k n l, Forall2 (fun s x => x = along nd (fun c => 2 * PI * inv c a) (momentum s)) (seq k n) l -> forall s, (s < n)%nat -> nth s l 0 = along nd (fun c => 2 * PI * inv c a) (momentum (k + s)%nat)).
      { clear. intros k n. revert k. induction n as [|n IH]; intros k l F s Hs; [lia|]. cbn [seq] in F. inversion F as [|? y ? l' Hy F']; subst. destruct s as [|s]; cbn [nth].
        - rewrite Nat.add_0_r. reflexivity.
        - rewrite (IH (S k) l' F' s) by lia. rewrite Nat.add_succ_r. reflexivity. }
      exact (G 0%nat ns phases Fp s Hs). }
    rewrite Ep, chosen_some by exact Hb. rewrite (reshape_some ev) by (rewrite Hev; cbn [nprod]; lia).
    destruct (Hso (fun s => nth s phases 0) ns) as (O1 & O2 & O3). set (order := argsort (fun s => nth s phases 0) ns) in *.
    exists order. match goal with |- exists lines, _ /\ _ /\ band_lines ?f ?l = _ /\ Forall2 ?P _ _ => destruct (band_lines_ok f P l) as (lines & L1 & L2) end.
    { intros b Ib. match goal with |- exists l, plot_data_1d ?n ?D ?co ?m false = _ /\ _ => destruct (ValuePlotsProofs.plain_line n D co m) as (line & L1 & L2 & L3) end. exists line. split; [exact L1|]. split; [exact L2|]. split; [|split].
      - intros i Hii. destruct (L3 i Hii) as (X & _ & Y). rewrite X, Pn by (apply O1; exact Hii). split; [reflexivity|]. unfold at2 in Y. cbn [ashape nth aflat] in Y. exact Y.
      - intros i j Hij. destruct (L3 i ltac:(lia)) as (-> & _). destruct (L3 j ltac:(lia)) as (-> & _). apply O3. exact Hij.
      - intros -> i Hii. destruct (L3 i ltac:(lia)) as (_ & -> & _). destruct (L3 (S i) Hii) as (_ & -> & _). apply measured_close. }
    exists lines. split; [exact O1|]. split; [exact O2|]. split; [exact L1|exact L2].
  Qed.
End Uneven.
