(** Energies of moved potentials; opposite Bloch fractions on an even grid. *)
From Coq Require Import Reals Psatz.
From Verif Require Import ZLib Csum DFT NumPy Spec SpecReal Index IndexProofs Lattice LatticeProofs Basis SpecBasis BasisProofs BasisProofs2 BasisProofs3 Operator SpecOperator
  OperatorProofs OperatorProofs2 Wavepacket SpecWavepacket WavepacketProofs2 OverlapProofs3 Hamiltonian SpecHamiltonian HamiltonianProofs HamiltonianProofs2
  SpecMatrix Localize SpecLocalize Spectral Spectral2 Spectral3 EigenBasis SpecEigenBasis EigenBasisProofs
  InterlaceProofs InterlaceProofs3 SpecSeed SeedProofs SpecSymmetry SymmetryProofs HamiltonianFacts KernelPlotsFacts2.
Local Open Scope R_scope.
Local Open Scope C_scope.

(** ** Moved potentials *)

Lemma displaced_back N : Forall (fun n => (0 < n)%nat) N -> forall c x, length c = length N -> in_shape x N ->
  displaced N (map Z.opp c) (displaced N c x) = x.
Proof.
  induction 1 as [|n N Hn HN IH]; intros [|c1 c] x L Hx; cbn in L; try lia; inversion Hx as [|x1 ? x' ? H1 H2]; subst; [reflexivity|].
  cbn [map displaced]. rewrite IH by (try assumption; lia). f_equal.
  assert (Bd := Z.mod_pos_bound (Z.of_nat x1 - c1) (Z.of_nat n) ltac:(lia)). rewrite Z2Nat.id by lia.
  rewrite Zminus_mod_idemp_l. replace (Z.of_nat x1 - c1 - - c1)%Z with (Z.of_nat x1) by ring. rewrite Z.mod_small by lia. apply Nat2Z.id.
Qed.

Section Moved.
  Context (same : basis -> basis -> bool) (hbar mass : R) (axes : list basis) (delta inv : nat -> nat -> R).
  Hypothesis Hs : identity_test same.
  Hypothesis HP : Forall plane_wave_axis axes.
  Hypothesis Hi : is_inverse (length axes) delta inv.
  Let B := BTuple axes.
  Let n := map bsize axes.
  Let N := map bfund axes.
  Context (c : list Z).
  Hypothesis Lc : length c = length axes.

  Let move (x : nat) : nat := ravel N (displaced N c (unravel N x)).
  Let back (x : nat) : nat := ravel N (displaced N (map Z.opp c) (unravel N x)).
  Lemma move_back x : (x < nprod N)%nat -> (move x < nprod N)%nat /\ back (move x) = x.
  Proof using HP Lc.
    intros Hx. assert (LN : length N = length axes) by (unfold N; apply map_length). assert (PN := axes_N_pos axes HP). fold N in PN.
    assert (Ix := unravel_in_shape N x Hx). assert (Id : in_shape (displaced N c (unravel N x)) N).
    { apply displaced_in; [exact PN|lia|apply in_shape_length; exact Ix]. }
    split; [apply ravel_lt; exact Id|]. unfold back, move. rewrite unravel_ravel by exact Id.
    rewrite displaced_back; [apply ravel_unravel; exact Hx|exact PN|lia|exact Ix].
  Qed.
End Moved.
Section Moved2.
  Context (same : basis -> basis -> bool) (hbar mass : R) (axes : list basis) (delta inv : nat -> nat -> R).
  Hypothesis Hs : identity_test same.
  Hypothesis HP : Forall plane_wave_axis axes.
  Hypothesis Hi : is_inverse (length axes) delta inv.
  Let B := BTuple axes.
  Let n := map bsize axes.
  Let N := map bfund axes.
  Context (c : list Z).
  Hypothesis Lc : length c = length axes.
  Let move (x : nat) : nat := ravel N (displaced N c (unravel N x)).
  Let back (x : nat) : nat := ravel N (displaced N (map Z.opp c) (unravel N x)).
  Let phase (t : nat) : C := plane N (sample_freqs n (unravel n t)) (map Z.opp c).

  Lemma back_move x : (x < nprod N)%nat -> (back x < nprod N)%nat /\ move (back x) = x.
  Proof using HP Lc.
    intros Hx. assert (K := move_back axes HP (map Z.opp c) ltac:(rewrite map_length; exact Lc) x Hx).
    rewrite map_map in K. rewrite (map_ext (fun x => (- - x)%Z) (fun x => x)) in K by (intros; lia). rewrite map_id in K. exact K.
  Qed.

  Lemma moved_state t x : (t < bsize B)%nat -> (x < nprod N)%nat -> bstate B t (move x) = bstate B t x * phase t.
  Proof using HP Lc.
    intros Ht Hx. destruct (move_back axes HP c Lc x Hx) as [Lm _]. fold N in Lm. change (move x < nprod N)%nat in Lm.
    assert (LN : length N = length axes) by (unfold N; apply map_length). assert (PN := axes_N_pos axes HP). fold N in PN.
    assert (Ix := unravel_in_shape N x Hx). assert (Lx := in_shape_length _ _ Ix).
    rewrite !(state_plane axes HP) by assumption. fold N n.
    assert (E : unravel N (move x) = displaced N c (unravel N x)).
    { apply unravel_ravel. apply displaced_in; [exact PN|lia|exact Lx]. }
    rewrite E. rewrite plane_displaced; [|exact PN|lia|exact Lx]. unfold phase. ring.
  Qed.

  Lemma phase_unit t : phase t * Cconj (phase t) = 1.
  Proof using.
    unfold phase. rewrite Cmult_comm, Cconj_mult_self, plane_norm2. reflexivity.
  Qed.

  Lemma moved_entries data data' frac H H' :
    (forall x, (x < nprod N)%nat -> amplitude B data' x = amplitude B data (move x)) ->
    total_surface_hamiltonian same hbar axes inv data mass frac = Some H ->
    total_surface_hamiltonian same hbar axes inv data' mass frac = Some H' ->
    forall i j, (i < bsize B)%nat -> (j < bsize B)%nat -> op_entry H' i j = phase i * op_entry H i j * Cconj (phase j).
  Proof using Hs HP Hi Lc.
    intros Hd HH HH' i j Hi' Hj'.
    destruct (plane_elements same hbar mass axes delta inv Hs HP Hi data frac) as [G [GG [_ [_ [_ EG]]]]]. rewrite HH in GG. injection GG as <-.
    destruct (plane_elements same hbar mass axes delta inv Hs HP Hi data' frac) as [G' [GG' [_ [_ [_ EG']]]]]. rewrite HH' in GG'. injection GG' as <-.
    assert (Hq : exists q, waves N delta frac q).
    { eexists. apply (waves_exist N delta inv frac). unfold N. rewrite map_length. exact Hi. }
    destruct Hq as [q Q]. rewrite (EG q Q i j Hi' Hj'), (EG' q Q i j Hi' Hj'). fold B N.
    rewrite Cmult_plus_distr_l, Cmult_plus_distr_r. f_equal.
    - rewrite <- (csum_bij (fun x => Cconj (bstate B i x) * amplitude B data x * bstate B j x) (nprod N) (nprod N) move back
        (fun y Hy => move_back axes HP c Lc y Hy) (fun y Hy => back_move y Hy)).
      rewrite <- csum_scal_l, <- csum_scal_r. apply csum_ext. intros x Hx. rewrite Hd by exact Hx. rewrite !moved_state by assumption.
      rewrite Cconj_mult. transitivity ((phase i * Cconj (phase i)) * (phase j * Cconj (phase j)) * (Cconj (bstate B i x) * amplitude B data (move x) * bstate B j x)).
      + rewrite !phase_unit. ring.
      + ring.
    - unfold cdelta. destruct (Nat.eqb_spec i j) as [->|]; [|ring].
      transitivity ((phase j * Cconj (phase j)) * RtoC (hbar * hbar * dot (length axes) (q (among axes j)) (q (among axes j)) / (2 * mass))).
      + rewrite phase_unit. ring.
      + ring.
  Qed.

  Lemma moved_energies eigh data data' frac : eigh_ok eigh -> real_valued B data ->
    (forall x, (x < nprod N)%nat -> amplitude B data' x = amplitude B data (move x)) ->
    exists H H', total_surface_hamiltonian same hbar axes inv data mass frac = Some H /\
      total_surface_hamiltonian same hbar axes inv data' mass frac = Some H' /\
    forall lo hi, (lo <= hi)%nat -> (hi < bsize B)%nat -> exists e v e' v',
      eigenstates_hermitian eigh H (Some (Z.of_nat lo, Z.of_nat hi)) = Some ((hi - lo + 1)%nat, e, v) /\
      eigenstates_hermitian eigh H' (Some (Z.of_nat lo, Z.of_nat hi)) = Some ((hi - lo + 1)%nat, e', v') /\
      forall k, (k < hi - lo + 1)%nat -> e' k = e k.
  Proof using Hs HP Hi Lc.
    intros He Hr Hd. destruct (axes_wf axes HP) as [Wb Ob].
    assert (Hr' : real_valued B data').
    { intros x Hx. rewrite Hd by exact Hx. apply Hr. apply (move_back axes HP c Lc). exact Hx. }
    destruct (plane_elements same hbar mass axes delta inv Hs HP Hi data frac) as [H [HH _]].
    destruct (plane_elements same hbar mass axes delta inv Hs HP Hi data' frac) as [H' [HH' _]].
    assert (X := energies_exist same hbar axes delta inv frac Hs Hi H axes data mass eq_refl Wb Ob Hr HH).
    assert (X' := energies_exist same hbar axes delta inv frac Hs Hi H' axes data' mass eq_refl Wb Ob Hr' HH').
    destruct (spectrum_of _ _ (proj2 (proj2 (proj2 X)))) as [E HE].
    assert (HE' : ascending_spectrum (bsize B) (op_entry H') E).
    { apply (spectrum_phase (bsize B) (op_entry H) (op_entry H') phase E); [intros; apply phase_unit| |exact HE].
      exact (moved_entries data data' frac H H' Hd HH HH'). }
    exists H, H'. split; [exact HH|]. split; [exact HH'|]. intros lo hi L1 L2.
    destruct (both_energies eigh H H' _ _ lo hi lo hi He X X' L1 L2 L1 L2) as [e [v [e' [v' [G [G' K]]]]]].
    exists e, v, e', v'. split; [exact G|]. split; [exact G'|]. destruct (K E E HE HE') as [K1 K2].
    intros k Hk. rewrite K1, K2 by exact Hk. reflexivity.
  Qed.
End Moved2.

(** ** An even number of plane waves *)

Definition two_axes : list basis := [BFundT 2].
Lemma two_energies same eigh fr (E : nat -> R) : identity_test same -> eigh_ok eigh ->
  (forall k, (k < 2)%nat -> E k = (2 * PI * (IZR (freq 2 k) + fr)) * (2 * PI * (IZR (freq 2 k) + fr)))%R -> (E 0%nat <= E 1%nat)%R ->
  exists H e v, total_surface_hamiltonian same 1 two_axes (fun _ _ => 1%R) (fun _ => 0) (/ 2) (Some (fun _ => fr)) = Some H /\
    eigenstates_hermitian eigh H (Some (1, 1)%Z) = Some (1%nat, e, v) /\ e 0%nat = E 1%nat.
Proof.
  intros Hs He HE Ho.
  assert (HP : Forall plane_wave_axis two_axes) by (repeat constructor).
  destruct (plane_elements same 1 (/ 2) two_axes (fun _ _ => 1%R) (fun _ _ => 1%R) Hs HP unit_inverse (fun _ => 0) (Some (fun _ => fr)))
    as [H [HH [R1 [C1 [W1 EH]]]]].
  pose (q := fun (k c : nat) => (2 * PI * (IZR (freq 2 k) + fr))%R).
  assert (Q : waves (map bfund two_axes) (fun _ _ => 1%R) (Some (fun _ => fr)) q).
  { intros k Hk a Ha. cbn in Hk, Ha. assert (a = 0%nat) by lia. subst a. unfold dot, q, fraction.
    destruct k as [|[|k]]; [| |lia]; cbn -[PI]; ring. }
  assert (EN : forall i j, (i < 2)%nat -> (j < 2)%nat -> op_entry H i j = RtoC (E i) * cdelta i j).
  { intros i j Hi Hj. rewrite (EH q Q i j Hi Hj). rewrite csum_zero_ext.
    - rewrite Cplus_0_l. unfold cdelta. destruct (Nat.eqb_spec i j) as [->|]; [|ring]. f_equal. f_equal.
      assert (A : among two_axes j = j) by (destruct j as [|[|j]]; [reflexivity|reflexivity|lia]). rewrite A, HE by exact Hj.
      unfold dot, q. cbn -[PI freq]. field.
    - intros x _. replace (amplitude (BTuple two_axes) (fun _ => 0) x) with (RtoC 0); [ring|].
      symmetry. unfold amplitude. apply csum_zero_ext. intros. ring. }
  assert (SP : ascending_spectrum 2 (op_entry H) E).
  { split.
    - intros i j Hij Hj. destruct i as [|[|i]], j as [|[|j]]; try lia; try apply Rle_refl. exact Ho.
    - exists cdelta. split; [apply cdelta_unitary|]. intros i j Hi Hj. rewrite EN by assumption.
      destruct i as [|[|i]]; [| |lia]; (destruct j as [|[|j]]; [| |lia]); cbn; apply injective_projections; cbn; ring. }
  assert (HM : hermitian 2 (op_entry H)).
  { intros i j Hi Hj. unfold adjoint. rewrite !EN by assumption. rewrite Cconj_mult, Cconj_RtoC.
    destruct i as [|[|i]]; [| |lia]; (destruct j as [|[|j]]; [| |lia]); cbn; apply injective_projections; cbn; ring. }
  destruct (energies_spec eigh H (BTuple two_axes) (Some (1, 1)%Z) 1 1 He R1 C1 W1 HM (or_introl eq_refl) ltac:(lia) ltac:(cbn; lia)) as [e [v [G K]]].
  exists H, e, v. split; [exact HH|]. split; [exact G|]. exact (K E SP 0%nat ltac:(lia)).
Qed.

Lemma even_differs same eigh : identity_test same -> eigh_ok eigh ->
  exists H H' e v e' v',
    total_surface_hamiltonian same 1 two_axes (fun _ _ => 1%R) (fun _ => 0) (/ 2) (Some (fun _ => / 4)%R) = Some H /\
    total_surface_hamiltonian same 1 two_axes (fun _ _ => 1%R) (fun _ => 0) (/ 2) (Some (fun _ => - / 4)%R) = Some H' /\
    eigenstates_hermitian eigh H (Some (1, 1)%Z) = Some (1%nat, e, v) /\
    eigenstates_hermitian eigh H' (Some (1, 1)%Z) = Some (1%nat, e', v') /\ (e 0%nat < e' 0%nat)%R.
Proof.
  intros Hs He. assert (P := PI_RGT_0).
  destruct (two_energies same eigh (/ 4) (fun k => (2 * PI * (IZR (freq 2 k) + / 4)) * (2 * PI * (IZR (freq 2 k) + / 4)))%R Hs He) as [H [e [v [HH [G K]]]]];
    [reflexivity|change (freq 2 0) with 0%Z; change (freq 2 1) with (-1)%Z; nra|].
  destruct (two_energies same eigh (- / 4) (fun k => (2 * PI * (IZR (freq 2 k) + - / 4)) * (2 * PI * (IZR (freq 2 k) + - / 4)))%R Hs He) as [H' [e' [v' [HH' [G' K']]]]];
    [reflexivity|change (freq 2 0) with 0%Z; change (freq 2 1) with (-1)%Z; nra|].
  exists H, H', e, v, e', v'. split; [exact HH|]. split; [exact HH'|]. split; [exact G|]. split; [exact G'|].
  rewrite K, K'. change (freq 2 1) with (-1)%Z. nra.
Qed.

Lemma moved_potential same hbar mass axes delta inv c eigh data data' frac : identity_test same -> Forall plane_wave_axis axes ->
  is_inverse (length axes) delta inv -> length c = length axes -> eigh_ok eigh -> real_valued (BTuple axes) data ->
  let N := map bfund axes in
  (forall x, in_shape x N -> amplitude (BTuple axes) data' (ravel N x) = amplitude (BTuple axes) data (ravel N (displaced N c x))) ->
  exists H H', total_surface_hamiltonian same hbar axes inv data mass frac = Some H /\
    total_surface_hamiltonian same hbar axes inv data' mass frac = Some H' /\
  forall lo hi, (lo <= hi)%nat -> (hi < bsize (BTuple axes))%nat -> exists e v e' v',
    eigenstates_hermitian eigh H (Some (Z.of_nat lo, Z.of_nat hi)) = Some ((hi - lo + 1)%nat, e, v) /\
    eigenstates_hermitian eigh H' (Some (Z.of_nat lo, Z.of_nat hi)) = Some ((hi - lo + 1)%nat, e', v') /\
    forall k, (k < hi - lo + 1)%nat -> e' k = e k.
Proof.
  intros Hs HP Hi Lc He Hr N Hd. apply (moved_energies same hbar mass axes delta inv Hs HP Hi c Lc eigh data data' frac He Hr).
  intros x Hx. fold N. rewrite <- (ravel_unravel N x Hx) at 1. apply Hd. apply unravel_in_shape. exact Hx.
Qed.
