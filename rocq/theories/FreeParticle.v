(** Energies and evolution in a constant potential (C140). *)
From Coq Require Import Reals Psatz.
From Verif Require Import ZLib Csum DFT NumPy Spec SpecReal Index IndexProofs Lattice LatticeProofs Basis SpecBasis BasisProofs BasisProofs2 BasisProofs3 Operator SpecOperator
  OperatorProofs OperatorProofs2 Wavepacket SpecWavepacket WavepacketProofs2 Hamiltonian SpecHamiltonian HamiltonianProofs HamiltonianProofs2 HamiltonianProofs3
  SpecMatrix Localize SpecLocalize LocalizeProofs4 EigenBasis SpecEigenBasis EigenBasisProofs
  InterlaceProofs InterlaceProofs3 SpecSymmetry SymmetryProofs SumRuleProofs HamiltonianFacts Dynamics SupercellDynamics SeparableProofs.
Local Open Scope R_scope.
Local Open Scope C_scope.

Section Free.
  Context (same : basis -> basis -> bool) (hbar mass : R) (axes : list basis) (delta inv : nat -> nat -> R).
  Hypothesis Hs : identity_test same.
  Hypothesis HP : Forall plane_wave_axis axes.
  Hypothesis Hi : is_inverse (length axes) delta inv.
  Let B := BTuple axes.

  Lemma free_elements data c frac Q : (forall x, (x < bfund B)%nat -> amplitude B data x = RtoC c) -> waves (map bsize axes) delta frac Q ->
    exists H, total_surface_hamiltonian same hbar axes inv data mass frac = Some H /\ orow H = B /\ ocol H = B /\ op_wf H /\
    forall i j, (i < bsize B)%nat -> (j < bsize B)%nat ->
      op_entry H i j = RtoC (c + hbar * hbar * dot (length axes) (Q i) (Q i) / (2 * mass)) * cdelta i j.
  Proof using Hs HP Hi.
    intros Hc HQ. destruct (axes_wf axes HP) as [Wb Ob].
    destruct (plane_elements same hbar mass axes delta inv Hs HP Hi data frac) as [H [HH [R1 [C1 [W EH]]]]].
    exists H. split; [exact HH|]. split; [exact R1|]. split; [exact C1|]. split; [exact W|]. intros i j Li Lj.
    assert (Hq := waves_exist (map bfund axes) delta inv frac ltac:(rewrite map_length; exact Hi)).
    match type of Hq with waves _ _ _ ?qq => set (q := qq) in * end.
    rewrite (EH q Hq i j Li Lj). rewrite RtoC_plus. rewrite Cmult_plus_distr_r. f_equal.
    - rewrite <- (explicit_orthonormal_sound B Wb Ob i j Li Lj). unfold overlap. rewrite <- csum_scal_l. apply csum_ext. intros x Hx.
      assert (Ex := Hc x Hx). unfold B in Ex. rewrite Ex. unfold B. ring.
    - do 4 f_equal. unfold dot. apply rsum_ext. intros c' Hc'. rewrite (among_waves axes delta inv HP Hi frac q Q Hq HQ i Li c' Hc'). reflexivity.
  Qed.

  Lemma free_particle eigh data c frac Q : eigh_ok eigh ->
    (forall x, (x < bfund B)%nat -> amplitude B data x = RtoC c) -> waves (map bsize axes) delta frac Q ->
    let level i := (c + hbar * hbar * dot (length axes) (Q i) (Q i) / (2 * mass))%R in
    exists H e v, total_surface_hamiltonian same hbar axes inv data mass frac = Some H /\
      (forall i j, (i < bsize B)%nat -> (j < bsize B)%nat -> op_entry H i j = RtoC (level i) * cdelta i j) /\
      eigenstates_hermitian eigh H None = Some (bsize B, e, v) /\
      (forall k l, (k <= l)%nat -> (l < bsize B)%nat -> (e k <= e l)%R) /\
      (exists p : nat -> nat, (forall k, (k < bsize B)%nat -> (p k < bsize B)%nat) /\
        (forall k l, (k < bsize B)%nat -> (l < bsize B)%nat -> p k = p l -> k = l) /\ forall k, (k < bsize B)%nat -> e k = level (p k)) /\
      (hbar <> 0%R -> forall psi nt times, exists out,
        solve_schrodinger_equation_decomposition eigh hbar psi nt times H = Some out /\ ashape out = [nt; bsize B] /\
        forall s i, (s < nt)%nat -> (i < bsize B)%nat ->
          at2 out s i = cexp (- Ci * RtoC (level i) * RtoC (times s) / RtoC hbar) * psi i).
  Proof using Hs HP Hi.
    intros He Hc HQ level.
    destruct (free_elements data c frac Q Hc HQ) as [H [HH [R1 [C1 [W EH]]]]].
    assert (X : hermitian (bsize B) (op_entry H)).
    { intros i j Li Lj. unfold adjoint. rewrite !EH by assumption. rewrite Cconj_mult, Cconj_RtoC, Cconj_cdelta, (cdelta_sym i j).
      destruct (Nat.eq_dec i j) as [->|Ne]; [reflexivity|]. rewrite cdelta_neq by lia. ring. }
    assert (PB : (0 < bsize B)%nat) by (apply nprod_pos; exact (axes_n_pos axes HP)).
    destruct (energies_spec eigh H B None 0 (bsize B - 1) He R1 C1 W X) as [e [v [G K]]];
      [right; split; [reflexivity|split; lia]|lia|lia|].
    replace (bsize B - 1 - 0 + 1)%nat with (bsize B) in G, K by lia.
    destruct (spectrum_of _ _ X) as [E HE].
    exists H, e, v. split; [exact HH|]. split; [exact EH|]. split; [exact G|].
    assert (KE : forall k, (k < bsize B)%nat -> e k = E k) by (intros k Hk; rewrite (K E HE k Hk); reflexivity).
    split; [intros k l Hkl Hl; rewrite !KE by lia; exact (proj1 HE k l Hkl Hl)|].
    split.
    - destruct (spectrum_any_order (bsize B) (op_entry H) (fun i j => cdelta i j) level E) as [p [P1 [P2 P3]]].
      + split; intros i j Li Lj.
        * rewrite (csum_delta_l (fun x => Cconj (cdelta j x))) by exact Li. rewrite Cconj_cdelta. apply cdelta_sym.
        * rewrite (csum_delta_r' (fun x => Cconj (cdelta x i))) by exact Lj. rewrite Cconj_cdelta. apply cdelta_sym.
      + intros i j Li Lj. rewrite EH by assumption.
        rewrite (csum_ext _ (fun k => cdelta i k * (RtoC (level k) * Cconj (cdelta j k)))) by (intros; ring).
        rewrite csum_delta_l by exact Li. rewrite Cconj_cdelta, (cdelta_sym j i). reflexivity.
      + exact HE.
      + exists p. split; [exact P1|]. split; [exact P2|]. intros k Hk. rewrite KE by exact Hk. exact (P3 k Hk).
    - intros Hb psi nt times.
      assert (SH : square (bsize B) H) by (split; [exact W|rewrite R1, C1; split; reflexivity]).
      assert (EV : forall t, (t < bsize B)%nat -> forall i, (i < bsize B)%nat ->
        csum (fun j => op_entry H i j * cdelta t j) (bsize B) = RtoC (level t) * cdelta t i).
      { intros t Ht i Li. rewrite csum_delta_r by exact Ht. rewrite EH by assumption.
        destruct (Nat.eq_dec i t) as [->|Ne]; [reflexivity|]. rewrite !cdelta_neq by lia. ring. }
      destruct (evolved_component eigh (bsize B) H hbar (level 0%nat) (fun i => cdelta 0 i) He PB SH X Hb (EV 0%nat PB) psi nt times) as [out [Y [SY _]]].
      exists out. split; [exact Y|]. split; [exact SY|]. intros s i Hs' Li.
      destruct (evolved_component eigh (bsize B) H hbar (level i) (fun x => cdelta i x) He PB SH X Hb (EV i Li) psi nt times) as [o [Y' [_ Z]]].
      rewrite Y in Y'. injection Y' as <-. destruct (Z s Hs') as [Z1 _].
      assert (U : forall f, inner_product (bsize B) (fun x => cdelta i x) f = f i).
      { intros f. unfold inner_product. rewrite (csum_ext _ (fun x => cdelta i x * f x)) by (intros; rewrite Cconj_cdelta; reflexivity).
        apply csum_delta_l. exact Li. }
      rewrite !U in Z1. exact Z1.
  Qed.
End Free.

(** A constant potential of three plane waves on five points. *)
Definition flat_data (c : R) (k : nat) : C := match k with 0%nat => RtoC (c * sqrt 5) | _ => 0 end.
Lemma flat_constant c x : (x < bfund (BTuple cos_axes))%nat -> amplitude (BTuple cos_axes) (flat_data c) x = RtoC c.
Proof.
  intros Hx. unfold amplitude. change (bsize (BTuple cos_axes)) with 3%nat. cbn [csum flat_data].
  assert (E : bstate (BTuple cos_axes) 0 x = plane_wave 5 (freq 3 0) x).
  { cbn [bstate cos_axes map product_states fst snd bsize bfund nprod]. rewrite !Nat.div_1_r. ring. }
  rewrite E. change (freq 3 0) with 0%Z. unfold plane_wave. rewrite Z.mul_0_l.
  assert (O : omega 5 0 = 1) by apply omega_0. rewrite O. unfold isqrt. replace (INR 5) with 5%R by (simpl; ring).
  assert (S : sqrt 5 <> 0%R) by (apply Rgt_not_eq, sqrt_lt_R0; lra).
  transitivity (RtoC (c * sqrt 5) * RtoC (/ sqrt 5)); [ring|]. rewrite <- RtoC_mult. f_equal. field. exact S.
Qed.
