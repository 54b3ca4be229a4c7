(** Products of states evolve as products under a sum of Hamiltonians (C139). *)
From Coq Require Import Reals List ZArith Arith Lia Lra Bool.
From Coquelicot Require Import Coquelicot.
From Verif Require Import ZLib Csum DFT NumPy Spec SpecReal Index IndexProofs IndexSum Lattice Basis SpecBasis BasisProofs BasisProofs2 BasisProofs3 BasisFacts
  Operator SpecOperator OperatorProofs SpecMatrix Wavepacket SpecWavepacket WavepacketProofs WavepacketProofs2 Hamiltonian SpecHamiltonian HamiltonianProofs HamiltonianProofs2 HamiltonianProofs3
  Localize SpecLocalize LinAlg FourierProofs4 Dynamics SpecDynamics DynamicsProofs2 DynamicsProofs5 InterlaceProofs SupercellDynamics SeparableProofs SeparableProofs2.
Import ListNotations.
Local Open Scope R_scope.
Local Open Scope C_scope.

Lemma spectrum_eigenvector n A V E k : orthonormal_columns n n V ->
  (forall i j, (i < n)%nat -> (j < n)%nat -> A i j = csum (fun k => V i k * RtoC (E k) * Cconj (V j k)) n) -> (k < n)%nat ->
  forall i, (i < n)%nat -> csum (fun j => A i j * V j k) n = RtoC (E k) * V i k.
Proof.
  intros HC HA Hk i Hi.
  transitivity (csum (fun j => csum (fun l => V i l * RtoC (E l) * (Cconj (V j l) * V j k)) n) n).
  - apply csum_ext. intros j Hj. rewrite HA by assumption. rewrite <- csum_scal_r. apply csum_ext. intros. ring.
  - rewrite csum_swap. rewrite (csum_ext _ (fun l => (V i l * RtoC (E l)) * cdelta l k)).
    + rewrite csum_delta_r' by exact Hk. ring.
    + intros l Hl. rewrite csum_scal_l. f_equal. exact (HC l k Hl Hk).
Qed.

(** A vector is determined by its components along the columns of a unitary matrix. *)
Lemma components_determine n V f g : orthonormal_rows n n V ->
  (forall k, (k < n)%nat -> inner_product n (fun i => V i k) f = inner_product n (fun i => V i k) g) ->
  forall i, (i < n)%nat -> f i = g i.
Proof.
  intros HR Hc i Hi.
  assert (X : forall h, h i = csum (fun k => V i k * inner_product n (fun i => V i k) h) n).
  { intros h. unfold inner_product.
    transitivity (csum (fun j => cdelta i j * h j) n).
    - rewrite (csum_ext _ (fun j => h j * cdelta i j)) by (intros; ring). rewrite csum_delta_r by exact Hi. reflexivity.
    - transitivity (csum (fun j => csum (fun k => V i k * Cconj (V j k) * h j) n) n).
      + apply csum_ext. intros j Hj. rewrite csum_scal_r. f_equal. symmetry. exact (HR i j Hi Hj).
      + rewrite csum_swap. apply csum_ext. intros k _. rewrite <- csum_scal_l. apply csum_ext. intros. ring. }
  rewrite (X f), (X g). apply csum_ext. intros k Hk. rewrite Hc by exact Hk. reflexivity.
Qed.

Lemma product_evolves eigh n1 n2 H H1 H2 hbar : eigh_ok eigh -> (0 < n1)%nat -> (0 < n2)%nat ->
  square (n1 * n2) H -> square n1 H1 -> square n2 H2 -> hermitian n1 (op_entry H1) -> hermitian n2 (op_entry H2) ->
  (forall i1 i2 j1 j2, (i1 < n1)%nat -> (i2 < n2)%nat -> (j1 < n1)%nat -> (j2 < n2)%nat ->
     op_entry H (i1 * n2 + i2) (j1 * n2 + j2) = op_entry H1 i1 j1 * cdelta i2 j2 + cdelta i1 j1 * op_entry H2 i2 j2) ->
  hbar <> 0%R ->
  forall psi u w nt times, (forall i1 i2, (i1 < n1)%nat -> (i2 < n2)%nat -> psi (i1 * n2 + i2)%nat = u i1 * w i2) ->
  exists out out1 out2,
    solve_schrodinger_equation_decomposition eigh hbar psi nt times H = Some out /\ ashape out = [nt; (n1 * n2)%nat] /\
    solve_schrodinger_equation_decomposition eigh hbar u nt times H1 = Some out1 /\ ashape out1 = [nt; n1] /\
    solve_schrodinger_equation_decomposition eigh hbar w nt times H2 = Some out2 /\ ashape out2 = [nt; n2] /\
    forall s i1 i2, (s < nt)%nat -> (i1 < n1)%nat -> (i2 < n2)%nat ->
      at2 out s (i1 * n2 + i2) = at2 out1 s i1 * at2 out2 s i2.
Proof.
  intros He P1 P2 SH SH1 SH2 Hh1 Hh2 K Hb psi u w nt times Hp.
  assert (Hh : hermitian (n1 * n2) (op_entry H)).
  { intros i j Hi Hj. destruct (flat_parts _ _ _ Hi) as [i1 [i2 [Hi1 [Hi2 ->]]]]. destruct (flat_parts _ _ _ Hj) as [j1 [j2 [Hj1 [Hj2 ->]]]].
    unfold adjoint. rewrite !K by assumption. rewrite Cconj_plus, !Cconj_mult.
    pose proof (Hh1 i1 j1 Hi1 Hj1) as Q1. pose proof (Hh2 i2 j2 Hi2 Hj2) as Q2. unfold adjoint in Q1, Q2. rewrite Q1, Q2.
    rewrite !Cconj_cdelta, (cdelta_sym i2 j2), (cdelta_sym i1 j1). reflexivity. }
  destruct (spectrum_of n1 _ Hh1) as [E1 [_ [V1 [[R1 C1] D1]]]]. destruct (spectrum_of n2 _ Hh2) as [E2 [_ [V2 [[R2 C2] D2]]]].
  set (V := fun i k => V1 (i / n2)%nat (k / n2)%nat * V2 (i mod n2)%nat (k mod n2)%nat).
  assert (VV : forall i1 i2 k1 k2, (i2 < n2)%nat -> (k2 < n2)%nat -> V (i1 * n2 + i2)%nat (k1 * n2 + k2)%nat = V1 i1 k1 * V2 i2 k2).
  { intros i1 i2 k1 k2 Hi Hk. unfold V. rewrite !flat_div, !flat_mod by assumption. reflexivity. }
  assert (EV1 : forall k, (k < n1)%nat -> forall i, (i < n1)%nat -> csum (fun j => op_entry H1 i j * V1 j k) n1 = RtoC (E1 k) * V1 i k)
    by (intros k Hk; exact (spectrum_eigenvector n1 _ V1 E1 k C1 D1 Hk)).
  assert (EV2 : forall k, (k < n2)%nat -> forall i, (i < n2)%nat -> csum (fun j => op_entry H2 i j * V2 j k) n2 = RtoC (E2 k) * V2 i k)
    by (intros k Hk; exact (spectrum_eigenvector n2 _ V2 E2 k C2 D2 Hk)).
  assert (EV : forall k1 k2, (k1 < n1)%nat -> (k2 < n2)%nat -> forall i, (i < n1 * n2)%nat ->
    csum (fun j => op_entry H i j * V j (k1 * n2 + k2)%nat) (n1 * n2) = RtoC (E1 k1 + E2 k2) * V i (k1 * n2 + k2)%nat).
  { intros k1 k2 Hk1 Hk2 i Hi. destruct (flat_parts _ _ _ Hi) as [i1 [i2 [Hi1 [Hi2 ->]]]]. rewrite csum_mul.
    transitivity (csum (fun j1 => op_entry H1 i1 j1 * V1 j1 k1) n1 * csum (fun j2 => V2 j2 k2 * cdelta i2 j2) n2
      + csum (fun j1 => V1 j1 k1 * cdelta i1 j1) n1 * csum (fun j2 => op_entry H2 i2 j2 * V2 j2 k2) n2).
    - rewrite !csum_mult, <- csum_plus. apply csum_ext. intros j1 Hj1. rewrite <- csum_plus. apply csum_ext. intros j2 Hj2.
      rewrite K, VV by assumption. ring.
    - rewrite EV1, EV2, !csum_delta_r, VV, RtoC_plus by assumption. ring. }
  assert (PN : (0 < n1 * n2)%nat) by nia.
  destruct (evolved_component eigh (n1 * n2) H hbar (E1 0%nat + E2 0%nat) (fun i => V i (0 * n2 + 0)%nat) He PN SH Hh Hb (EV _ _ P1 P2) psi nt times)
    as [out [X [SX _]]].
  destruct (evolved_component eigh n1 H1 hbar (E1 0%nat) (fun i => V1 i 0%nat) He P1 SH1 Hh1 Hb (EV1 _ P1) u nt times) as [out1 [X1 [SX1 _]]].
  destruct (evolved_component eigh n2 H2 hbar (E2 0%nat) (fun i => V2 i 0%nat) He P2 SH2 Hh2 Hb (EV2 _ P2) w nt times) as [out2 [X2 [SX2 _]]].
  exists out, out1, out2. repeat (split; [assumption|]).
  intros s i1 i2 Hs Hi1 Hi2.
  set (g := fun i => at2 out1 s (i / n2) * at2 out2 s (i mod n2)).
  transitivity (g (i1 * n2 + i2)%nat); [|unfold g; rewrite flat_div, flat_mod by assumption; reflexivity].
  apply (components_determine (n1 * n2) V (at2 out s) g); [| |apply flat_lt; assumption].
  - intros i j Hi Hj. destruct (flat_parts _ _ _ Hi) as [a1 [a2 [Ha1 [Ha2 ->]]]]. destruct (flat_parts _ _ _ Hj) as [j1 [j2 [Hj1 [Hj2 ->]]]].
    rewrite cdelta_flat by assumption. rewrite <- (R1 a1 j1), <- (R2 a2 j2) by assumption. rewrite csum_mul, csum_mult.
    apply csum_ext. intros k1 Hk1. apply csum_ext. intros k2 Hk2. rewrite !VV by assumption. rewrite Cconj_mult. ring.
  - intros k Hk. destruct (flat_parts _ _ _ Hk) as [k1 [k2 [Hk1 [Hk2 ->]]]].
    destruct (evolved_component eigh (n1 * n2) H hbar _ (fun i => V i (k1 * n2 + k2)%nat) He PN SH Hh Hb (EV _ _ Hk1 Hk2) psi nt times) as [o [Y [_ Z]]].
    rewrite X in Y. injection Y as <-. rewrite (proj1 (Z s Hs)).
    destruct (evolved_component eigh n1 H1 hbar _ (fun i => V1 i k1) He P1 SH1 Hh1 Hb (EV1 _ Hk1) u nt times) as [o1 [Y1 [_ Z1]]].
    rewrite X1 in Y1. injection Y1 as <-.
    destruct (evolved_component eigh n2 H2 hbar _ (fun i => V2 i k2) He P2 SH2 Hh2 Hb (EV2 _ Hk2) w nt times) as [o2 [Y2 [_ Z2]]].
    rewrite X2 in Y2. injection Y2 as <-.
    assert (Q : forall p a b, (forall i1 i2, (i1 < n1)%nat -> (i2 < n2)%nat -> p (i1 * n2 + i2)%nat = a i1 * b i2) ->
      inner_product (n1 * n2) (fun i => V i (k1 * n2 + k2)%nat) p = inner_product n1 (fun i => V1 i k1) a * inner_product n2 (fun i => V2 i k2) b).
    { intros p a b Hpab. unfold inner_product. rewrite csum_mul, csum_mult. apply csum_ext. intros j1 Hj1. apply csum_ext. intros j2 Hj2.
      rewrite VV, Hpab, Cconj_mult by assumption. ring. }
    rewrite (Q psi u w Hp). rewrite (Q g (at2 out1 s) (at2 out2 s)).
    + rewrite (proj1 (Z1 s Hs)), (proj1 (Z2 s Hs)).
      replace (- Ci * RtoC (E1 k1 + E2 k2) * RtoC (times s) / RtoC hbar) with
        (- Ci * RtoC (E1 k1) * RtoC (times s) / RtoC hbar + - Ci * RtoC (E2 k2) * RtoC (times s) / RtoC hbar)
        by (rewrite RtoC_plus; unfold Cdiv; ring).
      rewrite cexp_plus. ring.
    + intros j1 j2 Hj1 Hj2. unfold g. rewrite flat_div, flat_mod by assumption. reflexivity.
Qed.

Lemma separable_evolution same la lb delta inv hbar mass frac :
  identity_test same -> bwf (BTuple la) -> bwf (BTuple lb) -> explicit_orthonormal (BTuple la) -> explicit_orthonormal (BTuple lb) ->
  let d := length la in
  is_inverse (d + length lb) delta inv ->
  (forall a c, (a < d)%nat -> (d <= c < d + length lb)%nat -> delta a c = 0%R /\ delta c a = 0%R) ->
  let inv' a c := inv (d + a)%nat (d + c)%nat in
  let frac' := match frac with None => None | Some f => Some (fun a => f (d + a)%nat) end in
  let n := bsize (BTuple la) in let m := bsize (BTuple lb) in
  forall data data1 data2, real_valued (BTuple la) data1 -> real_valued (BTuple lb) data2 ->
  (forall x y, (x < bfund (BTuple la))%nat -> (y < bfund (BTuple lb))%nat ->
     amplitude (BTuple (la ++ lb)) data (x * bfund (BTuple lb) + y) = amplitude (BTuple la) data1 x + amplitude (BTuple lb) data2 y) ->
  exists H H1 H2, total_surface_hamiltonian same hbar (la ++ lb) inv data mass frac = Some H /\
    total_surface_hamiltonian same hbar la inv data1 mass frac = Some H1 /\
    total_surface_hamiltonian same hbar lb inv' data2 mass frac' = Some H2 /\
    forall eigh psi u w nt times, eigh_ok eigh -> hbar <> 0%R ->
    (forall i j, (i < n)%nat -> (j < m)%nat -> psi (i * m + j)%nat = u i * w j) ->
    exists out out1 out2,
      solve_schrodinger_equation_decomposition eigh hbar psi nt times H = Some out /\ ashape out = [nt; (n * m)%nat] /\
      solve_schrodinger_equation_decomposition eigh hbar u nt times H1 = Some out1 /\ ashape out1 = [nt; n] /\
      solve_schrodinger_equation_decomposition eigh hbar w nt times H2 = Some out2 /\ ashape out2 = [nt; m] /\
      forall s i j, (s < nt)%nat -> (i < n)%nat -> (j < m)%nat ->
        at2 out s (i * m + j) = at2 out1 s i * at2 out2 s j.
Proof.
  intros Hs WA WB OA OB d Hi Hblock inv' frac' n m data data1 data2 RA RB HV.
  destruct (separable_elements same la lb delta inv hbar mass frac Hs WA WB OA OB Hi Hblock data data1 data2 HV)
    as [H [H1 [H2 [EH [EH1 [EH2 [SH [SH1 [SH2 K]]]]]]]]].
  exists H, H1, H2. split; [exact EH|]. split; [exact EH1|]. split; [exact EH2|].
  intros eigh psi u w nt times He Hb Hp.
  apply (product_evolves eigh n m H H1 H2 hbar); try assumption.
  - exact (bsize_pos _ WA).
  - exact (bsize_pos _ WB).
  - refine (hamiltonian_hermitian same Hs la WA OA delta inv _ hbar mass frac data1 H1 RA EH1).
    eapply inverse_first; eassumption.
  - refine (hamiltonian_hermitian same Hs lb WB OB (fun a c => delta (d + a)%nat (d + c)%nat) inv' _ hbar mass frac' data2 H2 RB EH2).
    eapply inverse_last; eassumption.
Qed.
