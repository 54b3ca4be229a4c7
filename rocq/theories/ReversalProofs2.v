(** Evolution in scaled and shifted potentials, and overlaps with the initial state (C144). *)
From Coq Require Import Reals Psatz.
From Verif Require Import ZLib Csum DFT NumPy Spec SpecReal Index IndexProofs Lattice LatticeProofs Basis SpecBasis BasisProofs BasisProofs2 BasisProofs3 Operator SpecOperator
  OperatorProofs OperatorProofs2 OperatorProofs3 Wavepacket SpecWavepacket WavepacketProofs2 Hamiltonian SpecHamiltonian HamiltonianProofs HamiltonianProofs2 HamiltonianProofs3
  SpecMatrix Localize SpecLocalize LocalizeProofs4 EigenBasis SpecEigenBasis EigenBasisProofs
  InterlaceProofs InterlaceProofs3 SpecSymmetry SymmetryProofs SymmetryProofs2 HamiltonianFacts Dynamics SupercellDynamics SeparableProofs3 ReversalProofs ObservablesProofs6 KernelConvertProofs.
Local Open Scope R_scope.
Local Open Scope C_scope.

Lemma turn_plus a b : cexp a * cexp b = cexp (a + b).
Proof. unfold cexp, cis. apply injective_projections; cbn; rewrite exp_plus, ?cos_plus, ?sin_plus; ring. Qed.

Lemma turn_unit (a t h : R) : h <> 0%R -> Cnorm2 (cexp (- Ci * RtoC a * RtoC t / RtoC h)) = 1%R.
Proof.
  intros Hh. unfold Cdiv. rewrite <- RtoC_inv by exact Hh. unfold cexp. rewrite Cnorm2_mult.
  replace (fst (- Ci * RtoC a * RtoC t * RtoC (/ h))) with 0%R by (cbn; ring). rewrite exp_0.
  unfold Cnorm2, cis. cbn [fst snd RtoC]. match goal with |- context [cos ?x] => assert (K := sin2_cos2 x) end.
  unfold Rsqr in K. lra.
Qed.

Lemma evolution_affine eigh n H H' hbar (r c : R) : eigh_ok eigh -> (0 < n)%nat -> square n H -> square n H' ->
  hermitian n (op_entry H) -> hermitian n (op_entry H') -> hbar <> 0%R ->
  (forall i j, (i < n)%nat -> (j < n)%nat -> op_entry H' i j = RtoC r * op_entry H i j + RtoC c * cdelta i j) ->
  forall psi nt times times', (forall k, (k < nt)%nat -> times k = (r * times' k)%R) ->
  exists out out', solve_schrodinger_equation_decomposition eigh hbar psi nt times H = Some out /\
    solve_schrodinger_equation_decomposition eigh hbar psi nt times' H' = Some out' /\ ashape out = [nt; n] /\ ashape out' = [nt; n] /\
    forall k i, (k < nt)%nat -> (i < n)%nat -> at2 out' k i = cexp (- Ci * RtoC c * RtoC (times' k) / RtoC hbar) * at2 out k i.
Proof.
  intros He Pn SH SH' Hh Hh' Hb HA psi nt times times' Ht.
  destruct (spectrum_of _ _ Hh) as [E [_ [V [[UR UC] HV]]]].
  destruct (all_components eigh n H hbar V E He Pn SH Hh Hb (conj UR UC) HV psi nt times) as [out [X [SX Z]]].
  assert (HV' : forall i j, (i < n)%nat -> (j < n)%nat -> op_entry H' i j = csum (fun k => V i k * RtoC (r * E k + c) * Cconj (V j k)) n).
  { intros i j Hi Hj. rewrite HA, HV by assumption. rewrite <- (UR i j Hi Hj). rewrite <- !csum_scal_l, <- csum_plus.
    apply csum_ext. intros k _. rewrite RtoC_plus, RtoC_mult. ring. }
  destruct (all_components eigh n H' hbar V (fun k => r * E k + c)%R He Pn SH' Hh' Hb (conj UR UC) HV' psi nt times') as [out' [X' [SX' Z']]].
  exists out, out'. repeat (split; [assumption|]). intros t i Lt Li.
  apply (components_determine n V (at2 out' t) (fun j => cexp (- Ci * RtoC c * RtoC (times' t) / RtoC hbar) * at2 out t j)); [exact UR| |exact Li].
  intros k Hk. rewrite (Z' t k Lt Hk).
  transitivity (cexp (- Ci * RtoC c * RtoC (times' t) / RtoC hbar) * inner_product n (fun i => V i k) (at2 out t)).
  - rewrite (Z t k Lt Hk), Cmult_assoc, turn_plus. f_equal. f_equal. rewrite (Ht t Lt), RtoC_plus, !RtoC_mult.
    field. intros K. apply Hb. apply RtoC_inj. exact K.
  - unfold inner_product. rewrite <- csum_scal_l. apply csum_ext. intros. ring.
Qed.

Lemma overlap_reversed eigh n H hbar : eigh_ok eigh -> (0 < n)%nat -> square n H -> hermitian n (op_entry H) -> hbar <> 0%R ->
  forall psi phi nt times times', (forall k, (k < nt)%nat -> times' k = (- times k)%R) ->
  exists out out', solve_schrodinger_equation_decomposition eigh hbar psi nt times H = Some out /\
    solve_schrodinger_equation_decomposition eigh hbar phi nt times' H = Some out' /\ ashape out = [nt; n] /\ ashape out' = [nt; n] /\
    forall k, (k < nt)%nat -> inner_product n (at2 out' k) psi = inner_product n phi (at2 out k).
Proof.
  intros He Pn SH Hh Hb psi phi nt times times' Ht.
  destruct (spectrum_of _ _ Hh) as [E [_ [V [[UR UC] HV]]]].
  destruct (all_components eigh n H hbar V E He Pn SH Hh Hb (conj UR UC) HV psi nt times) as [out [X [SX Z]]].
  destruct (all_components eigh n H hbar V E He Pn SH Hh Hb (conj UR UC) HV phi nt times') as [out' [X' [SX' Z']]].
  exists out, out'. repeat (split; [assumption|]). intros t Lt.
  assert (P : forall f g, inner_product n f g = csum (fun k => Cconj (inner_product n (fun i => V i k) f) * inner_product n (fun i => V i k) g) n).
  { intros f g. unfold inner_product.
    transitivity (csum (fun i => csum (fun j => Cconj (f i) * g j * cdelta i j) n) n).
    - apply csum_ext. intros i Hi. rewrite csum_delta_r by exact Hi. reflexivity.
    - transitivity (csum (fun i => csum (fun j => csum (fun k => Cconj (f i) * g j * (V i k * Cconj (V j k))) n) n) n).
      + apply csum_ext. intros i Hi. apply csum_ext. intros j Hj. rewrite <- (UR i j Hi Hj), csum_scal_l. reflexivity.
      + rewrite (csum_ext _ (fun i => csum (fun k => csum (fun j => Cconj (f i) * g j * (V i k * Cconj (V j k))) n) n)) by (intros; apply csum_swap).
        rewrite csum_swap. apply csum_ext. intros k _. rewrite Cconj_csum, csum_mult. apply csum_ext. intros i _. apply csum_ext. intros j _.
        rewrite Cconj_mult, Cconj_conj. ring. }
  rewrite (P (at2 out' t) psi), (P phi (at2 out t)). apply csum_ext. intros k Hk. rewrite (Z t k Lt Hk), (Z' t k Lt Hk), Cconj_mult, <- turn_conj.
  replace (Cconj (- Ci * RtoC (E k) * RtoC (times' t) / RtoC hbar)) with (- Ci * RtoC (E k) * RtoC (times t) / RtoC hbar); [ring|].
  rewrite (Ht t Lt). unfold Cdiv. rewrite <- RtoC_inv by exact Hb. rewrite !Cconj_mult, !Cconj_RtoC.
  apply injective_projections; cbn; ring.
Qed.

Lemma affine_evolution same eigh hbar mass axes delta inv frac data data' r c : identity_test same -> eigh_ok eigh ->
  bwf (BTuple axes) -> explicit_orthonormal (BTuple axes) -> is_inverse (length axes) delta inv ->
  let B := BTuple axes in
  (0 < bsize B)%nat -> hbar <> 0%R -> mass <> 0%R -> r <> 0%R -> real_valued B data ->
  (forall x, (x < bfund B)%nat -> amplitude B data' x = RtoC r * amplitude B data x + RtoC c) ->
  exists H H', total_surface_hamiltonian same hbar axes inv data mass frac = Some H /\
    total_surface_hamiltonian same hbar axes inv data' (mass / r) frac = Some H' /\
  forall psi nt times times', (forall k, (k < nt)%nat -> times k = (r * times' k)%R) ->
  exists out out', solve_schrodinger_equation_decomposition eigh hbar psi nt times H = Some out /\
    solve_schrodinger_equation_decomposition eigh hbar psi nt times' H' = Some out' /\
    ashape out = [nt; bsize B] /\ ashape out' = [nt; bsize B] /\
    forall k, (k < nt)%nat ->
      (forall i, (i < bsize B)%nat -> at2 out' k i = cexp (- Ci * RtoC c * RtoC (times' k) / RtoC hbar) * at2 out k i) /\
      forall x, (x < bfund B)%nat -> Cnorm2 (amplitude B (at2 out' k) x) = Cnorm2 (amplitude B (at2 out k) x).
Proof.
  intros Hs He Wb Ob Hi B Pn Hb Hm Hr0 Hr Hd.
  assert (Hr' : real_valued B data').
  { intros x Hx. rewrite (Hd x Hx). assert (K := Hr x Hx). revert K. unfold B. destruct (amplitude (BTuple axes) data x) as [p m]. cbn. intros ->. ring. }
  destruct (hamiltonian_elements same Hs axes Wb Ob delta inv Hi hbar mass frac data) as [H [HH [SH [_ [_ EH]]]]].
  destruct (hamiltonian_elements same Hs axes Wb Ob delta inv Hi hbar (mass / r) frac data') as [H' [HH' [SH' [_ [_ EH']]]]].
  assert (X := hamiltonian_hermitian same Hs axes Wb Ob delta inv Hi hbar mass frac data H Hr HH).
  assert (X' := hamiltonian_hermitian same Hs axes Wb Ob delta inv Hi hbar (mass / r) frac data' H' Hr' HH').
  exists H, H'. split; [exact HH|]. split; [exact HH'|]. intros psi nt times times' Ht.
  assert (Q : exists q, waves (map bfund axes) delta frac q).
  { eexists. apply (waves_exist (map bfund axes) delta inv frac). rewrite map_length. exact Hi. }
  destruct Q as [q Q].
  destruct (evolution_affine eigh (bsize B) H H' hbar r c He Pn SH SH' X X' Hb) with (psi := psi) (nt := nt) (times := times) (times' := times')
    as [out [out' [Y [Y' [S [S' Z]]]]]].
  - intros i j Li Lj. rewrite (EH q Q i j Li Lj), (EH' q Q i j Li Lj). rewrite <- (explicit_orthonormal_sound B Wb Ob i j Li Lj). unfold overlap at 5.
    rewrite Cmult_plus_distr_l, <- !csum_scal_l.
    match goal with |- ?a + ?b = ?p + ?k + ?o => transitivity ((p + o) + k); [|ring] end. f_equal.
    + change (bfund B) with (nprod (map bfund axes)). rewrite <- csum_plus. apply csum_ext. intros x Hx. assert (K := Hd x Hx). unfold B in K. rewrite K. unfold B. ring.
    + apply csum_ext. intros k _. replace (hbar * hbar * dot (length axes) (q k) (q k) / (2 * (mass / r)))%R with (r * (hbar * hbar * dot (length axes) (q k) (q k) / (2 * mass)))%R by (field; split; assumption).
      rewrite RtoC_mult. ring.
  - exact Ht.
  - exists out, out'. repeat (split; [assumption|]). intros k Hk. split; [intros i Li; exact (Z k i Hk Li)|].
    intros x Hx. rewrite (amplitude_scaled B (at2 out k) (at2 out' k) _ x (fun i Li => Z k i Hk Li)).
    rewrite Cnorm2_mult, turn_unit by exact Hb. ring.
Qed.
