(** Reversed and moved evolution (C143). *)
From Coq Require Import Reals Psatz.
From Verif Require Import ZLib Csum DFT NumPy Spec SpecReal Index IndexProofs Lattice LatticeProofs Basis SpecBasis BasisProofs BasisProofs2 BasisProofs3 Operator SpecOperator
  OperatorProofs OperatorProofs2 OperatorProofs3 Wavepacket SpecWavepacket WavepacketProofs2 Hamiltonian SpecHamiltonian HamiltonianProofs HamiltonianProofs2 HamiltonianProofs3
  SpecMatrix Localize SpecLocalize LocalizeProofs4 EigenBasis SpecEigenBasis EigenBasisProofs
  InterlaceProofs InterlaceProofs3 SpecSymmetry SymmetryProofs SymmetryProofs2 HamiltonianFacts Dynamics SupercellDynamics SeparableProofs3 SpecSeed.
Local Open Scope R_scope.
Local Open Scope C_scope.

Lemma turn_conj z : cexp (Cconj z) = Cconj (cexp z).
Proof. unfold cexp. apply injective_projections; cbn; rewrite ?cos_neg, ?sin_neg; ring. Qed.

(** Every solution is described by its components along the eigenvectors. *)
Lemma all_components eigh n H hbar V E : eigh_ok eigh -> (0 < n)%nat -> square n H -> hermitian n (op_entry H) -> hbar <> 0%R ->
  unitary n V -> (forall i j, (i < n)%nat -> (j < n)%nat -> op_entry H i j = csum (fun k => V i k * RtoC (E k) * Cconj (V j k)) n) ->
  forall psi nt times, exists out, solve_schrodinger_equation_decomposition eigh hbar psi nt times H = Some out /\ ashape out = [nt; n] /\
    forall s k, (s < nt)%nat -> (k < n)%nat -> inner_product n (fun i => V i k) (at2 out s) =
      cexp (- Ci * RtoC (E k) * RtoC (times s) / RtoC hbar) * inner_product n (fun i => V i k) psi.
Proof.
  intros He Pn SH Hh Hb [UR UC] HV psi nt times.
  assert (EV : forall k, (k < n)%nat -> forall i, (i < n)%nat -> csum (fun j => op_entry H i j * V j k) n = RtoC (E k) * V i k)
    by (intros k Hk; exact (spectrum_eigenvector n _ V E k UC HV Hk)).
  destruct (evolved_component eigh n H hbar _ (fun i => V i 0%nat) He Pn SH Hh Hb (EV 0%nat Pn) psi nt times) as [out [X [SX _]]].
  exists out. split; [exact X|]. split; [exact SX|]. intros s k Hs Hk.
  destruct (evolved_component eigh n H hbar _ (fun i => V i k) He Pn SH Hh Hb (EV k Hk) psi nt times) as [o [Y [_ Z]]].
  rewrite X in Y. injection Y as <-. exact (proj1 (Z s Hs)).
Qed.

Lemma evolution_conj eigh n H H' hbar (s : nat -> nat) : eigh_ok eigh -> (0 < n)%nat -> square n H -> square n H' ->
  hermitian n (op_entry H) -> hermitian n (op_entry H') -> hbar <> 0%R ->
  (forall i, (i < n)%nat -> (s i < n)%nat /\ s (s i) = i) ->
  (forall i j, (i < n)%nat -> (j < n)%nat -> op_entry H' (s i) (s j) = Cconj (op_entry H i j)) ->
  forall psi psi' nt times times', (forall i, (i < n)%nat -> psi' (s i) = Cconj (psi i)) -> (forall k, (k < nt)%nat -> times' k = (- times k)%R) ->
  exists out out', solve_schrodinger_equation_decomposition eigh hbar psi nt times H = Some out /\
    solve_schrodinger_equation_decomposition eigh hbar psi' nt times' H' = Some out' /\ ashape out = [nt; n] /\ ashape out' = [nt; n] /\
    forall k i, (k < nt)%nat -> (i < n)%nat -> at2 out' k (s i) = Cconj (at2 out k i).
Proof.
  intros He Pn SH SH' Hh Hh' Hb Hs HA psi psi' nt times times' Hp Ht.
  destruct (spectrum_of _ _ Hh) as [E [_ [V [[UR UC] HV]]]].
  destruct (all_components eigh n H hbar V E He Pn SH Hh Hb (conj UR UC) HV psi nt times) as [out [X [SX Z]]].
  set (V' := fun i k => Cconj (V (s i) k)).
  assert (UR' : orthonormal_rows n n V').
  { intros i j Hi Hj. destruct (Hs i Hi) as [Si Ssi]. destruct (Hs j Hj) as [Sj Ssj].
    transitivity (Cconj (csum (fun k => V (s i) k * Cconj (V (s j) k)) n)).
    + rewrite Cconj_csum. apply csum_ext. intros k _. unfold V'. rewrite Cconj_mult. reflexivity.
    + rewrite (UR (s i) (s j) Si Sj). unfold cdelta. destruct (Nat.eqb_spec (s i) (s j)) as [e|ne], (Nat.eqb_spec i j) as [e'|ne'];
        try (rewrite Cconj_1; reflexivity); try (apply injective_projections; cbn; ring); exfalso; [apply ne'|apply ne]; congruence. }
  assert (UC' : orthonormal_columns n n V').
  { intros i j Hi Hj.
    transitivity (Cconj (csum (fun p => (fun p => Cconj (V p i) * V p j) (s p)) n)).
    + rewrite Cconj_csum. apply csum_ext. intros p _. unfold V'. rewrite Cconj_mult. reflexivity.
    + rewrite (csum_bij (fun p => Cconj (V p i) * V p j) n n s s) by assumption. rewrite (UC i j Hi Hj).
      unfold cdelta. destruct (Nat.eqb_spec i j); apply injective_projections; cbn; ring. }
  assert (HV' : forall i j, (i < n)%nat -> (j < n)%nat -> op_entry H' i j = csum (fun k => V' i k * RtoC (E k) * Cconj (V' j k)) n).
  { intros i j Hi Hj. destruct (Hs i Hi) as [Si Ssi]. destruct (Hs j Hj) as [Sj Ssj].
    rewrite <- Ssi, <- Ssj at 1. rewrite HA by assumption. rewrite HV by assumption. rewrite Cconj_csum.
    apply csum_ext. intros k _. unfold V'. rewrite !Cconj_mult, Cconj_RtoC, Cconj_conj. reflexivity. }
  destruct (all_components eigh n H' hbar V' E He Pn SH' Hh' Hb (conj UR' UC') HV' psi' nt times') as [out' [X' [SX' Z']]].
  exists out, out'. repeat (split; [assumption|]). intros t i Lt Li. destruct (Hs i Li) as [Si Ssi].
  assert (J : forall f g k, (forall i, (i < n)%nat -> g (s i) = Cconj (f i)) ->
    inner_product n (fun i => V' i k) g = Cconj (inner_product n (fun i => V i k) f)).
  { intros f g k Hfg. unfold inner_product. rewrite Cconj_csum.
    rewrite <- (csum_bij (fun x => Cconj (V' x k) * g x) n n s s) by assumption.
    apply csum_ext. intros p Hp'. unfold V'. rewrite (proj2 (Hs p Hp')), Hfg, Cconj_mult by exact Hp'. reflexivity. }
  transitivity ((fun j => Cconj (at2 out t (s j))) (s i)); [|cbn beta; rewrite Ssi; reflexivity].
  apply (components_determine n V' (at2 out' t) (fun j => Cconj (at2 out t (s j)))); [exact UR'| |exact Si].
  intros k Hk. rewrite (Z' t k Lt Hk), (J psi psi' k Hp).
  rewrite (J (at2 out t) (fun j => Cconj (at2 out t (s j))) k) by (intros j Hj; rewrite (proj2 (Hs j Hj)); reflexivity).
  rewrite (Z t k Lt Hk), Cconj_mult. f_equal. rewrite (Ht t Lt).
  rewrite <- turn_conj. f_equal.
  unfold Cdiv. rewrite <- RtoC_inv by exact Hb. rewrite !Cconj_mult, !Cconj_RtoC.
  apply injective_projections; cbn; ring.
Qed.

Lemma evolution_phase eigh n H H' hbar (u : nat -> C) : eigh_ok eigh -> (0 < n)%nat -> square n H -> square n H' ->
  hermitian n (op_entry H) -> hermitian n (op_entry H') -> hbar <> 0%R ->
  (forall i, (i < n)%nat -> u i * Cconj (u i) = 1) ->
  (forall i j, (i < n)%nat -> (j < n)%nat -> op_entry H' i j = u i * op_entry H i j * Cconj (u j)) ->
  forall psi psi' nt times, (forall i, (i < n)%nat -> psi' i = u i * psi i) ->
  exists out out', solve_schrodinger_equation_decomposition eigh hbar psi nt times H = Some out /\
    solve_schrodinger_equation_decomposition eigh hbar psi' nt times H' = Some out' /\ ashape out = [nt; n] /\ ashape out' = [nt; n] /\
    forall k i, (k < nt)%nat -> (i < n)%nat -> at2 out' k i = u i * at2 out k i.
Proof.
  intros He Pn SH SH' Hh Hh' Hb Hu HA psi psi' nt times Hp.
  destruct (spectrum_of _ _ Hh) as [E [_ [V [[UR UC] HV]]]].
  destruct (all_components eigh n H hbar V E He Pn SH Hh Hb (conj UR UC) HV psi nt times) as [out [X [SX Z]]].
  set (V' := fun i k => u i * V i k).
  assert (UR' : orthonormal_rows n n V').
  { intros i j Hi Hj. transitivity (u i * Cconj (u j) * csum (fun k => V i k * Cconj (V j k)) n).
    + rewrite <- csum_scal_l. apply csum_ext. intros k _. unfold V'. rewrite Cconj_mult. ring.
    + rewrite (UR i j Hi Hj). unfold cdelta. destruct (Nat.eqb_spec i j) as [->|]; [rewrite Hu by exact Hj|]; ring. }
  assert (J : forall f g k, (forall i, (i < n)%nat -> g i = u i * f i) ->
    inner_product n (fun i => V' i k) g = inner_product n (fun i => V i k) f).
  { intros f g k Hfg. unfold inner_product. apply csum_ext. intros p Hp'. unfold V'. rewrite Hfg, Cconj_mult by exact Hp'.
    transitivity ((u p * Cconj (u p)) * (Cconj (V p k) * f p)); [ring|]. rewrite Hu by exact Hp'. ring. }
  assert (UC' : orthonormal_columns n n V').
  { intros i j Hi Hj. rewrite <- (UC i j Hi Hj). exact (J (fun p => V p j) (fun p => V' p j) i (fun _ _ => eq_refl)). }
  assert (HV' : forall i j, (i < n)%nat -> (j < n)%nat -> op_entry H' i j = csum (fun k => V' i k * RtoC (E k) * Cconj (V' j k)) n).
  { intros i j Hi Hj. rewrite HA, HV by assumption. rewrite <- csum_scal_l, <- csum_scal_r. apply csum_ext. intros k _.
    unfold V'. rewrite Cconj_mult. ring. }
  destruct (all_components eigh n H' hbar V' E He Pn SH' Hh' Hb (conj UR' UC') HV' psi' nt times) as [out' [X' [SX' Z']]].
  exists out, out'. repeat (split; [assumption|]). intros t i Lt Li.
  apply (components_determine n V' (at2 out' t) (fun j => u j * at2 out t j)); [exact UR'| |exact Li].
  intros k Hk. rewrite (Z' t k Lt Hk), (J psi psi' k Hp).
  rewrite (J (at2 out t) (fun j => u j * at2 out t j) k) by reflexivity. symmetry. exact (Z t k Lt Hk).
Qed.

Section Surface.
  Context (same : basis -> basis -> bool) (hbar mass : R) (axes : list basis) (delta inv : nat -> nat -> R).
  Hypothesis Hs : identity_test same.
  Hypothesis HP : Forall plane_wave_axis axes.
  Hypothesis Hi : is_inverse (length axes) delta inv.
  Hypothesis Hb : hbar <> 0%R.
  Let B := BTuple axes.

  Lemma surface_square data frac : real_valued B data -> exists H, total_surface_hamiltonian same hbar axes inv data mass frac = Some H /\
    square (bsize B) H /\ hermitian (bsize B) (op_entry H).
  Proof using Hs HP Hi.
    intros Hr. destruct (axes_wf axes HP) as [Wb Ob].
    destruct (plane_elements same hbar mass axes delta inv Hs HP Hi data frac) as [H [HH _]].
    destruct (energies_exist same hbar axes delta inv frac Hs Hi H axes data mass eq_refl Wb Ob Hr HH) as [R1 [C1 [W X]]].
    exists H. split; [exact HH|]. split; [split; [exact W|rewrite R1, C1; split; reflexivity]|exact X].
  Qed.

  Lemma reversed_evolution eigh data frac frac' : eigh_ok eigh -> Forall Nat.Odd (map bsize axes) -> real_valued B data ->
    (forall a, (a < length axes)%nat -> fraction frac' a = (- fraction frac a)%R) ->
    exists H H', total_surface_hamiltonian same hbar axes inv data mass frac = Some H /\
      total_surface_hamiltonian same hbar axes inv data mass frac' = Some H' /\
    forall psi psi' nt times times', (forall x, (x < bfund B)%nat -> amplitude B psi' x = Cconj (amplitude B psi x)) ->
      (forall k, (k < nt)%nat -> times' k = (- times k)%R) ->
    exists out out', solve_schrodinger_equation_decomposition eigh hbar psi nt times H = Some out /\
      solve_schrodinger_equation_decomposition eigh hbar psi' nt times' H' = Some out' /\
      ashape out = [nt; bsize B] /\ ashape out' = [nt; bsize B] /\
      forall k x, (k < nt)%nat -> (x < bfund B)%nat -> amplitude B (at2 out' k) x = Cconj (amplitude B (at2 out k) x).
  Proof using Hs HP Hi Hb.
    intros He Ho Hr Hf. destruct (axes_wf axes HP) as [Wb Ob].
    destruct (surface_square data frac Hr) as [H [HH [SH X]]]. destruct (surface_square data frac' Hr) as [H' [HH' [SH' X']]].
    exists H, H'. split; [exact HH|]. split; [exact HH'|]. intros psi psi' nt times times' Hp Ht.
    assert (PB : (0 < bsize B)%nat) by (apply nprod_pos; exact (axes_n_pos axes HP)).
    assert (OS := opposite_spec axes).
    assert (AC : forall f g, (forall i, (i < bsize B)%nat -> g (opposite axes i) = Cconj (f i)) ->
      forall x, (x < bfund B)%nat -> amplitude B g x = Cconj (amplitude B f x)).
    { intros f g Hfg x Hx. unfold amplitude. rewrite Cconj_csum.
      rewrite <- (csum_bij (fun k => g k * bstate B k x) (bsize B) (bsize B) (opposite axes) (opposite axes)) by exact OS.
      apply csum_ext. intros k Hk. rewrite Hfg by exact Hk. unfold B. rewrite (opposite_state axes HP k x Ho Hk Hx), Cconj_mult. reflexivity. }
    assert (Q : forall i, (i < bsize B)%nat -> psi' (opposite axes i) = Cconj (psi i)).
    { intros i Li. destruct (OS i Li) as [Lo Io].
      transitivity ((fun j => Cconj (psi (opposite axes j))) (opposite axes i)); [|cbn beta; rewrite Io; reflexivity].
      apply (amplitude_injective B psi' (fun j => Cconj (psi (opposite axes j)))); [exact (explicit_orthonormal_sound B Wb Ob)| |exact Lo].
      intros x Hx. rewrite Hp by exact Hx. symmetry. apply AC; [|exact Hx]. intros j Lj. rewrite (proj2 (OS j Lj)). reflexivity. }
    destruct (evolution_conj eigh (bsize B) H H' hbar (opposite axes) He PB SH SH' X X' Hb OS
      (reversed_entries same hbar mass axes delta inv Hs HP Hi data frac frac' H H' Ho Hr Hf HH HH') psi psi' nt times times' Q Ht)
      as [out [out' [Y [Y' [S [S' Z]]]]]].
    exists out, out'. repeat (split; [assumption|]). intros k x Hk Hx. apply AC; [|exact Hx]. intros i Li. exact (Z k i Hk Li).
  Qed.

  Lemma moved_evolution c eigh data data' frac : length c = length axes -> eigh_ok eigh -> real_valued B data ->
    let N := map bfund axes in
    (forall x, in_shape x N -> amplitude B data' (ravel N x) = amplitude B data (ravel N (displaced N c x))) ->
    exists H H', total_surface_hamiltonian same hbar axes inv data mass frac = Some H /\
      total_surface_hamiltonian same hbar axes inv data' mass frac = Some H' /\
    forall psi psi' nt times,
      (forall x, in_shape x N -> amplitude B psi' (ravel N x) = amplitude B psi (ravel N (displaced N c x))) ->
    exists out out', solve_schrodinger_equation_decomposition eigh hbar psi nt times H = Some out /\
      solve_schrodinger_equation_decomposition eigh hbar psi' nt times H' = Some out' /\
      ashape out = [nt; bsize B] /\ ashape out' = [nt; bsize B] /\
      forall k x, (k < nt)%nat -> in_shape x N -> amplitude B (at2 out' k) (ravel N x) = amplitude B (at2 out k) (ravel N (displaced N c x)).
  Proof using Hs HP Hi Hb.
    intros Lc He Hr N Hd. destruct (axes_wf axes HP) as [Wb Ob].
    set (move := fun x => ravel N (displaced N c (unravel N x))).
    assert (MV : forall f g, (forall x, in_shape x N -> amplitude B g (ravel N x) = amplitude B f (ravel N (displaced N c x))) ->
      forall x, (x < nprod N)%nat -> amplitude B g x = amplitude B f (move x)).
    { intros f g Hfg x Hx. rewrite <- (ravel_unravel N x Hx) at 1. apply Hfg. apply unravel_in_shape. exact Hx. }
    assert (Hd' := MV data data' Hd).
    assert (Hr' : real_valued B data').
    { intros x Hx. rewrite Hd' by exact Hx. apply Hr. apply (move_back axes HP c Lc). exact Hx. }
    destruct (surface_square data frac Hr) as [H [HH [SH X]]]. destruct (surface_square data' frac Hr') as [H' [HH' [SH' X']]].
    exists H, H'. split; [exact HH|]. split; [exact HH'|]. intros psi psi' nt times Hp.
    assert (PB : (0 < bsize B)%nat) by (apply nprod_pos; exact (axes_n_pos axes HP)).
    set (phase := fun t => plane N (sample_freqs (map bsize axes) (unravel (map bsize axes) t)) (map Z.opp c)).
    assert (AM : forall f x, (x < nprod N)%nat -> amplitude B (fun t => phase t * f t) x = amplitude B f (move x)).
    { intros f x Hx. unfold amplitude. apply csum_ext. intros t Lt. unfold B, move, N. rewrite (moved_state axes HP c Lc t x Lt Hx). unfold phase, N. ring. }
    assert (Q : forall i, (i < bsize B)%nat -> psi' i = phase i * psi i).
    { apply (amplitude_injective B psi' (fun t => phase t * psi t)); [exact (explicit_orthonormal_sound B Wb Ob)|].
      intros x Hx. rewrite (AM psi x Hx). exact (MV psi psi' Hp x Hx). }
    destruct (evolution_phase eigh (bsize B) H H' hbar phase He PB SH SH' X X' Hb
      (fun i _ => phase_unit axes c i)
      (moved_entries same hbar mass axes delta inv Hs HP Hi c Lc data data' frac H H' Hd' HH HH') psi psi' nt times Q)
      as [out [out' [Y [Y' [S [S' Z]]]]]].
    exists out, out'. repeat (split; [assumption|]). intros k x Hk Hx.
    assert (Lx := ravel_lt N x Hx).
    transitivity (amplitude B (fun t => phase t * at2 out k t) (ravel N x)).
    - unfold amplitude. apply csum_ext. intros t Lt. rewrite (Z k t Hk Lt). reflexivity.
    - rewrite (AM _ _ Lx). unfold move. rewrite unravel_ravel by exact Hx. reflexivity.
  Qed.
End Surface.
