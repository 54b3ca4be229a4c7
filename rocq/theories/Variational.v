(** Energies bound expectation values; the lowest energy is concave in the potential (C142). *)
From Coq Require Import Reals Psatz.
From Verif Require Import ZLib Csum DFT NumPy Spec SpecReal Index IndexProofs Lattice LatticeProofs Basis SpecBasis BasisProofs BasisProofs2 BasisProofs3 Operator SpecOperator
  OperatorProofs OperatorProofs2 OperatorProofs3 Wavepacket SpecWavepacket WavepacketProofs2 Hamiltonian SpecHamiltonian HamiltonianProofs HamiltonianProofs2 HamiltonianProofs3
  SpecMatrix LinAlg Polar Localize SpecLocalize Spectral Spectral2 Spectral3 EigenBasis SpecEigenBasis EigenBasisProofs
  SpecInterlace InterlaceProofs InterlaceProofs2 InterlaceProofs3 HamiltonianFacts.
Local Open Scope R_scope.
Local Open Scope C_scope.

Lemma eigenvector_form n A V E k : unitary n V -> (k < n)%nat ->
  (forall i j, (i < n)%nat -> (j < n)%nat -> A i j = csum (fun k => V i k * RtoC (E k) * Cconj (V j k)) n) ->
  form n A (fun i => V i k) = E k /\ nrm n (fun i => V i k) = 1%R.
Proof.
  intros [HR HC] Hk HA.
  assert (N1 : nrm n (fun i => V i k) = 1%R).
  { apply RtoC_inj. unfold nrm. rewrite <- (csum_norm2 (fun i => V i k)). rewrite (HC k k Hk Hk). apply cdelta_refl. }
  split; [|exact N1]. rewrite (diag_form n A V E (fun i => V i k) (conj HR HC) HA).
  rewrite (rsum_ext _ (fun r => rdelta r k * E r)%R).
  - rewrite rsum_delta by exact Hk. reflexivity.
  - intros r Hr. rewrite (HC r k Hr Hk). unfold rdelta. destruct (Nat.eqb_spec r k) as [->|Ne].
    + rewrite cdelta_refl. unfold Cnorm2. cbn. ring.
    + rewrite cdelta_neq by exact Ne. unfold Cnorm2. cbn. ring.
Qed.

(** The lowest and highest eigenvalues bound the form of every vector. *)
Lemma form_bounds n A E x : (0 < n)%nat -> ascending_spectrum n A E ->
  (E 0%nat * nrm n x <= form n A x <= E (n - 1)%nat * nrm n x)%R.
Proof.
  intros Hn [SE [V [HV HA]]]. split.
  - apply (form_above n A V E x 0 HV HA SE). intros; lia.
  - apply (form_below n A V E x (n - 1) HV ltac:(lia) HA SE). intros; lia.
Qed.

Lemma expectation_bounds same eigh b h psi : identity_test same -> eigh_ok eigh -> bwf b -> explicit_orthonormal b -> op_wf h ->
  orow h = b -> ocol h = b -> hermitian (bsize b) (op_entry h) ->
  exists e v x, eigenstates_hermitian eigh h None = Some (bsize b, e, v) /\ calculate_expectation same h b psi = Some (RtoC x) /\
    (e 0%nat * rsum (fun i => Cnorm2 (psi i)) (bsize b) <= x <= e (bsize b - 1)%nat * rsum (fun i => Cnorm2 (psi i)) (bsize b))%R /\
    exists low high, rsum (fun i => Cnorm2 (low i)) (bsize b) = 1%R /\ rsum (fun i => Cnorm2 (high i)) (bsize b) = 1%R /\
      calculate_expectation same h b low = Some (RtoC (e 0%nat)) /\ calculate_expectation same h b high = Some (RtoC (e (bsize b - 1)%nat)).
Proof.
  intros Hs He Wb Ob Wh R1 C1 Hh. assert (PB := bsize_pos b Wb).
  destruct (energies_spec eigh h b None 0 (bsize b - 1) He R1 C1 Wh Hh) as [e [v [G K]]];
    [right; split; [reflexivity|split; lia]|lia|lia|].
  replace (bsize b - 1 - 0 + 1)%nat with (bsize b) in G, K by lia.
  destruct (spectrum_of _ _ Hh) as [E HE].
  assert (KE : forall k, (k < bsize b)%nat -> e k = E k) by (intros k Hk; rewrite (K E HE k Hk); reflexivity).
  assert (XS : forall u, calculate_expectation same h b u = Some (RtoC (form (bsize b) (op_entry h) u))).
  { intros u. rewrite expectation_spec by assumption. f_equal.
    change (matrix_element (bsize b) u (op_entry h) u) with (inner_product (bsize b) u (mv (bsize b) (op_entry h) u)).
    apply form_real. exact Hh. }
  exists e, v, (form (bsize b) (op_entry h) psi). split; [exact G|]. split; [apply XS|]. rewrite !KE by lia.
  split; [apply form_bounds; assumption|]. destruct HE as [SE [V [HV HA]]].
  destruct (eigenvector_form _ _ V E 0 HV PB HA) as [F0 N0].
  assert (Lt : (bsize b - 1 < bsize b)%nat) by lia. destruct (eigenvector_form _ _ V E (bsize b - 1) HV Lt HA) as [F1 N1].
  exists (fun i => V i 0%nat), (fun i => V i (bsize b - 1)%nat). split; [exact N0|]. split; [exact N1|]. rewrite !XS, F0, F1. split; reflexivity.
Qed.

Section Concave.
  Context (same : basis -> basis -> bool) (hbar mass : R) (axes : list basis) (delta inv : nat -> nat -> R) (frac : option (nat -> R)).
  Hypothesis Hs : identity_test same.
  Hypothesis Hw : bwf (BTuple axes).
  Hypothesis Ho : explicit_orthonormal (BTuple axes).
  Hypothesis Hi : is_inverse (length axes) delta inv.
  Let B := BTuple axes.

  Lemma concave_energies eigh data data1 data2 t : eigh_ok eigh -> real_valued B data1 -> real_valued B data2 -> (0 <= t <= 1)%R ->
    (forall x, (x < bfund B)%nat -> amplitude B data x = RtoC t * amplitude B data1 x + RtoC (1 - t) * amplitude B data2 x) ->
    exists H H1 H2 e v e1 v1 e2 v2, total_surface_hamiltonian same hbar axes inv data mass frac = Some H /\
      total_surface_hamiltonian same hbar axes inv data1 mass frac = Some H1 /\
      total_surface_hamiltonian same hbar axes inv data2 mass frac = Some H2 /\
      eigenstates_hermitian eigh H None = Some (bsize B, e, v) /\ eigenstates_hermitian eigh H1 None = Some (bsize B, e1, v1) /\
      eigenstates_hermitian eigh H2 None = Some (bsize B, e2, v2) /\
      (t * e1 0%nat + (1 - t) * e2 0%nat <= e 0%nat)%R /\
      (e (bsize B - 1)%nat <= t * e1 (bsize B - 1)%nat + (1 - t) * e2 (bsize B - 1)%nat)%R.
  Proof using Hs Hw Ho Hi.
    intros He Hr1 Hr2 Ht Hv.
    assert (Hr : real_valued B data).
    { intros x Hx. rewrite (Hv x Hx). assert (A1 := Hr1 x Hx). assert (A2 := Hr2 x Hx). cbn [Cplus Cmult RtoC snd fst]. rewrite A1, A2. ring. }
    assert (PB := bsize_pos B Hw). assert (Lt : (bsize B - 1 < bsize B)%nat) by lia.
    assert (Z : forall da, real_valued B da -> exists H e v E, total_surface_hamiltonian same hbar axes inv da mass frac = Some H /\
      eigenstates_hermitian eigh H None = Some (bsize B, e, v) /\ ascending_spectrum (bsize B) (op_entry H) E /\ forall k, (k < bsize B)%nat -> e k = E k).
    { intros da Hda. destruct (hamiltonian_elements same Hs axes Hw Ho delta inv Hi hbar mass frac da) as [H [HH _]].
      destruct (energies_exist same hbar axes delta inv frac Hs Hi H axes da mass eq_refl Hw Ho Hda HH) as [R1 [C1 [W X]]].
      destruct (spectrum_of _ _ X) as [E HE].
      destruct (energies_spec eigh H B None 0 (bsize B - 1) He R1 C1 W X) as [e [v [G K]]];
        [right; split; [reflexivity|split; lia]|lia|lia|].
      replace (bsize B - 1 - 0 + 1)%nat with (bsize B) in G, K by lia.
      exists H, e, v, E. split; [exact HH|]. split; [exact G|]. split; [exact HE|]. intros k Hk. rewrite (K E HE k Hk). reflexivity. }
    destruct (Z data Hr) as [H [e [v [E [HH [G [HE KE]]]]]]]. destruct (Z data1 Hr1) as [H1 [e1 [v1 [E1 [HH1 [G1 [HE1 KE1]]]]]]].
    destruct (Z data2 Hr2) as [H2 [e2 [v2 [E2 [HH2 [G2 [HE2 KE2]]]]]]].
    exists H, H1, H2, e, v, e1, v1, e2, v2. split; [exact HH|]. split; [exact HH1|]. split; [exact HH2|].
    split; [exact G|]. split; [exact G1|]. split; [exact G2|]. rewrite !KE, !KE1, !KE2 by lia.
    assert (Q : exists q, waves (map bfund axes) delta frac q).
    { eexists. apply (waves_exist (map bfund axes) delta inv frac). rewrite map_length. exact Hi. }
    destruct Q as [q Hq].
    assert (F : forall u, form (bsize B) (op_entry H) u = (t * form (bsize B) (op_entry H1) u + (1 - t) * form (bsize B) (op_entry H2) u)%R).
    { intros u. unfold B.
      rewrite (form_energy same hbar axes delta inv frac Hs Hi axes data mass H q u eq_refl Hw Ho Hr HH Hq).
      rewrite (form_energy same hbar axes delta inv frac Hs Hi axes data1 mass H1 q u eq_refl Hw Ho Hr1 HH1 Hq).
      rewrite (form_energy same hbar axes delta inv frac Hs Hi axes data2 mass H2 q u eq_refl Hw Ho Hr2 HH2 Hq).
      set (N := nprod (map bfund axes)).
      match goal with |- (_ + ?k = _)%R => set (kin := k) end.
      rewrite (rsum_ext _ (fun x => t * (fst (amplitude B data1 x) * Cnorm2 (amplitude B u x)) + (1 - t) * (fst (amplitude B data2 x) * Cnorm2 (amplitude B u x)))%R).
      - rewrite rsum_plus, !rsum_scal_l. unfold B. ring.
      - intros x Hx. assert (Ex := Hv x Hx). unfold B in Ex. rewrite Ex. cbn [Cplus Cmult RtoC fst snd]. unfold B. ring. }
    assert (HE0 := HE). destruct HE0 as [SE [V [HV HA]]].
    destruct (eigenvector_form _ _ V E 0 HV PB HA) as [F0 N0]. destruct (eigenvector_form _ _ V E (bsize B - 1) HV Lt HA) as [F1 N1].
    split.
    - assert (A1 := form_bounds _ _ _ (fun i => V i 0%nat) PB HE1). assert (A2 := form_bounds _ _ _ (fun i => V i 0%nat) PB HE2).
      rewrite N0 in A1, A2. rewrite <- F0, F. nra.
    - assert (A1 := form_bounds _ _ _ (fun i => V i (bsize B - 1)%nat) PB HE1). assert (A2 := form_bounds _ _ _ (fun i => V i (bsize B - 1)%nat) PB HE2).
      rewrite N1 in A1, A2. rewrite <- F1, F. nra.
  Qed.
End Concave.

(** Two levels with an imaginary coupling. *)
Definition level_pair : operator := {| orow := BFund 2; ocol := BFund 2; odata := {| ashape := [4%nat];
  aflat := fun i => match i with 0%nat => RtoC 1 | 1%nat => Ci | 2%nat => - Ci | _ => RtoC 3 end |} |}.
Lemma level_pair_ok : bwf (BFund 2) /\ explicit_orthonormal (BFund 2) /\ op_wf level_pair /\ orow level_pair = BFund 2 /\ ocol level_pair = BFund 2 /\
  hermitian 2 (op_entry level_pair) /\ op_entry level_pair 0 1 <> 0.
Proof.
  split; [cbn; lia|]. split; [cbn; auto|]. split; [reflexivity|]. split; [reflexivity|]. split; [reflexivity|]. split.
  - intros i j Hi Hj. destruct i as [|[|i]]; try lia; destruct j as [|[|j]]; try lia; unfold adjoint, op_entry; cbn [level_pair odata aflat ocol bsize Nat.mul Nat.add]; apply injective_projections; cbn; ring.
  - unfold op_entry. cbn. intros K. apply (f_equal snd) in K. cbn in K. lra.
Qed.
Lemma cos_mixture : real_valued (BTuple cos_axes) (fun k => RtoC 2 * cos_data k) /\
  forall x, (x < bfund (BTuple cos_axes))%nat -> amplitude (BTuple cos_axes) (fun k => RtoC (7 / 4) * cos_data k) x =
    RtoC (1 / 4) * amplitude (BTuple cos_axes) cos_data x + RtoC (1 - 1 / 4) * amplitude (BTuple cos_axes) (fun k => RtoC 2 * cos_data k) x.
Proof.
  assert (A : forall c x, amplitude (BTuple cos_axes) (fun k => RtoC c * cos_data k) x = RtoC c * amplitude (BTuple cos_axes) cos_data x).
  { intros c x. unfold amplitude. rewrite <- csum_scal_l. apply csum_ext. intros. ring. }
  split.
  - intros x Hx. rewrite A. assert (K := cos_real x Hx). cbn [Cmult RtoC snd fst]. rewrite K. ring.
  - intros x _. rewrite !A, Cmult_assoc, <- RtoC_mult, <- Cmult_plus_distr_r, <- RtoC_plus. do 2 f_equal. field.
Qed.
