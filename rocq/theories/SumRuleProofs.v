(** The sum of all energies, and energies of shifted and scaled potentials. *)
From Coq Require Import Reals Psatz.
From Verif Require Import ZLib Csum DFT NumPy Spec SpecReal Index IndexProofs Lattice LatticeProofs Basis SpecBasis BasisProofs BasisProofs2 BasisProofs3 Operator SpecOperator
  OperatorProofs OperatorProofs2 Wavepacket SpecWavepacket WavepacketProofs2 OverlapProofs3 Hamiltonian SpecHamiltonian HamiltonianProofs HamiltonianProofs2 HamiltonianProofs3
  SpecMatrix Localize SpecLocalize LocalizeProofs4 Spectral Spectral2 Spectral3 EigenBasis SpecEigenBasis EigenBasisProofs GeneratorProofs4
  InterlaceProofs InterlaceProofs3 ObservablesProofs6 SpecSymmetry SymmetryProofs SeedProofs HamiltonianProofs4.
Local Open Scope R_scope.
Local Open Scope C_scope.

Lemma snd_shift a c : snd (a + RtoC c) = snd a. Proof. cbn. ring. Qed.
Lemma fst_shift a c : fst (a + RtoC c) = (fst a + c)%R. Proof. cbn. ring. Qed.
Lemma snd_scale a s : snd (RtoC s * a) = (s * snd a)%R. Proof. cbn. ring. Qed.

(** The sum of the eigenvalues is the sum of the diagonal. *)
Lemma spectrum_trace n A E : ascending_spectrum n A E -> csum (fun i => A i i) n = RtoC (rsum E n).
Proof.
  intros [_ [V [[_ UC] HV]]].
  rewrite (csum_ext _ (fun i => csum (fun k => V i k * RtoC (E k) * Cconj (V i k)) n)) by (intros i Hi; apply HV; exact Hi).
  rewrite csum_swap, <- csum_RtoC. apply csum_ext. intros k Hk.
  transitivity (RtoC (E k) * csum (fun i => Cconj (V i k) * V i k) n).
  - rewrite <- csum_scal_l. apply csum_ext. intros i _. ring.
  - rewrite (UC k k Hk Hk), cdelta_refl. ring.
Qed.

Lemma spectrum_scale n A A' E (s : R) : (0 <= s)%R -> (forall i j, (i < n)%nat -> (j < n)%nat -> A' i j = RtoC s * A i j) ->
  ascending_spectrum n A E -> ascending_spectrum n A' (fun k => s * E k)%R.
Proof.
  intros Hs HA [SE [V [U HV]]]. split.
  - intros i j L1 L2. apply Rmult_le_compat_l; [exact Hs|]. apply SE; assumption.
  - exists V. split; [exact U|]. intros i j Hi Hj. rewrite HA, HV by assumption. rewrite <- csum_scal_l. apply csum_ext. intros k _.
    rewrite RtoC_mult. ring.
Qed.

Section Sum.
  Context (same : basis -> basis -> bool) (hbar mass : R) (axes : list basis) (delta inv : nat -> nat -> R).
  Hypothesis Hs : identity_test same.
  Hypothesis HP : Forall plane_wave_axis axes.
  Hypothesis Hi : is_inverse (length axes) delta inv.
  Let B := BTuple axes.
  Let n := map bsize axes.
  Let N := map bfund axes.

  Lemma among_waves frac q Q : waves N delta frac q -> waves n delta frac Q -> forall i, (i < bsize B)%nat ->
    forall c, (c < length axes)%nat -> q (among axes i) c = Q i c.
  Proof using HP Hi.
    intros Hq HQ i Hi' c Hc.
    assert (LN : length N = length axes) by (unfold N; apply map_length).
    assert (Ln : length n = length axes) by (unfold n; apply map_length).
    assert (A1 := Hq (among axes i) (among_lt axes HP i Hi')).
    assert (A2 := HQ i Hi').
    apply (wave_unique N delta inv (unravel N (among axes i)) (fraction frac)); [rewrite LN; exact Hi|exact A1| |rewrite LN; exact Hc].
    intros a Ha. assert (Ha' : (a < length n)%nat) by (rewrite Ln, <- LN; exact Ha). assert (A3 := A2 a Ha').
    rewrite LN. rewrite Ln in A3. rewrite A3. f_equal. f_equal. f_equal.
    assert (It := unravel_in_shape n i Hi'). assert (K := among_index axes HP i Hi' : unravel N (among axes i) = slots N (sample_freqs n (unravel n i))). rewrite K.
    assert (Is : in_shape (slots N (sample_freqs n (unravel n i))) N) by (apply slots_in; [apply (axes_le axes HP)|exact It]).
    rewrite <- (sample_freqs_nth N _ a Is Ha).
    rewrite slots_freqs; [|apply (axes_le axes HP)|exact It].
    rewrite <- (sample_freqs_nth n _ a It Ha'). reflexivity.
  Qed.

  Lemma plane_square i x : (i < bsize B)%nat -> (x < nprod N)%nat -> Cconj (bstate B i x) * bstate B i x = RtoC (/ INR (nprod N)).
  Proof using HP.
    intros Hi' Hx. unfold B. rewrite (state_plane axes HP i x Hi' Hx). fold N. rewrite Cconj_mult, isqrt_conj.
    transitivity (isqrt (nprod N) * isqrt (nprod N) * (Cconj (plane N (sample_freqs (map bsize axes) (unravel (map bsize axes) i)) (map Z.of_nat (unravel N x))) *
      plane N (sample_freqs (map bsize axes) (unravel (map bsize axes) i)) (map Z.of_nat (unravel N x)))); [ring|].
    rewrite Cconj_mult_self, plane_norm2.
    assert (P : (0 < nprod N)%nat) by lia. assert (K := isqrt_sqr _ P).
    assert (P' : INR (nprod N) <> 0%R) by (apply not_0_INR; lia).
    transitivity (isqrt (nprod N) * isqrt (nprod N) * RtoC (INR (nprod N)) * RtoC (/ INR (nprod N))).
    - rewrite <- !Cmult_assoc. do 2 f_equal. rewrite <- RtoC_mult. f_equal. field. exact P'.
    - rewrite K. ring.
  Qed.

  Lemma energy_sum eigh data frac Q : eigh_ok eigh -> real_valued B data -> waves n delta frac Q ->
    exists H e v, total_surface_hamiltonian same hbar axes inv data mass frac = Some H /\
      eigenstates_hermitian eigh H None = Some (bsize B, e, v) /\
      rsum e (bsize B) = (rsum (fun i => hbar * hbar * dot (length axes) (Q i) (Q i) / (2 * mass)) (bsize B) +
        INR (bsize B) / INR (nprod N) * rsum (fun x => fst (amplitude B data x)) (nprod N))%R.
  Proof using Hs HP Hi.
    intros He Hr HQ. destruct (axes_wf axes HP) as [Wb Ob].
    destruct (plane_elements same hbar mass axes delta inv Hs HP Hi data frac) as [H [HH [R1 [C1 [W EH]]]]].
    assert (X := energies_exist same hbar axes delta inv frac Hs Hi H axes data mass eq_refl Wb Ob Hr HH).
    destruct X as [_ [_ [_ X]]].
    assert (PB : (0 < bsize B)%nat) by (apply nprod_pos; exact (axes_n_pos axes HP)).
    destruct (energies_spec eigh H B None 0 (bsize B - 1) He R1 C1 W X) as [e [v [G K]]];
      [right; split; [reflexivity|split; lia]|lia|lia|].
    replace (bsize B - 1 - 0 + 1)%nat with (bsize B) in G, K by lia.
    exists H, e, v. split; [exact HH|]. split; [exact G|].
    destruct (spectrum_of _ _ X) as [E HE].
    rewrite (rsum_ext e E) by (intros k Hk; rewrite (K E HE k Hk); reflexivity).
    apply RtoC_inj. rewrite <- (spectrum_trace (bsize B) _ _ HE).
    assert (Hq : exists q, waves N delta frac q).
    { eexists. apply (waves_exist N delta inv frac). unfold N. rewrite map_length. exact Hi. }
    destruct Hq as [q Hq].
    rewrite (csum_ext _ (fun i => RtoC (rsum (fun x => fst (amplitude B data x)) (nprod N) / INR (nprod N)) +
      RtoC (hbar * hbar * dot (length axes) (Q i) (Q i) / (2 * mass)))).
    - rewrite csum_plus, csum_const, csum_RtoC, <- RtoC_mult, <- RtoC_plus. f_equal. unfold Rdiv. ring.
    - intros i Hi'. change (bsize (BTuple axes)) with (bsize B) in Hi'. rewrite (EH q Hq i i Hi' Hi'), cdelta_refl, Cmult_1_r. f_equal.
      + unfold Rdiv. rewrite RtoC_mult, <- csum_RtoC, <- csum_scal_r. apply csum_ext. intros x Hx.
        transitivity (Cconj (bstate B i x) * bstate B i x * amplitude B data x); [unfold B; ring|].
        rewrite (plane_square i x Hi' Hx).
        assert (Rx : amplitude B data x = RtoC (fst (amplitude B data x))) by (apply injective_projections; [reflexivity|exact (Hr x Hx)]).
        rewrite Rx at 1. ring.
      + do 2 f_equal. f_equal. unfold dot. apply rsum_ext. intros c Hc. rewrite (among_waves frac q Q Hq HQ i Hi' c Hc). reflexivity.
  Qed.
End Sum.

Lemma shifted_energies same eigh hbar mass axes delta inv frac data data' c : identity_test same -> eigh_ok eigh ->
  bwf (BTuple axes) -> explicit_orthonormal (BTuple axes) -> is_inverse (length axes) delta inv ->
  real_valued (BTuple axes) data -> (0 < mass)%R ->
  (forall x, (x < nprod (map bfund axes))%nat -> amplitude (BTuple axes) data' x = amplitude (BTuple axes) data x + RtoC c) ->
  exists H H', total_surface_hamiltonian same hbar axes inv data mass frac = Some H /\
    total_surface_hamiltonian same hbar axes inv data' mass frac = Some H' /\
  forall lo hi, (lo <= hi)%nat -> (hi < bsize (BTuple axes))%nat -> exists e v e' v',
    eigenstates_hermitian eigh H (Some (Z.of_nat lo, Z.of_nat hi)) = Some ((hi - lo + 1)%nat, e, v) /\
    eigenstates_hermitian eigh H' (Some (Z.of_nat lo, Z.of_nat hi)) = Some ((hi - lo + 1)%nat, e', v') /\
    forall k, (k < hi - lo + 1)%nat -> e' k = (e k + c)%R.
Proof.
  intros Hs He Hw Ho Hi Hr Hm Hd.
  assert (Hr' : real_valued (BTuple axes) data').
  { intros x Hx. rewrite Hd, snd_shift by exact Hx. exact (Hr x Hx). }
  destruct (hamiltonian_compare same eigh hbar mass mass axes delta inv frac data data' (- c) Hs He Hw Ho Hi Hr Hr' Hm (Rle_refl _)) as [H [H' [HH [HH' K]]]].
  { intros x Hx. rewrite Hd, fst_shift by exact Hx. lra. }
  destruct (hamiltonian_compare same eigh hbar mass mass axes delta inv frac data' data c Hs He Hw Ho Hi Hr' Hr Hm (Rle_refl _)) as [G' [G [GG' [GG K']]]].
  { intros x Hx. rewrite Hd, fst_shift by exact Hx. lra. }
  rewrite HH' in GG'. injection GG' as <-. rewrite HH in GG. injection GG as <-.
  exists H, H'. split; [exact HH|]. split; [exact HH'|]. intros lo hi L1 L2.
  destruct (K lo hi L1 L2) as [e [v [e' [v' [F1 [F2 F3]]]]]]. destruct (K' lo hi L1 L2) as [g' [w' [g [w [F4 [F5 F6]]]]]].
  exists e, v, e', v'. split; [exact F1|]. split; [exact F2|]. intros k Hk.
  rewrite F2 in F4. injection F4 as <- _. rewrite F1 in F5. injection F5 as <- _.
  assert (A1 := F3 k Hk). assert (A2 := F6 k Hk). lra.
Qed.

Lemma scaled_energies same eigh hbar mass axes delta inv frac data data' s : identity_test same -> eigh_ok eigh ->
  bwf (BTuple axes) -> explicit_orthonormal (BTuple axes) -> is_inverse (length axes) delta inv ->
  real_valued (BTuple axes) data -> (0 < mass)%R -> (0 < s)%R ->
  (forall x, (x < nprod (map bfund axes))%nat -> amplitude (BTuple axes) data' x = RtoC s * amplitude (BTuple axes) data x) ->
  exists H H', total_surface_hamiltonian same hbar axes inv data mass frac = Some H /\
    total_surface_hamiltonian same hbar axes inv data' (mass / s) frac = Some H' /\
  forall lo hi, (lo <= hi)%nat -> (hi < bsize (BTuple axes))%nat -> exists e v e' v',
    eigenstates_hermitian eigh H (Some (Z.of_nat lo, Z.of_nat hi)) = Some ((hi - lo + 1)%nat, e, v) /\
    eigenstates_hermitian eigh H' (Some (Z.of_nat lo, Z.of_nat hi)) = Some ((hi - lo + 1)%nat, e', v') /\
    forall k, (k < hi - lo + 1)%nat -> e' k = (s * e k)%R.
Proof.
  intros Hs He Hw Ho Hi Hr Hm Hp Hd.
  assert (Hr' : real_valued (BTuple axes) data').
  { intros x Hx. rewrite Hd, snd_scale, (Hr x Hx) by exact Hx. ring. }
  destruct (hamiltonian_elements same Hs axes Hw Ho delta inv Hi hbar mass frac data) as [H [HH [_ [_ [_ EH]]]]].
  destruct (hamiltonian_elements same Hs axes Hw Ho delta inv Hi hbar (mass / s) frac data') as [H' [HH' [_ [_ [_ EH']]]]].
  assert (X := energies_exist same hbar axes delta inv frac Hs Hi H axes data mass eq_refl Hw Ho Hr HH).
  assert (X' := energies_exist same hbar axes delta inv frac Hs Hi H' axes data' (mass / s) eq_refl Hw Ho Hr' HH').
  destruct (spectrum_of _ _ (proj2 (proj2 (proj2 X)))) as [E HE].
  assert (HE' : ascending_spectrum (bsize (BTuple axes)) (op_entry H') (fun k => s * E k)%R).
  { apply (spectrum_scale _ (op_entry H)); [lra| |exact HE]. intros i j Hi' Hj'.
    assert (Hq : exists q, waves (map bfund axes) delta frac q).
    { eexists. apply (waves_exist (map bfund axes) delta inv frac). rewrite map_length. exact Hi. }
    destruct Hq as [q Hq]. rewrite (EH q Hq i j Hi' Hj'), (EH' q Hq i j Hi' Hj').
    rewrite Cmult_plus_distr_l, <- !csum_scal_l. f_equal; apply csum_ext; intros x Hx.
    - rewrite (Hd x Hx). ring.
    - replace (hbar * hbar * dot (length axes) (q x) (q x) / (2 * (mass / s)))%R with (s * (hbar * hbar * dot (length axes) (q x) (q x) / (2 * mass)))%R by (field; lra).
      rewrite RtoC_mult. ring. }
  exists H, H'. split; [exact HH|]. split; [exact HH'|]. intros lo hi L1 L2.
  destruct (both_energies eigh H H' _ _ lo hi lo hi He X X' L1 L2 L1 L2) as [e [v [e' [v' [G [G' K]]]]]].
  exists e, v, e', v'. split; [exact G|]. split; [exact G'|]. destruct (K E _ HE HE') as [K1 K2].
  intros k Hk. rewrite K1, K2 by exact Hk. reflexivity.
Qed.

(** The potential moved to have its minimum at zero. *)
Lemma normalized_energies same eigh hbar mass N delta inv frac data data' : identity_test same -> eigh_ok eigh ->
  Forall (fun m => (0 < m)%nat) N -> is_inverse (length N) delta inv ->
  (forall x, (x < nprod N)%nat -> snd (data x) = 0%R) -> (0 < mass)%R -> normalize_potential (nprod N) data = Some data' ->
  exists x0, (x0 < nprod N)%nat /\ (forall x, (x < nprod N)%nat -> (fst (data x0) <= fst (data x))%R) /\
  exists H H', total_surface_hamiltonian same hbar (map BFund N) inv data mass frac = Some H /\
    total_surface_hamiltonian same hbar (map BFund N) inv data' mass frac = Some H' /\
  forall lo hi, (lo <= hi)%nat -> (hi < nprod N)%nat -> exists e v e' v',
    eigenstates_hermitian eigh H (Some (Z.of_nat lo, Z.of_nat hi)) = Some ((hi - lo + 1)%nat, e, v) /\
    eigenstates_hermitian eigh H' (Some (Z.of_nat lo, Z.of_nat hi)) = Some ((hi - lo + 1)%nat, e', v') /\
    forall k, (k < hi - lo + 1)%nat -> e' k = (e k - fst (data x0))%R.
Proof.
  intros Hs He HN Hi Hr Hm Hn. destruct (normalize_spec _ _ _ Hn) as [[x0 [L0 Z0]] [M D]].
  assert (E1 : map bfund (map BFund N) = N) by (rewrite map_map; apply map_id).
  assert (E2 : bsize (BTuple (map BFund N)) = nprod N) by (cbn [bsize]; rewrite map_map; f_equal; apply map_id).
  assert (E3 : bfund (BTuple (map BFund N)) = nprod N) by (cbn [bfund]; rewrite map_map; f_equal; apply map_id).
  assert (Am : forall v x, (x < nprod N)%nat -> amplitude (BTuple (map BFund N)) v x = v x).
  { intros v x Hx. rewrite <- (ravel_unravel N x Hx). apply amplitude_position. apply unravel_in_shape. exact Hx. }
  assert (Sh : forall x, (x < nprod N)%nat -> data' x = data x + RtoC (- fst (data x0))).
  { intros x Hx. assert (Q := D x x0). rewrite Z0 in Q. assert (R0 := Hr x0 L0).
    replace (RtoC (- fst (data x0))) with (- data x0) by (rewrite (surjective_pairing (data x0)), R0; apply injective_projections; cbn; ring).
    transitivity (data' x - 0); [ring|]. rewrite Q. ring. }
  exists x0. split; [exact L0|]. split.
  - intros x Hx. assert (Q := M x Hx). rewrite clt_false, (Sh x Hx), fst_shift in Q. cbn [fst RtoC] in Q. lra.
  - destruct (shifted_energies same eigh hbar mass (map BFund N) delta inv frac data data' (- fst (data x0))%R Hs He) as [H [H' [HH [HH' K]]]].
    + apply bwf_tuple. clear -HN. induction HN; cbn; constructor; assumption.
    + apply explicit_orthonormal_tuple. clear. induction N; cbn; constructor; [exact I|assumption].
    + rewrite map_length. exact Hi.
    + intros x Hx. rewrite E3 in Hx. rewrite Am by exact Hx. apply Hr. exact Hx.
    + exact Hm.
    + rewrite E1. intros x Hx. rewrite !Am by exact Hx. apply Sh. exact Hx.
    + exists H, H'. split; [exact HH|]. split; [exact HH'|]. rewrite E2 in K. intros lo hi L1 L2.
      destruct (K lo hi L1 L2) as [e [v [e' [v' [F1 [F2 F3]]]]]]. exists e, v, e', v'. split; [exact F1|]. split; [exact F2|].
      intros k Hk. rewrite F3 by exact Hk. ring.
Qed.
