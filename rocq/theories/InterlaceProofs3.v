(** Energies of momentum basis Hamiltonians in nested bases, for different potentials and masses. *)
From Coq Require Import Reals Psatz.
From Verif Require Import ZLib Csum DFT NumPy SpecReal Lattice LatticeProofs Basis SpecBasis BasisProofs BasisProofs2 BasisProofs3 Operator SpecOperator
  OperatorProofs OperatorProofs2 Wavepacket SpecWavepacket Hamiltonian SpecHamiltonian HamiltonianProofs HamiltonianProofs2
  SpecMatrix LinAlg Polar Localize SpecLocalize Spectral Spectral2 Spectral3 EigenBasis SpecEigenBasis EigenBasisProofs
  SpecInterlace InterlaceProofs InterlaceProofs2.
Local Open Scope R_scope.
Local Open Scope C_scope.

Lemma within_expand b c j : bwf b -> explicit_orthonormal b -> bfund c = bfund b -> states_within c b -> (j < bsize c)%nat ->
  forall x, (x < bfund b)%nat -> bstate c j x = csum (fun r => overlap b c r j * bstate b r x) (bsize b).
Proof.
  intros Hb Ob Ec Sp Hj x Hx. destruct (Sp j Hj) as [g Hg]. rewrite Hg by exact Hx. apply csum_ext. intros r Hr. f_equal.
  unfold overlap. symmetry.
  transitivity (csum (fun y => csum (fun q => g q * (Cconj (bstate b r y) * bstate b q y)) (bsize b)) (bfund c)).
  - apply csum_ext. intros y Hy. rewrite Hg by lia. rewrite <- csum_scal_l. apply csum_ext. intros. ring.
  - rewrite csum_swap. rewrite (csum_ext _ (fun q => g q * cdelta r q)).
    + apply csum_delta_r. exact Hr.
    + intros q Hq. rewrite csum_scal_l. rewrite <- (explicit_orthonormal_sound b Hb Ob r q Hr Hq). unfold overlap. rewrite Ec. reflexivity.
Qed.

Lemma amplitude_lift b c u : bwf b -> explicit_orthonormal b -> bfund c = bfund b -> states_within c b ->
  forall x, (x < bfund b)%nat -> amplitude b (fun p => csum (fun j => overlap b c p j * u j) (bsize c)) x = amplitude c u x.
Proof.
  intros Hb Ob Ec Sp x Hx. unfold amplitude.
  transitivity (csum (fun k => csum (fun j => u j * (overlap b c k j * bstate b k x)) (bsize c)) (bsize b)).
  - apply csum_ext. intros k _. rewrite <- csum_scal_r. apply csum_ext. intros. ring.
  - rewrite csum_swap. apply csum_ext. intros j Hj. rewrite csum_scal_l. rewrite <- within_expand by assumption. reflexivity.
Qed.

Section Compare.
  Context (same : basis -> basis -> bool) (hbar mass mass' : R) (axes axes' : list basis) (delta inv : nat -> nat -> R)
    (frac : option (nat -> R)) (data data' : nat -> C).
  Hypothesis Hs : identity_test same.
  Hypothesis Hw : bwf (BTuple axes).
  Hypothesis Ho : explicit_orthonormal (BTuple axes).
  Hypothesis Hw' : bwf (BTuple axes').
  Hypothesis Ho' : explicit_orthonormal (BTuple axes').
  Hypothesis Hi : is_inverse (length axes) delta inv.
  Hypothesis Hg : map bfund axes' = map bfund axes.
  Hypothesis Sp : states_within (BTuple axes') (BTuple axes).
  Hypothesis Hr : real_valued (BTuple axes) data.
  Hypothesis Hr' : real_valued (BTuple axes') data'.
  Let b := BTuple axes.
  Let c := BTuple axes'.
  Let N := nprod (map bfund axes).

  Lemma same_length : length axes' = length axes.
  Proof using Hg. rewrite <- (map_length bfund axes'), Hg, map_length. reflexivity. Qed.

  (** The energy of a vector. *)
  Let energy (v : nat -> R) (m : R) (q : nat -> nat -> R) (f : nat -> C) : R :=
    (rsum (fun x => v x * Cnorm2 (f x)) N +
     rsum (fun k => hbar * hbar * dot (length axes) (q k) (q k) / (2 * m) * Cnorm2 (inner_product N (bstate (momenta (map bfund axes)) k) f)) N)%R.

  Lemma energy_ext v m q f f' : (forall x, (x < N)%nat -> f x = f' x) -> energy v m q f = energy v m q f'.
  Proof using.
    intros H. unfold energy. f_equal; apply rsum_ext.
    - intros x Hx. rewrite H by exact Hx. reflexivity.
    - intros k Hk. do 2 f_equal. apply csum_ext. intros x Hx. rewrite H by exact Hx. reflexivity.
  Qed.

  Lemma energy_le v v' m m' d q f : (0 < m')%R -> (m' <= m)%R -> (forall x, (x < N)%nat -> (v x <= v' x + d)%R) ->
    (energy v m q f <= energy v' m' q f + d * rsum (fun x => Cnorm2 (f x)) N)%R.
  Proof using.
    intros Hm Hmm Hv. unfold energy. rewrite <- rsum_scal_l.
    assert (A1 : (rsum (fun x => v x * Cnorm2 (f x)) N <= rsum (fun x => v' x * Cnorm2 (f x) + d * Cnorm2 (f x)) N)%R).
    { apply rsum_le. intros x Hx. assert (P := Cnorm2_nonneg (f x)). assert (Q := Hv x Hx). nra. }
    rewrite rsum_plus in A1.
    assert (A2 : (rsum (fun k => hbar * hbar * dot (length axes) (q k) (q k) / (2 * m) * Cnorm2 (inner_product N (bstate (momenta (map bfund axes)) k) f)) N
      <= rsum (fun k => hbar * hbar * dot (length axes) (q k) (q k) / (2 * m') * Cnorm2 (inner_product N (bstate (momenta (map bfund axes)) k) f)) N)%R).
    { apply rsum_le. intros k Hk. apply Rmult_le_compat_r; [apply Cnorm2_nonneg|]. unfold Rdiv. apply Rmult_le_compat_l.
      - apply Rmult_le_pos; [apply Rle_0_sqr|]. unfold dot. apply rsum_nonneg. intros. apply Rle_0_sqr.
      - apply Rinv_le_contravar; lra. }
    lra.
  Qed.

  Lemma form_energy ax da m H q u : map bfund ax = map bfund axes -> bwf (BTuple ax) -> explicit_orthonormal (BTuple ax) ->
    real_valued (BTuple ax) da -> total_surface_hamiltonian same hbar ax inv da m frac = Some H -> waves (map bfund axes) delta frac q ->
    form (bsize (BTuple ax)) (op_entry H) u = energy (fun x => fst (amplitude (BTuple ax) da x)) m q (amplitude (BTuple ax) u).
  Proof using Hs Hi.
    intros Eg Wa Oa Ra HH Hq. assert (El : length ax = length axes) by (rewrite <- (map_length bfund ax), Eg, map_length; reflexivity).
    assert (K := energy_expectation same Hs ax Wa Oa delta inv ltac:(rewrite El; exact Hi) hbar m frac da H q u HH ltac:(rewrite Eg; exact Hq)).
    cbv zeta in K. unfold form.
    change (inner_product (bsize (BTuple ax)) u (mv (bsize (BTuple ax)) (op_entry H) u)) with (matrix_element (bsize (BTuple ax)) u (op_entry H) u).
    rewrite K. rewrite Eg, El. fold N. unfold energy.
    assert (Er : csum (fun x => amplitude (BTuple ax) da x * RtoC (Cnorm2 (amplitude (BTuple ax) u x))) N =
      RtoC (rsum (fun x => fst (amplitude (BTuple ax) da x) * Cnorm2 (amplitude (BTuple ax) u x))%R N)).
    { rewrite <- csum_RtoC. apply csum_ext. intros x Hx. rewrite (real_RtoC (amplitude (BTuple ax) da x)) at 1.
      - rewrite RtoC_mult. reflexivity.
      - apply Ra. cbn [bfund]. unfold N in Hx. rewrite <- Eg in Hx. exact Hx. }
    rewrite Er. rewrite (csum_ext _ (fun k => RtoC (hbar * hbar * dot (length axes) (q k) (q k) / (2 * m) *
      Cnorm2 (inner_product N (bstate (momenta (map bfund axes)) k) (amplitude (BTuple ax) u)))%R)).
    - rewrite csum_RtoC. reflexivity.
    - intros k _. rewrite RtoC_mult. reflexivity.
  Qed.

  Lemma energies_exist H ax da m : map bfund ax = map bfund axes -> bwf (BTuple ax) -> explicit_orthonormal (BTuple ax) ->
    real_valued (BTuple ax) da -> total_surface_hamiltonian same hbar ax inv da m frac = Some H ->
    orow H = BTuple ax /\ ocol H = BTuple ax /\ op_wf H /\ hermitian (bsize (BTuple ax)) (op_entry H).
  Proof using Hs Hi.
    intros Eg Wa Oa Ra HH. assert (El : length ax = length axes) by (rewrite <- (map_length bfund ax), Eg, map_length; reflexivity).
    assert (Hi' : is_inverse (length ax) delta inv) by (rewrite El; exact Hi).
    destruct (hamiltonian_elements same Hs ax Wa Oa delta inv Hi' hbar m frac da) as [H' [E' [[W _] [R1 [C1 _]]]]].
    rewrite HH in E'. injection E' as <-. split; [exact R1|]. split; [exact C1|]. split; [exact W|].
    exact (hamiltonian_hermitian same Hs ax Wa Oa delta inv Hi' hbar m frac da H Ra HH).
  Qed.

  Lemma grid_sizes : bfund c = bfund b.
  Proof using Hg. unfold b, c. cbn [bfund]. rewrite Hg. reflexivity. Qed.

  Lemma compare H H' E E' d : (0 < mass')%R -> (mass' <= mass)%R ->
    (forall x, (x < N)%nat -> (fst (amplitude b data x) <= fst (amplitude c data' x) + d)%R) ->
    total_surface_hamiltonian same hbar axes inv data mass frac = Some H ->
    total_surface_hamiltonian same hbar axes' inv data' mass' frac = Some H' ->
    ascending_spectrum (bsize b) (op_entry H) E -> ascending_spectrum (bsize c) (op_entry H') E' ->
    (bsize c <= bsize b)%nat /\ forall k, (k < bsize c)%nat -> (E k <= E' k + d)%R.
  Proof using Hs Hw Ho Hw' Ho' Hi Hg Sp Hr Hr'.
    intros Hm Hmm Hv HH HH' HE HE'. assert (G := grid_sizes). assert (HP := columns b c Hw Ho Hw' Ho' G Sp).
    split; [exact (fewer (bsize b) (bsize c) (overlap b c) HP)|].
    assert (Hq : exists q, waves (map bfund axes) delta frac q).
    { eexists. apply (waves_exist (map bfund axes) delta inv frac). rewrite map_length. exact Hi. }
    destruct Hq as [q Hq].
    apply (lower (bsize b) (bsize c) (op_entry H) (op_entry H') (overlap b c) HP E E' d); [|exact HE|exact HE'].
    intros u. unfold b, c. rewrite (form_energy axes data mass H q _ eq_refl Hw Ho Hr HH Hq).
    rewrite (form_energy axes' data' mass' H' q u Hg Hw' Ho' Hr' HH' Hq).
    rewrite (energy_ext _ mass q _ (amplitude c u)).
    2:{ intros x Hx. apply amplitude_lift; assumption. }
    assert (An : nrm (bsize (BTuple axes')) u = rsum (fun x => Cnorm2 (amplitude c u x)) N).
    { unfold nrm. rewrite <- (amplitude_norm axes' Hw' Ho' u). rewrite Hg. reflexivity. }
    rewrite An. apply energy_le; assumption.
  Qed.

  Lemma compare_above H H' E E' : mass' = mass ->
    (forall x, (x < N)%nat -> amplitude c data' x = amplitude b data x) ->
    total_surface_hamiltonian same hbar axes inv data mass frac = Some H ->
    total_surface_hamiltonian same hbar axes' inv data' mass' frac = Some H' ->
    ascending_spectrum (bsize b) (op_entry H) E -> ascending_spectrum (bsize c) (op_entry H') E' ->
    (bsize c <= bsize b)%nat /\ forall k, (k < bsize c)%nat -> (E k <= E' k)%R /\ (E' k <= E (k + (bsize b - bsize c))%nat)%R.
  Proof using Hs Hw Ho Hw' Ho' Hi Hg Sp Hr Hr'.
    intros Hm Hv HH HH' HE HE'. assert (G := grid_sizes). assert (HP := columns b c Hw Ho Hw' Ho' G Sp).
    split; [exact (fewer (bsize b) (bsize c) (overlap b c) HP)|].
    assert (Hq : exists q, waves (map bfund axes) delta frac q).
    { eexists. apply (waves_exist (map bfund axes) delta inv frac). rewrite map_length. exact Hi. }
    destruct Hq as [q Hq].
    assert (EQ : forall u, form (bsize c) (op_entry H') u =
      form (bsize b) (op_entry H) (fun p => csum (fun j => overlap b c p j * u j) (bsize c))).
    { intros u. unfold b, c. rewrite (form_energy axes data mass H q _ eq_refl Hw Ho Hr HH Hq).
      rewrite (form_energy axes' data' mass' H' q u Hg Hw' Ho' Hr' HH' Hq). rewrite Hm.
      rewrite (energy_ext _ mass q (amplitude (BTuple axes) _) (amplitude c u)) by (intros x Hx; apply amplitude_lift; assumption).
      unfold energy. f_equal. apply rsum_ext. intros x Hx. do 2 f_equal. exact (Hv x Hx). }
    intros k Hk. split.
    - rewrite <- (Rplus_0_r (E' k)). apply (lower (bsize b) (bsize c) (op_entry H) (op_entry H') (overlap b c) HP E E' 0); try assumption.
      intros u. rewrite EQ. lra.
    - apply (upper (bsize b) (bsize c) (op_entry H) (op_entry H') (overlap b c) HP E E'); try assumption. intros u. rewrite EQ. lra.
  Qed.
End Compare.

(** The eigenvalues number [lo] to [hi] of two operators. *)
Lemma both_energies eigh H H' b c lo hi lo' hi' : eigh_ok eigh ->
  orow H = b /\ ocol H = b /\ op_wf H /\ hermitian (bsize b) (op_entry H) ->
  orow H' = c /\ ocol H' = c /\ op_wf H' /\ hermitian (bsize c) (op_entry H') ->
  (lo <= hi)%nat -> (hi < bsize b)%nat -> (lo' <= hi')%nat -> (hi' < bsize c)%nat ->
  exists e v e' v',
    eigenstates_hermitian eigh H (Some (Z.of_nat lo, Z.of_nat hi)) = Some ((hi - lo + 1)%nat, e, v) /\
    eigenstates_hermitian eigh H' (Some (Z.of_nat lo', Z.of_nat hi')) = Some ((hi' - lo' + 1)%nat, e', v') /\
    forall E E', ascending_spectrum (bsize b) (op_entry H) E -> ascending_spectrum (bsize c) (op_entry H') E' ->
      (forall k, (k < hi - lo + 1)%nat -> e k = E (lo + k)%nat) /\ (forall k, (k < hi' - lo' + 1)%nat -> e' k = E' (lo' + k)%nat).
Proof.
  intros He [R1 [C1 [W1 H1]]] [R2 [C2 [W2 H2]]] L1 L2 L3 L4.
  destruct (energies_spec eigh H b (Some (Z.of_nat lo, Z.of_nat hi)) lo hi He R1 C1 W1 H1 (or_introl eq_refl) L1 L2) as [e [v [G K]]].
  destruct (energies_spec eigh H' c (Some (Z.of_nat lo', Z.of_nat hi')) lo' hi' He R2 C2 W2 H2 (or_introl eq_refl) L3 L4) as [e' [v' [G' K']]].
  exists e, v, e', v'. split; [exact G|]. split; [exact G'|]. intros E E' HE HE'. split; [exact (K E HE)|exact (K' E' HE')].
Qed.

Lemma hamiltonian_nested same eigh hbar mass axes axes' delta inv frac data data' : identity_test same -> eigh_ok eigh ->
  bwf (BTuple axes) -> explicit_orthonormal (BTuple axes) -> bwf (BTuple axes') -> explicit_orthonormal (BTuple axes') ->
  is_inverse (length axes) delta inv -> map bfund axes' = map bfund axes -> states_within (BTuple axes') (BTuple axes) ->
  real_valued (BTuple axes) data ->
  (forall x, (x < nprod (map bfund axes))%nat -> amplitude (BTuple axes') data' x = amplitude (BTuple axes) data x) ->
  let n := bsize (BTuple axes) in let n' := bsize (BTuple axes') in
  exists H H', total_surface_hamiltonian same hbar axes inv data mass frac = Some H /\
    total_surface_hamiltonian same hbar axes' inv data' mass frac = Some H' /\ (n' <= n)%nat /\
  forall lo hi, (lo <= hi)%nat -> (hi < n')%nat -> exists e v e' v' f w,
    eigenstates_hermitian eigh H (Some (Z.of_nat lo, Z.of_nat hi)) = Some ((hi - lo + 1)%nat, e, v) /\
    eigenstates_hermitian eigh H' (Some (Z.of_nat lo, Z.of_nat hi)) = Some ((hi - lo + 1)%nat, e', v') /\
    eigenstates_hermitian eigh H (Some (Z.of_nat (lo + (n - n')), Z.of_nat (hi + (n - n')))) = Some ((hi - lo + 1)%nat, f, w) /\
    forall k, (k < hi - lo + 1)%nat -> (e k <= e' k /\ e' k <= f k)%R.
Proof.
  intros Hs He Hw Ho Hw' Ho' Hi Hg Sp Hr Hv n n'.
  assert (Hr' : real_valued (BTuple axes') data').
  { intros x Hx. cbn [bfund] in Hx. rewrite Hg in Hx. rewrite Hv by exact Hx. apply Hr. exact Hx. }
  assert (El : length axes' = length axes) by exact (same_length axes axes' Hg).
  destruct (hamiltonian_elements same Hs axes Hw Ho delta inv Hi hbar mass frac data) as [H [HH _]].
  destruct (hamiltonian_elements same Hs axes' Hw' Ho' delta inv ltac:(rewrite El; exact Hi) hbar mass frac data') as [H' [HH' _]].
  assert (X := energies_exist same hbar axes delta inv frac Hs Hi H axes data mass eq_refl Hw Ho Hr HH).
  assert (X' := energies_exist same hbar axes delta inv frac Hs Hi H' axes' data' mass Hg Hw' Ho' Hr' HH').
  destruct (spectrum_of _ _ (proj2 (proj2 (proj2 X)))) as [E HE]. destruct (spectrum_of _ _ (proj2 (proj2 (proj2 X')))) as [E' HE'].
  destruct (compare_above same hbar mass mass axes axes' delta inv frac data data' Hs Hw Ho Hw' Ho' Hi Hg Sp Hr Hr' H H' E E' eq_refl Hv HH HH' HE HE') as [L B].
  fold n in L, B. fold n' in L, B.
  exists H, H'. split; [exact HH|]. split; [exact HH'|]. split; [exact L|]. intros lo hi L1 L2.
  destruct (both_energies eigh H H' _ _ lo hi lo hi He X X' L1 ltac:(fold n; lia) L1 L2) as [e [v [e' [v' [G [G' K]]]]]].
  destruct (both_energies eigh H H' _ _ (lo + (n - n')) (hi + (n - n')) lo hi He X X' ltac:(lia) ltac:(fold n; lia) L1 L2) as [f [w [f' [w' [G2 [_ K2]]]]]].
  replace (hi + (n - n') - (lo + (n - n')) + 1)%nat with (hi - lo + 1)%nat in G2, K2 by lia.
  exists e, v, e', v', f, w. split; [exact G|]. split; [exact G'|]. split; [exact G2|].
  destruct (K E E' HE HE') as [K1 K1']. destruct (K2 E E' HE HE') as [K3 _]. intros k Hk. rewrite K1, K1', K3 by exact Hk.
  destruct (B (lo + k)%nat ltac:(lia)) as [B1 B2]. split; [exact B1|].
  replace (lo + (n - n') + k)%nat with (lo + k + (n - n'))%nat by lia. exact B2.
Qed.

Lemma within_self b : states_within b b.
Proof.
  intros k Hk. exists (cdelta k). intros x _. symmetry. apply (csum_delta_l (fun p => bstate b p x)). exact Hk.
Qed.

Lemma hamiltonian_compare same eigh hbar mass mass' axes delta inv frac data data' d : identity_test same -> eigh_ok eigh ->
  bwf (BTuple axes) -> explicit_orthonormal (BTuple axes) -> is_inverse (length axes) delta inv ->
  real_valued (BTuple axes) data -> real_valued (BTuple axes) data' -> (0 < mass')%R -> (mass' <= mass)%R ->
  (forall x, (x < nprod (map bfund axes))%nat -> (fst (amplitude (BTuple axes) data x) <= fst (amplitude (BTuple axes) data' x) + d)%R) ->
  let n := bsize (BTuple axes) in
  exists H H', total_surface_hamiltonian same hbar axes inv data mass frac = Some H /\
    total_surface_hamiltonian same hbar axes inv data' mass' frac = Some H' /\
  forall lo hi, (lo <= hi)%nat -> (hi < n)%nat -> exists e v e' v',
    eigenstates_hermitian eigh H (Some (Z.of_nat lo, Z.of_nat hi)) = Some ((hi - lo + 1)%nat, e, v) /\
    eigenstates_hermitian eigh H' (Some (Z.of_nat lo, Z.of_nat hi)) = Some ((hi - lo + 1)%nat, e', v') /\
    forall k, (k < hi - lo + 1)%nat -> (e k <= e' k + d)%R.
Proof.
  intros Hs He Hw Ho Hi Hr Hr' Hm Hmm Hv n.
  destruct (hamiltonian_elements same Hs axes Hw Ho delta inv Hi hbar mass frac data) as [H [HH _]].
  destruct (hamiltonian_elements same Hs axes Hw Ho delta inv Hi hbar mass' frac data') as [H' [HH' _]].
  assert (X := energies_exist same hbar axes delta inv frac Hs Hi H axes data mass eq_refl Hw Ho Hr HH).
  assert (X' := energies_exist same hbar axes delta inv frac Hs Hi H' axes data' mass' eq_refl Hw Ho Hr' HH').
  destruct (spectrum_of _ _ (proj2 (proj2 (proj2 X)))) as [E HE]. destruct (spectrum_of _ _ (proj2 (proj2 (proj2 X')))) as [E' HE'].
  destruct (compare same hbar mass mass' axes axes delta inv frac data data' Hs Hw Ho Hw Ho Hi eq_refl (within_self _) Hr Hr' H H' E E' d Hm Hmm Hv HH HH' HE HE') as [_ B].
  exists H, H'. split; [exact HH|]. split; [exact HH'|]. intros lo hi L1 L2.
  destruct (both_energies eigh H H' _ _ lo hi lo hi He X X' L1 L2 L1 L2) as [e [v [e' [v' [G [G' K]]]]]].
  exists e, v, e', v'. split; [exact G|]. split; [exact G'|]. destruct (K E E' HE HE') as [K1 K1']. intros k Hk. rewrite K1, K1' by exact Hk.
  apply B. fold n. lia.
Qed.

Lemma hamiltonian_stable same eigh hbar mass axes delta inv frac data data' d : identity_test same -> eigh_ok eigh ->
  bwf (BTuple axes) -> explicit_orthonormal (BTuple axes) -> is_inverse (length axes) delta inv ->
  real_valued (BTuple axes) data -> real_valued (BTuple axes) data' -> (0 < mass)%R ->
  (forall x, (x < nprod (map bfund axes))%nat -> (Rabs (fst (amplitude (BTuple axes) data x) - fst (amplitude (BTuple axes) data' x)) <= d)%R) ->
  let n := bsize (BTuple axes) in
  exists H H', total_surface_hamiltonian same hbar axes inv data mass frac = Some H /\
    total_surface_hamiltonian same hbar axes inv data' mass frac = Some H' /\
  forall lo hi, (lo <= hi)%nat -> (hi < n)%nat -> exists e v e' v',
    eigenstates_hermitian eigh H (Some (Z.of_nat lo, Z.of_nat hi)) = Some ((hi - lo + 1)%nat, e, v) /\
    eigenstates_hermitian eigh H' (Some (Z.of_nat lo, Z.of_nat hi)) = Some ((hi - lo + 1)%nat, e', v') /\
    forall k, (k < hi - lo + 1)%nat -> (Rabs (e k - e' k) <= d)%R.
Proof.
  intros Hs He Hw Ho Hi Hr Hr' Hm Hv n.
  assert (Hv1 : forall x, (x < nprod (map bfund axes))%nat -> (fst (amplitude (BTuple axes) data x) <= fst (amplitude (BTuple axes) data' x) + d)%R).
  { intros x Hx. assert (K := Hv x Hx). apply Coquelicot.Rcomplements.Rabs_le_between in K. lra. }
  assert (Hv2 : forall x, (x < nprod (map bfund axes))%nat -> (fst (amplitude (BTuple axes) data' x) <= fst (amplitude (BTuple axes) data x) + d)%R).
  { intros x Hx. assert (K := Hv x Hx). apply Coquelicot.Rcomplements.Rabs_le_between in K. lra. }
  destruct (hamiltonian_compare same eigh hbar mass mass axes delta inv frac data data' d Hs He Hw Ho Hi Hr Hr' Hm (Rle_refl _) Hv1) as [H [H' [HH [HH' K]]]].
  destruct (hamiltonian_compare same eigh hbar mass mass axes delta inv frac data' data d Hs He Hw Ho Hi Hr' Hr Hm (Rle_refl _) Hv2) as [G' [G [GG' [GG K']]]].
  rewrite HH in GG. injection GG as <-. rewrite HH' in GG'. injection GG' as <-.
  exists H, H'. split; [exact HH|]. split; [exact HH'|]. intros lo hi L1 L2.
  destruct (K lo hi L1 L2) as [e [v [e' [v' [A1 [A2 A3]]]]]]. destruct (K' lo hi L1 L2) as [f' [w' [f [w [B1 [B2 B3]]]]]].
  rewrite A1 in B2. injection B2 as <- <-. rewrite A2 in B1. injection B1 as <- <-.
  exists e, v, e', v'. split; [exact A1|]. split; [exact A2|]. intros k Hk. apply Coquelicot.Rcomplements.Rabs_le_between.
  assert (Q1 := A3 k Hk). assert (Q2 := B3 k Hk). lra.
Qed.
