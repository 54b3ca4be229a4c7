(** Energies at nearby Bloch fractions (C141). *)
From Coq Require Import Reals Psatz.
From Coquelicot Require Rcomplements.
From Verif Require Import ZLib Csum DFT NumPy Spec SpecReal Index IndexProofs Lattice LatticeProofs Basis SpecBasis BasisProofs BasisProofs2 BasisProofs3 Operator SpecOperator
  OperatorProofs OperatorProofs2 Wavepacket SpecWavepacket WavepacketProofs2 Hamiltonian SpecHamiltonian HamiltonianProofs HamiltonianProofs2 HamiltonianProofs3
  SpecMatrix LinAlg Polar Localize SpecLocalize Spectral Spectral2 Spectral3 EigenBasis SpecEigenBasis EigenBasisProofs
  SpecInterlace InterlaceProofs InterlaceProofs2 InterlaceProofs3 HamiltonianFacts.
Local Open Scope R_scope.
Local Open Scope C_scope.

Lemma rsum_abs_le (f g : nat -> R) n : (forall i, (i < n)%nat -> (Rabs (f i) <= g i)%R) -> (Rabs (rsum f n) <= rsum g n)%R.
Proof.
  induction n as [|n IH]; intros H; cbn [rsum]; [rewrite Rabs_R0; apply Rle_refl|].
  eapply Rle_trans; [apply Rabs_triang|]. apply Rplus_le_compat; [apply IH; intros i Hi; apply H; lia|apply H; lia].
Qed.

(** The components along the plane waves of the grid have the norm of the vector. *)
Lemma momenta_parseval shape f : Forall (fun n => (0 < n)%nat) shape ->
  rsum (fun k => Cnorm2 (inner_product (nprod shape) (bstate (momenta shape) k) f)) (nprod shape) = rsum (fun x => Cnorm2 (f x)) (nprod shape).
Proof.
  intros Hp. assert (HC := momenta_complete shape Hp).
  assert (FM : bfund (momenta shape) = nprod shape) by (unfold momenta; cbn [bfund]; rewrite map_map; f_equal; apply map_id).
  assert (SM : bsize (momenta shape) = nprod shape) by (unfold momenta; cbn [bsize]; rewrite map_map; f_equal; apply map_id).
  unfold complete in HC. rewrite FM, SM in HC. set (N := nprod shape) in *. set (b := momenta shape) in *.
  apply RtoC_inj. rewrite <- !csum_norm2. unfold inner_product.
  transitivity (csum (fun k => csum (fun x => csum (fun y => (Cconj (f x) * f y) * (bstate b k x * Cconj (bstate b k y))) N) N) N).
  - apply csum_ext. intros k _. rewrite Cconj_csum, csum_mult. apply csum_ext. intros x _. apply csum_ext. intros y _.
    rewrite Cconj_mult, Cconj_conj. ring.
  - rewrite csum_swap. apply csum_ext. intros x Hx. rewrite csum_swap.
    rewrite (csum_ext _ (fun y => (Cconj (f x) * f y) * cdelta x y)).
    + apply (csum_delta_r (fun y => Cconj (f x) * f y)). exact Hx.
    + intros y Hy. rewrite csum_scal_l. rewrite (HC x y Hx Hy). reflexivity.
Qed.

Section Fractions.
  Context (same : basis -> basis -> bool) (hbar mass : R) (axes : list basis) (delta inv : nat -> nat -> R) (data : nat -> C).
  Hypothesis Hs : identity_test same.
  Hypothesis Hw : bwf (BTuple axes).
  Hypothesis Ho : explicit_orthonormal (BTuple axes).
  Hypothesis Hi : is_inverse (length axes) delta inv.
  Hypothesis Hr : real_valued (BTuple axes) data.
  Let B := BTuple axes.
  Let S0 := map bfund axes.
  Let kin (q : nat -> nat -> R) (k : nat) : R := (hbar * hbar * dot (length axes) (q k) (q k) / (2 * mass))%R.

  Lemma sizes_pos : Forall (fun n => (0 < n)%nat) S0.
  Proof using Hw.
    apply Forall_forall. intros n Hn. apply in_map_iff in Hn. destruct Hn as [b [<- Hb]]. apply (bfund_pos b).
    exact (proj1 (Forall_forall _ _) (proj1 (bwf_tuple _) Hw) b Hb).
  Qed.

  (** No energy changes by more than the kinetic energies of the plane waves. *)
  Lemma compare_fractions f f' q q' H H' E E' d :
    waves S0 delta f q -> waves S0 delta f' q' -> (forall k, (k < nprod S0)%nat -> (kin q k <= kin q' k + d)%R) ->
    total_surface_hamiltonian same hbar axes inv data mass f = Some H ->
    total_surface_hamiltonian same hbar axes inv data mass f' = Some H' ->
    ascending_spectrum (bsize B) (op_entry H) E -> ascending_spectrum (bsize B) (op_entry H') E' ->
    forall k, (k < bsize B)%nat -> (E k <= E' k + d)%R.
  Proof using Hs Hw Ho Hi Hr.
    intros Wq Wq' Hk HH HH' HE HE'. assert (HP := columns B B Hw Ho Hw Ho eq_refl (within_self B)).
    apply (lower (bsize B) (bsize B) (op_entry H) (op_entry H') (overlap B B) HP E E' d); [|exact HE|exact HE'].
    intros u. unfold B.
    rewrite (form_energy same hbar axes delta inv f Hs Hi axes data mass H q _ eq_refl Hw Ho Hr HH Wq).
    rewrite (form_energy same hbar axes delta inv f' Hs Hi axes data mass H' q' u eq_refl Hw Ho Hr HH' Wq').
    rewrite (energy_ext hbar axes _ mass q _ (amplitude B u)).
    2:{ intros x Hx. apply amplitude_lift; try assumption; [reflexivity|apply within_self]. }
    assert (An : nrm (bsize (BTuple axes)) u = rsum (fun x => Cnorm2 (amplitude B u x)) (nprod S0)).
    { unfold nrm. rewrite <- (amplitude_norm axes Hw Ho u). reflexivity. }
    rewrite An, <- (momenta_parseval S0 _ sizes_pos). fold B S0. rewrite Rplus_assoc.
    apply Rplus_le_compat_l. rewrite <- rsum_scal_l, <- rsum_plus. apply rsum_le. intros k Hk'. rewrite <- Rmult_plus_distr_r. apply Rmult_le_compat_r; [apply Cnorm2_nonneg|].
    exact (Hk k Hk').
  Qed.

  Lemma kinetic_near f : (0 < mass)%R -> exists K, (0 <= K)%R /\ exists q, waves S0 delta (Some f) q /\
    forall f' eta, (0 <= eta <= 1)%R -> (forall a, (a < length axes)%nat -> (Rabs (f' a - f a) <= eta)%R) ->
    exists q', waves S0 delta (Some f') q' /\ forall k, (k < nprod S0)%nat -> (Rabs (kin q' k - kin q k) <= K * eta)%R.
  Proof using Hi.
    intros Hm. assert (LS : length S0 = length axes) by (unfold S0; apply map_length).
    set (q := fun (g : nat -> R) k c => (fundamental_stacked_k_points S0 inv c k + tensordot00 (length S0) (dk_stacked inv) g c)%R).
    assert (Wq : forall g, waves S0 delta (Some g) (q g)) by (intros g; apply (waves_exist S0 delta inv (Some g)); rewrite LS; exact Hi).
    set (m := fun c => rsum (fun a => Rabs (dk_stacked inv a c)) (length axes)).
    set (L := fun k => (hbar * hbar / (2 * mass) * rsum (fun c => m c * (2 * Rabs (q f k c) + m c)) (length axes))%R).
    assert (G : (0 <= hbar * hbar / (2 * mass))%R).
    { apply Rmult_le_pos; [apply Rle_0_sqr|]. apply Rlt_le, Rinv_0_lt_compat. lra. }
    assert (M0 : forall c, (0 <= m c)%R) by (intros c; apply rsum_nonneg; intros; apply Rabs_pos).
    assert (L0 : forall k, (0 <= L k)%R).
    { intros k. apply Rmult_le_pos; [exact G|]. apply rsum_nonneg. intros c _. apply Rmult_le_pos; [apply M0|]. assert (A := Rabs_pos (q f k c)). assert (A' := M0 c). lra. }
    exists (rsum L (nprod S0)). split; [apply rsum_nonneg; intros; apply L0|]. exists (q f). split; [apply Wq|].
    intros f' eta [E0 E1] Hf. exists (q f'). split; [apply Wq|]. intros k Hk.
    assert (D : forall c, (Rabs (q f' k c - q f k c) <= eta * m c)%R).
    { intros c. replace (q f' k c - q f k c)%R with (rsum (fun a => dk_stacked inv a c * (f' a - f a))%R (length axes)).
      - unfold m. rewrite <- rsum_scal_l. apply rsum_abs_le. intros a Ha. rewrite Rabs_mult, Rmult_comm. apply Rmult_le_compat_r; [apply Rabs_pos|apply Hf; exact Ha].
      - unfold q, tensordot00. rewrite LS.
        transitivity (rsum (fun a => dk_stacked inv a c * f' a + - 1 * (dk_stacked inv a c * f a))%R (length axes)); [apply rsum_ext; intros; ring|].
        rewrite rsum_plus, rsum_scal_l. ring. }
    apply Rle_trans with (L k * eta)%R; [|apply Rmult_le_compat_r; [exact E0|apply rsum_member; [intros; apply L0|exact Hk]]].
    unfold kin, L, dot.
    replace (hbar * hbar * rsum (fun c => q f' k c * q f' k c) (length axes) / (2 * mass) - hbar * hbar * rsum (fun c => q f k c * q f k c) (length axes) / (2 * mass))%R
      with (hbar * hbar / (2 * mass) * rsum (fun c => q f' k c * q f' k c + - 1 * (q f k c * q f k c)) (length axes))%R
      by (rewrite rsum_plus, rsum_scal_l; unfold Rdiv; ring).
    rewrite Rabs_mult, (Rabs_pos_eq _ G), Rmult_assoc. apply Rmult_le_compat_l; [exact G|].
    rewrite Rmult_comm, <- rsum_scal_l. apply rsum_abs_le. intros c _.
    replace (q f' k c * q f' k c + -1 * (q f k c * q f k c))%R with ((q f' k c - q f k c) * ((q f' k c - q f k c) + 2 * q f k c))%R by ring.
    rewrite Rabs_mult. assert (A := D c). assert (A1 := Rabs_pos (q f' k c - q f k c)). assert (A2 := M0 c).
    assert (A3 : (Rabs (q f' k c - q f k c + 2 * q f k c) <= m c + 2 * Rabs (q f k c))%R).
    { eapply Rle_trans; [apply Rabs_triang|]. rewrite Rabs_mult, (Rabs_pos_eq 2) by lra. apply Rplus_le_compat_r. nra. }
    assert (A4 := Rabs_pos (q f k c)).
    apply Rle_trans with ((eta * m c) * (m c + 2 * Rabs (q f k c)))%R; [|right; ring].
    apply Rmult_le_compat; [exact A1|apply Rabs_pos|exact A|exact A3].
  Qed.

  Lemma bands_bound eigh f f' q q' d : eigh_ok eigh -> waves S0 delta f q -> waves S0 delta f' q' ->
    (forall k, (k < nprod S0)%nat -> (Rabs (kin q' k - kin q k) <= d)%R) ->
    exists H H', total_surface_hamiltonian same hbar axes inv data mass f = Some H /\
    total_surface_hamiltonian same hbar axes inv data mass f' = Some H' /\
    forall lo hi, (lo <= hi)%nat -> (hi < bsize B)%nat -> exists e v e' v',
      eigenstates_hermitian eigh H (Some (Z.of_nat lo, Z.of_nat hi)) = Some ((hi - lo + 1)%nat, e, v) /\
      eigenstates_hermitian eigh H' (Some (Z.of_nat lo, Z.of_nat hi)) = Some ((hi - lo + 1)%nat, e', v') /\
      forall k, (k < hi - lo + 1)%nat -> (Rabs (e' k - e k) <= d)%R.
  Proof using Hs Hw Ho Hi Hr.
    intros He Wq Wq' T.
    destruct (hamiltonian_elements same Hs axes Hw Ho delta inv Hi hbar mass f data) as [H [HH _]].
    destruct (hamiltonian_elements same Hs axes Hw Ho delta inv Hi hbar mass f' data) as [H' [HH' _]].
    assert (X := energies_exist same hbar axes delta inv f Hs Hi H axes data mass eq_refl Hw Ho Hr HH).
    assert (X' := energies_exist same hbar axes delta inv f' Hs Hi H' axes data mass eq_refl Hw Ho Hr HH').
    destruct (spectrum_of _ _ (proj2 (proj2 (proj2 X)))) as [E HE].
    destruct (spectrum_of _ _ (proj2 (proj2 (proj2 X')))) as [E' HE'].
    exists H, H'. split; [exact HH|]. split; [exact HH'|]. intros lo hi L1 L2.
    destruct (both_energies eigh H H' _ _ lo hi lo hi He X X' L1 L2 L1 L2) as [e [v [e' [v' [G [G' U]]]]]].
    exists e, v, e', v'. split; [exact G|]. split; [exact G'|]. destruct (U E E' HE HE') as [K1 K1']. intros k Hk. rewrite K1, K1' by exact Hk.
    assert (Lk : (lo + k < bsize B)%nat) by (unfold B in *; lia).
    assert (P1 : (E (lo + k)%nat <= E' (lo + k)%nat + d)%R).
    { apply (compare_fractions f f' q q' H H' E E' d Wq Wq'); try assumption.
      intros j Hj. assert (A := T j Hj). apply Rcomplements.Rabs_le_between in A. lra. }
    assert (P2 : (E' (lo + k)%nat <= E (lo + k)%nat + d)%R).
    { apply (compare_fractions f' f q' q H' H E' E d Wq' Wq); try assumption.
      intros j Hj. assert (A := T j Hj). apply Rcomplements.Rabs_le_between in A. lra. }
    apply Rabs_le. lra.
  Qed.

  Lemma continuous_bands eigh f : eigh_ok eigh -> (0 < mass)%R ->
    exists H K, total_surface_hamiltonian same hbar axes inv data mass (Some f) = Some H /\ (0 <= K)%R /\
    forall f' eta, (0 <= eta <= 1)%R -> (forall a, (a < length axes)%nat -> (Rabs (f' a - f a) <= eta)%R) ->
    exists H', total_surface_hamiltonian same hbar axes inv data mass (Some f') = Some H' /\
    forall lo hi, (lo <= hi)%nat -> (hi < bsize B)%nat -> exists e v e' v',
      eigenstates_hermitian eigh H (Some (Z.of_nat lo, Z.of_nat hi)) = Some ((hi - lo + 1)%nat, e, v) /\
      eigenstates_hermitian eigh H' (Some (Z.of_nat lo, Z.of_nat hi)) = Some ((hi - lo + 1)%nat, e', v') /\
      forall k, (k < hi - lo + 1)%nat -> (Rabs (e' k - e k) <= K * eta)%R.
  Proof using Hs Hw Ho Hi Hr.
    intros He Hm. destruct (kinetic_near f Hm) as [K [K0 [q [Wq Near]]]].
    assert (Z0 : exists H, total_surface_hamiltonian same hbar axes inv data mass (Some f) = Some H).
    { destruct (hamiltonian_elements same Hs axes Hw Ho delta inv Hi hbar mass (Some f) data) as [H [HH _]]. exists H. exact HH. }
    destruct Z0 as [H HH]. exists H, K. split; [exact HH|]. split; [exact K0|]. intros f' eta He01 Hf.
    destruct (Near f' eta He01 Hf) as [q' [Wq' T]].
    destruct (bands_bound eigh (Some f) (Some f') q q' (K * eta) He Wq Wq' T) as [G [H' [HG [HH' U]]]].
    rewrite HH in HG. injection HG as <-. exists H'. split; [exact HH'|exact U].
  Qed.
End Fractions.

Lemma cos_grid_waves f : exists q, waves (map bfund cos_axes) (fun _ _ => 1%R) f q.
Proof. eexists. apply (waves_exist _ _ (fun _ _ => 1%R)). exact unit_inverse. Qed.
