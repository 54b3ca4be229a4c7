(** Energies in a potential between two values (C140). *)
From Coq Require Import Reals Psatz.
From Verif Require Import ZLib Csum DFT NumPy Spec SpecReal Index IndexProofs Lattice LatticeProofs Basis SpecBasis BasisProofs BasisProofs2 BasisProofs3 Operator SpecOperator
  OperatorProofs OperatorProofs2 Wavepacket SpecWavepacket WavepacketProofs2 Hamiltonian SpecHamiltonian HamiltonianProofs HamiltonianProofs2 HamiltonianProofs3
  SpecMatrix Localize SpecLocalize LocalizeProofs4 EigenBasis SpecEigenBasis EigenBasisProofs
  InterlaceProofs InterlaceProofs3 SpecSymmetry SymmetryProofs SeedProofs SumRuleProofs SeparableProofs HamiltonianFacts FreeParticle.
Local Open Scope R_scope.
Local Open Scope C_scope.

Lemma zero_freqs n : Forall (fun m => (0 < m)%nat) n -> sample_freqs n (unravel n 0) = map Z.of_nat (map (fun _ => 0%nat) n).
Proof.
  induction 1 as [|m n Hm Hn IH]; [reflexivity|]. cbn [unravel]. assert (nprod n <> 0%nat) by (pose proof (nprod_pos n Hn); lia).
  rewrite Nat.div_0_l, Nat.mod_0_l by assumption. cbn [sample_freqs map]. rewrite IH. f_equal. unfold freq.
  change (Z.of_nat 0) with 0%Z. assert (P : (0 <= (Z.of_nat m - 1) / 2)%Z) by (apply Z.div_pos; lia).
  destruct (Z.leb_spec 0 ((Z.of_nat m - 1) / 2)); [reflexivity|lia].
Qed.

Section Between.
  Context (same : basis -> basis -> bool) (hbar mass : R) (axes : list basis) (delta inv : nat -> nat -> R).
  Hypothesis Hs : identity_test same.
  Hypothesis HP : Forall plane_wave_axis axes.
  Hypothesis Hi : is_inverse (length axes) delta inv.
  Let B := BTuple axes.
  Let N := map bfund axes.

  Lemma constant_exists c : exists data, forall x, (x < bfund B)%nat -> amplitude B data x = RtoC c.
  Proof using HP.
    assert (PB : (0 < bsize B)%nat) by (apply nprod_pos; exact (axes_n_pos axes HP)).
    assert (PN : (0 < nprod N)%nat) by (apply nprod_pos; exact (axes_N_pos axes HP)).
    exists (fun k => cdelta 0 k * RtoC (c * sqrt (INR (nprod N)))). intros x Hx. unfold amplitude.
    rewrite (csum_ext _ (fun k => cdelta 0 k * (RtoC (c * sqrt (INR (nprod N))) * bstate B k x))) by (intros; ring).
    rewrite csum_delta_l by exact PB. unfold B. rewrite (state_plane axes HP 0 x PB Hx). fold N.
    rewrite (zero_freqs (map bsize axes) (axes_n_pos axes HP)).
    replace (map (fun _ => 0%nat) (map bsize axes)) with (map (fun _ : nat => 0%nat) N) by (unfold N; rewrite !map_map; reflexivity).
    rewrite plane_swap, plane_zero. unfold isqrt.
    assert (S0 : sqrt (INR (nprod N)) <> 0%R) by (apply Rgt_not_eq, sqrt_lt_R0; apply lt_0_INR; exact PN).
    transitivity (RtoC (c * sqrt (INR (nprod N))) * RtoC (/ sqrt (INR (nprod N)))); [ring|]. rewrite <- RtoC_mult. f_equal. field. exact S0.
  Qed.

  Lemma between_levels eigh data lo hi frac Q : eigh_ok eigh -> real_valued B data -> (0 < mass)%R ->
    (forall x, (x < bfund B)%nat -> (lo <= fst (amplitude B data x) <= hi)%R) -> waves (map bsize axes) delta frac Q ->
    let kinetic i := (hbar * hbar * dot (length axes) (Q i) (Q i) / (2 * mass))%R in
    exists H e v, total_surface_hamiltonian same hbar axes inv data mass frac = Some H /\
      eigenstates_hermitian eigh H None = Some (bsize B, e, v) /\
      exists p : nat -> nat, (forall k, (k < bsize B)%nat -> (p k < bsize B)%nat) /\
        (forall k l, (k < bsize B)%nat -> (l < bsize B)%nat -> p k = p l -> k = l) /\
        (forall k l, (k <= l)%nat -> (l < bsize B)%nat -> (kinetic (p k) <= kinetic (p l))%R) /\
        forall k, (k < bsize B)%nat -> (lo + kinetic (p k) <= e k <= hi + kinetic (p k))%R.
  Proof using Hs HP Hi.
    intros He Hr Hm Hv HQ kinetic. destruct (axes_wf axes HP) as [Wb Ob].
    destruct (constant_exists lo) as [flat Hf].
    destruct (hamiltonian_elements same Hs axes Wb Ob delta inv Hi hbar mass frac data) as [H [HH _]].
    destruct (free_elements same hbar mass axes delta inv Hs HP Hi flat lo frac Q Hf HQ) as [F [HF [_ [_ [_ EF]]]]].
    assert (Rf : real_valued B flat) by (intros x Hx; rewrite (Hf x Hx); reflexivity).
    assert (X := energies_exist same hbar axes delta inv frac Hs Hi H axes data mass eq_refl Wb Ob Hr HH).
    assert (X' := energies_exist same hbar axes delta inv frac Hs Hi F axes flat mass eq_refl Wb Ob Rf HF).
    destruct X as [R1 [C1 [W X]]]. destruct X' as [_ [_ [_ X']]].
    destruct (spectrum_of _ _ X) as [E HE]. destruct (spectrum_of _ _ X') as [E' HE'].
    assert (PB : (0 < bsize B)%nat) by (apply nprod_pos; exact (axes_n_pos axes HP)).
    destruct (energies_spec eigh H B None 0 (bsize B - 1) He R1 C1 W X) as [e [v [G K]]];
      [right; split; [reflexivity|split; lia]|lia|lia|].
    replace (bsize B - 1 - 0 + 1)%nat with (bsize B) in G, K by lia.
    exists H, e, v. split; [exact HH|]. split; [exact G|].
    assert (KE : forall k, (k < bsize B)%nat -> e k = E k) by (intros k Hk; rewrite (K E HE k Hk); reflexivity).
    assert (V1 : forall x, (x < nprod (map bfund axes))%nat -> (fst (amplitude (BTuple axes) data x) <= fst (amplitude (BTuple axes) flat x) + (hi - lo))%R).
    { intros x Hx. assert (A := Hf x Hx). unfold B in A. rewrite A. assert (A' := Hv x Hx). unfold B in A'. cbn [fst RtoC]. lra. }
    assert (V2 : forall x, (x < nprod (map bfund axes))%nat -> (fst (amplitude (BTuple axes) flat x) <= fst (amplitude (BTuple axes) data x) + 0)%R).
    { intros x Hx. assert (A := Hf x Hx). unfold B in A. rewrite A. assert (A' := Hv x Hx). unfold B in A'. cbn [fst RtoC]. lra. }
    destruct (compare same hbar mass mass axes axes delta inv frac data flat Hs Wb Ob Wb Ob Hi eq_refl (within_self _) Hr Rf H F E E' (hi - lo) Hm (Rle_refl _) V1 HH HF HE HE') as [_ U].
    destruct (compare same hbar mass mass axes axes delta inv frac flat data Hs Wb Ob Wb Ob Hi eq_refl (within_self _) Rf Hr F H E' E 0 Hm (Rle_refl _) V2 HF HH HE' HE) as [_ L].
    destruct (spectrum_any_order (bsize B) (op_entry F) (fun i j => cdelta i j) (fun i => (lo + kinetic i)%R) E') as [p [P1 [P2 P3]]].
    - split; intros i j Li Lj.
      + rewrite (csum_delta_l (fun x => Cconj (cdelta j x))) by exact Li. rewrite Cconj_cdelta. apply cdelta_sym.
      + rewrite (csum_delta_r' (fun x => Cconj (cdelta x i))) by exact Lj. rewrite Cconj_cdelta. apply cdelta_sym.
    - intros i j Li Lj. rewrite EF by assumption.
      rewrite (csum_ext _ (fun k => cdelta i k * (RtoC (lo + kinetic k) * Cconj (cdelta j k)))) by (intros; ring).
      rewrite csum_delta_l by exact Li. rewrite Cconj_cdelta, (cdelta_sym j i). reflexivity.
    - exact HE'.
    - exists p. split; [exact P1|]. split; [exact P2|]. split.
      + intros k l Hkl Hl. assert (A := proj1 HE' k l Hkl Hl). rewrite !P3 in A by lia. lra.
      + intros k Hk. rewrite KE by exact Hk. assert (A := U k Hk). assert (A' := L k Hk). rewrite P3 in A, A' by exact Hk. lra.
  Qed.
End Between.

(** The cosine potential on five points lies between -1 and 1. *)
Lemma cos_between x : (x < bfund (BTuple cos_axes))%nat -> (-1 <= fst (amplitude (BTuple cos_axes) cos_data x) <= 1)%R.
Proof.
  intros Hx.
  assert (E : forall k, bstate (BTuple cos_axes) k x = plane_wave 5 (freq 3 k) x).
  { intros k. cbn [bstate cos_axes map product_states fst snd bsize bfund nprod]. rewrite !Nat.div_1_r. ring. }
  assert (S5 : (2 < sqrt 5)%R) by (rewrite <- (sqrt_square 2) by lra; apply sqrt_lt_1; lra).
  assert (A : amplitude (BTuple cos_axes) cos_data x = RtoC (2 * cos (2 * PI * INR x / 5) * / sqrt 5)).
  { unfold amplitude. change (bsize (BTuple cos_axes)) with 3%nat. cbn [csum cos_data]. rewrite !E.
    change (freq 3 1) with 1%Z. change (freq 3 2) with (-1)%Z. unfold plane_wave.
    replace (-1 * Z.of_nat x)%Z with (- (1 * Z.of_nat x))%Z by lia. rewrite <- omega_conj.
    unfold omega, isqrt, cis. rewrite Z.mul_1_l, <- INR_IZR_INZ. replace (INR 5) with 5%R by (simpl; ring).
    unfold Cmult, Cplus, Cconj, RtoC. simpl. f_equal; field; lra. }
  rewrite A. cbn [fst RtoC]. assert (C1 := COS_bound (2 * PI * INR x / 5)). set (c := cos (2 * PI * INR x / 5)) in *.
  assert (I : (0 < / sqrt 5)%R) by (apply Rinv_0_lt_compat; lra). assert (J : (sqrt 5 * / sqrt 5 = 1)%R) by (apply Rinv_r; lra).
  set (i := (/ sqrt 5)%R) in *. split; nra.
Qed.
