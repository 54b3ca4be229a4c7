(** Energies at opposite Bloch fractions and of moved potentials. *)
From Coq Require Import Reals Psatz.
From Verif Require Import ZLib Csum DFT NumPy Spec SpecReal Index IndexProofs Lattice LatticeProofs Basis SpecBasis BasisProofs BasisProofs2 BasisProofs3 Operator SpecOperator
  OperatorProofs OperatorProofs2 Wavepacket SpecWavepacket WavepacketProofs2 OverlapProofs3 Hamiltonian SpecHamiltonian HamiltonianProofs HamiltonianProofs2
  SpecMatrix Localize SpecLocalize Spectral Spectral2 Spectral3 EigenBasis SpecEigenBasis EigenBasisProofs GeneratorProofs4
  InterlaceProofs InterlaceProofs3 ObservablesProofs6 SpecSymmetry.
Local Open Scope R_scope.
Local Open Scope C_scope.

(** ** Spectra of related matrices *)

Lemma spectrum_conj n A A' (s : nat -> nat) E : (forall i, (i < n)%nat -> (s i < n)%nat /\ s (s i) = i) ->
  (forall i j, (i < n)%nat -> (j < n)%nat -> A' (s i) (s j) = Cconj (A i j)) ->
  ascending_spectrum n A E -> ascending_spectrum n A' E.
Proof.
  intros Hs HA [SE [V [[UR UC] HV]]]. split; [exact SE|]. exists (fun i k => Cconj (V (s i) k)). split; [split|].
  - intros i j Hi Hj. destruct (Hs i Hi) as [Si Ssi]. destruct (Hs j Hj) as [Sj Ssj].
    transitivity (Cconj (csum (fun k => V (s i) k * Cconj (V (s j) k)) n)).
    + rewrite Cconj_csum. apply csum_ext. intros k _. rewrite Cconj_mult. reflexivity.
    + rewrite (UR (s i) (s j) Si Sj). unfold cdelta. destruct (Nat.eqb_spec (s i) (s j)) as [e|ne], (Nat.eqb_spec i j) as [e'|ne'];
        try (rewrite Cconj_1; reflexivity); try (apply injective_projections; cbn; ring); exfalso; [apply ne'|apply ne]; congruence.
  - intros i j Hi Hj.
    transitivity (Cconj (csum (fun p => (fun p => Cconj (V p i) * V p j) (s p)) n)).
    + rewrite Cconj_csum. apply csum_ext. intros p _. rewrite Cconj_mult. reflexivity.
    + rewrite (csum_bij (fun p => Cconj (V p i) * V p j) n n s s) by assumption. rewrite (UC i j Hi Hj).
      unfold cdelta. destruct (Nat.eqb_spec i j); apply injective_projections; cbn; ring.
  - intros i j Hi Hj. destruct (Hs i Hi) as [Si Ssi]. destruct (Hs j Hj) as [Sj Ssj].
    rewrite <- Ssi, <- Ssj at 1. rewrite HA by assumption. rewrite HV by assumption. rewrite Cconj_csum.
    apply csum_ext. intros k _. rewrite !Cconj_mult, Cconj_RtoC, Cconj_conj. reflexivity.
Qed.

Lemma spectrum_phase n A A' (u : nat -> C) E : (forall i, (i < n)%nat -> u i * Cconj (u i) = 1) ->
  (forall i j, (i < n)%nat -> (j < n)%nat -> A' i j = u i * A i j * Cconj (u j)) ->
  ascending_spectrum n A E -> ascending_spectrum n A' E.
Proof.
  intros Hu HA [SE [V [[UR UC] HV]]]. split; [exact SE|]. exists (fun i k => u i * V i k). split; [split|].
  - intros i j Hi Hj. transitivity (u i * Cconj (u j) * csum (fun k => V i k * Cconj (V j k)) n).
    + rewrite <- csum_scal_l. apply csum_ext. intros k _. rewrite Cconj_mult. ring.
    + rewrite (UR i j Hi Hj). unfold cdelta. destruct (Nat.eqb_spec i j) as [->|]; [rewrite Hu by exact Hj|]; ring.
  - intros i j Hi Hj. rewrite <- (UC i j Hi Hj). apply csum_ext. intros p Hp. rewrite Cconj_mult.
    transitivity ((u p * Cconj (u p)) * (Cconj (V p i) * V p j)); [ring|]. rewrite Hu by exact Hp. ring.
  - intros i j Hi Hj. rewrite HA, HV by assumption. rewrite <- csum_scal_l, <- csum_scal_r. apply csum_ext. intros k _.
    rewrite Cconj_mult. ring.
Qed.

(** ** Opposite frequencies *)

Fixpoint mirrors (n idx : list nat) : list nat :=
  match n, idx with n1 :: n, i :: idx => mirror_slot n1 i :: mirrors n idx | _, _ => [] end.
Fixpoint slots (N : list nat) (f : list Z) : list nat :=
  match N, f with n :: N, f1 :: f => slot n f1 :: slots N f | _, _ => [] end.

Lemma mirrors_in n : forall idx, in_shape idx n -> in_shape (mirrors n idx) n.
Proof. intros idx H. induction H; cbn; constructor; [apply mirror_lt; assumption|assumption]. Qed.
Lemma mirrors_mirrors n : forall idx, in_shape idx n -> mirrors n (mirrors n idx) = idx.
Proof. intros idx H. induction H; cbn; [reflexivity|]. rewrite mirror_mirror by assumption. rewrite IHForall2. reflexivity. Qed.
Lemma mirrors_freqs n : Forall Nat.Odd n -> forall idx, in_shape idx n -> sample_freqs n (mirrors n idx) = map Z.opp (sample_freqs n idx).
Proof.
  intros Ho idx H. induction H as [|i m idx n Hi H IH]; cbn; [reflexivity|]. inversion Ho as [|? ? O1 O2]; subst.
  rewrite IH by assumption. f_equal. assert (K := freq_mirror m i Hi).
  replace (Nat.even m) with false in K; [cbn [andb] in K; lia|].
  symmetry. rewrite <- Nat.negb_odd. replace (Nat.odd m) with true; [reflexivity|]. symmetry. apply Nat.odd_spec. exact O1.
Qed.
Lemma slots_in n N idx : Forall2 (fun a b => (a <= b)%nat) n N -> in_shape idx n -> in_shape (slots N (sample_freqs n idx)) N.
Proof.
  intros H. revert idx. induction H as [|a b n N L H IH]; intros idx Hi; inversion Hi; subst; cbn; constructor; [apply slot_lt; lia|].
  apply IH. assumption.
Qed.
Lemma slots_freqs n N idx : Forall2 (fun a b => (a <= b)%nat) n N -> in_shape idx n ->
  sample_freqs N (slots N (sample_freqs n idx)) = sample_freqs n idx.
Proof.
  intros H. revert idx. induction H as [|a b n N L H IH]; intros idx Hi; inversion Hi; subst; cbn; [reflexivity|].
  rewrite freq_slot by lia. rewrite IH by assumption. reflexivity.
Qed.
Lemma sample_freqs_nth n : forall idx a, in_shape idx n -> (a < length n)%nat -> nth a (sample_freqs n idx) 0%Z = freq (nth a n 0%nat) (nth a idx 0%nat).
Proof.
  intros idx a H. revert a. induction H; intros a Ha; cbn in Ha; [lia|]. destruct a as [|a]; cbn; [reflexivity|]. apply IHForall2. lia.
Qed.

(** ** States of plane-wave axes *)

Lemma plane_axes_states axes : Forall plane_wave_axis axes -> forall k x, length k = length axes -> length x = length axes ->
  axis_states axes k x = isqrt (nprod (map bfund axes)) * plane (map bfund axes) (sample_freqs (map bsize axes) k) (map Z.of_nat x).
Proof.
  induction 1 as [|c axes Hc Ha IH]; intros [|k1 k] [|x1 x] L1 L2; cbn in L1, L2; try lia.
  - cbn. unfold isqrt. cbn. rewrite sqrt_1, Rinv_1. ring.
  - cbn [axis_states map sample_freqs plane]. rewrite IH by lia.
    replace (isqrt (nprod (bfund c :: map bfund axes))) with (isqrt (bfund c) * isqrt (nprod (map bfund axes))) by (cbn [nprod]; symmetry; apply isqrt_mul).
    replace (bstate c k1 x1) with (plane_wave (bfund c) (freq (bsize c) k1) x1) by (destruct c; try contradiction; reflexivity).
    unfold plane_wave. ring.
Qed.

Section Axes.
  Context (axes : list basis).
  Hypothesis HP : Forall plane_wave_axis axes.
  Let B := BTuple axes.
  Let n := map bsize axes.
  Let N := map bfund axes.

  Lemma axes_wf : bwf B /\ explicit_orthonormal B.
  Proof using HP.
    unfold B. split.
    - apply bwf_tuple. revert HP. apply Forall_impl. intros c Hc. destruct c; try contradiction; exact Hc.
    - apply explicit_orthonormal_tuple. revert HP. apply Forall_impl. intros c Hc. destruct c; try contradiction; exact I.
  Qed.
  Lemma axes_le : Forall2 (fun a b => (a <= b)%nat) n N.
  Proof using HP.
    unfold n, N. clear B n N. induction HP as [|c l Hc Hl IH]; cbn; constructor; [|apply IH; exact Hl].
    destruct c; try contradiction; cbn in *; lia.
  Qed.
  Lemma axes_n_pos : Forall (fun m => (0 < m)%nat) n.
  Proof using HP. unfold n. clear B n N. induction HP as [|c l Hc Hl IH]; cbn; constructor; [|apply IH; exact Hl]. destruct c; try contradiction; cbn in *; lia. Qed.
  Lemma axes_N_pos : Forall (fun m => (0 < m)%nat) N.
  Proof using HP. unfold N. clear B n N. induction HP as [|c l Hc Hl IH]; cbn; constructor; [|apply IH; exact Hl]. destruct c; try contradiction; cbn in *; lia. Qed.

  Let F (t : nat) : list Z := sample_freqs n (unravel n t).

  Lemma state_plane t x : (t < bsize B)%nat -> (x < bfund B)%nat ->
    bstate B t x = isqrt (nprod N) * plane N (F t) (map Z.of_nat (unravel N x)).
  Proof using HP.
    intros Ht Hx. change (t < nprod n)%nat in Ht. change (x < nprod N)%nat in Hx.
    assert (It := unravel_in_shape n t Ht). assert (Ix := unravel_in_shape N x Hx).
    rewrite <- (ravel_unravel n t Ht) at 1. rewrite <- (ravel_unravel N x Hx) at 1. unfold B.
    transitivity (axis_states axes (unravel n t) (unravel N x)); [exact (bstate_ravel axes (unravel n t) (unravel N x) It Ix)|].
    rewrite plane_axes_states; [reflexivity|exact HP| |].
    - rewrite (in_shape_length _ _ It). unfold n. apply map_length.
    - rewrite (in_shape_length _ _ Ix). unfold N. apply map_length.
  Qed.

  (** The number of the same plane wave among all of the grid. *)
  Definition among (t : nat) : nat := ravel N (slots N (F t)).
  Lemma among_lt t : (t < bsize B)%nat -> (among t < nprod N)%nat.
  Proof using HP. intros Ht. apply ravel_lt. apply slots_in; [apply axes_le|]. apply unravel_in_shape. exact Ht. Qed.
  Lemma among_index t : (t < bsize B)%nat -> unravel N (among t) = slots N (F t).
  Proof using HP. intros Ht. apply unravel_ravel. apply slots_in; [apply axes_le|]. apply unravel_in_shape. exact Ht. Qed.
  Lemma among_state t x : (t < bsize B)%nat -> (x < bfund B)%nat -> bstate (momenta N) (among t) x = bstate B t x.
  Proof using HP.
    intros Ht Hx. rewrite state_plane by assumption. change (x < nprod N)%nat in Hx.
    assert (Ix := unravel_in_shape N x Hx). assert (It : in_shape (slots N (F t)) N) by (apply slots_in; [apply axes_le|apply unravel_in_shape; exact Ht]).
    assert (E1 : map bsize (map BFundT N) = N) by (rewrite map_map; apply map_id).
    assert (E2 : map bfund (map BFundT N) = N) by (rewrite map_map; apply map_id).
    rewrite <- (ravel_unravel N x Hx) at 1. unfold among, momenta.
    assert (K := bstate_ravel (map BFundT N) (slots N (F t)) (unravel N x)). rewrite E1, E2 in K. rewrite K by assumption.
    rewrite plane_axes_states.
    - rewrite E1, E2. unfold F. rewrite slots_freqs; [reflexivity|apply axes_le|apply unravel_in_shape; exact Ht].
    - assert (P := axes_N_pos). revert P. clear. induction 1; cbn; constructor; assumption.
    - rewrite map_length. apply in_shape_length. exact It.
    - rewrite map_length. apply in_shape_length. exact Ix.
  Qed.

  Definition opposite (t : nat) : nat := ravel n (mirrors n (unravel n t)).
  Lemma opposite_spec t : (t < bsize B)%nat -> (opposite t < bsize B)%nat /\ opposite (opposite t) = t.
  Proof using.
    intros Ht. assert (It := unravel_in_shape n t Ht). split; [apply ravel_lt, mirrors_in; exact It|].
    unfold opposite. rewrite unravel_ravel by (apply mirrors_in; exact It). rewrite mirrors_mirrors by exact It. apply ravel_unravel. exact Ht.
  Qed.
  Lemma opposite_freqs t : Forall Nat.Odd n -> (t < bsize B)%nat -> F (opposite t) = map Z.opp (F t).
  Proof using.
    intros Ho Ht. assert (It := unravel_in_shape n t Ht). unfold F, opposite. rewrite unravel_ravel by (apply mirrors_in; exact It).
    apply mirrors_freqs; assumption.
  Qed.
  Lemma opposite_state t x : Forall Nat.Odd n -> (t < bsize B)%nat -> (x < bfund B)%nat -> bstate B (opposite t) x = Cconj (bstate B t x).
  Proof using HP.
    intros Ho Ht Hx. rewrite !state_plane by (try apply opposite_spec; assumption). rewrite opposite_freqs by assumption.
    rewrite Cconj_mult, plane_conj. f_equal. unfold isqrt. rewrite Cconj_RtoC. reflexivity.
  Qed.

  (** The kinetic energy between two states. *)
  Lemma kinetic_entry (T : nat -> C) i j : (i < bsize B)%nat -> (j < bsize B)%nat ->
    csum (fun k => overlap B (momenta N) i k * T k * overlap (momenta N) B k j) (nprod N) = T (among i) * cdelta i j.
  Proof using HP.
    intros Hi Hj. destruct axes_wf as [Wb Ob].
    assert (FN : Forall (fun m => (0 < m)%nat) N) by exact axes_N_pos.
    assert (Wm : bwf (momenta N)).
    { apply bwf_tuple. clear -FN. induction FN; cbn; constructor; assumption. }
    assert (Om : orthonormal (momenta N)).
    { apply explicit_orthonormal_sound; [exact Wm|]. apply explicit_orthonormal_tuple. clear. induction N; cbn; constructor; [exact I|assumption]. }
    assert (Sm : bsize (momenta N) = nprod N) by (unfold momenta; cbn [bsize]; rewrite map_map; f_equal; apply map_id).
    assert (Fm : bfund (momenta N) = bfund B) by (unfold momenta; cbn [bfund B]; rewrite map_map; f_equal; apply map_id).
    assert (O1 : forall k, (k < nprod N)%nat -> overlap B (momenta N) i k = cdelta (among i) k).
    { intros k Hk. rewrite <- (Om (among i) k ltac:(rewrite Sm; apply among_lt; exact Hi) ltac:(rewrite Sm; exact Hk)).
      unfold overlap. apply csum_ext. intros x Hx. rewrite among_state by (try assumption; rewrite <- Fm; exact Hx). reflexivity. }
    rewrite (csum_ext _ (fun k => cdelta (among i) k * (T k * overlap (momenta N) B k j))).
    - rewrite (csum_delta_l (fun k => T k * overlap (momenta N) B k j)) by (apply among_lt; exact Hi). f_equal.
      rewrite <- (explicit_orthonormal_sound B Wb Ob i j Hi Hj). unfold overlap. apply csum_ext. intros x Hx.
      rewrite among_state by assumption. reflexivity.
    - intros k Hk. rewrite O1 by exact Hk. ring.
  Qed.
End Axes.

(** ** The energies *)

Section Energies.
  Context (same : basis -> basis -> bool) (hbar mass : R) (axes : list basis) (delta inv : nat -> nat -> R).
  Hypothesis Hs : identity_test same.
  Hypothesis HP : Forall plane_wave_axis axes.
  Hypothesis Hi : is_inverse (length axes) delta inv.
  Let B := BTuple axes.
  Let n := map bsize axes.
  Let N := map bfund axes.

  (** Elements of the Hamiltonian between plane waves. *)
  Lemma plane_elements data frac : exists H, total_surface_hamiltonian same hbar axes inv data mass frac = Some H /\
    orow H = B /\ ocol H = B /\ op_wf H /\
    forall q, waves N delta frac q -> forall i j, (i < bsize B)%nat -> (j < bsize B)%nat -> op_entry H i j =
      csum (fun x => Cconj (bstate B i x) * amplitude B data x * bstate B j x) (nprod N) +
      RtoC (hbar * hbar * dot (length axes) (q (among axes i)) (q (among axes i)) / (2 * mass)) * cdelta i j.
  Proof using Hs HP Hi.
    destruct (axes_wf axes HP) as [Wb Ob].
    destruct (hamiltonian_elements same Hs axes Wb Ob delta inv Hi hbar mass frac data) as [H [HH [[W _] [R1 [C1 EH]]]]].
    exists H. split; [exact HH|]. split; [exact R1|]. split; [exact C1|]. split; [exact W|].
    intros q Hq i j Hi' Hj'. rewrite (EH q Hq i j Hi' Hj'). f_equal.
    exact (kinetic_entry axes HP (fun k => RtoC (hbar * hbar * dot (length axes) (q k) (q k) / (2 * mass))) i j Hi' Hj').
  Qed.

  Lemma dot_opp (u v : nat -> R) m : (forall c, (c < m)%nat -> v c = - u c)%R -> dot m v v = dot m u u.
  Proof using. intros H. unfold dot. apply rsum_ext. intros c Hc. rewrite H by exact Hc. ring. Qed.

  (** Opposite plane waves at opposite fractions have opposite wave vectors. *)
  Lemma opposite_waves frac frac' q q' : Forall Nat.Odd n -> (forall a, (a < length axes)%nat -> fraction frac' a = (- fraction frac a)%R) ->
    waves N delta frac q -> waves N delta frac' q' -> forall i, (i < bsize B)%nat ->
    forall c, (c < length axes)%nat -> q' (among axes (opposite axes i)) c = (- q (among axes i) c)%R.
  Proof using HP Hi.
    intros Ho Hf Hq Hq' i Hi' c Hc. destruct (opposite_spec axes i Hi') as [Lo _].
    assert (LN : length N = length axes) by (unfold N; apply map_length).
    assert (Ln : length n = length axes) by (unfold n; apply map_length).
    assert (A1 := Hq (among axes i) (among_lt axes HP i Hi')).
    assert (A2 := Hq' (among axes (opposite axes i)) (among_lt axes HP _ Lo)).
    apply (wave_unique N delta inv (unravel N (among axes (opposite axes i))) (fraction frac')
      (q' (among axes (opposite axes i))) (fun c => - q (among axes i) c)%R); [rewrite LN; exact Hi|exact A2| |rewrite LN; exact Hc].
    intros a Ha. assert (A3 := A1 a Ha).
    assert (Rn : forall t, (t < bsize B)%nat -> freq (nth a N 0%nat) (nth a (unravel N (among axes t)) 0%nat) = nth a (sample_freqs n (unravel n t)) 0%Z).
    { intros t Ht. assert (It := unravel_in_shape n t Ht). assert (K := among_index axes HP t Ht : unravel N (among axes t) = slots N (sample_freqs n (unravel n t))). rewrite K.
      assert (Is : in_shape (slots N (sample_freqs n (unravel n t))) N) by (apply slots_in; [apply (axes_le axes HP)|exact It]).
      rewrite <- (sample_freqs_nth N _ a Is Ha).
      rewrite slots_freqs; [reflexivity|apply (axes_le axes HP)|exact It]. }
    rewrite Rn in A3 by exact Hi'. rewrite Rn by exact Lo.
    assert (Fo := opposite_freqs axes i Ho Hi'). cbv zeta in Fo. fold n in Fo. rewrite Fo.
    assert (Nth : nth a (map Z.opp (sample_freqs n (unravel n i))) 0%Z = (- nth a (sample_freqs n (unravel n i)) 0)%Z) by exact (map_nth Z.opp _ 0%Z a).
    rewrite Nth, opp_IZR, Hf by (rewrite <- LN; exact Ha).
    transitivity (-1 * dot (length N) (q (among axes i)) (delta a))%R.
    - unfold dot. rewrite <- LatticeProofs.rsum_scal_l. apply rsum_ext. intros d _. ring.
    - rewrite A3. ring.
  Qed.

  Lemma reversed_entries data frac frac' H H' : Forall Nat.Odd n -> real_valued B data ->
    (forall a, (a < length axes)%nat -> fraction frac' a = (- fraction frac a)%R) ->
    total_surface_hamiltonian same hbar axes inv data mass frac = Some H ->
    total_surface_hamiltonian same hbar axes inv data mass frac' = Some H' ->
    forall i j, (i < bsize B)%nat -> (j < bsize B)%nat -> op_entry H' (opposite axes i) (opposite axes j) = Cconj (op_entry H i j).
  Proof using Hs HP Hi.
    intros Ho Hr Hf HH HH' i j Hi' Hj'.
    destruct (plane_elements data frac) as [G [GG [_ [_ [_ EG]]]]]. rewrite HH in GG. injection GG as <-.
    destruct (plane_elements data frac') as [G' [GG' [_ [_ [_ EG']]]]]. rewrite HH' in GG'. injection GG' as <-.
    assert (Hq : forall fr, exists q, waves N delta fr q).
    { intros fr. eexists. apply (waves_exist N delta inv fr). unfold N. rewrite map_length. exact Hi. }
    destruct (Hq frac) as [q Q]. destruct (Hq frac') as [q' Q'].
    destruct (opposite_spec axes i Hi') as [Li Ii]. destruct (opposite_spec axes j Hj') as [Lj Ij].
    rewrite (EG q Q i j Hi' Hj'), (EG' q' Q' _ _ Li Lj). rewrite Cconj_plus, Cconj_csum, Cconj_mult, Cconj_RtoC. f_equal.
    - apply csum_ext. intros x Hx. rewrite !(opposite_state axes HP _ _ Ho) by assumption. change (BTuple axes) with B. rewrite !Cconj_mult, !Cconj_conj.
      rewrite (Cconj_real (amplitude B data x)) by (apply Hr; exact Hx). ring.
    - f_equal.
      + f_equal. f_equal. f_equal. apply dot_opp. intros c Hc. apply (opposite_waves frac frac' q q' Ho Hf Q Q' i Hi' c Hc).
      + unfold cdelta. destruct (Nat.eqb_spec i j) as [->|ne].
        * rewrite Nat.eqb_refl, Cconj_1. reflexivity.
        * destruct (Nat.eqb_spec (opposite axes i) (opposite axes j)) as [e|_]; [exfalso; apply ne; congruence|].
          apply injective_projections; cbn; ring.
  Qed.

  Lemma reversed_energies eigh data frac frac' : eigh_ok eigh -> Forall Nat.Odd n -> real_valued B data ->
    (forall a, (a < length axes)%nat -> fraction frac' a = (- fraction frac a)%R) ->
    exists H H', total_surface_hamiltonian same hbar axes inv data mass frac = Some H /\
      total_surface_hamiltonian same hbar axes inv data mass frac' = Some H' /\
    forall lo hi, (lo <= hi)%nat -> (hi < bsize B)%nat -> exists e v e' v',
      eigenstates_hermitian eigh H (Some (Z.of_nat lo, Z.of_nat hi)) = Some ((hi - lo + 1)%nat, e, v) /\
      eigenstates_hermitian eigh H' (Some (Z.of_nat lo, Z.of_nat hi)) = Some ((hi - lo + 1)%nat, e', v') /\
      forall k, (k < hi - lo + 1)%nat -> e' k = e k.
  Proof using Hs HP Hi.
    intros He Ho Hr Hf. destruct (axes_wf axes HP) as [Wb Ob].
    destruct (plane_elements data frac) as [H [HH _]]. destruct (plane_elements data frac') as [H' [HH' _]].
    assert (X := energies_exist same hbar axes delta inv frac Hs Hi H axes data mass eq_refl Wb Ob Hr HH).
    assert (X' := energies_exist same hbar axes delta inv frac' Hs Hi H' axes data mass eq_refl Wb Ob Hr HH').
    destruct (spectrum_of _ _ (proj2 (proj2 (proj2 X)))) as [E HE].
    assert (HE' : ascending_spectrum (bsize B) (op_entry H') E).
    { apply (spectrum_conj (bsize B) (op_entry H) (op_entry H') (opposite axes) E); [exact (opposite_spec axes)| |exact HE].
      exact (reversed_entries data frac frac' H H' Ho Hr Hf HH HH'). }
    exists H, H'. split; [exact HH|]. split; [exact HH'|]. intros lo hi L1 L2.
    destruct (both_energies eigh H H' _ _ lo hi lo hi He X X' L1 L2 L1 L2) as [e [v [e' [v' [G [G' K]]]]]].
    exists e, v, e', v'. split; [exact G|]. split; [exact G'|]. destruct (K E E HE HE') as [K1 K2].
    intros k Hk. rewrite K1, K2 by exact Hk. reflexivity.
  Qed.
End Energies.
