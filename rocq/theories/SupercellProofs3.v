(** Eigenstates of the cell are eigenstates of the supercell. *)
From Coq Require Import Reals Psatz.
From Verif Require Import ZLib Csum DFT NumPy Spec Index IndexProofs IndexSum SpecReal Lattice LatticeProofs LinAlg SpecMatrix
  Basis SpecBasis BasisProofs BasisProofs2 BasisProofs3 BasisFacts Operator SpecOperator OperatorProofs OperatorProofs2
  Wavepacket SpecWavepacket WavepacketProofs WavepacketProofs2 WavepacketProofs3 Hamiltonian SpecHamiltonian HamiltonianProofs
  HamiltonianProofs2 HamiltonianProofs3 Localize SpecLocalize LocalizeProofs5 LocalizeProofs6
  BlochEnergies SpecBloch SpecBlochEnergy BlochEnergyProofs2 SpecSupercellHamiltonian SupercellProofs SupercellProofs2.
Local Open Scope R_scope.
Local Open Scope C_scope.

Lemma idelta_cdelta ls s t : in_shape s ls -> in_shape t ls -> idelta s t = cdelta (ravel ls s) (ravel ls t).
Proof.
  intros I I'. destruct (list_eq_dec PeanoNat.Nat.eq_dec s t) as [->|D]; [rewrite idelta_refl, cdelta_refl; reflexivity|].
  rewrite idelta_neq by exact D. rewrite cdelta_neq; [reflexivity|]. intros E. apply D.
  rewrite <- (unravel_ravel ls s I), <- (unravel_ravel ls t I'), E. reflexivity.
Qed.

Lemma momenta_explicit l : explicit_orthonormal (BTuple (map BFundT l)).
Proof. induction l as [|a l IH]; cbn; [exact I|]. split; [exact I|exact IH]. Qed.

(** In a complete basis every plane wave has coefficients. *)
Lemma overlap_amplitude saxes k x : bwf (BTuple saxes) -> complete (BTuple saxes) -> (x < nprod (map bfund saxes))%nat ->
  amplitude (BTuple saxes) (fun i => overlap (BTuple saxes) (momenta (map bfund saxes)) i k) x = bstate (momenta (map bfund saxes)) k x.
Proof.
  intros Hw Cm Hx. unfold amplitude, overlap. rewrite momenta_fund. set (M := momenta (map bfund saxes)).
  rewrite (csum_ext _ (fun i => csum (fun y => bstate M k y * (bstate (BTuple saxes) i x * Cconj (bstate (BTuple saxes) i y))) (nprod (map bfund saxes)))).
  2:{ intros i Hi. rewrite <- csum_scal_r. apply csum_ext. intros; ring. }
  rewrite csum_swap. rewrite (csum_ext _ (fun y => cdelta x y * bstate M k y)).
  2:{ intros y Hy. rewrite csum_scal_l. rewrite Cmult_comm. f_equal. apply Cm; assumption. }
  apply csum_delta_l. exact Hx.
Qed.

Section Eigen.
  Variable same : basis -> basis -> bool.
  Hypothesis Hsame : identity_test same.
  Variables (ls : list nat) (saxes : list basis).
  Hypothesis Hls : Forall (fun n => (0 < n)%nat) ls.
  Hypothesis Hl : length ls = length saxes.
  Hypothesis Hw : bwf (BTuple saxes).
  Hypothesis Ho : explicit_orthonormal (BTuple saxes).
  Let ss := map bfund saxes.
  Let F := supercell ls ss.
  Let axes' := map BFundT F.
  Let N := bsize (BTuple saxes).
  Variables delta inv delta' inv' : nat -> nat -> R.
  Hypothesis Hinv : is_inverse (length saxes) delta inv.
  Hypothesis Hinv' : is_inverse (length saxes) delta' inv'.
  Hypothesis Hen : enlarged ls delta delta'.
  Variables hbar mass : R.
  Variables data data' : nat -> C.
  Hypothesis Hrep : repeats ls saxes data axes' data'.

  Lemma L1 : length ls = length ss. Proof using Hl. unfold ss. rewrite map_length. exact Hl. Qed.
  Lemma P1 : Forall (fun n => (0 < n)%nat) F.
  Proof using Hls Hw. apply supercell_pos; [exact Hls|apply fund_shape_pos; exact Hw]. Qed.
  Lemma W1 : bwf (BTuple axes'). Proof using Hls Hw. apply (momenta_wf F). apply P1. Qed.
  Lemma E1 : explicit_orthonormal (BTuple axes').
  Proof using. apply momenta_explicit. Qed.
  Lemma F1 : map bfund axes' = F. Proof using. apply map_bfund_FundT. Qed.
  Lemma V1 : is_inverse (length axes') delta' inv'.
  Proof using Hl Hinv'. unfold axes'. rewrite map_length. unfold F. rewrite supercell_length, Hl by apply L1. exact Hinv'. Qed.

  Lemma element s t u v U V H H' :
    in_shape s ls -> in_shape t ls ->
    bloch_wave_of ls saxes s u axes' U -> bloch_wave_of ls saxes t v axes' V -> below_edge saxes v ->
    total_surface_hamiltonian same hbar saxes inv data mass (Some (bloch_fraction ls t)) = Some H ->
    total_surface_hamiltonian same hbar axes' inv' data' mass None = Some H' ->
    matrix_element (nprod F) U (op_entry H') V = idelta s t * matrix_element N u (op_entry H) v.
  Proof.
    intros. rewrite <- (momenta_size F).
    exact (bloch_element same Hsame ls saxes axes' Hls Hl Hw Ho W1 E1 F1 delta inv delta' inv' Hinv V1 Hen hbar mass data data' Hrep
      s t u v U V H H' ltac:(assumption) ltac:(assumption) ltac:(assumption) ltac:(assumption) ltac:(assumption) ltac:(assumption) ltac:(assumption)).
  Qed.

  Lemma wave_coefficients t v V f : in_shape t ls -> bloch_wave_of ls saxes t v axes' V -> (f < nprod F)%nat ->
    V f = spread ls ss t (fun k => inner_product (nprod ss) (bstate (momenta ss) k) (amplitude (BTuple saxes) v)) f.
  Proof.
    intros It BV Hf. rewrite <- (component_momenta F V f P1 Hf).
    rewrite (inner_ext _ _ _ _ _ (fun k _ => eq_refl) (wave_values ls saxes Hl Hw t (amplitude (BTuple saxes) v) (amplitude (BTuple axes') V) It BV)).
    apply component_momenta; [apply P1|exact Hf].
  Qed.

  Lemma delta_is_wave s k : complete (BTuple saxes) -> in_shape s ls -> in_shape k ss ->
    bloch_wave_of ls saxes s (fun i => overlap (BTuple saxes) (momenta ss) i (ravel ss k)) axes' (cdelta (ravel F (unfurl_slot ls ss s k))).
  Proof.
    intros Cm Is Ik x X. cbv zeta. fold ss. fold F. fold F in X.
    assert (Lc : in_shape (in_cell ss x) ss) by (apply (in_cell_in ss ls); [apply L1|exact X]).
    assert (Lk : in_shape (unfurl_slot ls ss s k) F) by (apply unfurl_slot_in; [apply L1|assumption..]).
    unfold ss at 3. rewrite overlap_amplitude; [|assumption..|apply ravel_lt; exact Lc]. fold ss.
    unfold amplitude. change (bsize (BTuple axes')) with (bsize (momenta F)). rewrite momenta_size.
    rewrite csum_delta_l by (apply ravel_lt; exact Lk).
    assert (S1 : bstate (BTuple axes') (ravel F (unfurl_slot ls ss s k)) (ravel F x) = axis_states axes' (unfurl_slot ls ss s k) x).
    { pose proof (bstate_ravel axes' (unfurl_slot ls ss s k) x) as R1. unfold axes' in R1. rewrite map_bsize_FundT, map_bfund_FundT in R1. apply R1; assumption. }
    assert (S2 : bstate (momenta ss) (ravel ss k) (ravel ss (in_cell ss x)) = axis_states (map BFundT ss) k (in_cell ss x)).
    { pose proof (bstate_ravel (map BFundT ss) k (in_cell ss x)) as R1. rewrite map_bsize_FundT, map_bfund_FundT in R1. apply R1; assumption. }
    rewrite S1, S2. unfold axes', F. apply axis_states_unfurl; [apply L1|assumption..].
  Qed.

  Lemma bloch_eigen t v V H H' lam : complete (BTuple saxes) ->
    in_shape t ls -> bloch_wave_of ls saxes t v axes' V -> below_edge saxes v ->
    total_surface_hamiltonian same hbar saxes inv data mass (Some (bloch_fraction ls t)) = Some H ->
    total_surface_hamiltonian same hbar axes' inv' data' mass None = Some H' ->
    (forall i, (i < N)%nat -> csum (fun j => op_entry H i j * v j) N = lam * v i) ->
    forall f, (f < nprod F)%nat -> csum (fun g => op_entry H' f g * V g) (nprod F) = lam * V f.
  Proof.
    intros Cm It BV Ed EH EH' Ev f Hf.
    assert (If : in_shape (unravel F f) F) by (apply unravel_in_shape; exact Hf).
    destruct (unfurl_once ls ss (unravel F f) L1 If) as [s [k [Is [Ik [Es _]]]]].
    assert (Ef : ravel F (unfurl_slot ls ss s k) = f) by (rewrite Es; apply ravel_unravel; exact Hf).
    pose proof (element s t _ v _ V H H' Is It (delta_is_wave s k Cm Is Ik) BV Ed EH EH') as X.
    rewrite Ef in X. unfold matrix_element in X at 1. unfold inner_product in X at 1.
    rewrite (csum_ext _ (fun i => cdelta f i * csum (fun g => op_entry H' i g * V g) (nprod F))) in X
      by (intros i Hi; rewrite Cconj_cdelta; reflexivity).
    rewrite (csum_delta_l (fun i => csum (fun g => op_entry H' i g * V g) (nprod F))) in X by exact Hf.
    rewrite X. clear X. rewrite (wave_coefficients t v V f It BV Hf). rewrite <- Ef. unfold F. rewrite (spread_slot ls ss L1) by assumption.
    unfold matrix_element. rewrite (inner_ext _ _ _ _ (fun i => lam * v i) (fun k _ => eq_refl) Ev).
    assert (Y : inner_product N (fun i => overlap (BTuple saxes) (momenta ss) i (ravel ss k)) v =
                inner_product (nprod ss) (bstate (momenta ss) (ravel ss k)) (amplitude (BTuple saxes) v)).
    { unfold inner_product, amplitude. fold N.
      rewrite (csum_ext _ (fun x => csum (fun i => v i * (Cconj (bstate (momenta ss) (ravel ss k) x) * bstate (BTuple saxes) i x)) N) (nprod ss))
        by (intros x Hx; rewrite <- csum_scal_l; apply csum_ext; intros; ring).
      rewrite csum_swap. apply csum_ext. intros i Hi. rewrite csum_scal_l, Cmult_comm. f_equal.
      unfold overlap. rewrite momenta_fund, Cconj_csum. apply csum_ext. intros x Hx. rewrite Cconj_mult, Cconj_conj. ring. }
    assert (Z : inner_product N (fun i => overlap (BTuple saxes) (momenta ss) i (ravel ss k)) (fun i => lam * v i) =
                lam * inner_product N (fun i => overlap (BTuple saxes) (momenta ss) i (ravel ss k)) v).
    { unfold inner_product. rewrite <- csum_scal_l. apply csum_ext. intros; ring. }
    rewrite Z, Y. ring.
  Qed.
End Eigen.
