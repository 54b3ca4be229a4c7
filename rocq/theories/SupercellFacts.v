(** Repeated potentials exist; and the Bloch wave of an edge state. *)
From Coq Require Import Reals Psatz.
From Verif Require Import ZLib Csum DFT NumPy Spec Index IndexProofs IndexSum SpecReal Lattice LatticeProofs
  Basis SpecBasis BasisProofs BasisProofs2 BasisProofs3 BasisFacts Operator SpecOperator
  Wavepacket SpecWavepacket WavepacketProofs WavepacketProofs2 WavepacketProofs3 Hamiltonian SpecHamiltonian HamiltonianProofs
  HamiltonianProofs2 WannierBasisProofs SpecLocalize SpecSupercellHamiltonian SupercellProofs SupercellProofs2 SupercellProofs3 SupercellProofs4.
Local Open Scope R_scope.
Local Open Scope C_scope.

(** Every potential of the cell can be repeated. *)
Lemma repeats_exist ls saxes data : Forall (fun n => (0 < n)%nat) ls -> length ls = length saxes -> bwf (BTuple saxes) ->
  exists data', repeats ls saxes data (map BFundT (supercell ls (map bfund saxes))) data'.
Proof.
  intros Hls Hl Hw. set (ss := map bfund saxes). set (F := supercell ls ss).
  set (g := fun t => amplitude (BTuple saxes) data (ravel ss (in_cell ss (unravel F t)))).
  exists (fun k => inner_product (nprod F) (bstate (momenta F) k) g). intros x X. cbv zeta. fold ss. fold F. fold F in X.
  change (BTuple (map BFundT F)) with (momenta F). rewrite momenta_expand.
  - unfold g. rewrite unravel_ravel by exact X. reflexivity.
  - apply supercell_pos; [exact Hls|apply fund_shape_pos; exact Hw].
  - apply ravel_lt. exact X.
Qed.

(** And lattices enlarged. *)
Lemma enlarged_exist ls delta inv : Forall (fun n => (0 < n)%nat) ls -> is_inverse (length ls) delta inv ->
  exists delta' inv', enlarged ls delta delta' /\ is_inverse (length ls) delta' inv'.
Proof.
  intros P [A B].
  assert (Q : forall a, (a < length ls)%nat -> (INR (nth a ls 0%nat) <> 0)%R).
  { intros a Ha. apply not_0_INR. rewrite Forall_forall in P. pose proof (P _ (nth_In ls 0%nat Ha)). lia. }
  exists (fun a c => INR (nth a ls 0%nat) * delta a c)%R, (fun c a => inv c a / INR (nth a ls 0%nat))%R.
  split; [intros a c _ _; reflexivity|]. split.
  - intros a b Ha Hb. transitivity (INR (nth a ls 0%nat) / INR (nth b ls 0%nat) * rdelta a b)%R.
    + rewrite <- (A a b Ha Hb), <- rsum_scal_l. apply rsum_ext. intros c Hc. field. apply Q. exact Hb.
    + unfold rdelta. destruct (Nat.eqb_spec a b) as [->|]; [field; apply Q; exact Hb|ring].
  - intros a b Ha Hb. rewrite <- (B a b Ha Hb). apply rsum_ext. intros c Hc. field. apply Q. exact Hc.
Qed.

(** Two points per cell and two samples, no potential: the state of the cell with frequency
    -1 at the sample with frequency -1 has wave number - 3 / 2 and energy 9 pi^2; in the
    supercell of four points frequency -3 is frequency 1, wave number 1 / 2 and energy pi^2. *)
Lemma edge_wave same : identity_test same -> exists H H' u U,
  total_surface_hamiltonian same 1 [BFundT 2] (fun _ _ => 1%R) (fun _ => 0) (1 / 2) (Some (bloch_fraction [2%nat] [1%nat])) = Some H /\
  total_surface_hamiltonian same 1 [BFundT 4] (fun _ _ => (1 / 2)%R) (fun _ => 0) (1 / 2) None = Some H' /\
  bloch_wave_of [2%nat] [BFundT 2] [1%nat] u [BFundT 4] U /\
  eigenvector 2 (op_entry H) (RtoC (9 * PI ^ 2)) u /\ eigenvector 4 (op_entry H') (RtoC (PI ^ 2)) U.
Proof.
  intros Hs.
  assert (W2 : bwf (BTuple [BFundT 2])) by (cbn; lia). assert (W4 : bwf (BTuple [BFundT 4])) by (cbn; lia).
  assert (O2 : explicit_orthonormal (BTuple [BFundT 2])) by (cbn; tauto).
  assert (O4 : explicit_orthonormal (BTuple [BFundT 4])) by (cbn; tauto).
  assert (C2 : complete (BTuple [BFundT 2])) by (apply square_complete; [assumption..|reflexivity]).
  assert (C4 : complete (BTuple [BFundT 4])) by (apply square_complete; [assumption..|reflexivity]).
  assert (I2 : is_inverse (length [BFundT 2]) (fun _ _ => 1%R) (fun _ _ => 1%R)).
  { split; intros a b Ha Hb; cbn in *; replace a with 0%nat by lia; replace b with 0%nat by lia; unfold rdelta; cbn; ring. }
  assert (I4 : is_inverse (length [BFundT 4]) (fun _ _ => 2%R) (fun _ _ => (1 / 2)%R)).
  { split; intros a b Ha Hb; cbn in *; replace a with 0%nat by lia; replace b with 0%nat by lia; unfold rdelta; cbn; field. }
  destruct (hamiltonian_elements same Hs [BFundT 2] W2 O2 _ _ I2 1 (1 / 2) (Some (bloch_fraction [2%nat] [1%nat])) (fun _ => 0)) as [H [EH _]].
  destruct (hamiltonian_elements same Hs [BFundT 4] W4 O4 _ _ I4 1 (1 / 2) None (fun _ => 0)) as [H' [EH' _]].
  assert (Z : forall b x, amplitude b (fun _ => 0) x = 0).
  { intros b x. unfold amplitude. rewrite (csum_ext _ (fun _ => 0)); [apply csum_zero|intros; ring]. }
  set (q := fun k (c : nat) => (2 * PI * (IZR (freq 2 k) + IZR (freq 2 1) / INR 2))%R).
  set (q' := fun k (c : nat) => (2 * PI * IZR (freq 4 k) / 2)%R).
  assert (Q : waves [2%nat] (fun _ _ => 1%R) (Some (bloch_fraction [2%nat] [1%nat])) q).
  { intros k Hk a Ha. cbn in Ha, Hk. replace a with 0%nat by lia. unfold dot, q, bloch_fraction. cbn [length rsum fraction fractions nth].
    replace (nth 0 (unravel [2%nat] k) 0%nat) with k; [ring|]. destruct k as [|[|k]]; [reflexivity|reflexivity|lia]. }
  assert (Q' : waves [4%nat] (fun _ _ => 2%R) None q').
  { intros k Hk a Ha. cbn in Ha, Hk. replace a with 0%nat by lia. unfold dot, q'. cbn [length rsum fraction nth].
    replace (nth 0 (unravel [4%nat] k) 0%nat) with k; [field|]. destruct k as [|[|[|[|k]]]]; try reflexivity; lia. }
  exists H, H', (fun i => overlap (BTuple [BFundT 2]) (momenta [2%nat]) i 1), (fun i => overlap (BTuple [BFundT 4]) (momenta [4%nat]) i 1).
  split; [exact EH|]. split; [exact EH'|]. split; [|split].
  - intros x X. cbv zeta. change (map bfund [BFundT 2]) with [2%nat] in *. change (supercell [2%nat] [2%nat]) with [4%nat] in *.
    pose proof (overlap_amplitude [BFundT 4] 1 (ravel [4%nat] x) W4 C4 (ravel_lt [4%nat] x X)) as A4.
    assert (Ic : in_shape (in_cell [2%nat] x) [2%nat]) by (apply (in_cell_in [2%nat] [2%nat]); [reflexivity|exact X]).
    pose proof (overlap_amplitude [BFundT 2] 1 (ravel [2%nat] (in_cell [2%nat] x)) W2 C2 (ravel_lt [2%nat] _ Ic)) as A2.
    change (map bfund [BFundT 4]) with [4%nat] in A4. change (map bfund [BFundT 2]) with [2%nat] in A2.
    rewrite A4, A2.
    pose proof (axis_states_unfurl [2%nat] [2%nat] [1%nat] [1%nat] x eq_refl ltac:(repeat constructor) ltac:(repeat constructor) X) as U.
    change (unfurl_slot [2%nat] [2%nat] [1%nat] [1%nat]) with [1%nat] in U. change (supercell [2%nat] [2%nat]) with [4%nat] in U.
    pose proof (bstate_ravel [BFundT 4] [1%nat] x ltac:(repeat constructor) X) as B4.
    pose proof (bstate_ravel [BFundT 2] [1%nat] (in_cell [2%nat] x) ltac:(repeat constructor) Ic) as B2.
    change (ravel (map bsize [BFundT 4]) [1%nat]) with 1%nat in B4. change (ravel (map bsize [BFundT 2]) [1%nat]) with 1%nat in B2.
    change (momenta [4%nat]) with (BTuple [BFundT 4]). change (momenta [2%nat]) with (BTuple [BFundT 2]).
    change (map bfund [BFundT 4]) with [4%nat] in B4. change (map bfund [BFundT 2]) with [2%nat] in B2.
    rewrite B4, B2. exact U.
  - pose proof (free_particle same Hs [BFundT 2] W2 O2 _ _ I2 1 (1 / 2) (Some (bloch_fraction [2%nat] [1%nat])) (fun _ => 0) H q 1 C2
      (fun x _ => Z _ x) EH Q ltac:(cbn; lia)) as X.
    replace (RtoC (9 * PI ^ 2)) with (RtoC (1 * 1 * dot (length [BFundT 2]) (q 1%nat) (q 1%nat) / (2 * (1 / 2)))); [exact X|].
    f_equal. unfold dot, q. cbn [length rsum]. change (freq 2 1) with (-1)%Z. change (INR 2) with 2%R. field.
  - pose proof (free_particle same Hs [BFundT 4] W4 O4 _ _ I4 1 (1 / 2) None (fun _ => 0) H' q' 1 C4
      (fun x _ => Z _ x) EH' Q' ltac:(cbn; lia)) as X.
    replace (RtoC (PI ^ 2)) with (RtoC (1 * 1 * dot (length [BFundT 4]) (q' 1%nat) (q' 1%nat) / (2 * (1 / 2)))); [exact X|].
    f_equal. unfold dot, q'. cbn [length rsum]. change (freq 4 1) with 1%Z. field.
Qed.
