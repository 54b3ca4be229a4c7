(** With all bands the Bloch Hamiltonian is the Hamiltonian of the supercell; and what goes
    wrong with an even number of points. *)
From Coq Require Import Reals Psatz.
From Verif Require Import ZLib Csum DFT NumPy Spec Index IndexProofs IndexSum SpecReal Lattice LatticeProofs LinAlg SpecMatrix
  Basis SpecBasis BasisProofs BasisProofs2 BasisProofs3 BasisFacts Operator SpecOperator OperatorProofs OperatorProofs2
  Wavepacket SpecWavepacket WavepacketProofs WavepacketProofs2 WavepacketProofs3 WavepacketFacts Hamiltonian SpecHamiltonian HamiltonianProofs
  HamiltonianProofs2 HamiltonianProofs3 WannierBasisProofs Localize SpecLocalize LocalizeFacts2
  BlochEnergies SpecBloch SpecBlochEnergy BlochEnergyProofs2 SpecSupercellHamiltonian SupercellProofs SupercellProofs2 SupercellProofs3 SupercellProofs4.
Local Open Scope R_scope.
Local Open Scope C_scope.

(** A matrix with an orthonormal set of as many eigenvectors as its size. *)
Lemma eigen_sum n A (E : nat -> C) (W : nat -> nat -> C) v :
  (forall r, (r < n)%nat -> forall i, (i < n)%nat -> csum (fun j => A i j * W r j) n = E r * W r i) ->
  (forall r r', (r < n)%nat -> (r' < n)%nat -> inner_product n (W r) (W r') = cdelta r r') ->
  matrix_element n v A v = csum (fun r => E r * RtoC (Cnorm2 (inner_product n (W r) v))) n.
Proof.
  intros Ev On.
  assert (Oc : orthonormal_columns n n W).
  { apply orthonormal_square. intros i j Hi Hj. rewrite cdelta_sym. rewrite <- (On j i Hj Hi). unfold inner_product.
    apply csum_ext. intros; ring. }
  set (c := fun r => inner_product n (W r) v).
  assert (X : forall i, (i < n)%nat -> v i = csum (fun r => c r * W r i) n).
  { intros i Hi. unfold c, inner_product.
    rewrite (csum_ext _ (fun r => csum (fun j => v j * (Cconj (W r j) * W r i)) n)).
    2:{ intros r Hr. rewrite <- csum_scal_r. apply csum_ext. intros; ring. }
    rewrite csum_swap. rewrite (csum_ext _ (fun j => v j * cdelta i j)).
    2:{ intros j Hj. rewrite csum_scal_l. rewrite (Oc j i Hj Hi), cdelta_sym. reflexivity. }
    symmetry. apply (csum_delta_r v). exact Hi. }
  unfold matrix_element.
  rewrite (inner_ext _ v v _ (fun i => csum (fun r => c r * (E r * W r i)) n) (fun k _ => eq_refl)).
  2:{ intros i Hi. rewrite (csum_ext _ (fun j => csum (fun r => c r * (A i j * W r j)) n)).
      2:{ intros j Hj. rewrite (X j Hj), <- csum_scal_l. apply csum_ext. intros; ring. }
      rewrite csum_swap. apply csum_ext. intros r Hr. rewrite csum_scal_l, (Ev r Hr i Hi). reflexivity. }
  unfold inner_product at 1.
  rewrite (csum_ext _ (fun i => csum (fun r => E r * c r * Cconj (Cconj (W r i) * v i)) n)).
  2:{ intros i Hi. rewrite <- csum_scal_l. apply csum_ext. intros r Hr. rewrite (Cconj_mult (Cconj (W r i)) (v i)), (Cconj_conj (W r i)). ring. }
  rewrite csum_swap. apply csum_ext. intros r Hr. rewrite csum_scal_l, <- Cconj_csum.
  change (csum (fun i => Cconj (W r i) * v i) n) with (c r). change (inner_product n (W r) v) with (c r). rewrite <- Cconj_mult_self. ring.
Qed.

Lemma nprod_supercell l : forall m, length l = length m -> nprod (supercell l m) = (nprod l * nprod m)%nat.
Proof. induction l as [|a l IH]; intros [|b m] E; try discriminate E; [reflexivity|]. cbn in *. rewrite IH by lia. nia. Qed.

Section Full.
  Variable same : basis -> basis -> bool.
  Hypothesis Hsame : identity_test same.
  Variables (ls : list nat) (saxes : list basis).
  Hypothesis Hls : Forall (fun n => (0 < n)%nat) ls.
  Hypothesis Hl : length ls = length saxes.
  Hypothesis Hw : bwf (BTuple saxes).
  Hypothesis Ho : explicit_orthonormal (BTuple saxes).
  Let ss := map bfund saxes.
  Let F := supercell ls ss.
  Let N := bsize (BTuple saxes).

  (** Component along a Bloch wave, from the coefficients. *)
  Lemma component_of_row nb d out v r : nprod (ashape d) = (nb * nprod ls * N)%nat ->
    get_bloch_states same (BFund nb) (map BFundT ls) saxes d = Some out -> (r < nb * nprod ls)%nat ->
    bloch_component ls saxes d (amplitude (momenta F) v) r = inner_product (nprod F) (row (nprod F) (aflat out) r) v.
  Proof using Hsame Hls Hl Hw Ho.
    intros Hd Hout Hr. pose proof (ns_pos ls Hls) as Pn.
    assert (Db : (r / nprod ls < nb)%nat) by (apply Nat.div_lt_upper_bound; lia).
    assert (Ds : (r mod nprod ls < nprod ls)%nat) by (apply Nat.mod_upper_bound; lia).
    assert (Er : r = (r / nprod ls * nprod ls + r mod nprod ls)%nat).
    { rewrite (Nat.mul_comm (r / nprod ls)). apply Nat.div_mod. lia. }
    rewrite <- (amplitude_momenta_inner F) by (apply supercell_pos; [exact Hls|apply fund_shape_pos; exact Hw]).
    unfold bloch_component. cbv zeta. fold ss. fold F. unfold inner_product. apply csum_ext. intros t Ht. f_equal. f_equal.
    assert (It : in_shape (unravel F t) F) by (apply unravel_in_shape; exact Ht).
    pose proof (bloch_states_amplitude same Hsame (BFund nb) ls saxes Hls Hw Ho Hl d out Hd Hout _ _ (unravel F t) Db Ds It) as A.
    fold ss in A. fold F in A. rewrite (ravel_unravel F t Ht), <- Er in A. symmetry. rewrite A. reflexivity.
  Qed.

  Variables delta inv delta' inv' : nat -> nat -> R.
  Hypothesis Hinv : is_inverse (length saxes) delta inv.
  Hypothesis Hinv' : is_inverse (length saxes) delta' inv'.
  Hypothesis Hen : enlarged ls delta delta'.
  Variables hbar mass : R.
  Variables data data' : nat -> C.
  Hypothesis Hrep : repeats ls saxes data (map BFundT F) data'.
  Variables (eigh : eigh_fn) (ham : list R -> nat -> nat -> C) (H' : operator).
  Hypothesis He : eigh_ok eigh.
  Hypothesis Sq : N = bfund (BTuple saxes).
  Hypothesis Hodd : Forall Nat.Odd ss.
  Hypothesis Hreal : real_valued (BTuple saxes) data.
  Hypothesis Hham : forall s, in_shape s ls -> exists H,
    total_surface_hamiltonian same hbar saxes inv data mass (Some (bloch_fraction ls s)) = Some H /\
    forall i j, ham (fractions ls s) i j = op_entry H i j.
  Hypothesis HH' : total_surface_hamiltonian same hbar (map BFundT F) inv' data' mass None = Some H'.

  Lemma all_bands : exists vectors energies,
    generate_wavepacket same eigh (map BFundT ls) N ham N 1 0 = Some (vectors, energies) /\
    forall v, bloch_energy same N ls saxes vectors energies (momenta F) v = Some (matrix_element (nprod F) v (op_entry H') v).
  Proof.
    assert (PN : (0 < N)%nat).
    { rewrite Sq. change (bfund (BTuple saxes)) with (nprod (map bfund saxes)). apply nprod_pos, fund_shape_pos. exact Hw. }
    destruct (generated same Hsame ls saxes Hls Hl Hw Ho delta inv delta' inv' Hinv Hinv' Hen hbar mass data data' Hrep eigh N 1 0 ham H'
      He Sq Hodd Hreal Hham HH' PN ltac:(lia) ltac:(rewrite Nat.mul_1_l; fold N; lia)) as [vec [en [out [G [Eo [Sv [Se [Ev On]]]]]]]].
    exists vec, en. split; [exact G|]. intros v.
    rewrite (energy_spec same Hsame N ls saxes Hls Hw Ho Hl vec en (momenta F) v Sv Se).
    - f_equal. assert (EN : (N * nprod ls)%nat = nprod F).
      { unfold F. rewrite nprod_supercell by (unfold ss; rewrite map_length; exact Hl). rewrite Sq. cbn [bfund]. fold ss. lia. }
      fold ss in On, Ev. fold F in On, Ev. rewrite EN in On, Ev |- *. symmetry.
      rewrite (eigen_sum (nprod F) (op_entry H') (aflat en) (fun r => row (nprod F) (aflat out) r)).
      + apply csum_ext. intros r Hr. do 3 f_equal. symmetry. apply (component_of_row N vec out v r Sv Eo). lia.
      + intros r Hr. destruct (Ev r Hr) as [e [Ee [X _]]]. rewrite Ee. exact X.
      + exact On.
    - apply momenta_wf. apply supercell_pos; [exact Hls|apply fund_shape_pos; exact Hw].
    - apply momenta_fund.
  Qed.
End Full.
