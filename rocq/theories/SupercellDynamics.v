(** Evolution of states of the supercell through their components along Bloch states. *)
From Coq Require Import Reals Psatz.
From Coquelicot Require Import Coquelicot.
From Verif Require Import ZLib Csum DFT NumPy Spec Index IndexProofs IndexSum SpecReal Lattice LatticeProofs LinAlg SpecMatrix
  Basis SpecBasis BasisProofs BasisProofs2 BasisProofs3 BasisFacts Operator SpecOperator OperatorProofs OperatorProofs2
  Wavepacket SpecWavepacket WavepacketProofs WavepacketProofs2 WavepacketProofs3 WavepacketFacts Hamiltonian SpecHamiltonian HamiltonianProofs
  HamiltonianProofs2 HamiltonianProofs3 WannierBasisProofs Localize SpecLocalize LocalizeFacts2 LocalizeProofs3 EigenBasisProofs
  BlochBasis BlochProofs BlochEnergies SpecBloch SpecBlochEnergy BlochEnergyProofs2 SpecSupercellHamiltonian SupercellProofs SupercellProofs2 SupercellProofs3
  SupercellProofs4 SupercellProofs5 Dynamics SpecDynamics DynamicsProofs2 DynamicsProofs5.
From Verif Require BlochProofs2 LocalizeProofs5.
Local Open Scope R_scope.
Local Open Scope C_scope.

(** Component of the evolved state along an eigenvector: turned by its phase.  Eigenvectors
    are only turned. *)
Lemma evolved_component eigh n h hbar e (b : nat -> C) : eigh_ok eigh -> (0 < n)%nat -> square n h -> hermitian n (op_entry h) -> hbar <> 0%R ->
  (forall i, (i < n)%nat -> csum (fun j => op_entry h i j * b j) n = RtoC e * b i) ->
  forall psi nt times, exists out, solve_schrodinger_equation_decomposition eigh hbar psi nt times h = Some out /\ ashape out = [nt; n] /\
    forall s, (s < nt)%nat ->
      inner_product n b (at2 out s) = cexp (- Ci * RtoC e * RtoC (times s) / RtoC hbar) * inner_product n b psi /\
      ((forall x, (x < n)%nat -> psi x = b x) -> forall x, (x < n)%nat -> at2 out s x = cexp (- Ci * RtoC e * RtoC (times s) / RtoC hbar) * b x).
Proof.
  intros He Hn Hsq Hh Hb Eb psi nt times. pose proof Hsq as [Hw [Hro Hco]].
  set (A := at2 {| ashape := [n; n]; aflat := aflat (odata h) |}).
  assert (HA : forall i j, A i j = op_entry h i j).
  { intros i j. unfold A, at2, op_entry. cbn [ashape nth aflat]. rewrite Hco. reflexivity. }
  assert (HhA : hermitian n A). { intros i j Hi Hj. unfold adjoint. rewrite !HA. apply (Hh i j); assumption. }
  pose proof (He n A 0%nat (n - 1)%nat HhA ltac:(lia) ltac:(lia)) as X.
  destruct (eigh n A 0%nat (n - 1)%nat) as [E v] eqn:Ee.
  replace (n - 1 - 0 + 1)%nat with n in X by lia. destruct X as [Hcol [Hev _]].
  unfold solve_schrodinger_equation_decomposition. rewrite Hro, Hco, Nat.eqb_refl.
  pose proof (op_reshape h Hw) as Er. rewrite Hro, Hco in Er. rewrite Er. fold A.
  replace (Z.of_nat n - 1)%Z with (Z.of_nat (n - 1)) by lia. change 0%Z with (Z.of_nat 0).
  rewrite eigenvectors_some by lia. rewrite Ee. eexists. split; [reflexivity|]. split; [reflexivity|].
  intros s Hs. rewrite phase_eq by exact Hb.
  match goal with |- inner_product n b (at2 ?o s) = _ /\ _ =>
    assert (Fl : forall x, (x < n)%nat -> at2 o s x = flow n hbar E v psi (times s) x) end.
  { intros x Hx. unfold at2. cbn [array2 ashape nth aflat].
    rewrite div_add_small, mod_add_small by exact Hx. apply csum_ext. intros k Hk. rewrite phase_eq by exact Hb. reflexivity. }
  assert (Z : forall k, (k < n)%nat -> RtoC (E k) * comp n v b k = RtoC e * comp n v b k).
  { intros k Hk. unfold comp.
    transitivity (csum (fun x => csum (fun y => Cconj (v x k) * op_entry h x y * b y) n) n).
    - rewrite csum_swap, <- csum_scal_l. apply csum_ext. intros y Hy.
      transitivity (Cconj (RtoC (E k) * v y k) * b y); [rewrite Cconj_mult, Cconj_RtoC; ring|].
      rewrite <- (Hev k y Hk Hy), Cconj_csum, <- csum_scal_r. apply csum_ext. intros x Hx. rewrite Cconj_mult, HA.
      pose proof (Hh x y Hx Hy) as Q. unfold adjoint in Q. rewrite Q. ring.
    - rewrite <- csum_scal_l. apply csum_ext. intros x Hx.
      transitivity (Cconj (v x k) * (RtoC e * b x)); [|ring]. rewrite <- (Eb x Hx), <- csum_scal_l. apply csum_ext. intros; ring. }
  assert (Ek : forall k, (k < n)%nat -> comp n v b k <> 0 -> E k = e).
  { intros k Hk Z0. specialize (Z k Hk). apply (f_equal (fun z => z * / comp n v b k)) in Z.
    rewrite <- !Cmult_assoc, Cinv_r, !Cmult_1_r in Z by exact Z0. apply RtoC_inj. exact Z. }
  split.
  - transitivity (inner_product n b (flow n hbar E v psi (times s))).
    { unfold inner_product. apply csum_ext. intros x Hx. f_equal. exact (Fl x Hx). }
    rewrite <- (parseval n v Hcol), <- (parseval n v Hcol b psi), <- csum_scal_l. apply csum_ext. intros k Hk.
    rewrite (comp_flow n hbar E v Hcol) by exact Hk.
    destruct (Ceq_dec (comp n v b k) 0) as [Z0|Z0]; [rewrite Z0, Cconj_RtoC; ring|]. rewrite (Ek k Hk Z0). ring.
  - intros Ep x Hx. rewrite (Fl x Hx). rewrite <- (flow_0 n hbar E v Hcol b x Hx). unfold flow. rewrite <- csum_scal_l. apply csum_ext. intros k Hk.
    assert (Ec : comp n v psi k = comp n v b k) by (unfold comp; apply csum_ext; intros y Hy; rewrite (Ep y Hy); reflexivity).
    rewrite Ec, Cmult_0_r, cexp_0. destruct (Ceq_dec (comp n v b k) 0) as [Z0|Z0]; [rewrite Z0; ring|]. rewrite (Ek k Hk Z0). ring.
Qed.

Section Full.
  Variable same : basis -> basis -> bool.
  Hypothesis Hsame : identity_test same.
  Variables (ls : list nat) (saxes : list basis).
  Hypothesis Hls : Forall (fun n => (0 < n)%nat) ls.
  Hypothesis Hl : length ls = length saxes.
  Hypothesis Hw : bwf (BTuple saxes).
  Hypothesis Ho : explicit_orthonormal (BTuple saxes).
  Let ss := map bfund saxes.
  Let F := supercell ls ss.
  Let N := bsize (BTuple saxes).
  Variables delta inv delta' inv' : nat -> nat -> R.
  Hypothesis Hinv : is_inverse (length saxes) delta inv.
  Hypothesis Hinv' : is_inverse (length saxes) delta' inv'.
  Hypothesis Hen : enlarged ls delta delta'.
  Variables hbar mass : R.
  Variables data data' : nat -> C.
  Hypothesis Hrep : repeats ls saxes data (map BFundT F) data'.

  Lemma F_pos : Forall (fun n => (0 < n)%nat) F.
  Proof using Hls Hw Hl. apply BlochProofs2.supercell_pos; [unfold ss; rewrite map_length; exact Hl|exact Hls|apply fund_shape_pos; exact Hw]. Qed.

  Lemma repeated_real : real_valued (BTuple saxes) data -> real_valued (BTuple (map BFundT F)) data'.
  Proof using Hls Hw Hl Hrep.
    intros Hr t Ht. change (BTuple (map BFundT F)) with (momenta F) in Ht. rewrite momenta_fund in Ht.
    assert (It : in_shape (unravel F t) F) by (apply unravel_in_shape; exact Ht).
    pose proof (Hrep _ It) as X. fold ss in X. fold F in X. rewrite (ravel_unravel F t Ht) in X. rewrite X. apply Hr. cbn [bfund]. fold ss.
    apply ravel_lt. apply (in_cell_in ss ls); [unfold ss; rewrite map_length; exact Hl|exact It].
  Qed.

  Section Generate.
    Variables (eigh eigh' : eigh_fn) (nb step offset : nat) (ham : list R -> nat -> nat -> C) (H' : operator).
    Hypothesis He : eigh_ok eigh.
    Hypothesis He' : eigh_ok eigh'.
    Hypothesis Sq : N = bfund (BTuple saxes).
    Hypothesis Hodd : Forall Nat.Odd ss.
    Hypothesis Hreal : real_valued (BTuple saxes) data.
    Hypothesis Hham : forall s, in_shape s ls -> exists H,
      total_surface_hamiltonian same hbar saxes inv data mass (Some (bloch_fraction ls s)) = Some H /\
      forall i j, ham (fractions ls s) i j = op_entry H i j.
    Hypothesis HH' : total_surface_hamiltonian same hbar (map BFundT F) inv' data' mass None = Some H'.
    Hypothesis Hnb : (0 < nb)%nat.
    Hypothesis Hst : (0 < step)%nat.
    Hypothesis Hoff : (offset + step * (nb - 1) < N)%nat.
    Hypothesis Hb : hbar <> 0%R.

    Lemma evolved : exists vectors energies st,
      generate_wavepacket same eigh (map BFundT ls) N ham nb (Z.of_nat step) (Z.of_nat offset) = Some (vectors, energies) /\
      get_bloch_states same (BFund nb) (map BFundT ls) saxes vectors = Some st /\
      forall psi nt times, exists full part,
        solve_schrodinger_equation_decomposition eigh' hbar psi nt times H' = Some full /\ ashape full = [nt; nprod F] /\
        solve_schrodinger_equation_diagonal same hbar (momenta F) psi nt times (explicit_bloch_basis nb ls saxes st) (aflat energies) = Some part /\
        ashape part = [nt; (nb * nprod ls)%nat] /\
        (forall s r, (s < nt)%nat -> (r < nb * nprod ls)%nat ->
          at2 part s r = inner_product (nprod F) (row (nprod F) (aflat st) r) (at2 full s)) /\
        (nb = N -> forall s x, (s < nt)%nat -> (x < nprod F)%nat ->
          at2 full s x = csum (fun r => at2 part s r * row (nprod F) (aflat st) r x) (nb * nprod ls)).
    Proof.
      destruct (generated same Hsame ls saxes Hls Hl Hw Ho delta inv delta' inv' Hinv Hinv' Hen hbar mass data data' Hrep
        eigh nb step offset ham H' He Sq Hodd Hreal Hham HH' Hnb Hst Hoff) as [vec [en [st [G [Es [Sv [Se [Ev On]]]]]]]].
      fold ss in Ev, On. fold F in Ev, On.
      exists vec, en, st. split; [exact G|]. split; [exact Es|]. intros psi nt times.
      pose proof F_pos as PF. pose proof (nprod_pos F PF) as PnF.
      assert (WF : bwf (momenta F)) by (apply momenta_wf; exact PF).
      assert (OF : explicit_orthonormal (momenta F)) by (apply full_explicit_orthonormal, momenta_full).
      assert (LF : length (map BFundT F) = length saxes).
      { rewrite map_length. unfold F. rewrite LocalizeProofs5.supercell_length by (unfold ss; rewrite map_length; exact Hl). exact Hl. }
      assert (Hinv2 : is_inverse (length (map BFundT F)) delta' inv') by (rewrite LF; exact Hinv').
      destruct (hamiltonian_elements same Hsame (map BFundT F) WF OF delta' inv' Hinv2 hbar mass None data') as [H2 [EH2 [SH2 _]]].
      rewrite HH' in EH2. injection EH2 as <-. change (BTuple (map BFundT F)) with (momenta F) in SH2. rewrite momenta_size in SH2.
      pose proof (hamiltonian_hermitian same Hsame (map BFundT F) WF OF delta' inv' Hinv2 hbar mass None data' H' (repeated_real Hreal) HH') as Hh.
      change (BTuple (map BFundT F)) with (momenta F) in Hh. rewrite momenta_size in Hh.
      pose proof (evolved_component eigh' (nprod F) H' hbar) as EC.
      assert (Z : forall i, (i < nprod F)%nat -> csum (fun j => op_entry H' i j * (fun _ : nat => RtoC 0%R) j) (nprod F) = RtoC 0%R * (fun _ : nat => RtoC 0%R) i).
      { intros i _. cbv beta. rewrite (csum_ext _ (fun _ => 0)); [rewrite csum_zero; ring|]. intros; ring. }
      destruct (EC 0%R (fun _ => RtoC 0%R) He' PnF SH2 Hh Hb Z psi nt times) as [full [Ef [Sf _]]].
      unfold solve_schrodinger_equation_diagonal.
      set (B := explicit_bloch_basis nb ls saxes st).
      assert (EB : B = BExpl (nb * nprod ls) (row (nprod F) (aflat st)) (momenta F)).
      { unfold B, explicit_bloch_basis. rewrite unfurled_momenta. fold ss F. rewrite momenta_size. reflexivity. }
      rewrite EB.
      destruct (explicit_compatible (nb * nprod ls) (row (nprod F) (aflat st)) (momenta F)) as [C1 _].
      destruct (proj2 (convert_some_iff same _ _) C1) as [K EK]. rewrite EK. cbn [bsize].
      assert (WB : bwf (BExpl (nb * nprod ls) (row (nprod F) (aflat st)) (momenta F))).
      { split; [|exact WF]. pose proof (nprod_pos ls Hls). nia. }
      assert (P : forall s r, (s < nt)%nat -> (r < nb * nprod ls)%nat ->
        K psi r * cexp (- Ci * aflat en r * RtoC (times s) / RtoC hbar) = inner_product (nprod F) (row (nprod F) (aflat st) r) (at2 full s)).
      { intros s r Hs Hr. destruct (Ev r Hr) as [e [Ee [Ex _]]].
        destruct (EC e _ He' PnF SH2 Hh Hb Ex psi nt times) as [full2 [Ef2 [_ X]]]. rewrite Ef in Ef2. injection Ef2 as <-.
        rewrite (proj1 (X s Hs)), Ee, Cmult_comm. f_equal.
        rewrite (convert_orthonormal same Hsame _ _ K WF WB OF EK psi r Hr). unfold inner_product. rewrite momenta_size. apply csum_ext. intros x Hx.
        f_equal. apply explicit_overlap; [exact WF|exact OF|rewrite momenta_size; exact Hx]. }
      exists full. eexists. split; [exact Ef|]. split; [exact Sf|]. split; [reflexivity|]. split; [reflexivity|].
      assert (Q : forall s r, (r < nb * nprod ls)%nat -> at2 (array2 nt (nb * nprod ls) (fun s k => K psi k * cexp (- Ci * aflat en k * RtoC (times s) / RtoC hbar))) s r =
         K psi r * cexp (- Ci * aflat en r * RtoC (times s) / RtoC hbar)).
      { intros s r Hr. unfold at2. cbn [array2 ashape nth aflat]. rewrite div_add_small, mod_add_small by exact Hr. reflexivity. }
      split.
      - intros s r Hs Hr. rewrite (Q s r Hr). exact (P s r Hs Hr).
      - intros En s x Hs Hx.
        assert (Sz : (nb * nprod ls)%nat = nprod F).
        { unfold F. rewrite nprod_supercell by (unfold ss; rewrite map_length; exact Hl). rewrite En, Sq. cbn [bfund]. fold ss. lia. }
        rewrite (csum_ext _ (fun r => csum (fun y => (Cconj (row (nprod F) (aflat st) r y) * row (nprod F) (aflat st) r x) * at2 full s y) (nprod F))).
        2:{ intros r Hr. rewrite (Q s r Hr), (P s r Hs Hr). unfold inner_product. rewrite <- csum_scal_r. apply csum_ext. intros; ring. }
        rewrite csum_swap. rewrite (csum_ext _ (fun y => cdelta y x * at2 full s y)).
        + rewrite (csum_ext _ (fun y => cdelta x y * at2 full s y)) by (intros y _; rewrite cdelta_sym; reflexivity).
          symmetry. apply csum_delta_l. exact Hx.
        + intros y Hy. rewrite csum_scal_r. f_equal. rewrite Sz in On |- *.
          refine (orthonormal_square (nprod F) (row (nprod F) (aflat st)) _ y x Hy Hx).
          intros i j Hi Hj. rewrite cdelta_sym, <- (On j i Hj Hi). unfold inner_product. apply csum_ext. intros; ring.
    Qed.
  End Generate.
End Full.

(** A complex Hermitian Hamiltonian and an eigenvector. *)
Definition coupled : operator :=
  {| orow := BFund 2; ocol := BFund 2;
     odata := {| ashape := [4%nat]; aflat := fun k => match k with 0%nat => RtoC 1 | 1%nat => Ci | 2%nat => - Ci | _ => RtoC 1 end |} |}.
Lemma coupled_state : square 2 coupled /\ hermitian 2 (op_entry coupled) /\
  (forall i, (i < 2)%nat -> csum (fun j => op_entry coupled i j * (fun j => match j with 0%nat => Ci | _ => RtoC 1 end) j) 2 =
    RtoC 2%R * (fun j => match j with 0%nat => Ci | _ => RtoC 1 end) i).
Proof.
  split; [split; [reflexivity|split; reflexivity]|]. split.
  - intros i j Hi Hj. unfold adjoint, op_entry. destruct i as [|[|i]]; [| |lia]; destruct j as [|[|j]]; try lia; cbn;
      apply injective_projections; cbn; ring.
  - intros i Hi. unfold op_entry. destruct i as [|[|i]]; [| |lia]; cbn; apply injective_projections; cbn; ring.
Qed.
