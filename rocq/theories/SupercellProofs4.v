(** Generated wavepackets hold the eigenstates of the supercell. *)
From Coq Require Import Reals Psatz.
From Verif Require Import ZLib Csum DFT NumPy Spec Index IndexProofs IndexSum SpecReal Lattice LatticeProofs LinAlg SpecMatrix
  Basis SpecBasis BasisProofs BasisProofs2 BasisProofs3 BasisFacts Operator SpecOperator OperatorProofs OperatorProofs2
  Wavepacket SpecWavepacket WavepacketProofs WavepacketProofs2 WavepacketProofs3 WavepacketFacts Hamiltonian SpecHamiltonian HamiltonianProofs
  HamiltonianProofs2 HamiltonianProofs3 WannierBasisProofs Localize SpecLocalize LocalizeFacts2
  BlochEnergies SpecBloch SpecBlochEnergy BlochEnergyProofs2 SpecSupercellHamiltonian SupercellProofs SupercellProofs2 SupercellProofs3.
Local Open Scope R_scope.
Local Open Scope C_scope.

Lemma odd_below_edge saxes u : Forall Nat.Odd (map bfund saxes) -> below_edge saxes u.
Proof.
  intros Hodd k a Ik Ha E. exfalso. rewrite Forall_forall in Hodd.
  destruct (Hodd (nth a (map bfund saxes) 0%nat) (nth_In _ _ Ha)) as [m Hm]. lia.
Qed.

Lemma inner_zero n v : inner_product n v v = 0 -> forall i, (i < n)%nat -> v i = 0.
Proof.
  intros H i Hi. apply Cnorm2_eq_0. unfold inner_product in H. rewrite csum_norm2 in H. apply RtoC_inj in H.
  exact (rsum_zero_nonneg (fun i => Cnorm2 (v i)) n (fun i _ => Cnorm2_nonneg (v i)) H i Hi).
Qed.

Section Full.
  Variable same : basis -> basis -> bool.
  Hypothesis Hsame : identity_test same.
  Variables (ls : list nat) (saxes : list basis).
  Hypothesis Hls : Forall (fun n => (0 < n)%nat) ls.
  Hypothesis Hl : length ls = length saxes.
  Hypothesis Hw : bwf (BTuple saxes).
  Hypothesis Ho : explicit_orthonormal (BTuple saxes).
  Let ss := map bfund saxes.
  Let F := supercell ls ss.
  Let N := bsize (BTuple saxes).
  Variables delta inv delta' inv' : nat -> nat -> R.
  Hypothesis Hinv : is_inverse (length saxes) delta inv.
  Hypothesis Hinv' : is_inverse (length saxes) delta' inv'.
  Hypothesis Hen : enlarged ls delta delta'.
  Variables hbar mass : R.
  Variables data data' : nat -> C.
  Hypothesis Hrep : repeats ls saxes data (map BFundT F) data'.

  Lemma ns_pos : (0 < nprod ls)%nat. Proof using Hls. apply nprod_pos. exact Hls. Qed.

  Lemma row_is_wave nb d out b s : nprod (ashape d) = (nb * nprod ls * N)%nat ->
    get_bloch_states same (BFund nb) (map BFundT ls) saxes d = Some out -> (b < nb)%nat -> in_shape s ls ->
    bloch_wave_of ls saxes s (row N (aflat d) (b * nprod ls + ravel ls s)) (map BFundT F)
      (row (nprod F) (aflat out) (b * nprod ls + ravel ls s)).
  Proof using Hsame Hls Hl Hw Ho.
    intros Hd Hout Hb Is x X. cbv zeta.
    pose proof (bloch_states_amplitude same Hsame (BFund nb) ls saxes Hls Hw Ho Hl d out Hd Hout b (ravel ls s) x Hb (ravel_lt ls s Is) X) as A.
    rewrite (unravel_ravel ls s Is) in A. exact A.
  Qed.

  Lemma states_elements nb d out b s b' s' H H' : nprod (ashape d) = (nb * nprod ls * N)%nat ->
    get_bloch_states same (BFund nb) (map BFundT ls) saxes d = Some out ->
    (b < nb)%nat -> (b' < nb)%nat -> in_shape s ls -> in_shape s' ls ->
    below_edge saxes (row N (aflat d) (b' * nprod ls + ravel ls s')) ->
    total_surface_hamiltonian same hbar saxes inv data mass (Some (bloch_fraction ls s')) = Some H ->
    total_surface_hamiltonian same hbar (map BFundT F) inv' data' mass None = Some H' ->
    matrix_element (nprod F) (row (nprod F) (aflat out) (b * nprod ls + ravel ls s)) (op_entry H')
      (row (nprod F) (aflat out) (b' * nprod ls + ravel ls s')) =
    cdelta (ravel ls s) (ravel ls s') *
    matrix_element N (row N (aflat d) (b * nprod ls + ravel ls s)) (op_entry H) (row N (aflat d) (b' * nprod ls + ravel ls s')).
  Proof.
    intros Hd Hout Hb Hb' Is Is' Ed EH EH'. rewrite <- (idelta_cdelta ls) by assumption.
    apply (element same Hsame ls saxes Hls Hl Hw Ho delta inv delta' inv' Hinv Hinv' Hen hbar mass data data' Hrep s s' _ _ _ _ H H');
      try assumption; apply (row_is_wave nb); assumption.
  Qed.

  Lemma states_eigen nb d out b s H H' lam : N = bfund (BTuple saxes) -> nprod (ashape d) = (nb * nprod ls * N)%nat ->
    get_bloch_states same (BFund nb) (map BFundT ls) saxes d = Some out -> (b < nb)%nat -> in_shape s ls ->
    below_edge saxes (row N (aflat d) (b * nprod ls + ravel ls s)) ->
    total_surface_hamiltonian same hbar saxes inv data mass (Some (bloch_fraction ls s)) = Some H ->
    total_surface_hamiltonian same hbar (map BFundT F) inv' data' mass None = Some H' ->
    eigenvector N (op_entry H) lam (row N (aflat d) (b * nprod ls + ravel ls s)) ->
    eigenvector (nprod F) (op_entry H') lam (row (nprod F) (aflat out) (b * nprod ls + ravel ls s)).
  Proof.
    intros Sq Hd Hout Hb Is Ed EH EH' [Ev [i0 [Hi0 Nz]]]. split.
    - apply (bloch_eigen same Hsame ls saxes Hls Hl Hw Ho delta inv delta' inv' Hinv Hinv' Hen hbar mass data data' Hrep s
        (row N (aflat d) (b * nprod ls + ravel ls s)) _ H H' lam); try assumption.
      + apply square_complete; assumption.
      + apply (row_is_wave nb); assumption.
    - pose proof (bloch_states_inner same Hsame (BFund nb) ls saxes Hls Hw Ho Hl d out Hd Hout b (ravel ls s) b (ravel ls s) Hb Hb
        (ravel_lt ls s Is) (ravel_lt ls s Is)) as X. fold ss in X. fold F in X. fold N in X. rewrite cdelta_refl in X.
      set (w := row (nprod F) (aflat out) (b * nprod ls + ravel ls s)) in *.
      set (v := row N (aflat d) (b * nprod ls + ravel ls s)) in *.
      destruct (Exists_dec (fun i => w i <> 0) (seq 0 (nprod F))) as [Y|Y].
      + intros i. destruct (Ceq_dec (w i) 0) as [E|E]; [right; tauto|left; exact E].
      + apply Exists_exists in Y. destruct Y as [i [Hi Wi]]. exists i. apply in_seq in Hi. split; [lia|exact Wi].
      + exfalso. assert (Z : forall i, (i < nprod F)%nat -> w i = 0).
        { intros i Hi. destruct (Ceq_dec (w i) 0) as [E|E]; [exact E|]. exfalso. apply Y. apply Exists_exists. exists i.
          split; [apply in_seq; lia|exact E]. }
        assert (Z2 : inner_product (nprod F) w w = 0).
        { unfold inner_product. rewrite (csum_ext _ (fun _ => 0)); [apply csum_zero|]. intros i Hi. rewrite (Z i Hi). ring. }
        rewrite Z2 in X. assert (Z3 : inner_product N v v = 0) by (rewrite X; ring).
        apply Nz. apply (inner_zero N v Z3 i0 Hi0).
  Qed.

  Section Generate.
    Variables (eigh : eigh_fn) (nb step offset : nat) (ham : list R -> nat -> nat -> C) (H' : operator).
    Hypothesis He : eigh_ok eigh.
    Hypothesis Sq : N = bfund (BTuple saxes).
    Hypothesis Hodd : Forall Nat.Odd ss.
    Hypothesis Hreal : real_valued (BTuple saxes) data.
    Hypothesis Hham : forall s, in_shape s ls -> exists H,
      total_surface_hamiltonian same hbar saxes inv data mass (Some (bloch_fraction ls s)) = Some H /\
      forall i j, ham (fractions ls s) i j = op_entry H i j.
    Hypothesis HH' : total_surface_hamiltonian same hbar (map BFundT F) inv' data' mass None = Some H'.
    Hypothesis Hnb : (0 < nb)%nat.
    Hypothesis Hst : (0 < step)%nat.
    Hypothesis Hoff : (offset + step * (nb - 1) < N)%nat.

    Lemma generated : exists vectors energies out,
      generate_wavepacket same eigh (map BFundT ls) N ham nb (Z.of_nat step) (Z.of_nat offset) = Some (vectors, energies) /\
      get_bloch_states same (BFund nb) (map BFundT ls) saxes vectors = Some out /\
      nprod (ashape vectors) = (nb * nprod ls * N)%nat /\ nprod (ashape energies) = (nb * nprod ls)%nat /\
      (forall r, (r < nb * nprod ls)%nat -> exists e : R, aflat energies r = RtoC e /\
        eigenvector (nprod F) (op_entry H') (RtoC e) (row (nprod F) (aflat out) r)) /\
      forall r r', (r < nb * nprod ls)%nat -> (r' < nb * nprod ls)%nat ->
        inner_product (nprod F) (row (nprod F) (aflat out) r) (row (nprod F) (aflat out) r') = cdelta r r'.
    Proof.
      destruct (generate_wavepacket_spec same eigh ls N nb step offset ham Hsame He Hls Hnb Hst Hoff) as [vec [en [G [S1 [S2 V]]]]].
      { intros s Is. destruct (Hham s Is) as [H [EH Eh]]. intros i j Hi Hj. unfold adjoint. rewrite !Eh.
        apply (hamiltonian_hermitian same Hsame saxes Hw Ho delta inv Hinv hbar mass _ data H Hreal EH i j Hi Hj). }
      assert (Sv : nprod (ashape vec) = (nb * nprod ls * N)%nat) by (rewrite S1; cbn; lia).
      assert (Se : nprod (ashape en) = (nb * nprod ls)%nat) by (rewrite S2; cbn; lia).
      destruct (bloch_states_exist same (BFund nb) ls saxes vec Hsame Hls Hw Ho Hl Sv) as [out [Eo _]].
      exists vec, en, out. split; [exact G|]. split; [exact Eo|]. split; [exact Sv|]. split; [exact Se|].
      pose proof ns_pos as Pn.
      assert (D : forall r, (r < nb * nprod ls)%nat -> (r / nprod ls < nb)%nat /\ (r mod nprod ls < nprod ls)%nat /\
                    r = (r / nprod ls * nprod ls + r mod nprod ls)%nat).
      { intros r Hr. split; [apply Nat.div_lt_upper_bound; lia|]. split; [apply Nat.mod_upper_bound; lia|].
        rewrite (Nat.mul_comm (r / nprod ls)). apply Nat.div_mod. lia. }
      split.
      - intros r Hr. destruct (D r Hr) as [Db [Ds Er]].
        assert (Is : in_shape (unravel ls (r mod nprod ls)) ls) by (apply unravel_in_shape; exact Ds).
        assert (Rs : ravel ls (unravel ls (r mod nprod ls)) = (r mod nprod ls)%nat) by (apply ravel_unravel; exact Ds).
        destruct (V _ Is) as [Ve Vo]. destruct (Ve _ Db) as [e [Ee [_ Ex]]]. rewrite Rs in Ee, Ex, Vo. rewrite <- Er in Ee.
        exists e. split; [exact Ee|]. destruct (Hham _ Is) as [H [EH Eh]].
        pose proof (states_eigen nb vec out (r / nprod ls) (unravel ls (r mod nprod ls)) H H' (RtoC e) Sq Sv Eo Db Is
          (odd_below_edge saxes _ Hodd) EH HH') as X. rewrite Rs, <- Er in X. apply X. unfold band_state in Ex, Vo. rewrite <- Er in Ex.
        split.
        + intros i Hi. rewrite <- (Ex i Hi). apply csum_ext. intros j Hj. rewrite Eh. reflexivity.
        + specialize (Vo _ _ Db Db). rewrite <- Er, cdelta_refl in Vo.
          set (v := row N (aflat vec) r) in *. destruct (Exists_dec (fun i => v i <> 0) (seq 0 N)) as [Y|Y].
          * intros i. destruct (Ceq_dec (v i) 0) as [E|E]; [right; tauto|left; exact E].
          * apply Exists_exists in Y. destruct Y as [i [Hi Wi]]. exists i. apply in_seq in Hi. split; [lia|exact Wi].
          * exfalso. assert (Z2 : inner_product N v v = 0).
            { unfold inner_product. rewrite (csum_ext _ (fun _ => 0)); [apply csum_zero|]. intros i Hi.
              assert (Zi : v i = 0). { destruct (Ceq_dec (v i) 0) as [E|E]; [exact E|]. exfalso. apply Y. apply Exists_exists. exists i.
                split; [apply in_seq; lia|exact E]. }
              rewrite Zi. ring. }
            rewrite Z2 in Vo. apply (f_equal fst) in Vo. cbn in Vo. lra.
      - intros r r' Hr Hr'. destruct (D r Hr) as [Db [Ds Er]]. destruct (D r' Hr') as [Db' [Ds' Er']].
        pose proof (bloch_states_inner same Hsame (BFund nb) ls saxes Hls Hw Ho Hl vec out Sv Eo _ _ _ _ Db Db' Ds Ds') as X.
        fold ss in X. fold F in X. fold N in X. rewrite <- Er, <- Er' in X. rewrite X.
        destruct (Nat.eq_dec (r mod nprod ls) (r' mod nprod ls)) as [Em|Em].
        + assert (Is : in_shape (unravel ls (r mod nprod ls)) ls) by (apply unravel_in_shape; exact Ds).
          assert (Rs : ravel ls (unravel ls (r mod nprod ls)) = (r mod nprod ls)%nat) by (apply ravel_unravel; exact Ds).
          destruct (V _ Is) as [_ Vo]. specialize (Vo _ _ Db Db'). rewrite Rs in Vo. unfold band_state in Vo.
          rewrite Em in Vo at 2. rewrite <- Er, <- Er' in Vo. rewrite Vo. rewrite Em, cdelta_refl.
          destruct (Nat.eq_dec (r / nprod ls) (r' / nprod ls)) as [Ed|Ed].
          * assert (Err : r = r') by (rewrite Er, Er', Em, Ed; reflexivity). rewrite Err, !cdelta_refl. ring.
          * rewrite !cdelta_neq; [ring| |exact Ed]. intros ->. apply Ed. reflexivity.
        + rewrite !cdelta_neq; [ring| |exact Em]. intros ->. apply Em. reflexivity.
    Qed.
  End Generate.
End Full.
