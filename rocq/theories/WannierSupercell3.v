(** From the potential of a cell to the Wannier Hamiltonian. *)
From Coq Require Import Reals Psatz.
From Verif Require Import ZLib Csum DFT NumPy Spec Index IndexProofs IndexSum SpecReal Lattice LatticeProofs LinAlg SpecMatrix
  Basis SpecBasis BasisProofs BasisProofs2 BasisProofs3 BasisFacts Operator SpecOperator OperatorProofs OperatorProofs2
  Wavepacket SpecWavepacket WavepacketProofs WavepacketProofs2 WavepacketProofs3 WavepacketFacts Hamiltonian SpecHamiltonian HamiltonianProofs
  HamiltonianProofs2 HamiltonianProofs3 WannierBasisProofs Localize SpecLocalize LocalizeFacts2 LocalizeProofs5 LocalizeProofs6
  SpecSupercellHamiltonian SupercellProofs SupercellProofs2 SupercellProofs3 SupercellProofs4 SupercellProofs5 SpecWannierSupercell WannierSupercell
  WannierSupercell2 WannierBasis WannierBasisFacts WannierBasisFacts2 WannierBasisFacts3 WannierBasisProofs.
Local Open Scope R_scope.
Local Open Scope C_scope.

Lemma unit_norm_nonzero n (v : nat -> C) : inner_product n v v = 1 -> exists i, (i < n)%nat /\ v i <> 0.
Proof.
  intros H. destruct (Exists_dec (fun i => v i <> 0) (seq 0 n)) as [Y|Y].
  - intros i. destruct (Ceq_dec (v i) 0) as [E|E]; [right; tauto|left; exact E].
  - apply Exists_exists in Y. destruct Y as [i [Hi Wi]]. exists i. apply in_seq in Hi. split; [lia|exact Wi].
  - exfalso. assert (Z : inner_product n v v = 0).
    { unfold inner_product. rewrite (csum_ext _ (fun _ => 0)); [apply csum_zero|]. intros i Hi.
      destruct (Ceq_dec (v i) 0) as [E|E]; [rewrite E; ring|]. exfalso. apply Y. apply Exists_exists. exists i. split; [apply in_seq; lia|exact E]. }
    rewrite H in Z. apply (f_equal fst) in Z. cbn in Z. lra.
Qed.

Section Generated.
  Variable same : basis -> basis -> bool.
  Hypothesis Hsame : identity_test same.
  Variables (ls : list nat) (saxes : list basis).
  Hypothesis Hls : Forall (fun n => (0 < n)%nat) ls.
  Hypothesis Hl : length ls = length saxes.
  Hypothesis Hw : bwf (BTuple saxes).
  Hypothesis Ho : explicit_orthonormal (BTuple saxes).
  Let ss := map bfund saxes.
  Let F := supercell ls ss.
  Let N := bsize (BTuple saxes).
  Let ns := nprod ls.
  Variables delta inv delta' inv' : nat -> nat -> R.
  Hypothesis Hinv : is_inverse (length saxes) delta inv.
  Hypothesis Hinv' : is_inverse (length saxes) delta' inv'.
  Hypothesis Hen : enlarged ls delta delta'.
  Variables hbar mass : R.
  Variables data data' : nat -> C.
  Hypothesis Hrep : repeats ls saxes data (map BFundT F) data'.
  Variables (eigh : eigh_fn) (ham : list R -> nat -> nat -> C) (H' : operator).
  Hypothesis He : eigh_ok eigh.
  Hypothesis Hfull : map bsize saxes = map bfund saxes.
  Hypothesis Hodd : Forall Nat.Odd ss.
  Hypothesis Hreal : real_valued (BTuple saxes) data.
  Hypothesis Hham : forall s, in_shape s ls -> exists H,
    total_surface_hamiltonian same hbar saxes inv data mass (Some (bloch_fraction ls s)) = Some H /\
    forall i j, ham (fractions ls s) i j = op_entry H i j.
  Hypothesis HH' : total_surface_hamiltonian same hbar (map BFundT F) inv' data' mass None = Some H'.

  Lemma square_size : N = bfund (BTuple saxes).
  Proof using Hfull. unfold N. cbn [bsize bfund]. rewrite Hfull. reflexivity. Qed.

  Lemma generated_wannier nb step offset : (0 < nb)%nat -> (0 < step)%nat -> (offset + step * (nb - 1) < N)%nat ->
    exists vectors energies st,
      generate_wavepacket same eigh (map BFundT ls) N ham nb (Z.of_nat step) (Z.of_nat offset) = Some (vectors, energies) /\
      get_bloch_states same (BFund nb) (map BFundT ls) saxes vectors = Some st /\
      nprod (ashape vectors) = (nb * ns * N)%nat /\ nprod (ashape energies) = (nb * ns)%nat /\
      (forall r, (r < nb * ns)%nat -> exists e : R, aflat energies r = RtoC e /\
        eigenvector (nprod F) (op_entry H') (RtoC e) (row (nprod F) (aflat st) r)) /\
      (forall r r', (r < nb * ns)%nat -> (r' < nb * ns)%nat ->
        inner_product (nprod F) (row (nprod F) (aflat st) r) (row (nprod F) (aflat st) r') = cdelta r r') /\
      forall nw op, (0 < nw)%nat -> nprod (ashape op) = (ns * nw * nb)%nat ->
      exists out Hm, wannier_states same nw nb (map BFundT ls) saxes op vectors = Some out /\
        full_wannier_hamiltonian nw nb ls op energies = Some Hm /\ ashape Hm = [(ns * nw * ns * nw)%nat] /\
        (forall R k R' l, (R < ns)%nat -> (k < nw)%nat -> (R' < ns)%nat -> (l < nw)%nat ->
          aflat Hm (((R * nw + k) * ns + R') * nw + l) =
          matrix_element (nprod F) (plane_coefficients F (row (nprod F) (aflat out) (l * ns + R'))) (op_entry H')
            (plane_coefficients F (row (nprod F) (aflat out) (k * ns + R)))) /\
        ((forall s, (s < ns)%nat -> orthonormal_columns nw nb (at_sample nw nb op s)) ->
         let component r a := inner_product (nprod F) (amplitude (momenta F) (row (nprod F) (aflat st) r))
           (row (nprod F) (aflat out) (a mod nw * ns + a / nw)) in
         (forall r, (r < nb * ns)%nat -> eigenvector (ns * nw) (as_matrix (ns * nw) Hm) (aflat energies r) (component r)) /\
         forall r r', (r < nb * ns)%nat -> (r' < nb * ns)%nat -> inner_product (ns * nw) (component r) (component r') = cdelta r r').
  Proof using Hsame Hls Hl Hw Ho Hinv Hinv' Hen Hrep He Hfull Hodd Hreal Hham HH'.
    intros Hnb Hst Hoff.
    destruct (generated same Hsame ls saxes Hls Hl Hw Ho delta inv delta' inv' Hinv Hinv' Hen hbar mass data data' Hrep eigh nb step offset ham H'
      He square_size Hodd Hreal Hham HH' Hnb Hst Hoff) as [vec [en [st [G [Es [Sv [Se [Ev On]]]]]]]].
    fold ns in Sv, Se, Ev, On. fold ss in Ev, On. fold F in Ev, On.
    exists vec, en, st. split; [exact G|]. split; [exact Es|]. split; [exact Sv|]. split; [exact Se|]. split; [exact Ev|]. split; [exact On|]. intros nw op Hnw Hop.
    assert (Horth : forall s l m, (s < ns)%nat -> (l < nb)%nat -> (m < nb)%nat ->
       inner_product N (band_state ns N vec s l) (band_state ns N vec s m) = cdelta l m).
    { intros s l m Hs Hl0 Hm.
      pose proof (bloch_states_inner same Hsame (BFund nb) ls saxes Hls Hw Ho Hl vec st Sv Es l s m s Hl0 Hm Hs Hs) as X.
      fold ns in X. fold ss in X. fold F in X. fold N in X. rewrite On in X by nia. rewrite cdelta_refl, Cmult_1_l in X. unfold band_state. rewrite <- X.
      destruct (Nat.eq_dec l m) as [->|Hlm]; [rewrite !cdelta_refl; reflexivity|]. rewrite !cdelta_neq; [reflexivity|exact Hlm|nia]. }
    destruct (wannier_spec same Hsame ls saxes Hls Hw Ho Hl nw nb op vec Hnw Hnb Hop Sv) as [_ [out [_ [Eo _]]]].
    assert (Heig : forall r, (r < nb * ns)%nat -> forall i, (i < nprod F)%nat ->
      csum (fun j => op_entry H' i j * row (nprod F) (aflat st) r j) (nprod F) = aflat en r * row (nprod F) (aflat st) r i).
    { intros r Hr. destruct (Ev r Hr) as [e [Ee [X _]]]. rewrite Ee. exact X. }
    destruct (wannier_elements same Hsame ls saxes Hls Hw Ho Hl nw nb op vec en Hnw Hnb Hop Sv Se Hfull st out Es Eo Horth (op_entry H') Heig)
      as [Hm [EH [SH V]]].
    exists out, Hm. split; [exact Eo|]. split; [exact EH|]. split; [exact SH|]. split; [exact V|]. intros Hiso component.
    destruct (spectrum same Hsame ls saxes Hls Hw Ho Hl nw nb op vec en Hnw Hnb Hop Sv Se Hfull st out Es Eo Horth Hiso) as [Hm' [EH' [_ [X Z]]]].
    rewrite EH in EH'. injection EH' as <-. split; [|exact Z].
    intros r Hr. split; [exact (X r Hr)|]. apply unit_norm_nonzero. rewrite <- (cdelta_refl r). exact (Z r r Hr Hr).
  Qed.

  Lemma same_spectrum : exists vectors energies,
    generate_wavepacket same eigh (map BFundT ls) N ham N 1 0 = Some (vectors, energies) /\ nprod (ashape vectors) = (N * ns * N)%nat /\
    forall op, nprod (ashape op) = (ns * N * N)%nat -> (forall s, (s < ns)%nat -> unitary N (at_sample N N op s)) ->
    exists Hm, full_wannier_hamiltonian N N ls op energies = Some Hm /\
    forall lam, (exists u, eigenvector (nprod F) (op_entry H') lam u) <-> (exists y, eigenvector (ns * N) (as_matrix (ns * N) Hm) lam y).
  Proof using Hsame Hls Hl Hw Ho Hinv Hinv' Hen Hrep He Hfull Hodd Hreal Hham HH'.
    assert (PN : (0 < N)%nat).
    { rewrite square_size. change (bfund (BTuple saxes)) with (nprod (map bfund saxes)). apply nprod_pos, fund_shape_pos. exact Hw. }
    destruct (generated_wannier N 1 0 PN ltac:(lia) ltac:(lia)) as [vec [en [st [G [Es [Sv [_ [Ev [On V]]]]]]]]].
    exists vec, en. split; [exact G|]. split; [exact Sv|]. intros op Hop Hu.
    destruct (V N op PN Hop) as [out [Hm [_ [EH [_ [_ X]]]]]]. exists Hm. split; [exact EH|].
    destruct (X (fun s Hs => proj2 (Hu s Hs))) as [X1 X2].
    assert (EN : nprod F = (N * ns)%nat).
    { unfold F. rewrite nprod_supercell by (unfold ss; rewrite map_length; exact Hl). rewrite square_size. cbn [bfund]. fold ss. unfold ns. lia. }
    assert (EN2 : (ns * N)%nat = (N * ns)%nat) by lia.
    intros lam. split.
    - intros [u Hu'].
      destruct (eigen_complete (nprod F) (op_entry H') (aflat en) (fun r => row (nprod F) (aflat st) r) lam u) as [r [Hr ->]].
      + intros r Hr. destruct (Ev r ltac:(lia)) as [e [Ee [E _]]]. rewrite Ee. exact E.
      + intros r r' Hr Hr'. apply On; lia.
      + exact Hu'.
      + eexists. apply X1. lia.
    - intros [y Hy].
      destruct (eigen_complete (ns * N) (as_matrix (ns * N) Hm) (aflat en) (fun r a => inner_product (nprod F) (amplitude (momenta F) (row (nprod F) (aflat st) r))
           (row (nprod F) (aflat out) (a mod N * ns + a / N))) lam y) as [r [Hr ->]].
      + intros r Hr. exact (proj1 (X1 r ltac:(lia))).
      + intros r r' Hr Hr'. apply X2; lia.
      + exact Hy.
      + destruct (Ev r ltac:(lia)) as [e [-> E]]. eexists. exact E.
  Qed.
  (** With the operator of the tight binding states. *)
  Lemma tight_binding_spectrum svd : svd_ok svd -> length saxes = 1%nat \/ length saxes = 2%nat ->
    exists vectors energies op Hm,
      generate_wavepacket same eigh (map BFundT ls) N ham N 1 0 = Some (vectors, energies) /\
      tight_binding_operator same svd (BFund N) (map BFundT ls) saxes vectors = Some op /\
      full_wannier_hamiltonian N N ls op energies = Some Hm /\
      forall lam, (exists u, eigenvector (nprod F) (op_entry H') lam u) <-> (exists y, eigenvector (ns * N) (as_matrix (ns * N) Hm) lam y).
  Proof using Hsame Hls Hl Hw Ho Hinv Hinv' Hen Hrep He Hfull Hodd Hreal Hham HH'.
    intros Hsvd Hd. destruct same_spectrum as [vec [en [G [Sv X]]]].
    assert (PN : (0 < N)%nat).
    { rewrite square_size. change (bfund (BTuple saxes)) with (nprod (map bfund saxes)). apply nprod_pos, fund_shape_pos. exact Hw. }
    destruct (tight_operator_spec same Hsame ls saxes Hls Hw Ho Hl Hd Hfull svd Hsvd (BFund N) vec PN Sv) as [op [E [Hop U]]].
    destruct (X op Hop U) as [Hm [EH Y]]. exists vec, en, op, Hm. auto.
  Qed.
End Generated.

(** The identity as operator of localisation. *)
Definition ex_identity : ndarray := {| ashape := [2; 3; 3]%nat; aflat := fun t => cdelta (t / 3 mod 3) (t mod 3) |}.
Lemma ex_identity_unitary s : unitary 3 (at_sample 3 3 ex_identity s).
Proof.
  assert (E : forall i l, (i < 3)%nat -> (l < 3)%nat -> at_sample 3 3 ex_identity s i l = cdelta i l).
  { intros i l Hi Hl. unfold at_sample. cbn [aflat ex_identity]. rewrite (div_add_small _ 3 l Hl), (mod_add_small _ 3 l Hl), (mod_add_small _ 3 i Hi). reflexivity. }
  split; intros i j Hi Hj.
  - rewrite (csum_ext _ (fun x => cdelta i x * cdelta j x)).
    + rewrite (csum_delta_l (fun x => cdelta j x) 3 i Hi). apply cdelta_sym.
    + intros x Hx. rewrite !E by assumption. rewrite Cconj_cdelta. reflexivity.
  - rewrite (csum_ext _ (fun x => cdelta i x * cdelta x j)).
    + exact (csum_delta_l (fun x => cdelta x j) 3 i Hi).
    + intros x Hx. rewrite !E by assumption. rewrite Cconj_cdelta, (cdelta_sym x i). reflexivity.
Qed.

Lemma hamiltonians_exist : forall same, identity_test same ->
  forall ls saxes, Forall (fun n => (0 < n)%nat) ls -> length ls = length saxes -> bwf (BTuple saxes) -> explicit_orthonormal (BTuple saxes) ->
  let F := supercell ls (map bfund saxes) in
  forall delta inv delta' inv', is_inverse (length saxes) delta inv -> is_inverse (length saxes) delta' inv' ->
  forall hbar mass data data', exists ham H',
    (forall s, in_shape s ls -> exists H,
      total_surface_hamiltonian same hbar saxes inv data mass (Some (bloch_fraction ls s)) = Some H /\
      forall i j, ham (fractions ls s) i j = op_entry H i j) /\
    total_surface_hamiltonian same hbar (map BFundT F) inv' data' mass None = Some H'.
Proof.
  intros same Hs ls saxes Hls Hl Hw Ho F delta inv delta' inv' Hi Hi' hbar mass data data'.
  exists (fun f i j => match total_surface_hamiltonian same hbar saxes inv data mass (Some (fun a => nth a f 0%R)) with Some H => op_entry H i j | None => 0 end).
  assert (PF : Forall (fun n => (0 < n)%nat) F) by (apply supercell_pos; [exact Hls|apply fund_shape_pos; exact Hw]).
  assert (LF : length (map BFundT F) = length saxes) by (unfold F; rewrite map_length, supercell_length; [exact Hl|rewrite map_length; exact Hl]).
  destruct (hamiltonian_elements same Hs (map BFundT F) (momenta_wf F PF) (momenta_explicit F) delta' inv' ltac:(rewrite LF; exact Hi') hbar mass None data') as [H' [E' _]].
  exists H'. split; [|exact E']. intros s Is.
  destruct (hamiltonian_elements same Hs saxes Hw Ho delta inv Hi hbar mass (Some (bloch_fraction ls s)) data) as [H [E _]].
  exists H. split; [exact E|]. intros i j. change (fun a => nth a (fractions ls s) 0%R) with (bloch_fraction ls s). rewrite E. reflexivity.
Qed.
