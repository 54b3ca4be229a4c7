(** The Hamiltonian of the Wannier states of generated wavepackets is the Hamiltonian of the
    supercell (C130). *)
From Coq Require Import Reals Psatz.
From Verif Require Import ZLib Csum DFT NumPy Spec Index IndexProofs IndexSum SpecReal Lattice LatticeProofs LinAlg SpecMatrix
  Basis SpecBasis BasisProofs BasisProofs2 BasisProofs3 BasisFacts Operator SpecOperator OperatorProofs OperatorProofs2
  Wavepacket SpecWavepacket WavepacketProofs WavepacketProofs2 WavepacketProofs3 WavepacketFacts Hamiltonian SpecHamiltonian HamiltonianProofs
  HamiltonianProofs2 HamiltonianProofs3 WannierBasisProofs Localize SpecLocalize LocalizeFacts2 LocalizeProofs5 LocalizeProofs6
  SpecSupercellHamiltonian SupercellProofs SupercellProofs2 SupercellProofs3 SupercellProofs4 SupercellProofs5 SpecWannierSupercell.
Local Open Scope R_scope.
Local Open Scope C_scope.

(** An eigenvalue of a matrix with a complete orthonormal set of eigenvectors is one of the
    eigenvalues of the set. *)
Lemma eigen_complete n A (E : nat -> C) (W : nat -> nat -> C) lam u :
  (forall r, (r < n)%nat -> forall i, (i < n)%nat -> csum (fun j => A i j * W r j) n = E r * W r i) ->
  (forall r r', (r < n)%nat -> (r' < n)%nat -> inner_product n (W r) (W r') = cdelta r r') ->
  eigenvector n A lam u -> exists r, (r < n)%nat /\ lam = E r.
Proof.
  intros Ev On [Hu [i0 [Hi0 Nz]]].
  assert (Oc : orthonormal_columns n n W).
  { apply orthonormal_square. intros i j Hi Hj. rewrite cdelta_sym. rewrite <- (On j i Hj Hi). unfold inner_product.
    apply csum_ext. intros; ring. }
  set (c := fun r => inner_product n (W r) u).
  assert (X : forall i, (i < n)%nat -> u i = csum (fun r => c r * W r i) n).
  { intros i Hi. unfold c, inner_product.
    rewrite (csum_ext _ (fun r => csum (fun j => u j * (Cconj (W r j) * W r i)) n)).
    2:{ intros r Hr. rewrite <- csum_scal_r. apply csum_ext. intros; ring. }
    rewrite csum_swap. rewrite (csum_ext _ (fun j => u j * cdelta i j)).
    2:{ intros j Hj. rewrite csum_scal_l. rewrite (Oc j i Hj Hi), cdelta_sym. reflexivity. }
    symmetry. apply (csum_delta_r u). exact Hi. }
  assert (Y : forall i, (i < n)%nat -> csum (fun r => (E r - lam) * c r * W r i) n = 0).
  { intros i Hi. rewrite (csum_ext _ (fun r => c r * (E r * W r i) + (- lam) * (c r * W r i))) by (intros; ring).
    rewrite csum_plus, csum_scal_l, <- (X i Hi).
    rewrite (csum_ext (fun r => c r * (E r * W r i)) (fun r => csum (fun j => A i j * (c r * W r j)) n)).
    2:{ intros r Hr. rewrite <- (Ev r Hr i Hi), <- csum_scal_l. apply csum_ext. intros; ring. }
    rewrite csum_swap. rewrite (csum_ext _ (fun j => A i j * u j)).
    2:{ intros j Hj. rewrite (X j Hj), <- csum_scal_l. reflexivity. }
    rewrite (Hu i Hi). ring. }
  assert (Z : forall r, (r < n)%nat -> (E r - lam) * c r = 0).
  { intros r Hr. assert (I : inner_product n (W r) (fun i => csum (fun r' => (E r' - lam) * c r' * W r' i) n) = 0).
    { unfold inner_product. rewrite (csum_ext _ (fun _ => 0)); [apply csum_zero|]. intros i Hi. rewrite (Y i Hi). ring. }
    rewrite <- I. unfold inner_product at 1.
    rewrite (csum_ext _ (fun i => csum (fun r' => (E r' - lam) * c r' * (Cconj (W r i) * W r' i)) n)).
    2:{ intros i Hi. rewrite <- csum_scal_l. apply csum_ext. intros; ring. }
    rewrite csum_swap. rewrite (csum_ext _ (fun r' => (E r' - lam) * c r' * cdelta r r')).
    2:{ intros r' Hr'. rewrite csum_scal_l. change (csum (fun i => Cconj (W r i) * W r' i) n) with (inner_product n (W r) (W r')).
        rewrite (On r r' Hr Hr'). reflexivity. }
    symmetry. apply (csum_delta_r (fun r' => (E r' - lam) * c r')). exact Hr. }
  destruct (Exists_dec (fun r => c r <> 0) (seq 0 n)) as [D|D].
  - intros r. destruct (Ceq_dec (c r) 0) as [e|e]; [right; tauto|left; exact e].
  - apply Exists_exists in D. destruct D as [r [Hr Cr]]. apply in_seq in Hr. exists r. split; [lia|].
    assert (Zr := Z r ltac:(lia)). destruct (Ceq_dec (E r - lam) 0) as [e|e].
    + replace (E r) with (E r - lam + lam) by ring. rewrite e. ring.
    + exfalso. apply Cr. replace (c r) with ((/ (E r - lam)) * ((E r - lam) * c r)) by (field; exact e). rewrite Zr. ring.
  - exfalso. apply Nz. rewrite (X i0 Hi0). rewrite (csum_ext _ (fun _ => 0)); [apply csum_zero|]. intros r Hr.
    destruct (Ceq_dec (c r) 0) as [e|e]; [rewrite e; ring|]. exfalso. apply D. apply Exists_exists. exists r. split; [apply in_seq; lia|exact e].
Qed.

(** Plane waves of different samples are orthogonal over the cells. *)
Lemma samples_orth ls s s' : Forall (fun n => (0 < n)%nat) ls -> (s < nprod ls)%nat -> (s' < nprod ls)%nat ->
  csum (fun R => isqrt (nprod ls) * isqrt (nprod ls) * (Cconj (plane ls (sample_freqs ls (unravel ls s)) (map Z.of_nat (unravel ls R))) *
    plane ls (sample_freqs ls (unravel ls s')) (map Z.of_nat (unravel ls R)))) (nprod ls) = cdelta s s'.
Proof.
  intros Hls Hs Hs'. set (ns := nprod ls).
  assert (Pn : (0 < ns)%nat) by (apply nprod_pos; exact Hls).
  pose (V := fun R s => isqrt ns * plane ls (sample_freqs ls (unravel ls s)) (map Z.of_nat (unravel ls R))).
  assert (Hr : orthonormal_rows ns ns V).
  { intros R R' HR HR'. unfold V.
    rewrite (csum_ext _ (fun t => isqrt ns * isqrt ns * (Cconj (plane ls (sample_freqs ls (unravel ls t)) (map Z.of_nat (unravel ls R'))) *
      plane ls (sample_freqs ls (unravel ls t)) (map Z.of_nat (unravel ls R))))).
    2:{ intros t Ht. rewrite Cconj_mult, isqrt_conj. ring. }
    rewrite csum_scal_l. unfold ns at 3. rewrite (csum_plane_orth ls Hls (unravel ls R') (unravel ls R)) by (apply unravel_in_shape; assumption).
    rewrite !ravel_unravel by assumption. fold ns. rewrite Cmult_assoc, isqrt_sqr by exact Pn. rewrite cdelta_sym. ring. }
  assert (Hc := orthonormal_square ns V Hr s s' Hs Hs'). rewrite <- Hc. apply csum_ext. intros R HR. unfold V. rewrite Cconj_mult, isqrt_conj. ring.
Qed.

Section Coefficients.
  Variable F : list nat.
  Hypothesis PF : Forall (fun n => (0 < n)%nat) F.
  Lemma momenta_orth j k : (j < nprod F)%nat -> (k < nprod F)%nat ->
    csum (fun x => Cconj (bstate (momenta F) j x) * bstate (momenta F) k x) (nprod F) = cdelta j k.
  Proof.
    intros Hj Hk. assert (Ho : orthonormal (momenta F)) by (apply full_bases; [apply momenta_wf|apply momenta_full]; exact PF).
    specialize (Ho j k). rewrite momenta_size in Ho. rewrite <- (Ho Hj Hk). unfold overlap. rewrite momenta_fund. reflexivity.
  Qed.
  Lemma plane_coefficients_ext u v k : (forall x, (x < nprod F)%nat -> u x = v x) -> plane_coefficients F u k = plane_coefficients F v k.
  Proof. intros H. unfold plane_coefficients. apply inner_ext; [reflexivity|exact H]. Qed.
  Lemma plane_coefficients_sum n m (a : nat -> nat -> C) (v : nat -> nat -> nat -> C) k : (k < nprod F)%nat ->
    plane_coefficients F (fun x => csum (fun s => csum (fun l => a s l * amplitude (momenta F) (v s l) x) m) n) k =
    csum (fun s => csum (fun l => a s l * v s l k) m) n.
  Proof.
    intros Hk. unfold plane_coefficients, inner_product.
    rewrite (csum_ext _ (fun x => csum (fun s => csum (fun l => a s l * (Cconj (bstate (momenta F) k x) * amplitude (momenta F) (v s l) x)) m) n)).
    2:{ intros x Hx. rewrite <- csum_scal_l. apply csum_ext. intros s Hs. rewrite <- csum_scal_l. apply csum_ext. intros; ring. }
    rewrite csum_swap. apply csum_ext. intros s Hs. rewrite csum_swap. apply csum_ext. intros l Hl. rewrite csum_scal_l. f_equal.
    unfold amplitude. rewrite momenta_size.
    rewrite (csum_ext _ (fun x => csum (fun j => v s l j * (Cconj (bstate (momenta F) k x) * bstate (momenta F) j x)) (nprod F))).
    2:{ intros x Hx. rewrite <- csum_scal_l. apply csum_ext. intros; ring. }
    rewrite csum_swap. rewrite (csum_ext _ (fun j => v s l j * cdelta k j)).
    2:{ intros j Hj. rewrite csum_scal_l, momenta_orth by assumption. reflexivity. }
    apply (csum_delta_r (v s l)). exact Hk.
  Qed.
  (** The inner product with the state of given coefficients. *)
  Lemma plane_coefficients_inner u v : inner_product (nprod F) (plane_coefficients F u) v = inner_product (nprod F) u (amplitude (momenta F) v).
  Proof.
    unfold plane_coefficients, inner_product, amplitude. rewrite momenta_size.
    rewrite (csum_ext _ (fun k => csum (fun x => Cconj (u x) * (v k * bstate (momenta F) k x)) (nprod F))).
    2:{ intros k Hk. rewrite Cconj_csum, <- csum_scal_r. apply csum_ext. intros x Hx. rewrite Cconj_mult, Cconj_conj. ring. }
    rewrite csum_swap. apply csum_ext. intros x Hx. rewrite csum_scal_l. reflexivity.
  Qed.
End Coefficients.
