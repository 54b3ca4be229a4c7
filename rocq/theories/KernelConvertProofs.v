(** Conversion of noise kernels between bases. *)
From Coq Require Import Reals Psatz.
From Verif Require Import ZLib Csum DFT NumPy Interp Spec InterpProofs InterpProofs2 Index IndexProofs
  SpecBasis Basis BasisProofs BasisProofs2 BasisProofs3 Operator SpecOperator OperatorProofs OperatorProofs2
  Kernel SpecKernel KernelProofs KernelProofs2 KernelConvert SpecKernelConvert.
Local Open Scope R_scope.
Local Open Scope C_scope.

Lemma kernel_in_basis_ext b0 b1 row col K K' :
  (forall p q s t, (p < bsize b1)%nat -> (q < bsize b0)%nat -> (s < bsize b0)%nat -> (t < bsize b1)%nat ->
     K p q s t = K' p q s t) ->
  forall i j k l, kernel_in_basis b0 b1 row col K i j k l = kernel_in_basis b0 b1 row col K' i j k l.
Proof.
  intros H i j k l. unfold kernel_in_basis.
  apply csum_ext; intros p Hp. apply csum_ext; intros q Hq.
  apply csum_ext; intros s Hs. apply csum_ext; intros t Ht. rewrite H by assumption. reflexivity.
Qed.

Lemma csum_mult (f g : nat -> C) n m :
  csum f n * csum g m = csum (fun i => csum (fun j => f i * g j) m) n.
Proof.
  rewrite <- csum_scal_r. apply csum_ext; intros i Hi. rewrite <- csum_scal_l. reflexivity.
Qed.

(** The kernel of operators whose entries are transformed. *)
Lemma sum_transform m (lam : nat -> C) (L : nat -> nat -> nat -> C) (U : nat -> nat -> nat -> nat -> C) r c i j k l :
  csum (fun a => lam a *
     Cconj (csum (fun q => csum (fun p => L a q p * U q p j i) c) r) *
     csum (fun s => csum (fun t => L a s t * U s t k l) c) r) m =
  csum (fun p => csum (fun q => csum (fun s => csum (fun t =>
     Cconj (U q p j i) * csum (fun a => lam a * Cconj (L a q p) * L a s t) m * U s t k l) c) r) r) c.
Proof.
  transitivity (csum (fun a => csum (fun p => csum (fun q => csum (fun s => csum (fun t =>
     Cconj (U q p j i) * (lam a * Cconj (L a q p) * L a s t) * U s t k l) c) r) r) c) m).
  - apply csum_ext; intros a Ha.
    rewrite <- Cmult_assoc, Cconj_csum.
    rewrite (csum_ext _ (fun q => csum (fun p => Cconj (L a q p * U q p j i)) c)) by (intros; apply Cconj_csum).
    rewrite csum_swap. rewrite <- csum_scal_r, <- csum_scal_l. apply csum_ext; intros p Hp.
    rewrite <- csum_scal_r, <- csum_scal_l. apply csum_ext; intros q Hq.
    rewrite <- !csum_scal_l. apply csum_ext; intros s Hs.
    rewrite <- !csum_scal_l. apply csum_ext; intros t Ht. rewrite Cconj_mult. ring.
  - rewrite csum_swap. apply csum_ext; intros p Hp. rewrite csum_swap. apply csum_ext; intros q Hq.
    rewrite csum_swap. apply csum_ext; intros s Hs. rewrite csum_swap. apply csum_ext; intros t Ht.
    rewrite csum_scal_r, csum_scal_l. reflexivity.
Qed.

Section Convert.
Variable same : basis -> basis -> bool.
Hypothesis Hsame : identity_test same.

Lemma convert_noise_spec o row col : noise_wf o ->
  bwf (lrow (nops o)) -> bwf (lcol (nops o)) -> bwf row -> bwf col ->
  explicit_orthonormal (lrow (nops o)) -> explicit_orthonormal (lcol (nops o)) ->
  compatible (lrow (nops o)) row -> compatible (lcol (nops o)) col ->
  exists c, convert_noise_operator_list_to_basis same o row col = Some c /\ noise_wf c /\
    noise_count c = noise_count o /\ lrow (nops c) = row /\ lcol (nops c) = col /\
    (forall a, eigenvalue c a = eigenvalue o a) /\
    (forall a i j, (i < bsize row)%nat -> (j < bsize col)%nat ->
       list_entry (nops c) a i j =
       csum (fun p => csum (fun q => list_entry (nops o) a p q *
         unit_operator (lrow (nops o)) (lcol (nops o)) row col p q i j)
         (bsize (lcol (nops o)))) (bsize (lrow (nops o)))).
Proof using Hsame.
  intros [W He] H0 H1 H2 H3 O0 O1 C0 C1.
  destruct (convert_list_spec same (nops o) row col W C0 C1) as [F [r [HF [Hr [Wr [E1 [E2 [E3 [Es E4]]]]]]]]].
  unfold convert_noise_operator_list_to_basis. rewrite Hr. eexists. split; [reflexivity|].
  unfold noise_wf, noise_count, eigenvalue; cbn [nops neig]. rewrite E1.
  split; [split; [exact Wr|exact He]|]. split; [reflexivity|]. split; [exact E2|]. split; [exact E3|].
  split; [reflexivity|]. intros a i j Hi Hj. rewrite E4 by assumption.
  rewrite (convert_matrix_sum same Hsame _ _ _ _ F H0 H2 H1 H3 O0 O1 HF) by assumption.
  apply csum_ext; intros p Hp. apply csum_ext; intros q Hq. unfold unit_operator. ring.
Qed.

(** The kernel of converted operators is the converted kernel. *)
Lemma convert_noise_kernel o row col : noise_wf o ->
  bwf (lrow (nops o)) -> bwf (lcol (nops o)) -> bwf row -> bwf col ->
  explicit_orthonormal (lrow (nops o)) -> explicit_orthonormal (lcol (nops o)) ->
  compatible (lrow (nops o)) row -> compatible (lcol (nops o)) col ->
  exists c, convert_noise_operator_list_to_basis same o row col = Some c /\ noise_wf c /\
    noise_count c = noise_count o /\ lrow (nops c) = row /\ lcol (nops c) = col /\
    (forall a, eigenvalue c a = eigenvalue o a) /\
    forall i j k l, (i < bsize col)%nat -> (j < bsize row)%nat -> (k < bsize row)%nat -> (l < bsize col)%nat ->
      kernel_of c i j k l =
      kernel_in_basis (lrow (nops o)) (lcol (nops o)) row col (kernel_of o) i j k l.
Proof using Hsame.
  intros W H0 H1 H2 H3 O0 O1 C0 C1.
  destruct (convert_noise_spec o row col W H0 H1 H2 H3 O0 O1 C0 C1) as [c [Hc [Wc [Ec [Er [El [Ee HE]]]]]]].
  exists c. do 6 (split; [assumption|]). intros i j k l Hi Hj Hk Hl.
  unfold kernel_of at 1. rewrite Ec.
  etransitivity; [|apply (sum_transform (noise_count o) (eigenvalue o) (list_entry (nops o))
    (unit_operator (lrow (nops o)) (lcol (nops o)) row col))].
  apply csum_ext; intros a Ha. rewrite Ee, !HE by assumption. reflexivity.
Qed.

Lemma entry4_split n1 n2 n3 m (A B : ndarray) :
  (forall t, (t < m * n1 * n2 * n3)%nat -> aflat A t = aflat B t) ->
  forall i j k l, (i < m)%nat -> (j < n1)%nat -> (k < n2)%nat -> (l < n3)%nat ->
    entry4 n1 n2 n3 A i j k l = entry4 n1 n2 n3 B i j k l.
Proof.
  intros H i j k l Hi Hj Hk Hl. unfold entry4. apply H.
  assert (X := pair_lt m n1 i j Hi Hj).
  assert (Y := pair_lt _ n2 _ k X Hk). exact (pair_lt _ n3 _ l Y Hl).
Qed.

(** ** Full kernels *)

Section Full.
Variable eigh : nat -> (nat -> nat -> C) -> eigh_result.
Variables b0 b1 row col : basis.
Variable n : nat.
Variable K : ndarray.
Hypothesis S0 : bsize b0 = n.
Hypothesis S1 : bsize b1 = n.
Hypothesis W0 : bwf b0.
Hypothesis W1 : bwf b1.
Hypothesis W2 : bwf row.
Hypothesis W3 : bwf col.
Hypothesis O0 : explicit_orthonormal b0.
Hypothesis O1 : explicit_orthonormal b1.
Hypothesis C0 : compatible b0 row.
Hypothesis C1 : compatible b1 col.
Hypothesis EK : nprod (ashape K) = (n * n * n * n)%nat.
Hypothesis Heigh :
  forall A, mat_eq (n * n) A (fun p q => entry4 n n n K (p mod n) (p / n) (q / n) (q mod n)) ->
     eigendecomposition (n * n) A (eigh (n * n)%nat A).

Lemma kernel_conversion :
  exists R, convert_kernel_to_basis same eigh b0 b1 K row col = Some R /\
    ashape R = [(bsize col * bsize row * bsize row * bsize col)%nat] /\
    forall i j k l, (i < bsize col)%nat -> (j < bsize row)%nat -> (k < bsize row)%nat -> (l < bsize col)%nat ->
      entry4 (bsize row) (bsize row) (bsize col) R i j k l =
      kernel_in_basis b0 b1 row col (entry4 n n n K) i j k l.
Proof using All.
  destruct (eigenvalue_rebuild eigh b0 b1 n K S0 S1 EK Heigh) as [o [F [Ho [Wo [No [HF [SF EF]]]]]]].
  assert (Lr : lrow (nops o) = b0 /\ lcol (nops o) = b1).
  { unfold get_periodic_noise_operators_eigenvalue in Ho.
    destruct (kernel_matrix b0 b1 K); [|discriminate].
    destruct (eigh _ _). injection Ho as <-. split; reflexivity. }
  destruct Lr as [Lr Lc].
  destruct (convert_noise_kernel o row col) as [c [Hc [Wc [Ec [Er [El [Ee HE]]]]]]];
    try assumption; rewrite ?Lr, ?Lc; try assumption.
  destruct (full_kernel_spec c Wc) as [R [HR [SR ER]]]. rewrite Er, El in SR, ER.
  exists R. unfold convert_kernel_to_basis. rewrite Ho, Hc. split; [exact HR|]. split; [exact SR|].
  intros i j k l Hi Hj Hk Hl. rewrite ER, HE by assumption. rewrite Lr, Lc.
  apply kernel_in_basis_ext. rewrite S0, S1. intros p q s t Hp Hq Hs Ht.
  destruct (full_kernel_spec o Wo) as [F' [HF' [_ EF']]]. rewrite Lr, Lc, S0, S1 in EF'.
  rewrite HF in HF'. injection HF' as <-. rewrite <- EF' by assumption.
  apply (entry4_split n n n n); assumption.
Qed.

(** Whatever operators the kernel comes from. *)
Lemma kernel_conversion_operators o : noise_wf o -> lrow (nops o) = b0 -> lcol (nops o) = b1 ->
  get_full_kernel_from_operators o = Some K ->
  exists c R, convert_noise_operator_list_to_basis same o row col = Some c /\
    get_full_kernel_from_operators c = Some R /\
    exists R', convert_kernel_to_basis same eigh b0 b1 K row col = Some R' /\ ashape R' = ashape R /\
      forall t, (t < bsize col * bsize row * bsize row * bsize col)%nat -> aflat R' t = aflat R t.
Proof using All.
  intros Wo Lr Lc HK.
  destruct (convert_noise_kernel o row col) as [c [Hc [Wc [Ec [Er [El [Ee HE]]]]]]];
    try assumption; rewrite ?Lr, ?Lc; try assumption.
  destruct (full_kernel_spec c Wc) as [R [HR [SR ER]]]. rewrite Er, El in SR, ER.
  destruct kernel_conversion as [R' [HR' [SR' ER']]].
  exists c, R. split; [exact Hc|]. split; [exact HR|]. exists R'. split; [exact HR'|].
  split; [rewrite SR, SR'; reflexivity|].
  intros t Ht.
  destruct (pair_split _ _ t Ht) as [x [l [Hx [Hl ->]]]].
  destruct (pair_split _ _ x Hx) as [y [k [Hy [Hk ->]]]].
  destruct (pair_split _ _ y Hy) as [i [j [Hi [Hj ->]]]].
  change (entry4 (bsize row) (bsize row) (bsize col) R' i j k l = entry4 (bsize row) (bsize row) (bsize col) R i j k l).
  rewrite ER', ER, HE by assumption. rewrite Lr, Lc. apply kernel_in_basis_ext. rewrite S0, S1.
  intros p q s u Hp Hq Hs Hu.
  destruct (full_kernel_spec o Wo) as [F' [HF' [_ EF']]]. rewrite Lr, Lc, S0, S1 in EF'.
  rewrite HK in HF'. injection HF' as <-. apply EF'; assumption.
Qed.

End Full.

(** ** Identity and round trip *)

Lemma unit_operator_same b0 b1 : bwf b0 -> bwf b1 -> explicit_orthonormal b0 -> explicit_orthonormal b1 ->
  forall s t k l, (s < bsize b0)%nat -> (t < bsize b1)%nat -> (k < bsize b0)%nat -> (l < bsize b1)%nat ->
  unit_operator b0 b1 b0 b1 s t k l = cdelta k s * cdelta t l.
Proof.
  intros W0 W1 O0 O1 s t k l Hs Ht Hk Hl. unfold unit_operator.
  rewrite (explicit_orthonormal_sound b0 W0 O0), (explicit_orthonormal_sound b1 W1 O1) by assumption. reflexivity.
Qed.

Lemma kernel_in_basis_same b0 b1 K : bwf b0 -> bwf b1 -> explicit_orthonormal b0 -> explicit_orthonormal b1 ->
  forall i j k l, (i < bsize b1)%nat -> (j < bsize b0)%nat -> (k < bsize b0)%nat -> (l < bsize b1)%nat ->
  kernel_in_basis b0 b1 b0 b1 K i j k l = K i j k l.
Proof.
  intros W0 W1 O0 O1 i j k l Hi Hj Hk Hl. unfold kernel_in_basis.
  transitivity (csum (fun p => cdelta p i * csum (fun q => cdelta j q * csum (fun s => cdelta k s *
    csum (fun t => cdelta t l * K p q s t) (bsize b1)) (bsize b0)) (bsize b0)) (bsize b1)).
  - apply csum_ext; intros p Hp. rewrite <- csum_scal_l. apply csum_ext; intros q Hq.
    rewrite <- !csum_scal_l. apply csum_ext; intros s Hs. rewrite <- !csum_scal_l. apply csum_ext; intros t Ht.
    rewrite !unit_operator_same by assumption. rewrite Cconj_mult, !Cconj_cdelta. ring.
  - rewrite (csum_delta_l' (fun p => csum _ _)) by assumption.
    rewrite (csum_delta_l (fun p => csum _ _)) by assumption.
    rewrite (csum_delta_l (fun p => csum _ _)) by assumption.
    apply (csum_delta_l' (fun t => K i j k t)). assumption.
Qed.

Lemma overlap_resolve a b : bwf a -> bwf b -> explicit_orthonormal a -> complete b -> compatible a b ->
  forall p q, (p < bsize a)%nat -> (q < bsize a)%nat ->
  csum (fun j => overlap a b p j * overlap b a j q) (bsize b) = cdelta p q.
Proof using Hsame.
  intros Wa Wb Oa Cb Cab. destruct (convert_matrix_exists same _ _ _ _ Cab Cab) as [F HF].
  exact (overlap_delta same a b Wa Oa Cb F HF).
Qed.
End Convert.
