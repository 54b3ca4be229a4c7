(** Conversion of noise kernels: intermediate bases, round trips, diagonal and isotropic kernels. *)
From Coq Require Import Reals Psatz.
From Verif Require Import ZLib Csum DFT NumPy Interp Spec InterpProofs InterpProofs2 Index IndexProofs
  SpecBasis Basis BasisProofs BasisProofs2 BasisProofs3 Operator SpecOperator OperatorProofs OperatorProofs2
  Kernel SpecKernel KernelProofs KernelProofs2 KernelConvert SpecKernelConvert KernelConvertProofs.
Local Open Scope R_scope.
Local Open Scope C_scope.

Lemma compatible_same_fund a b : compatible a b -> bfund a = bfund b.
Proof. intros H. destruct H; assumption. Qed.

(** One matrix in the new bases. *)
Definition half (b0 b1 row col : basis) (m : nat -> nat -> C) (k l : nat) : C :=
  csum (fun s => csum (fun t => m s t * unit_operator b0 b1 row col s t k l) (bsize b1)) (bsize b0).

Lemma half_ext b0 b1 row col m m' k l :
  (forall s t, (s < bsize b0)%nat -> (t < bsize b1)%nat -> m s t = m' s t) ->
  half b0 b1 row col m k l = half b0 b1 row col m' k l.
Proof.
  intros H. unfold half. apply csum_ext; intros s Hs. apply csum_ext; intros t Ht. rewrite H by assumption. reflexivity.
Qed.

Lemma kernel_half b0 b1 row col K i j k l :
  kernel_in_basis b0 b1 row col K i j k l =
  Cconj (half b0 b1 row col (fun q p => Cconj (half b0 b1 row col (K p q) k l)) j i).
Proof.
  unfold kernel_in_basis, half. rewrite csum_swap, Cconj_csum. apply csum_ext; intros q Hq.
  rewrite Cconj_csum. apply csum_ext; intros p Hp. rewrite Cconj_mult, Cconj_conj.
  rewrite <- csum_scal_r. apply csum_ext; intros s Hs. rewrite <- csum_scal_r. apply csum_ext; intros t Ht. ring.
Qed.

Lemma unit_operator_comp b0 b1 row col b2 b3 s t k l :
  bfund b0 = bfund row -> bfund b3 = bfund col -> complete row -> complete col ->
  csum (fun p => csum (fun q => unit_operator b0 b1 row col s t p q * unit_operator row col b2 b3 p q k l)
    (bsize col)) (bsize row) = unit_operator b0 b1 b2 b3 s t k l.
Proof.
  intros E0 E3 Cr Cc. unfold unit_operator.
  rewrite <- (overlap_comp b0 row b2 k s E0 Cr). rewrite <- (overlap_comp b3 col b1 t l E3 Cc).
  rewrite csum_mult. apply csum_ext; intros p Hp. apply csum_ext; intros q Hq. ring.
Qed.

Lemma half_comp b0 b1 row col b2 b3 m k l :
  bfund b0 = bfund row -> bfund b3 = bfund col -> complete row -> complete col ->
  half row col b2 b3 (half b0 b1 row col m) k l = half b0 b1 b2 b3 m k l.
Proof.
  intros E0 E3 Cr Cc. unfold half.
  transitivity (csum (fun p => csum (fun q => csum (fun s => csum (fun t =>
    m s t * (unit_operator b0 b1 row col s t p q * unit_operator row col b2 b3 p q k l))
    (bsize b1)) (bsize b0)) (bsize col)) (bsize row)).
  - apply csum_ext; intros p Hp. apply csum_ext; intros q Hq.
    rewrite <- csum_scal_r. apply csum_ext; intros s Hs. rewrite <- csum_scal_r. apply csum_ext; intros t Ht. ring.
  - transitivity (csum (fun p => csum (fun s => csum (fun q => csum (fun t =>
      m s t * (unit_operator b0 b1 row col s t p q * unit_operator row col b2 b3 p q k l))
      (bsize b1)) (bsize col)) (bsize b0)) (bsize row)).
    { apply csum_ext; intros p Hp. apply csum_swap. }
    rewrite csum_swap. apply csum_ext; intros s Hs.
    transitivity (csum (fun p => csum (fun t => csum (fun q =>
      m s t * (unit_operator b0 b1 row col s t p q * unit_operator row col b2 b3 p q k l))
      (bsize col)) (bsize b1)) (bsize row)).
    { apply csum_ext; intros p Hp. apply csum_swap. }
    rewrite csum_swap. apply csum_ext; intros t Ht.
    rewrite <- (unit_operator_comp b0 b1 row col b2 b3 s t k l E0 E3 Cr Cc).
    rewrite <- csum_scal_l. apply csum_ext; intros p Hp. rewrite <- csum_scal_l. reflexivity.
Qed.

(** Transforming one pair of indices commutes with transforming the other pair. *)
Lemma half_commute b0 b1 row col c0 c1 r' c' (G : nat -> nat -> nat -> nat -> C) q' p' k l :
  half c0 c1 r' c' (fun s t => Cconj (half b0 b1 row col (fun q p => Cconj (G q p s t)) q' p')) k l =
  Cconj (half b0 b1 row col (fun q p => Cconj (half c0 c1 r' c' (G q p) k l)) q' p').
Proof.
  unfold half. rewrite Cconj_csum.
  transitivity (csum (fun s => csum (fun t => csum (fun q => csum (fun p =>
    Cconj (unit_operator b0 b1 row col q p q' p') * G q p s t * unit_operator c0 c1 r' c' s t k l)
    (bsize b1)) (bsize b0)) (bsize c1)) (bsize c0)).
  - apply csum_ext; intros s Hs. apply csum_ext; intros t Ht. rewrite Cconj_csum, <- csum_scal_r.
    apply csum_ext; intros q Hq. rewrite Cconj_csum, <- csum_scal_r. apply csum_ext; intros p Hp.
    rewrite Cconj_mult, Cconj_conj. ring.
  - transitivity (csum (fun s => csum (fun q => csum (fun t => csum (fun p =>
      Cconj (unit_operator b0 b1 row col q p q' p') * G q p s t * unit_operator c0 c1 r' c' s t k l)
      (bsize b1)) (bsize c1)) (bsize b0)) (bsize c0)).
    { apply csum_ext; intros s Hs. apply csum_swap. }
    rewrite csum_swap. apply csum_ext; intros q Hq. rewrite Cconj_csum.
    transitivity (csum (fun s => csum (fun p => csum (fun t =>
      Cconj (unit_operator b0 b1 row col q p q' p') * G q p s t * unit_operator c0 c1 r' c' s t k l)
      (bsize c1)) (bsize b1)) (bsize c0)).
    { apply csum_ext; intros s Hs. apply csum_swap. }
    rewrite csum_swap. apply csum_ext; intros p Hp. rewrite Cconj_mult, Cconj_conj.
    rewrite <- csum_scal_r. apply csum_ext; intros s Hs. rewrite <- csum_scal_r. apply csum_ext; intros t Ht. ring.
Qed.

Lemma kernel_in_basis_comp b0 b1 row col b2 b3 K :
  bfund b0 = bfund row -> bfund b2 = bfund row -> bfund b1 = bfund col -> bfund b3 = bfund col ->
  complete row -> complete col ->
  forall i j k l, kernel_in_basis row col b2 b3 (kernel_in_basis b0 b1 row col K) i j k l =
    kernel_in_basis b0 b1 b2 b3 K i j k l.
Proof.
  intros E0 E2 E1 E3 Cr Cc i j k l. rewrite !kernel_half. f_equal.
  transitivity (half row col b2 b3 (half b0 b1 row col
    (fun q p => Cconj (half b0 b1 b2 b3 (K p q) k l))) j i); [|apply half_comp; assumption].
  apply half_ext. intros q' p' Hq' Hp'.
  rewrite <- (Cconj_conj (half b0 b1 row col (fun q p => Cconj (half b0 b1 b2 b3 (K p q) k l)) q' p')). f_equal.
  rewrite (half_ext row col b2 b3 _ (fun s t => Cconj (half b0 b1 row col (fun q p =>
    Cconj (half b0 b1 row col (K p q) s t)) q' p'))) by (intros; apply kernel_half).
  rewrite (half_commute b0 b1 row col row col b2 b3 (fun q p s t => half b0 b1 row col (K p q) s t)).
  f_equal. apply half_ext. intros q p Hq Hp. f_equal. apply half_comp; assumption.
Qed.

(** The expectation value of the kernel for a matrix [x]. *)
Lemma kernel_form b0 b1 row col K x :
  csum (fun i => csum (fun j => csum (fun k => csum (fun l =>
    Cconj (x j i) * kernel_in_basis b0 b1 row col K i j k l * x k l)
    (bsize col)) (bsize row)) (bsize row)) (bsize col) =
  let y q p := csum (fun k => csum (fun l => unit_operator b0 b1 row col q p k l * x k l) (bsize col)) (bsize row) in
  csum (fun p => csum (fun q => csum (fun s => csum (fun t => Cconj (y q p) * K p q s t * y s t)
    (bsize b1)) (bsize b0)) (bsize b0)) (bsize b1).
Proof.
  cbv zeta. set (r := bsize row). set (c := bsize col). set (n0 := bsize b0). set (n1 := bsize b1).
  set (U := unit_operator b0 b1 row col).
  set (y := fun q p => csum (fun k => csum (fun l => U q p k l * x k l) c) r).
  transitivity (csum (fun i => csum (fun j => csum (fun p => csum (fun q =>
     Cconj (U q p j i * x j i) * csum (fun s => csum (fun t => K p q s t * y s t) n1) n0) n0) n1) r) c).
  - apply csum_ext; intros i Hi. apply csum_ext; intros j Hj.
    transitivity (csum (fun k => csum (fun l => csum (fun p => csum (fun q => csum (fun s => csum (fun t =>
      Cconj (U q p j i * x j i) * (K p q s t * (U s t k l * x k l))) n1) n0) n0) n1) c) r).
    { apply csum_ext; intros k Hk. apply csum_ext; intros l Hl. unfold kernel_in_basis. fold r c n0 n1 U.
      rewrite <- csum_scal_l, <- csum_scal_r. apply csum_ext; intros p Hp.
      rewrite <- csum_scal_l, <- csum_scal_r. apply csum_ext; intros q Hq.
      rewrite <- csum_scal_l, <- csum_scal_r. apply csum_ext; intros s Hs.
      rewrite <- csum_scal_l, <- csum_scal_r. apply csum_ext; intros t Ht. rewrite Cconj_mult. ring. }
    transitivity (csum (fun k => csum (fun p => csum (fun q => csum (fun s => csum (fun t => csum (fun l =>
      Cconj (U q p j i * x j i) * (K p q s t * (U s t k l * x k l))) c) n1) n0) n0) n1) r).
    { apply csum_ext; intros k Hk. rewrite csum_swap. apply csum_ext; intros p Hp. rewrite csum_swap.
      apply csum_ext; intros q Hq. rewrite csum_swap. apply csum_ext; intros s Hs. apply csum_swap. }
    rewrite csum_swap. apply csum_ext; intros p Hp. rewrite csum_swap. apply csum_ext; intros q Hq.
    rewrite csum_swap. rewrite <- csum_scal_l. apply csum_ext; intros s Hs.
    rewrite csum_swap. rewrite <- csum_scal_l. apply csum_ext; intros t Ht.
    unfold y. rewrite <- !csum_scal_l. apply csum_ext; intros k Hk.
    rewrite <- !csum_scal_l. reflexivity.
  - transitivity (csum (fun i => csum (fun p => csum (fun q => csum (fun j =>
     Cconj (U q p j i * x j i) * csum (fun s => csum (fun t => K p q s t * y s t) n1) n0) r) n0) n1) c).
    { apply csum_ext; intros i Hi. rewrite csum_swap. apply csum_ext; intros p Hp. apply csum_swap. }
    rewrite csum_swap. apply csum_ext; intros p Hp. rewrite csum_swap. apply csum_ext; intros q Hq.
    transitivity (Cconj (y q p) * csum (fun s => csum (fun t => K p q s t * y s t) n1) n0).
    + unfold y at 2. rewrite csum_swap. rewrite Cconj_csum, <- csum_scal_r. apply csum_ext; intros j Hj.
      rewrite Cconj_csum, <- csum_scal_r. reflexivity.
    + rewrite <- csum_scal_l. apply csum_ext; intros s Hs. rewrite <- csum_scal_l. apply csum_ext; intros t Ht. ring.
Qed.

(** ** Diagonal kernels *)

Lemma diagonal_in_basis b0 b1 row col D : bsize b1 = bsize b0 -> forall i j k l,
  kernel_in_basis b0 b1 row col (fun p q s t => cdelta p q * cdelta s t * D p s) i j k l =
  diagonal_kernel_in_basis b0 b1 row col D i j k l.
Proof.
  intros E i j k l. unfold kernel_in_basis, diagonal_kernel_in_basis. rewrite E.
  apply csum_ext; intros p Hp.
  transitivity (csum (fun q => cdelta p q * csum (fun s => csum (fun t => cdelta s t *
     (Cconj (unit_operator b0 b1 row col q p j i) * D p s * unit_operator b0 b1 row col s t k l))
     (bsize b0)) (bsize b0)) (bsize b0)).
  - apply csum_ext; intros q Hq. rewrite <- csum_scal_l. apply csum_ext; intros s Hs.
    rewrite <- csum_scal_l. apply csum_ext; intros t Ht. ring.
  - rewrite (csum_delta_l (fun q => csum _ _)) by assumption. apply csum_ext; intros s Hs.
    apply (csum_delta_l (fun t => Cconj (unit_operator b0 b1 row col p p j i) * D p s * unit_operator b0 b1 row col s t k l)).
    assumption.
Qed.

Lemma diagonal_eigenvalue_bases eigh b0 b1 K o :
  get_periodic_noise_operators_diagonal_eigenvalue eigh b0 b1 K = Some o ->
  lrow (nops o) = b0 /\ lcol (nops o) = b1 /\ lbasis (nops o) = BFund (bsize b0) /\
  ashape (ldata (nops o)) = [(bsize b0 * bsize b0)%nat].
Proof.
  unfold get_periodic_noise_operators_diagonal_eigenvalue.
  destruct (reshape_rows K (bsize b0)) as [m|]; [|discriminate].
  destruct (nth 1 (ashape m) 0%nat =? bsize b0)%nat; [|discriminate].
  destruct (eigh _ _). intros H. injection H as <-. cbn [nops lrow lcol lbasis ldata ravel_array array2 ashape nprod].
  repeat split. f_equal. lia.
Qed.

Section Convert.
Variable same : basis -> basis -> bool.
Hypothesis Hsame : identity_test same.

Lemma kernel_same_basis eigh b0 b1 n K : bsize b0 = n -> bsize b1 = n -> bwf b0 -> bwf b1 ->
  explicit_orthonormal b0 -> explicit_orthonormal b1 -> nprod (ashape K) = (n * n * n * n)%nat ->
  (forall A, mat_eq (n * n) A (fun p q => entry4 n n n K (p mod n) (p / n) (q / n) (q mod n)) ->
     eigendecomposition (n * n) A (eigh (n * n)%nat A)) ->
  exists R, convert_kernel_to_basis same eigh b0 b1 K b0 b1 = Some R /\
    ashape R = [(n * n * n * n)%nat] /\ forall t, (t < n * n * n * n)%nat -> aflat R t = aflat K t.
Proof using Hsame.
  intros S0 S1 W0 W1 O0 O1 EK He.
  destruct (kernel_conversion same Hsame eigh b0 b1 b0 b1 n K S0 S1 W0 W1 W0 W1 O0 O1
    (compatible_refl b0) (compatible_refl b1) EK He) as [R [HR [SR ER]]].
  rewrite S0, S1 in SR, ER. exists R. split; [exact HR|]. split; [exact SR|]. intros t Ht.
  destruct (pair_split _ _ t Ht) as [x [l [Hx [Hl ->]]]].
  destruct (pair_split _ _ x Hx) as [y [k [Hy [Hk ->]]]].
  destruct (pair_split _ _ y Hy) as [i [j [Hi [Hj ->]]]].
  change (entry4 n n n R i j k l = entry4 n n n K i j k l).
  rewrite ER by assumption. apply kernel_in_basis_same; try assumption; rewrite ?S0, ?S1; assumption.
Qed.

(** Through an intermediate basis which loses nothing. *)
Lemma kernel_intermediate eigh eigh' b0 b1 n K row col m b2 b3 :
  bsize b0 = n -> bsize b1 = n -> bwf b0 -> bwf b1 -> explicit_orthonormal b0 -> explicit_orthonormal b1 ->
  bsize row = m -> bsize col = m -> bwf row -> bwf col -> explicit_orthonormal row -> explicit_orthonormal col ->
  complete row -> complete col -> bwf b2 -> bwf b3 ->
  compatible b0 row -> compatible b1 col -> compatible row b2 -> compatible col b3 ->
  nprod (ashape K) = (n * n * n * n)%nat ->
  (forall A, mat_eq (n * n) A (fun p q => entry4 n n n K (p mod n) (p / n) (q / n) (q mod n)) ->
     eigendecomposition (n * n) A (eigh (n * n)%nat A)) ->
  (forall R A, convert_kernel_to_basis same eigh b0 b1 K row col = Some R ->
     mat_eq (m * m) A (fun p q => entry4 m m m R (p mod m) (p / m) (q / m) (q mod m)) ->
     eigendecomposition (m * m) A (eigh' (m * m)%nat A)) ->
  exists R R', convert_kernel_to_basis same eigh b0 b1 K row col = Some R /\
    convert_kernel_to_basis same eigh' row col R b2 b3 = Some R' /\
    ashape R' = [(bsize b3 * bsize b2 * bsize b2 * bsize b3)%nat] /\
    forall i j k l, (i < bsize b3)%nat -> (j < bsize b2)%nat -> (k < bsize b2)%nat -> (l < bsize b3)%nat ->
      entry4 (bsize b2) (bsize b2) (bsize b3) R' i j k l = kernel_in_basis b0 b1 b2 b3 (entry4 n n n K) i j k l.
Proof using Hsame.
  intros S0 S1 W0 W1 O0 O1 Sr Sc Wr Wc Or Oc Cr Cc W2 W3 K0 K1 K2 K3 EK He He'.
  destruct (kernel_conversion same Hsame eigh b0 b1 row col n K S0 S1 W0 W1 Wr Wc O0 O1 K0 K1 EK He) as [R [HR [SR ER]]].
  rewrite Sr, Sc in SR, ER.
  destruct (kernel_conversion same Hsame eigh' row col b2 b3 m R Sr Sc Wr Wc W2 W3 Or Oc K2 K3) as [R' [HR' [SR' ER']]].
  { rewrite SR. cbn [nprod]. lia. }
  { intros A HA. exact (He' R A HR HA). }
  exists R, R'. split; [exact HR|]. split; [exact HR'|]. split; [exact SR'|].
  intros i j k l Hi Hj Hk Hl. rewrite ER' by assumption.
  rewrite (kernel_in_basis_ext row col b2 b3 _ (kernel_in_basis b0 b1 row col (entry4 n n n K))).
  - apply kernel_in_basis_comp; try assumption; first [apply compatible_same_fund; assumption|symmetry; apply compatible_same_fund; assumption].
  - intros p q s t Hp Hq Hs Ht. rewrite Sr, Sc in *. apply ER; assumption.
Qed.

Lemma diagonal_kernel_conversion eigh b0 b1 row col n K : bsize b0 = n -> bsize b1 = n ->
  bwf b0 -> bwf b1 -> bwf row -> bwf col ->
  explicit_orthonormal b0 -> explicit_orthonormal b1 -> compatible b0 row -> compatible b1 col ->
  nprod (ashape K) = (n * n)%nat ->
  (forall A, mat_eq n A (entry2 n K) -> eigendecomposition n A (eigh n A)) ->
  exists R, convert_diagonal_kernel_to_basis same eigh b0 b1 K row col = Some R /\
    ashape R = [(bsize col * bsize row * bsize row * bsize col)%nat] /\
    forall i j k l, (i < bsize col)%nat -> (j < bsize row)%nat -> (k < bsize row)%nat -> (l < bsize col)%nat ->
      entry4 (bsize row) (bsize row) (bsize col) R i j k l =
      diagonal_kernel_in_basis b0 b1 row col (entry2 n K) i j k l.
Proof using Hsame.
  intros S0 S1 W0 W1 W2 W3 O0 O1 C0 C1 EK He.
  assert (Hn : (0 < n)%nat) by (rewrite <- S0; apply bsize_pos; assumption).
  destruct (diagonal_eigenvalue_rebuild eigh b0 b1 n K Hn S0 S1 EK He) as [o [D [Ho [Wo [No [HD [SD ED]]]]]]].
  destruct (diagonal_eigenvalue_bases _ _ _ _ _ Ho) as [Lr [Lc _]].
  assert (Hr : (0 < bsize (lrow (nops o)))%nat) by (rewrite Lr, S0; exact Hn).
  destruct (diagonal_as_full_spec (nops o) (proj1 Wo) Hr) as [F [HF [WF [FB [FR [FC FE]]]]]].
  set (f := {| nops := F; neig := neig o |}).
  assert (Hf : as_noise_operators_from_diagonal o = Some f).
  { unfold as_noise_operators_from_diagonal. rewrite HF. reflexivity. }
  assert (Wf : noise_wf f).
  { split; [exact WF|]. unfold noise_count, f; cbn [nops neig]. rewrite FB. exact (proj2 Wo). }
  assert (Fr : lrow (nops f) = b0) by (unfold f; cbn [nops]; rewrite FR; exact Lr).
  assert (Fc : lcol (nops f) = b1) by (unfold f; cbn [nops]; rewrite FC; exact Lc).
  destruct (convert_noise_kernel same Hsame f row col) as [c [Hc [Wc [Ec [Er [El [Ee HE]]]]]]];
    try assumption; rewrite ?Fr, ?Fc; try assumption.
  destruct (full_kernel_spec c Wc) as [R [HR [SR ER]]]. rewrite Er, El in SR, ER.
  exists R. split.
  { unfold convert_diagonal_kernel_to_basis. rewrite Ho.
    unfold convert_diagonal_noise_operator_list_to_basis, convert_diagonal_operator_list_to_basis. rewrite HF.
    unfold convert_noise_operator_list_to_basis in Hc. cbn [f nops] in Hc.
    destruct (convert_operator_list_to_basis same F row col); [|discriminate].
    injection Hc as <-. exact HR. }
  split; [exact SR|]. intros i j k l Hi Hj Hk Hl. rewrite ER, HE by assumption. rewrite Fr, Fc.
  rewrite <- diagonal_in_basis by (rewrite S0, S1; reflexivity).
  apply kernel_in_basis_ext. rewrite S0, S1. intros p q s t Hp Hq Hs Ht.
  rewrite (kernel_of_full o f Wo Hr Hf) by (rewrite Lr, S0; assumption). f_equal.
  destruct (diagonal_kernel_spec o Wo) as [D' [HD' [_ ED']]]; [rewrite No; exact Hn|].
  rewrite HD in HD'. injection HD' as <-. rewrite Lr, S0 in ED'. rewrite <- ED' by assumption.
  unfold entry2. apply ED. apply (pair_lt n n); assumption.
Qed.

(** The two pairs must have the same size. *)
Lemma diagonal_rectangular_raises eigh b0 b1 K row col : bwf b0 -> bsize b0 <> bsize b1 ->
  convert_diagonal_kernel_to_basis same eigh b0 b1 K row col = None.
Proof.
  intros W0 N. unfold convert_diagonal_kernel_to_basis.
  destruct (get_periodic_noise_operators_diagonal_eigenvalue eigh b0 b1 K) as [o|] eqn:Ho; [|reflexivity].
  destruct (diagonal_eigenvalue_bases _ _ _ _ _ Ho) as [Lr [Lc [Lb Ls]]].
  assert (Hn := bsize_pos b0 W0).
  unfold convert_diagonal_noise_operator_list_to_basis, convert_diagonal_operator_list_to_basis,
    diagonal_operator_list_as_full. rewrite Lr, Lb, Lc.
  rewrite (reshape_auto_some _ [bsize b0] (bsize b0)) by (rewrite ?Ls; cbn [nprod]; lia).
  unfold convert_operator_list_to_basis. cbn [lbasis lrow lcol ldata bsize].
  unfold reshape. cbn [ravel_array array3 ashape nprod nth]. rewrite !Nat.mul_1_r.
  destruct (Nat.eqb_spec (bsize b0 * (bsize b0 * bsize b0)) (bsize b0 * (bsize b0 * bsize b1))) as [E|E]; [|reflexivity].
  exfalso. apply N. apply Nat.mul_cancel_l in E; [|lia]. apply Nat.mul_cancel_l in E; lia.
Qed.
End Convert.
