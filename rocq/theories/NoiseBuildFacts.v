(** Rates between eigenstates under the corrected noise operators. *)
From Coq Require Import Reals Lra Lia Psatz.
From Verif Require Import ZLib Csum DFT NumPy Spec Index IndexProofs Lattice LatticeProofs Basis SpecBasis BasisProofs BasisProofs2 BasisProofs3
  Operator SpecOperator OperatorProofs OperatorProofs2 Wavepacket SpecWavepacket Kernel SpecKernel KernelProofs KernelProofs2 KernelProofs3 KernelProofs5
  Hamiltonian HamiltonianProofs SpecKernelConvert KernelConvert KernelConvertProofs Correlation SpecCorrelation CorrelationProofs CorrelationProofs2 CorrelationProofs3
  NoiseBuild SpecNoiseBuild NoiseBuildProofs.
Local Open Scope R_scope.
Local Open Scope C_scope.

(** ** Matrix elements *)
Lemma element_ext n A B u v : (forall i j, (i < n)%nat -> (j < n)%nat -> A i j = B i j) -> element n A u v = element n B u v.
Proof. intros H. apply csum_ext. intros i Hi. apply csum_ext. intros j Hj. rewrite H by assumption. reflexivity. Qed.

Lemma element_multiplication b f u v : element (bsize b) (multiplication b f) u v =
  csum (fun x => Cconj (amplitude b u x) * f x * amplitude b v x) (bfund b).
Proof.
  unfold element, multiplication.
  transitivity (csum (fun i => csum (fun j => csum (fun x => (Cconj (u i) * Cconj (bstate b i x)) * f x * (v j * bstate b j x)) (bfund b)) (bsize b)) (bsize b)).
  - apply csum_ext. intros i Hi. apply csum_ext. intros j Hj. rewrite <- csum_scal_l, <- csum_scal_r. apply csum_ext. intros x Hx. ring.
  - rewrite (csum_ext _ (fun i => csum (fun x => csum (fun j => (Cconj (u i) * Cconj (bstate b i x)) * f x * (v j * bstate b j x)) (bsize b)) (bfund b)))
      by (intros; apply csum_swap).
    rewrite csum_swap. apply csum_ext. intros x Hx. unfold amplitude. rewrite Cconj_csum, <- csum_scal_r, <- csum_scal_r.
    apply csum_ext. intros i Hi. rewrite csum_scal_l, Cconj_mult. reflexivity.
Qed.

Lemma element_commutator n h M u v E E' k : hermitian n h -> eigenvector n h u E -> eigenvector n h v E' ->
  element n (fun i j => M i j - (matmul n h M i j - matmul n M h i j) * k) u v =
  (1 - RtoC (E - E') * k) * element n M u v.
Proof.
  intros Hh Hu Hv.
  assert (A1 : element n (matmul n h M) u v = RtoC E * element n M u v).
  { unfold element, matmul.
    transitivity (csum (fun k => csum (fun j => csum (fun i => Cconj (u i) * h i k) n * (M k j * v j)) n) n).
    - transitivity (csum (fun i => csum (fun j => csum (fun k => Cconj (u i) * h i k * (M k j * v j)) n) n) n).
      { apply csum_ext. intros i Hi. apply csum_ext. intros j Hj. rewrite <- csum_scal_l, <- csum_scal_r. apply csum_ext. intros; ring. }
      rewrite (csum_ext _ (fun i => csum (fun k => csum (fun j => Cconj (u i) * h i k * (M k j * v j)) n) n)) by (intros; apply csum_swap).
      rewrite csum_swap. apply csum_ext. intros p Hp. rewrite csum_swap. apply csum_ext. intros j Hj. rewrite csum_scal_r. reflexivity.
    - rewrite <- csum_scal_l. apply csum_ext. intros p Hp. rewrite <- csum_scal_l. apply csum_ext. intros j Hj.
      replace (csum (fun i => Cconj (u i) * h i p) n) with (RtoC E * Cconj (u p)); [ring|].
      assert (X := f_equal Cconj (Hu p Hp)). rewrite Cconj_csum, Cconj_mult in X.
      replace (Cconj (RtoC E)) with (RtoC E) in X by (unfold Cconj, RtoC; cbn; f_equal; ring). rewrite <- X.
      apply csum_ext. intros i Hi. rewrite (Hh i p Hi Hp). unfold adjoint. rewrite Cconj_mult. ring. }
  assert (A2 : element n (matmul n M h) u v = RtoC E' * element n M u v).
  { unfold element, matmul. rewrite <- csum_scal_l. apply csum_ext. intros i Hi.
    transitivity (csum (fun k => Cconj (u i) * M i k * csum (fun j => h k j * v j) n) n).
    - transitivity (csum (fun j => csum (fun k => Cconj (u i) * M i k * (h k j * v j)) n) n).
      { apply csum_ext. intros j Hj. rewrite <- csum_scal_l, <- csum_scal_r. apply csum_ext. intros; ring. }
      rewrite csum_swap. apply csum_ext. intros p Hp. rewrite csum_scal_l. reflexivity.
    - rewrite <- csum_scal_l. apply csum_ext. intros p Hp. rewrite (Hv p Hp). ring. }
  transitivity (element n M u v - (element n (matmul n h M) u v - element n (matmul n M h) u v) * k).
  - unfold element. rewrite <- csum_minus, <- csum_scal_r, <- csum_minus. apply csum_ext. intros i Hi.
    rewrite <- csum_minus, <- csum_scal_r, <- csum_minus. apply csum_ext. intros j Hj. ring.
  - rewrite A1, A2, RtoC_minus. ring.
Qed.

(** ** Rates for multiplications *)
Lemma rates_of_products b m (lam : nat -> C) (L : nat -> nat -> C) u v :
  csum (fun a => lam a * Cconj (element (bsize b) (multiplication b (L a)) u v) * element (bsize b) (multiplication b (L a)) u v) m =
  overlap_rate b (fun x y => csum (fun a => lam a * Cconj (L a x) * L a y) m) u v.
Proof.
  unfold overlap_rate.
  transitivity (csum (fun a => csum (fun x => csum (fun y => amplitude b u x * Cconj (amplitude b v x) * (lam a * Cconj (L a x) * L a y) *
     (Cconj (amplitude b u y) * amplitude b v y)) (bfund b)) (bfund b)) m).
  - apply csum_ext. intros a Ha. rewrite element_multiplication, Cconj_csum. set (Y := csum (fun x => Cconj (amplitude b u x) * L a x * amplitude b v x) (bfund b)).
    rewrite <- csum_scal_l, <- csum_scal_r. apply csum_ext. intros x Hx.
    unfold Y. rewrite <- csum_scal_l. apply csum_ext. intros y Hy. rewrite !Cconj_mult, Cconj_conj. ring.
  - rewrite csum_swap. apply csum_ext. intros x Hx. rewrite csum_swap. apply csum_ext. intros y Hy.
    rewrite csum_scal_r, csum_scal_l. reflexivity.
Qed.

Lemma overlap_rate_swap b D u v : (forall x y, (x < bfund b)%nat -> (y < bfund b)%nat -> D x y = D y x) ->
  overlap_rate b D v u = overlap_rate b D u v.
Proof.
  intros H. unfold overlap_rate. rewrite csum_swap. apply csum_ext. intros x Hx. apply csum_ext. intros y Hy. rewrite (H y x) by assumption. ring.
Qed.
Lemma overlap_rate_ext b D D' u v : (forall x y, (x < bfund b)%nat -> (y < bfund b)%nat -> D x y = D' x y) ->
  overlap_rate b D u v = overlap_rate b D' u v.
Proof. intros H. apply csum_ext. intros x Hx. apply csum_ext. intros y Hy. rewrite H by assumption. reflexivity. Qed.

Section Rates.
  Context (same : basis -> basis -> bool) (Hsame : identity_test same).
  Context (axes : list basis) (h : operator).
  Notation b := (BTuple axes).
  Context (Hw : bwf b) (Ho : explicit_orthonormal b) (Wh : op_wf h) (Rh : orow h = b) (Ch : ocol h = b).
  Context (Hh : hermitian (bsize b) (op_entry h)).

  Lemma corrected_rates o kt D : diagonal_noise_wf o -> lrow (nops o) = BTuple (map BFund (map bfund axes)) ->
    lcol (nops o) = BTuple (map BFund (map bfund axes)) -> kt <> 0%R ->
    (forall x y, (x < bfund b)%nat -> (y < bfund b)%nat -> diagonal_kernel_of o x y = D x y) ->
    exists c r, get_temperature_corrected_diagonal_noise_operators same h o kt = Some c /\
      convert_noise_operator_list_to_basis same c b b = Some r /\ noise_wf r /\ lrow (nops r) = b /\ lcol (nops r) = b /\
      forall u v E E', eigenvector (bsize b) (op_entry h) u E -> eigenvector (bsize b) (op_entry h) v E' ->
        transition (bsize b) r u v = RtoC ((1 - (E - E') / (4 * kt)) ^ 2) * overlap_rate b D u v.
  Proof using All.
    intros Wo Lr Lc Hkt HD. destruct (corrected_entries same Hsame axes h Hw Ho Wh Rh Ch o kt Wo Lr Lc Hkt) as [c [r [E1 [E2 [W [N1 [R [C0 [V X]]]]]]]]].
    exists c, r. split; [exact E1|]. split; [exact E2|]. split; [exact W|]. split; [exact R|]. split; [exact C0|].
    intros u v E E' Hu Hv. unfold transition. rewrite N1.
    rewrite <- (overlap_rate_ext b (diagonal_kernel_of o) D u v HD). unfold diagonal_kernel_of.
    rewrite <- (rates_of_products b (noise_count o) (eigenvalue o) (fun a => diag_entry (nops o) a)).
    rewrite <- csum_scal_l. apply csum_ext. intros a Ha. rewrite V.
    assert (X' : element (bsize b) (list_entry (nops r) a) u v =
      RtoC (1 - (E - E') / (4 * kt)) * element (bsize b) (multiplication b (diag_entry (nops o) a)) u v).
    { rewrite (element_ext _ _ (fun i j => multiplication b (diag_entry (nops o) a) i j -
        (matmul (bsize b) (op_entry h) (multiplication b (diag_entry (nops o) a)) i j -
         matmul (bsize b) (multiplication b (diag_entry (nops o) a)) (op_entry h) i j) * RtoC (/ (4 * kt)))).
      - rewrite (element_commutator (bsize b) (op_entry h) _ u v E E' _ Hh Hu Hv). f_equal. unfold Rdiv. rewrite (RtoC_minus 1), RtoC_mult. reflexivity.
      - intros i j Hi Hj. exact (X a i j Ha Hi Hj). }
    rewrite X', Cconj_mult.
    replace (Cconj (RtoC (1 - (E - E') / (4 * kt)))) with (RtoC (1 - (E - E') / (4 * kt))) by (unfold Cconj, RtoC; cbn; f_equal; ring).
    cbn [pow]. rewrite Rmult_1_r, RtoC_mult. ring.
  Qed.
End Rates.
