(** The corrected gaussian noise operators of a Hamiltonian. *)
From Coq Require Import Reals Lra Lia Psatz.
From Verif Require Import ZLib Csum DFT NumPy Spec Index IndexProofs Lattice LatticeProofs Basis SpecBasis BasisProofs BasisProofs2 BasisProofs3
  Operator SpecOperator OperatorProofs OperatorProofs2 Wavepacket SpecWavepacket Kernel SpecKernel KernelProofs KernelProofs2 KernelProofs3 KernelProofs5
  Hamiltonian HamiltonianProofs SpecKernelConvert KernelConvert KernelConvertProofs Correlation SpecCorrelation CorrelationProofs CorrelationProofs2 CorrelationProofs3
  NoiseBuild SpecNoiseBuild NoiseBuildProofs NoiseBuildFacts NoiseBuildFacts2.
Local Open Scope R_scope.
Local Open Scope C_scope.

Lemma exists_distances delta shape : Forall (fun n => (0 < n)%nat) shape -> aligned (length shape) delta ->
  exists d, distances delta shape d.
Proof.
  intros Hp Ha. exists (fun i j => get_total_displacements_matrix_x_stacked delta shape 0 (ravel shape (displacement_list shape (unravel shape i) (unravel shape j)))).
  intros x y Hx Hy. rewrite !unravel_ravel by assumption. apply total_is_distance; try assumption.
  apply displacement_list_spec; [exact Hp|apply in_shape_length; assumption..].
Qed.

Section Build.
  Context (same : basis -> basis -> bool) (Hsame : identity_test same).
  Context (argsort : (nat -> R) -> nat -> nat -> nat) (Hsort : is_argsort argsort).
  Context (axes : list basis) (h : operator) (delta : nat -> nat -> R).
  Notation b := (BTuple axes).
  Notation shape := (map bfund axes).
  Context (Hnd : (0 < length axes)%nat) (Hw : bwf b) (Ho : explicit_orthonormal b) (Wh : op_wf h) (Rh : orow h = b) (Ch : ocol h = b).

  Lemma shape_pos : Forall (fun n => (0 < n)%nat) shape.
  Proof using Hw. apply Forall_map. apply bwf_tuple in Hw. eapply Forall_impl; [|exact Hw]. intros c Hc. apply bfund_pos. exact Hc. Qed.

  (** For any truncation: the operators in the basis of the Hamiltonian. *)
  Lemma corrected_operators a lambda kt t o : a <> 0%R -> kt <> 0%R ->
    get_gaussian_noise_operators_periodic argsort delta shape a lambda t = Some o ->
    exists r, get_temperature_corrected_gaussian_noise_operators same argsort h delta a lambda kt t = Some r /\ noise_wf r /\
      noise_count r = noise_count o /\ lrow (nops r) = b /\ lcol (nops r) = b /\ (forall m, eigenvalue r m = eigenvalue o m) /\
      forall m i j, (m < noise_count o)%nat -> (i < bsize b)%nat -> (j < bsize b)%nat ->
        let M := multiplication b (diag_entry (nops o) m) in
        list_entry (nops r) m i j = M i j -
          (matmul (bsize b) (op_entry h) M i j - matmul (bsize b) M (op_entry h) i j) * RtoC (/ (4 * kt)).
  Proof using All.
    intros Ha Hkt Eo. destruct (gaussian_bases argsort delta shape a lambda t o Hsort ltac:(rewrite map_length; exact Hnd) shape_pos Ha Eo) as [R1 [R2 Wo]].
    destruct (corrected_entries same Hsame axes h Hw Ho Wh Rh Ch o kt Wo R1 R2 Hkt) as [c [r [E1 [E2 X]]]].
    exists r. split; [|exact X]. unfold get_temperature_corrected_gaussian_noise_operators. rewrite Rh, Eo, E1, Ch. exact E2.
  Qed.
  Lemma no_operators_raise a lambda kt t : get_gaussian_noise_operators_periodic argsort delta shape a lambda t = None ->
    get_temperature_corrected_gaussian_noise_operators same argsort h delta a lambda kt t = None.
  Proof using Rh. intros E. unfold get_temperature_corrected_gaussian_noise_operators. rewrite Rh, E. reflexivity. Qed.

  Context (Hal : aligned (length axes) delta) (Hh : hermitian (bsize b) (op_entry h)).

  Lemma gaussian_rates a lambda kt : a <> 0%R -> lambda <> 0%R -> kt <> 0%R ->
    exists r, get_temperature_corrected_gaussian_noise_operators same argsort h delta a lambda kt None = Some r /\ noise_wf r /\
      lrow (nops r) = b /\ lcol (nops r) = b /\
      forall d u v E E', distances delta shape d -> eigenvector (bsize b) (op_entry h) u E -> eigenvector (bsize b) (op_entry h) v E' ->
        transition (bsize b) r u v = RtoC ((1 - (E - E') / (4 * kt)) ^ 2) *
          overlap_rate b (fun x y => RtoC (a ^ 2 * exp (- d x y ^ 2 / (2 * lambda ^ 2)))) u v.
  Proof using All.
    intros Ha Hlam Hkt.
    destruct (gaussian_operators_kernel argsort delta shape a lambda Hsort ltac:(rewrite map_length; exact Hal) ltac:(rewrite map_length; exact Hnd) shape_pos Ha Hlam)
      as [o [D [Eo [Wo [ED [SD VD]]]]]].
    destruct (gaussian_bases argsort delta shape a lambda None o Hsort ltac:(rewrite map_length; exact Hnd) shape_pos Ha Eo) as [R1 [R2 _]].
    destruct (corrected_rates same Hsame axes h Hw Ho Wh Rh Ch Hh o kt (diagonal_kernel_of o) Wo R1 R2 Hkt ltac:(reflexivity))
      as [c [r [E1 [E2 [Wr [Rr [Cr X]]]]]]].
    exists r. split; [unfold get_temperature_corrected_gaussian_noise_operators; rewrite Rh, Eo, E1, Ch; exact E2|].
    split; [exact Wr|]. split; [exact Rr|]. split; [exact Cr|]. intros d u v E E' Hd Hu Hv. rewrite (X u v E E' Hu Hv). f_equal.
    apply overlap_rate_ext. intros x y Hx Hy. cbn [bfund] in Hx, Hy.
    assert (Hc : (0 < noise_count o)%nat).
    { unfold get_diagonal_kernel_from_diagonal_operators in ED. unfold noise_count.
      destruct (bsize (lbasis (nops o))) as [|m]; [|lia]. exfalso. unfold reshape_rows in ED. cbn in ED. discriminate. }
    assert (NB : bsize (lrow (nops o)) = nprod shape) by (rewrite R1; cbn [bsize]; rewrite map_map; cbn [bsize]; rewrite map_id; reflexivity).
    destruct (diagonal_kernel_spec o Wo Hc) as [D' [ED' [_ VD']]]. rewrite ED in ED'. injection ED' as <-. rewrite NB in VD'.
    rewrite <- VD' by assumption.
    destruct (VD (unravel shape x) (unravel shape y) (unravel_in_shape shape x Hx) (unravel_in_shape shape y Hy)) as [r0 [Hr0 V]].
    rewrite !ravel_unravel in V by assumption. rewrite V. do 3 f_equal.
    assert (Hdd := Hd _ _ (unravel_in_shape shape x Hx) (unravel_in_shape shape y Hy)). rewrite !ravel_unravel in Hdd by assumption.
    rewrite (periodic_distance_unique _ _ _ _ _ _ Hr0 Hdd). reflexivity.
  Qed.

  (** Detailed balance up to third order, for states of any energies. *)
  Lemma gaussian_balance a lambda kt : a <> 0%R -> lambda <> 0%R -> (0 < kt)%R ->
    exists r, get_temperature_corrected_gaussian_noise_operators same argsort h delta a lambda kt None = Some r /\
      forall u v E E', eigenvector (bsize b) (op_entry h) u E -> eigenvector (bsize b) (op_entry h) v E' ->
        let x := ((E - E') / (4 * kt))%R in
        exists w, transition (bsize b) r u v = RtoC ((1 - x) ^ 2 * w) /\ transition (bsize b) r v u = RtoC ((1 + x) ^ 2 * w) /\
          ((0 <= x <= 1)%R ->
           (Rabs (exp (- ((E - E') / kt)) * ((1 + x) ^ 2 * w) - (1 - x) ^ 2 * w) <= ((E - E') / kt) ^ 3 / 8 * Rabs w)%R /\
           ((1 - x) ^ 2 * Rabs w <= exp (- ((E - E') / kt)) * ((1 + x) ^ 2 * Rabs w))%R).
  Proof using All.
    intros Ha Hlam Hkt. destruct (gaussian_rates a lambda kt Ha Hlam ltac:(lra)) as [r [Er [_ [_ [_ X]]]]]. exists r. split; [exact Er|].
    intros u v E E' Hu Hv x.
    destruct (exists_distances delta shape shape_pos ltac:(rewrite map_length; exact Hal)) as [d Hd].
    destruct (overlap_rate_real b (fun x y => a ^ 2 * exp (- d x y ^ 2 / (2 * lambda ^ 2)))%R u v) as [w [W1 W2]].
    { intros p q Hp Hq. rewrite (distances_symmetric delta shape d Hd p q Hp Hq). reflexivity. }
    exists w. split; [rewrite (X d u v E E' Hd Hu Hv), W1, RtoC_mult; reflexivity|].
    split.
    { rewrite (X d v u E' E Hd Hv Hu), W2, RtoC_mult. do 2 f_equal. unfold x. unfold Rdiv. ring. }
    intros Hx. replace ((E - E') / kt)%R with (4 * x)%R by (unfold x; field; lra).
    destruct (boltzmann_third x w Hx) as [B1 B2]. split; [|exact B2].
    replace ((4 * x) ^ 3 / 8)%R with (8 * x ^ 3)%R by field. exact B1.
  Qed.
End Build.
