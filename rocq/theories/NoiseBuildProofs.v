(** Proofs about noise operators built for a Hamiltonian. *)
From Coq Require Import Reals Lra Lia Psatz.
From Verif Require Import ZLib Csum DFT NumPy Spec Index IndexProofs Lattice LatticeProofs Basis SpecBasis BasisProofs BasisProofs2 BasisProofs3
  Operator SpecOperator OperatorProofs OperatorProofs2 Wavepacket SpecWavepacket Kernel SpecKernel KernelProofs KernelProofs2 KernelProofs3 KernelProofs5
  Hamiltonian HamiltonianProofs SpecKernelConvert KernelConvert KernelConvertProofs Correlation SpecCorrelation CorrelationProofs CorrelationProofs2 CorrelationProofs3
  NoiseBuild SpecNoiseBuild.
Local Open Scope R_scope.
Local Open Scope C_scope.

(** ** The bases of the gaussian operators *)
Lemma stacked_fft_bases ap shape k f o : get_periodic_noise_operators_real_isotropic_stacked_fft ap shape k f = Some o ->
  lrow (nops o) = BTuple (map BFund shape) /\ lcol (nops o) = BTuple (map BFund shape).
Proof.
  unfold get_periodic_noise_operators_real_isotropic_stacked_fft.
  destruct (as_axis_kernel_from_isotropic shape k) as [ks|] eqn:Ek; [|discriminate].
  assert (Lk : length ks = length shape).
  { unfold as_axis_kernel_from_isotropic in Ek. destruct (reshape k shape); [|discriminate].
    destruct (_ && _)%bool; [discriminate|]. injection Ek as <-. rewrite map_length, seq_length. reflexivity. }
  set (f' := fun ak : nat * ndarray => _). destruct (all_some _) as [l|] eqn:El; [|discriminate].
  intros E. unfold get_diagonal_noise_operators_from_axis in E. destruct (all_rows l); [|discriminate]. injection E as <-. cbn [nops lrow lcol].
  assert (X : map (fun o => lrow (nops o)) l = map BFund shape); [|rewrite X; split; reflexivity].
  assert (G : forall ks s l, all_some (map f' (combine (seq s (length ks)) ks)) = Some l ->
    map (fun o => lrow (nops o)) l = map (fun ax => BFund (nth ax shape 0%nat)) (seq s (length ks))).
  { clear. induction ks as [|k ks IH]; intros s l E; cbn [length seq combine map all_some] in *.
    - injection E as <-. reflexivity.
    - destruct (f' (s, k)) as [o|] eqn:Eo; [|discriminate]. destruct (all_some _) as [r|] eqn:Er; [|discriminate]. injection E as <-.
      cbn [map]. rewrite (IH (S s) r Er). f_equal. unfold f', get_periodic_noise_operators_isotropic_fft in Eo. cbn [fst snd] in Eo.
      unfold get_operators_for_isotropic_noise in Eo. destruct (_ && _)%bool; [discriminate|].
      destruct (get_noise_eigenvalues_isotropic_fft _ _ _); [|discriminate]. injection Eo as <-. reflexivity. }
  rewrite (G ks 0%nat l El), Lk. clear. apply (nth_ext _ _ (BFund 0) (BFund 0)).
  - rewrite !map_length, seq_length. reflexivity.
  - intros i Hi. rewrite map_length, seq_length in Hi. rewrite (nth_indep _ (BFund 0) (BFund (nth 0 shape 0%nat))) by (rewrite map_length, seq_length; exact Hi).
    rewrite (map_nth (fun ax => BFund (nth ax shape 0%nat))). rewrite seq_nth by exact Hi. change (BFund 0) with (BFund 0%nat). rewrite map_nth. reflexivity.
Qed.

Lemma gaussian_bases argsort delta shape a lambda t o : is_argsort argsort ->
  (0 < length shape)%nat -> Forall (fun n => (0 < n)%nat) shape -> a <> 0%R ->
  get_gaussian_noise_operators_periodic argsort delta shape a lambda t = Some o ->
  lrow (nops o) = BTuple (map BFund shape) /\ lcol (nops o) = BTuple (map BFund shape) /\ diagonal_noise_wf o.
Proof.
  intros Hsort Hl Hs Ha. unfold get_gaussian_noise_operators_periodic. destruct (get_gaussian_isotropic_noise_kernel _ _ _ _) as [k|] eqn:Hk; [|discriminate].
  assert (Sk : nprod (ashape k) = nprod shape /\ aflat k 0 <> RtoC 0).
  { unfold get_gaussian_isotropic_noise_kernel in Hk. rewrite build_some in Hk by exact Hs. injection Hk as <-. split; [simpl; lia|].
    cbn [aflat]. unfold gaussian_fn. intros E. apply RtoC_inj in E. assert (0 < a ^ 2)%R by (rewrite <- Rsqr_pow2; apply Rsqr_pos_lt; exact Ha).
    match type of E with (_ * exp ?t)%R = _ => assert (B := exp_pos t); nra end. }
  destruct (real_stacked_fft shape k Hl Hs (proj1 Sk) (proj2 Sk) true) as [l [o' [D [_ [Ho [Hw [HD _]]]]]]]. rewrite Ho.
  destruct (stacked_fft_bases _ _ _ _ _ Ho) as [R1 R2].
  assert (Hc : (0 < noise_count o')%nat).
  { unfold get_diagonal_kernel_from_diagonal_operators in HD. unfold noise_count.
    destruct (bsize (lbasis (nops o'))) as [|c]; [|lia]. exfalso. unfold reshape_rows in HD. cbn in HD. discriminate. }
  intros E. set (tr := match t with Some t => t | None => _ end) in E.
  destruct Hw as [[Hrc Hw] He].
  destruct (python_indices (noise_count o') tr) as [sel|] eqn:Es.
  - destruct (truncate_picks Cmod argsort Hsort o' (bsize (lrow (nops o'))) Hc Hw He tr sel Es) as [o2 [E2 P]].
    unfold truncate_diagonal_noise_operator_list in E. rewrite E2 in E. injection E as <-.
    destruct P as [P1 [P2 [P3 [P4 [P5 _]]]]]. rewrite P3, P4. split; [exact R1|]. split; [exact R2|].
    split; [split|]. { rewrite P3, P4. exact Hrc. } { rewrite P5, <- P1, P3. reflexivity. } rewrite P2, P1. reflexivity.
  - unfold truncate_diagonal_noise_operator_list, truncate_operators in E. rewrite He in E.
    rewrite Es in E. destruct (reshape_rows _ _); discriminate.
Qed.

(** ** The correction, in any orthonormal basis *)
Section Corrected.
  Context (same : basis -> basis -> bool) (Hsame : identity_test same).
  Context (axes : list basis) (h : operator).
  Notation b := (BTuple axes).
  Context (Hw : bwf b) (Ho : explicit_orthonormal b) (Wh : op_wf h) (Rh : orow h = b) (Ch : ocol h = b).
  Notation N := (nprod (map bfund axes)).
  Notation P := (BTuple (map BFund (map bfund axes))).

  Lemma P_points : P = points axes.
  Proof using. unfold points, as_fundamental_position. rewrite map_map. reflexivity. Qed.

  Lemma overlap_P x i : (x < N)%nat -> overlap P b x i = bstate b i x.
  Proof using Hw. intros Hx. rewrite P_points. apply overlap_points; assumption. Qed.
  Lemma overlap_P' x i : (x < N)%nat -> overlap b P i x = Cconj (bstate b i x).
  Proof using Hw.
    intros Hx. rewrite <- (overlap_P x i Hx). symmetry. apply overlap_conj. cbn [bfund]. rewrite !map_map. reflexivity.
  Qed.

  (** The part of [x] in the position basis. *)
  Lemma resolve i j : (i < bsize b)%nat -> (j < bsize b)%nat ->
    csum (fun x => Cconj (bstate b i x) * bstate b j x) N = cdelta i j.
  Proof using Hw Ho. intros Hi Hj. apply (explicit_orthonormal_sound b Hw Ho i j Hi Hj). Qed.

  Lemma corrected_entries o kt : diagonal_noise_wf o -> lrow (nops o) = P -> lcol (nops o) = P -> kt <> 0%R ->
    exists c r, get_temperature_corrected_diagonal_noise_operators same h o kt = Some c /\
      convert_noise_operator_list_to_basis same c b b = Some r /\ noise_wf r /\
      noise_count r = noise_count o /\ lrow (nops r) = b /\ lcol (nops r) = b /\ (forall a, eigenvalue r a = eigenvalue o a) /\
      forall a i j, (a < noise_count o)%nat -> (i < bsize b)%nat -> (j < bsize b)%nat ->
        let M := multiplication b (diag_entry (nops o) a) in
        list_entry (nops r) a i j = M i j -
          (matmul (bsize b) (op_entry h) M i j - matmul (bsize b) M (op_entry h) i j) * RtoC (/ (4 * kt)).
  Proof using Hsame Hw Ho Wh Rh Ch.
    intros [Wo He] Lr Lc Hkt.
    assert (PW : bwf P) by (rewrite P_points; apply points_wf; exact Hw).
    assert (PO : explicit_orthonormal P). { rewrite explicit_orthonormal_tuple. apply Forall_map, Forall_forall. intros n _. exact I. }
    assert (C1 : compatible b P) by (rewrite P_points; apply compatible_points).
    assert (C2 : compatible P b) by (rewrite P_points; apply compatible_points).
    assert (NP : bsize P = N) by (cbn [bsize]; rewrite map_map; cbn [bsize]; rewrite map_id; reflexivity).
    destruct (temperature_diagonal_spec same P h o kt Hsame PW PO Hkt Wh) as [G [c [HG [Hc [Wc [Ec [Bc [Rc [Cc Vc]]]]]]]]]; try assumption.
    { rewrite Rh. exact C1. } { rewrite Ch. exact C1. }
    exists c. assert (NW : noise_wf c).
    { split; [exact Wc|]. rewrite Ec, He. unfold noise_count. rewrite Bc. reflexivity. }
    destruct (convert_noise_spec same Hsame c b b NW) as [r [Hr [Wr [Er [Rr [Cr [Vr Lrr]]]]]]]; rewrite ?Rc, ?Cc; try assumption.
    exists r. split; [exact Hc|]. split; [exact Hr|]. split; [exact Wr|]. split; [rewrite Er; unfold noise_count; rewrite Bc; reflexivity|].
    split; [exact Rr|]. split; [exact Cr|]. split; [intros a; rewrite Vr; unfold eigenvalue; rewrite Ec; reflexivity|].
    intros a i j Ha Hi Hj M. rewrite (Lrr a i j Hi Hj), Rc, Cc, NP.
    rewrite Rh, Ch in HG.
    assert (VG : forall x y, (x < N)%nat -> (y < N)%nat ->
      G (op_entry h) x y = csum (fun p => csum (fun q => bstate b p x * op_entry h p q * Cconj (bstate b q y)) (bsize b)) (bsize b)).
    { intros x y Hx Hy. rewrite (convert_matrix_sum same Hsame b P b P G Hw PW Hw PW Ho Ho HG) by (rewrite NP; assumption).
      apply csum_ext. intros p Hp. apply csum_ext. intros q Hq. rewrite overlap_P, overlap_P' by assumption. reflexivity. }
    set (L := diag_entry (nops o) a) in *. set (kk := RtoC (/ (4 * kt))).
    transitivity (csum (fun x => csum (fun y =>
       Cconj (bstate b i x) * ((if Nat.eqb x y then L x else 0) - (G (op_entry h) x y * L y - L x * G (op_entry h) x y) * kk) * bstate b j y) N) N).
    { apply csum_ext. intros x Hx. apply csum_ext. intros y Hy. rewrite Vc by (try exact Ha; rewrite NP; assumption).
      unfold unit_operator. rewrite overlap_P, overlap_P' by assumption. fold L kk. ring. }
    transitivity (csum (fun x => csum (fun y => Cconj (bstate b i x) * (L x * cdelta x y) * bstate b j y) N) N -
      (csum (fun x => csum (fun y => Cconj (bstate b i x) * (G (op_entry h) x y * L y) * bstate b j y) N) N -
       csum (fun x => csum (fun y => Cconj (bstate b i x) * (L x * G (op_entry h) x y) * bstate b j y) N) N) * kk).
    { rewrite <- csum_minus, <- csum_scal_r, <- csum_minus. apply csum_ext. intros x Hx.
      rewrite <- csum_minus, <- csum_scal_r, <- csum_minus. apply csum_ext. intros y Hy.
      unfold cdelta. destruct (Nat.eqb x y); ring. }
    f_equal; [|f_equal; f_equal; f_equal].
    - unfold M, multiplication. apply csum_ext. intros x Hx.
      rewrite (csum_ext _ (fun y => (Cconj (bstate b i x) * L x * bstate b j y) * cdelta x y)) by (intros; ring).
      rewrite (csum_delta_r (fun y => Cconj (bstate b i x) * L x * bstate b j y)) by exact Hx. reflexivity.
    - transitivity (csum (fun p => csum (fun q => cdelta i p * op_entry h p q * M q j) (bsize b)) (bsize b)).
      + transitivity (csum (fun x => csum (fun y => csum (fun p => csum (fun q =>
          Cconj (bstate b i x) * bstate b p x * op_entry h p q * (Cconj (bstate b q y) * L y * bstate b j y)) (bsize b)) (bsize b)) N) N).
        { apply csum_ext. intros x Hx. apply csum_ext. intros y Hy. rewrite VG by assumption.
          rewrite <- csum_scal_r, <- csum_scal_l, <- csum_scal_r. apply csum_ext. intros p Hp.
          rewrite <- csum_scal_r, <- csum_scal_l, <- csum_scal_r. apply csum_ext. intros q Hq. ring. }
        rewrite (csum_ext _ (fun x => csum (fun p => csum (fun y => csum (fun q =>
          Cconj (bstate b i x) * bstate b p x * op_entry h p q * (Cconj (bstate b q y) * L y * bstate b j y)) (bsize b)) N) (bsize b)))
          by (intros; apply csum_swap).
        rewrite csum_swap. apply csum_ext. intros p Hp.
        rewrite (csum_ext _ (fun x => csum (fun q => csum (fun y =>
          Cconj (bstate b i x) * bstate b p x * op_entry h p q * (Cconj (bstate b q y) * L y * bstate b j y)) N) (bsize b)))
          by (intros; apply csum_swap).
        rewrite csum_swap. apply csum_ext. intros q Hq. rewrite <- (resolve i p Hi Hp).
        rewrite (csum_ext _ (fun x => Cconj (bstate b i x) * bstate b p x * (op_entry h p q * M q j))).
        * rewrite csum_scal_r. ring.
        * intros x Hx. rewrite csum_scal_l. unfold M, multiplication. cbn [bfund]. ring.
      + unfold matmul. rewrite (csum_ext _ (fun p => cdelta i p * csum (fun q => op_entry h p q * M q j) (bsize b))).
        * apply (csum_delta_l (fun p => csum (fun q => op_entry h p q * M q j) (bsize b))). exact Hi.
        * intros p Hp. rewrite <- csum_scal_l. apply csum_ext. intros q Hq. ring.
    - transitivity (csum (fun q => csum (fun p => M i p * op_entry h p q * cdelta q j) (bsize b)) (bsize b)).
      + transitivity (csum (fun x => csum (fun y => csum (fun p => csum (fun q =>
          (Cconj (bstate b i x) * L x * bstate b p x) * op_entry h p q * (Cconj (bstate b q y) * bstate b j y)) (bsize b)) (bsize b)) N) N).
        { apply csum_ext. intros x Hx. apply csum_ext. intros y Hy. rewrite VG by assumption.
          rewrite <- csum_scal_l, <- csum_scal_l, <- csum_scal_r. apply csum_ext. intros p Hp.
          rewrite <- csum_scal_l, <- csum_scal_l, <- csum_scal_r. apply csum_ext. intros q Hq. ring. }
        rewrite (csum_ext _ (fun x => csum (fun p => csum (fun y => csum (fun q =>
          (Cconj (bstate b i x) * L x * bstate b p x) * op_entry h p q * (Cconj (bstate b q y) * bstate b j y)) (bsize b)) N) (bsize b)))
          by (intros; apply csum_swap).
        rewrite csum_swap. rewrite (csum_swap (fun q p => M i p * op_entry h p q * cdelta q j)). apply csum_ext. intros p Hp.
        rewrite (csum_ext _ (fun x => csum (fun q => csum (fun y =>
          (Cconj (bstate b i x) * L x * bstate b p x) * op_entry h p q * (Cconj (bstate b q y) * bstate b j y)) N) (bsize b)))
          by (intros; apply csum_swap).
        rewrite csum_swap. apply csum_ext. intros q Hq. rewrite <- (resolve q j Hq Hj).
        rewrite (csum_ext _ (fun x => (Cconj (bstate b i x) * L x * bstate b p x) *
          (op_entry h p q * csum (fun y => Cconj (bstate b q y) * bstate b j y) N))).
        * rewrite csum_scal_r. unfold M, multiplication. cbn [bfund]. ring.
        * intros x Hx. rewrite csum_scal_l. ring.
      + unfold matmul. rewrite csum_swap. apply csum_ext. intros p Hp.
        apply (csum_delta_r' (fun q => M i p * op_entry h p q)). exact Hj.
  Qed.
End Corrected.
