(** Kernels of noise operators: eigenvectors, Fourier transforms, cosines and sines. *)
From Coq Require Import Reals Psatz.
From Verif Require Import ZLib Csum DFT NumPy Interp Spec InterpProofs InterpProofs2 Index IndexProofs
  SpecBasis Basis BasisProofs Operator SpecOperator OperatorProofs OperatorProofs2 Kernel SpecKernel KernelProofs.
Local Open Scope R_scope.
Local Open Scope C_scope.

Lemma einsum_dim_same n : einsum_dim n n = Some n.
Proof. unfold einsum_dim. rewrite Nat.eqb_refl. reflexivity. Qed.

Lemma einsum_index_lt n a : (a < n)%nat -> einsum_index n a = a.
Proof. unfold einsum_index. destruct (Nat.eqb_spec n 1); lia. Qed.

Lemma full_kernel_spec o : noise_wf o ->
  let r := bsize (lrow (nops o)) in let c := bsize (lcol (nops o)) in
  exists F, get_full_kernel_from_operators o = Some F /\ ashape F = [(c * r * r * c)%nat] /\
    forall i j k l, (i < c)%nat -> (j < r)%nat -> (k < r)%nat -> (l < c)%nat ->
      entry4 r r c F i j k l = kernel_of o i j k l.
Proof.
  intros [Hw He]. cbv zeta. unfold noise_count in He. unfold get_full_kernel_from_operators, kernel_of, noise_count.
  rewrite (list_reshape _ Hw). rewrite He. rewrite einsum_dim_same.
  eexists. split; [reflexivity|]. cbn [ravel_array ashape array4 nprod]. split; [f_equal; lia|].
  intros i j k l Hi Hj Hk Hl. unfold entry4.
  etransitivity; [apply (array4_flat (bsize (lcol (nops o)))); assumption|]. cbv beta.
  apply csum_ext. intros a Ha. rewrite !einsum_index_lt by assumption. reflexivity.
Qed.

Lemma diagonal_kernel_spec o : diagonal_noise_wf o -> (0 < noise_count o)%nat ->
  let n := bsize (lrow (nops o)) in
  exists D, get_diagonal_kernel_from_diagonal_operators o = Some D /\ ashape D = [(n * n)%nat] /\
    forall i j, (i < n)%nat -> (j < n)%nat -> entry2 n D i j = diagonal_kernel_of o i j.
Proof.
  intros [[_ Hw] He] Hc. cbv zeta. unfold noise_count in *.
  unfold get_diagonal_kernel_from_diagonal_operators, diagonal_kernel_of, noise_count.
  rewrite (reshape_rows_some _ _ _ Hc Hw). rewrite He, einsum_dim_same.
  eexists. split; [reflexivity|]. cbn [ravel_array ashape array2 nprod nth]. split; [f_equal; lia|].
  intros i j Hi Hj. unfold entry2.
  etransitivity; [apply (array2_flat (bsize (lrow (nops o)))); assumption|]. cbv beta.
  apply csum_ext. intros a Ha. rewrite !einsum_index_lt by assumption. reflexivity.
Qed.

(** Diagonal operators written as full operators give the full form of their
    diagonal kernel (indices of the einsum: conj(L[j,i]) L[k,l]). *)
Lemma kernel_of_full o f : diagonal_noise_wf o -> (0 < bsize (lrow (nops o)))%nat ->
  as_noise_operators_from_diagonal o = Some f ->
  forall i j k l, (i < bsize (lrow (nops o)))%nat -> (j < bsize (lrow (nops o)))%nat ->
    (k < bsize (lrow (nops o)))%nat -> (l < bsize (lrow (nops o)))%nat ->
    kernel_of f i j k l = cdelta i j * cdelta k l * diagonal_kernel_of o i k.
Proof.
  intros [Hw He] Hn Hf i j k l Hi Hj Hk Hl. unfold as_noise_operators_from_diagonal in Hf.
  destruct (diagonal_as_full_spec (nops o) Hw Hn) as [F [HF [Hwf [Hb [Hr [Hcl HE]]]]]].
  rewrite HF in Hf. injection Hf as <-.
  unfold kernel_of, diagonal_kernel_of, noise_count, eigenvalue; cbn [nops neig]. rewrite Hb.
  rewrite <- csum_scal_l. apply csum_ext. intros a Ha.
  rewrite !HE by assumption. unfold cdelta. rewrite (Nat.eqb_sym i j).
  destruct (Nat.eqb_spec j i) as [->|N]; destruct (Nat.eqb k l); rewrite ?Cconj_0; ring.
Qed.

(** ** Eigenvectors *)

Lemma kernel_matrix_spec b0 b1 n K : bsize b0 = n -> bsize b1 = n ->
  nprod (ashape K) = (n * n * n * n)%nat ->
  exists m, kernel_matrix b0 b1 K = Some m /\
    forall i j k l, (i < n)%nat -> (j < n)%nat -> (k < n)%nat -> (l < n)%nat ->
      at2 m (j * n + i) (k * n + l) = entry4 n n n K i j k l.
Proof.
  intros H0 H1 E. unfold kernel_matrix. rewrite H0, H1.
  rewrite reshape_some by (rewrite E; simpl; ring).
  rewrite reshape_some by (unfold swapaxes01, array4; cbn [ashape nth nprod]; ring).
  eexists. split; [reflexivity|]. intros i j k l Hi Hj Hk Hl.
  unfold at2, swapaxes01; cbn [ashape nth aflat].
  replace ((j * n + i) * (n * n) + (k * n + l))%nat with (((j * n + i) * n + k) * n + l)%nat by ring.
  etransitivity; [apply (array4_flat n n n n); assumption|].
  unfold at4, entry4; cbn [ashape nth aflat]. reflexivity.
Qed.

Lemma eigenvalue_rebuild eigh b0 b1 n K : bsize b0 = n -> bsize b1 = n ->
  nprod (ashape K) = (n * n * n * n)%nat ->
  (forall A, mat_eq (n * n) A (fun p q => entry4 n n n K (p mod n) (p / n) (q / n) (q mod n)) ->
     eigendecomposition (n * n) A (eigh (n * n)%nat A)) ->
  exists o F, get_periodic_noise_operators_eigenvalue eigh b0 b1 K = Some o /\ noise_wf o /\
    noise_count o = (n * n)%nat /\
    get_full_kernel_from_operators o = Some F /\ ashape F = [(n * n * n * n)%nat] /\
    forall t, (t < n * n * n * n)%nat -> aflat F t = aflat K t.
Proof.
  intros H0 H1 E He. destruct (kernel_matrix_spec b0 b1 n K H0 H1 E) as [m [Hm HE]].
  unfold get_periodic_noise_operators_eigenvalue. rewrite Hm, H0, H1.
  assert (eigendecomposition (n * n) (at2 m) (eigh (n * n)%nat (at2 m))) as Hd.
  { apply He. intros p q Hp Hq.
    destruct (pair_split n n p Hp) as [j [i [Hj [Hi ->]]]].
    destruct (pair_split n n q Hq) as [k [l [Hk [Hl ->]]]].
    rewrite HE by assumption. rewrite !div_add_small, !mod_add_small by assumption. reflexivity. }
  destruct (eigh (n * n)%nat (at2 m)) as [lam V] eqn:HV. unfold eigendecomposition in Hd. cbn [fst snd] in Hd.
  set (o := {| nops := _; neig := _ |}).
  assert (noise_wf o) as Hw.
  { split.
    - unfold list_wf; cbn [o nops ldata lbasis lrow lcol bsize ravel_array ashape array2 nprod].
      rewrite H0, H1. ring.
    - reflexivity. }
  destruct (full_kernel_spec o Hw) as [F [HF [HS HFE]]].
  cbn [o nops lrow lcol] in HS, HFE. rewrite H0, H1 in HS, HFE.
  exists o, F. split; [reflexivity|]. split; [exact Hw|]. split; [reflexivity|]. split; [exact HF|].
  split; [exact HS|]. intros t Ht.
  destruct (pair_split (n * n * n) n t) as [t' [l [Ht' [Hl ->]]]]; [assumption|].
  destruct (pair_split (n * n) n t') as [t'' [k [Ht'' [Hk ->]]]]; [assumption|].
  destruct (pair_split n n t'') as [i [j [Hi [Hj ->]]]]; [assumption|].
  fold (entry4 n n n F i j k l) (entry4 n n n K i j k l).
  rewrite HFE by assumption. rewrite <- HE by assumption.
  rewrite Hd by (apply pair_lt; assumption).
  unfold kernel_of, noise_count, eigenvalue; cbn [o nops lbasis bsize neig aflat].
  apply csum_ext. intros a Ha. unfold list_entry; cbn [nops lrow lcol ldata ravel_array aflat].
  rewrite H0, H1.
  replace ((a * n + j) * n + i)%nat with (a * (n * n) + (j * n + i))%nat by ring.
  replace ((a * n + k) * n + l)%nat with (a * (n * n) + (k * n + l))%nat by ring.
  rewrite !array2_flat by (apply pair_lt; assumption).
  rewrite Cconj_conj. ring.
Qed.

Lemma diagonal_eigenvalue_rebuild eigh b0 b1 n K : (0 < n)%nat -> bsize b0 = n -> bsize b1 = n ->
  nprod (ashape K) = (n * n)%nat ->
  (forall A, mat_eq n A (entry2 n K) -> eigendecomposition n A (eigh n A)) ->
  exists o D, get_periodic_noise_operators_diagonal_eigenvalue eigh b0 b1 K = Some o /\
    diagonal_noise_wf o /\ noise_count o = n /\
    get_diagonal_kernel_from_diagonal_operators o = Some D /\ ashape D = [(n * n)%nat] /\
    forall t, (t < n * n)%nat -> aflat D t = aflat K t.
Proof.
  intros Hn H0 H1 E He. unfold get_periodic_noise_operators_diagonal_eigenvalue. rewrite H0.
  rewrite (reshape_rows_some K n n Hn E). cbn [ashape nth]. rewrite Nat.eqb_refl.
  set (m := {| ashape := [n; n]; aflat := aflat K |}).
  assert (eigendecomposition n (at2 m) (eigh n (at2 m))) as Hd by (apply He; intros p q _ _; reflexivity).
  destruct (eigh n (at2 m)) as [lam V] eqn:HV. unfold eigendecomposition in Hd. cbn [fst snd] in Hd.
  set (o := {| nops := _; neig := _ |}).
  assert (diagonal_noise_wf o) as Hw.
  { split; [split|].
    - cbn [o nops lrow lcol]. congruence.
    - cbn [o nops ldata lbasis lrow lcol bsize ravel_array ashape array2 nprod]. rewrite H0. ring.
    - reflexivity. }
  destruct (diagonal_kernel_spec o Hw Hn) as [D [HD [HS HDE]]].
  cbn [o nops lrow lcol] in HS, HDE. rewrite H0 in HS, HDE.
  exists o, D. split; [reflexivity|]. split; [exact Hw|]. split; [reflexivity|]. split; [exact HD|].
  split; [exact HS|]. intros t Ht.
  destruct (pair_split n n t) as [i [j [Hi [Hj ->]]]]; [assumption|].
  fold (entry2 n D i j). rewrite HDE by assumption.
  change (aflat K (i * n + j)) with (at2 m i j). rewrite Hd by assumption.
  unfold diagonal_kernel_of, noise_count, eigenvalue; cbn [o nops lbasis bsize neig aflat].
  apply csum_ext. intros a Ha. unfold diag_entry; cbn [nops lrow lcol ldata ravel_array aflat].
  rewrite H0. rewrite !array2_flat by assumption. rewrite Cconj_conj. ring.
Qed.

(** ** Real and non-negative eigenvalues *)

Lemma diagonal_kernel_hermitian o : (forall a, (a < noise_count o)%nat -> snd (eigenvalue o a) = 0%R) ->
  forall i j, diagonal_kernel_of o j i = Cconj (diagonal_kernel_of o i j).
Proof.
  intros H i j. unfold diagonal_kernel_of. rewrite Cconj_csum. apply csum_ext. intros a Ha.
  rewrite !Cconj_mult, Cconj_conj.
  assert (Cconj (eigenvalue o a) = eigenvalue o a) as ->.
  { generalize (H a Ha). destruct (eigenvalue o a) as [x y]; simpl. intros ->. unfold Cconj; simpl. f_equal. lra. }
  ring.
Qed.

Lemma diagonal_kernel_psd o n (c : nat -> C) :
  (forall a, (a < noise_count o)%nat -> exists r, (0 <= r)%R /\ eigenvalue o a = RtoC r) ->
  exists s, (0 <= s)%R /\
    csum (fun i => csum (fun j => Cconj (c j) * diagonal_kernel_of o i j * c i) n) n = RtoC s.
Proof.
  intros H.
  set (p := fun a => csum (fun i => Cconj (diag_entry (nops o) a i) * c i) n).
  exists (rsum (fun a => fst (eigenvalue o a) * Cnorm2 (p a))%R (noise_count o)). split.
  - apply rsum_nonneg. intros a Ha. destruct (H a Ha) as [r [Hr ->]]. simpl.
    apply Rmult_le_pos; [assumption|apply Cnorm2_nonneg].
  - rewrite <- csum_RtoC.
    transitivity (csum (fun a => eigenvalue o a * (Cconj (p a) * p a)) (noise_count o)).
    + unfold diagonal_kernel_of.
      rewrite (csum_ext _ (fun i => csum (fun a => csum (fun j =>
         eigenvalue o a * (Cconj (diag_entry (nops o) a i) * c i) *
         Cconj (Cconj (diag_entry (nops o) a j) * c j)) n) (noise_count o))).
      * rewrite csum_swap. apply csum_ext. intros a Ha. unfold p. rewrite Cconj_csum.
        rewrite (csum_ext _ (fun i => eigenvalue o a * (Cconj (diag_entry (nops o) a i) * c i) *
          csum (fun j => Cconj (Cconj (diag_entry (nops o) a j) * c j)) n)) by (intros; apply csum_scal_l).
        rewrite csum_scal_r, csum_scal_l. ring.
      * intros i Hi. rewrite csum_swap. apply csum_ext. intros j Hj.
        rewrite <- csum_scal_l, <- csum_scal_r. apply csum_ext. intros a Ha.
        rewrite Cconj_mult, Cconj_conj. ring.
    + apply csum_ext. intros a Ha. rewrite Cconj_mult_self. destruct (H a Ha) as [r [Hr ->]].
      rewrite RtoC_mult. reflexivity.
Qed.

(** ** Fourier operators, one axis *)

Lemma cis_omega F (a : nat) (z : Z) : cis (INR a * (2 * PI / INR F) * IZR z) = omega F (Z.of_nat a * z).
Proof. unfold omega. f_equal. rewrite mult_IZR, <- INR_IZR_INZ. unfold Rdiv. ring. Qed.

Lemma div_sqrt z N : (0 < N)%nat -> z / RtoC (sqrt (INR N)) = z * isqrt N.
Proof.
  intros H. unfold isqrt, Cdiv. rewrite RtoC_inv; [reflexivity|].
  assert (0 < sqrt (INR N))%R by (apply sqrt_lt_R0, lt_0_INR; lia). lra.
Qed.

Lemma periodic_sample_1 N F : periodic_sample [N] [F] = true <-> (F <> 0 /\ N mod F = 0)%nat.
Proof.
  cbn [periodic_sample]. destruct (Nat.eqb_spec F 0); destruct (Nat.eqb_spec (N mod F) 0); simpl; intuition congruence.
Qed.

Definition isotropic_eigenvalue (N F : nat) (p : nat -> C) (a : nat) : C :=
  ifft_forward F p a * RtoC (INR N / INR F).

(** The core identity: sum_a lambda_a conj(e_a(u)) e_a(v) = p((u - v) mod F). *)
Lemma fourier_rebuild N F p (u v : Z) d : (0 < N)%nat -> (0 < F)%nat -> (d < F)%nat ->
  Zcong (Z.of_nat F) (Z.of_nat d) (u - v) ->
  csum (fun a => isotropic_eigenvalue N F p a * Cconj (omega F (Z.of_nat a * u) * isqrt N) *
                 (omega F (Z.of_nat a * v) * isqrt N)) F = p d.
Proof.
  intros HN HF Hd Hc. unfold isotropic_eigenvalue, ifft_forward.
  transitivity (csum (fun a => csum (fun z => RtoC (/ INR F) * p z *
      omega F ((Z.of_nat z - Z.of_nat d) * Z.of_nat a)) F) F).
  - apply csum_ext. intros a Ha. rewrite Cconj_mult, isqrt_conj, omega_conj.
    transitivity (csum (fun z => p z * omega F (Z.of_nat a * Z.of_nat z)) F *
      (RtoC (INR N / INR F) * (isqrt N * isqrt N) * (omega F (- (Z.of_nat a * u)) * omega F (Z.of_nat a * v)))); [ring|].
    rewrite <- omega_add, <- csum_scal_r. apply csum_ext. intros z Hz.
    assert (RtoC (INR N / INR F) * (isqrt N * isqrt N) = RtoC (/ INR F)) as ->.
    { unfold Rdiv. rewrite RtoC_mult. transitivity (isqrt N * isqrt N * RtoC (INR N) * RtoC (/ INR F)); [ring|].
      rewrite isqrt_sqr by assumption. ring. }
    transitivity (RtoC (/ INR F) * p z * (omega F (Z.of_nat a * Z.of_nat z) * omega F (- (Z.of_nat a * u) + Z.of_nat a * v))); [ring|].
    rewrite <- omega_add. f_equal. apply omega_cong; [assumption|].
    destruct Hc as [q Hq]. exists (Z.of_nat a * q)%Z. rewrite Hq. ring.
  - rewrite csum_swap.
    rewrite (csum_ext _ (fun z => p z * cdelta z d)).
    + apply csum_delta_r'. assumption.
    + intros z Hz. rewrite csum_scal_l, omega_orth by assumption.
      transitivity (RtoC (/ INR F) * RtoC (INR F) * (p z * cdelta z d)); [ring|].
      rewrite <- RtoC_mult, Rinv_l by (apply not_0_INR; lia). ring.
Qed.

Lemma isotropic_fft_rebuild ap b k F N : bsize b = N -> ashape k = [N] -> (0 < N)%nat -> (0 < F)%nat ->
  (ap = true -> N mod F = 0)%nat ->
  exists o D, get_periodic_noise_operators_isotropic_fft ap b k (Some F) = Some o /\
    noise_count o = F /\ diagonal_noise_wf o /\
    get_diagonal_kernel_from_diagonal_operators o = Some D /\ ashape D = [(N * N)%nat] /\
    exists p, pad_ft_1d (RtoC 0) N F (aflat k) = Some p /\
    forall x y d, (x < N)%nat -> (y < N)%nat -> (d < F)%nat ->
      Zcong (Z.of_nat F) (Z.of_nat d) (nk_points N x - nk_points N y) -> entry2 N D x y = p d.
Proof.
  intros Hb Hk HN HF Hap. unfold get_periodic_noise_operators_isotropic_fft, get_operators_for_isotropic_noise,
    get_noise_eigenvalues_isotropic_fft. rewrite Hb, Hk.
  assert (ap && negb (periodic_sample [N] [F]) = false) as ->.
  { destruct ap; [|reflexivity]. rewrite (proj2 (periodic_sample_1 N F)); [reflexivity|]. split; [lia|auto]. }
  destruct (pad_ft_1d_spec (RtoC 0) N F (aflat k)) as [p [Hp _]]. rewrite Hp. cbv zeta.
  set (o := {| nops := _; neig := _ |}).
  assert (diagonal_noise_wf o) as Hw.
  { split; [split; [reflexivity|]|reflexivity].
    cbn [o nops ldata lbasis lrow lcol bsize ravel_array ashape array2 nprod]. rewrite Hb. ring. }
  destruct (diagonal_kernel_spec o Hw HF) as [D [HD [HS HDE]]].
  cbn [o nops lrow lcol] in HS, HDE. rewrite Hb in HS, HDE.
  exists o, D. split; [reflexivity|]. split; [reflexivity|]. split; [exact Hw|]. split; [exact HD|].
  split; [exact HS|]. exists p. split; [reflexivity|]. intros x y d Hx Hy Hd Hc.
  rewrite HDE by assumption.
  rewrite <- (fourier_rebuild N F p (nk_points N x) (nk_points N y) d) by assumption.
  unfold diagonal_kernel_of, noise_count, eigenvalue; cbn [o nops lbasis bsize neig aflat].
  apply csum_ext. intros a Ha. unfold diag_entry; cbn [nops lrow lcol ldata ravel_array aflat].
  rewrite Hb. rewrite !array2_flat by assumption. rewrite !cis_omega, !div_sqrt by assumption. reflexivity.
Qed.

Lemma freq_cong_nk N x F : (x < N)%nat -> (0 < F)%nat -> (N mod F = 0)%nat ->
  Zcong (Z.of_nat F) (nk_points N x) (Z.of_nat x).
Proof.
  intros Hx HF HM. destruct (nk_points_freq N x Hx) as [[q Hq] _].
  exists (q * Z.of_nat (N / F))%Z. rewrite Hq. rewrite (Nat.div_mod N F) at 1 by lia. rewrite HM. nia.
Qed.

(** With the full grid: the diagonal form of the kernel. *)
Lemma isotropic_fft_full ap b k N : bsize b = N -> ashape k = [N] -> (0 < N)%nat ->
  exists o D, get_periodic_noise_operators_isotropic_fft ap b k None = Some o /\ diagonal_noise_wf o /\
    noise_count o = N /\
    get_diagonal_kernel_from_diagonal_operators o = Some D /\
    forall t, (t < N * N)%nat -> aflat D t = aflat (as_diagonal_kernel_from_isotropic N k) t.
Proof.
  intros Hb Hk HN. assert (N mod N = 0)%nat as HM by (apply Nat.mod_same; lia).
  destruct (isotropic_fft_rebuild ap b k N N Hb Hk HN HN) as [o [D [Ho [Hc [Hw [HD [_ [p [Hp HE]]]]]]]]]; [auto|].
  exists o, D. split.
  { unfold get_periodic_noise_operators_isotropic_fft in *. rewrite Hb. exact Ho. }
  split; [exact Hw|]. split; [exact Hc|]. split; [exact HD|].
  intros t Ht. destruct (pair_split N N t Ht) as [i [j [Hi [Hj ->]]]].
  destruct (diff_slot N i j HN) as [d [Hd Hcd]].
  assert (Zcong (Z.of_nat N) (Z.of_nat d) (nk_points N i - nk_points N j)) as Hcd'.
  { eapply Zcong_trans; [exact Hcd|]. apply Zcong_sym.
    destruct (freq_cong_nk N i N Hi HN HM) as [q1 ->]. destruct (freq_cong_nk N j N Hj HN HM) as [q2 ->].
    exists (q1 - q2)%Z. ring. }
  fold (entry2 N D i j). rewrite (HE i j d) by assumption.
  destruct (diagonal_from_isotropic N k HN) as [_ Hiso]; [rewrite Hk; simpl; lia|].
  fold (entry2 N (as_diagonal_kernel_from_isotropic N k) i j). rewrite (Hiso i j d) by assumption.
  destruct (pad_ft_1d_spec (RtoC 0) N N (aflat k)) as [p' [Hp' Hs]]. rewrite Hp in Hp'. injection Hp' as <-.
  destruct (Hs d Hd) as [H1 _]. apply (H1 d (freq N d) Hd); apply freq_is_freq; assumption.
Qed.

(** With fewer operators: the kernel at the signed displacement modulo F. *)
Lemma isotropic_fft_resampled ap b k F N : bsize b = N -> ashape k = [N] -> (0 < N)%nat -> (0 < F)%nat ->
  (N mod F = 0)%nat ->
  exists o D, get_periodic_noise_operators_isotropic_fft ap b k (Some F) = Some o /\ noise_count o = F /\
    get_diagonal_kernel_from_diagonal_operators o = Some D /\ ashape D = [(N * N)%nat] /\
    forall x y f z, (x < N)%nat -> (y < N)%nat -> (z < N)%nat ->
      Zcong (Z.of_nat F) f (Z.of_nat x - Z.of_nat y) ->
      (- (Z.of_nat F / 2) <= f <= (Z.of_nat F - 1) / 2)%Z ->
      is_freq N z f -> entry2 N D x y = aflat k z.
Proof.
  intros Hb Hk HN HF HM.
  destruct (isotropic_fft_rebuild ap b k F N Hb Hk HN HF) as [o [D [Ho [Hc [Hw [HD [HS [p [Hp HE]]]]]]]]]; [auto|].
  exists o, D. split; [exact Ho|]. split; [exact Hc|]. split; [exact HD|]. split; [exact HS|].
  intros x y f z Hx Hy Hz Hcf Hf Hzf.
  assert (slot F f < F)%nat as Hd by (apply slot_lt; assumption).
  rewrite (HE x y (slot F f)); [|assumption..|].
  - destruct (pad_ft_1d_spec (RtoC 0) N F (aflat k)) as [p' [Hp' Hs]]. rewrite Hp in Hp'. injection Hp' as <-.
    destruct (Hs (slot F f) Hd) as [H1 _]. apply (H1 z f Hz Hzf).
    split; [apply Zcong_sym, slot_cong; assumption|assumption].
  - eapply Zcong_trans; [apply slot_cong; assumption|]. eapply Zcong_trans; [exact Hcf|]. apply Zcong_sym.
    destruct (freq_cong_nk N x F Hx HF HM) as [q1 ->]. destruct (freq_cong_nk N y F Hy HF HM) as [q2 ->].
    exists (q1 - q2)%Z. ring.
Qed.

(** ** Cosines and sines *)

(** [data] reversed, without the first element: what [c[:0:-1]] appends. *)
Lemma cos_sin_count n i : (n <= i < n + (n - 1))%nat -> (0 < n - 1 - (i - n) < n)%nat.
Proof. lia. Qed.

Lemma csum_rev (f : nat -> C) n : csum f n = csum (fun i => f (n - 1 - i)%nat) n.
Proof.
  symmetry. apply (csum_bij f n n (fun i => (n - 1 - i)%nat) (fun i => (n - 1 - i)%nat)); intros; lia.
Qed.

Lemma cos_sin_rebuild ap b n f N o c : bsize b = N -> (0 < N)%nat -> (0 < n)%nat ->
  get_periodic_operators_for_real_isotropic_noise ap b (Some n) f = Some o ->
  let F := match f with Some F => F | None => N end in
  let e := {| nops := o; neig := {| ashape := [(n + (n - 1))%nat];
              aflat := fun a => RtoC (INR N) * (if (a <? n)%nat then c a else c (n - 1 - (a - n))%nat) |} |} in
  exists D, get_diagonal_kernel_from_diagonal_operators e = Some D /\ ashape D = [(N * N)%nat] /\
    forall x y, (x < N)%nat -> (y < N)%nat ->
      entry2 N D x y = csum (fun m => c m *
        RtoC (cos (2 * PI * INR m * (IZR (nk_points N x) - IZR (nk_points N y)) / INR F))) n.
Proof.
  intros Hb HN Hn Ho. unfold get_periodic_operators_for_real_isotropic_noise in Ho. rewrite Hb in Ho.
  cbv zeta in *. set (F := match f with Some F => F | None => N end) in *.
  destruct (ap && _); [discriminate|]. injection Ho as <-.
  set (e := {| nops := _; neig := _ |}).
  assert (diagonal_noise_wf e) as Hw.
  { split; [split; [reflexivity|]|reflexivity].
    cbn [e nops ldata lbasis lrow lcol bsize ashape array2 nprod]. rewrite Hb. ring. }
  destruct (diagonal_kernel_spec e Hw) as [D [HD [HS HDE]]]; [cbn [e noise_count nops lbasis bsize]; lia|].
  cbn [e nops lrow lcol] in HS, HDE. rewrite Hb in HS, HDE.
  exists D. split; [exact HD|]. split; [exact HS|]. intros x y Hx Hy. rewrite HDE by assumption.
  unfold diagonal_kernel_of, noise_count, eigenvalue; cbn [e nops lbasis bsize neig aflat].
  set (u := IZR (nk_points N x)). set (v := IZR (nk_points N y)). set (k := (2 * PI / INR F)%R).
  rewrite csum_split.
  rewrite (csum_ext _ (fun m => c m * RtoC (cos (INR m * u * k) * cos (INR m * v * k)))).
  2:{ intros a Ha. destruct (Nat.ltb_spec a n) as [L|L]; [|lia].
      unfold diag_entry; cbn [nops lrow lcol ldata aflat]. rewrite Hb.
      rewrite !array2_flat by assumption. fold u v k. destruct (Nat.ltb_spec a n); [|lia].
      rewrite !div_sqrt by assumption. rewrite Cconj_mult, isqrt_conj, Cconj_RtoC, RtoC_mult.
      transitivity (isqrt N * isqrt N * RtoC (INR N) * (c a * (RtoC (cos (INR a * u * k)) * RtoC (cos (INR a * v * k))))); [ring|].
      rewrite isqrt_sqr by assumption. ring. }
  rewrite (csum_ext (fun i => _ * _ * _) (fun m => c (n - 1 - m)%nat *
     RtoC (sin (INR (n - 1 - m) * u * k) * sin (INR (n - 1 - m) * v * k)))).
  2:{ intros a Ha. destruct (Nat.ltb_spec (n + a) n) as [L|L]; [lia|].
      unfold diag_entry; cbn [nops lrow lcol ldata aflat]. rewrite Hb.
      rewrite !array2_flat by assumption. fold u v k. destruct (Nat.ltb_spec (n + a) n); [lia|].
      replace (n + a - n)%nat with a by lia.
      rewrite !div_sqrt by assumption. rewrite Cconj_mult, isqrt_conj, Cconj_RtoC, RtoC_mult.
      transitivity (isqrt N * isqrt N * RtoC (INR N) * (c (n - 1 - a)%nat * (RtoC (sin (INR (n - 1 - a) * u * k)) * RtoC (sin (INR (n - 1 - a) * v * k))))); [ring|].
      rewrite isqrt_sqr by assumption. ring. }
  set (s := fun m => c m * RtoC (sin (INR m * u * k) * sin (INR m * v * k))).
  assert (csum (fun m => c (n - 1 - m)%nat * RtoC (sin (INR (n - 1 - m) * u * k) * sin (INR (n - 1 - m) * v * k))) (n - 1)
          = csum s n) as ->.
  { destruct n as [|n']; [lia|]. rewrite (csum_rev s (S n')).
    replace (S n' - 1)%nat with n' by lia. rewrite csum_S.
    replace (n' - n')%nat with 0%nat by lia.
    assert (s 0%nat = 0) as ->.
    { unfold s. simpl INR. rewrite !Rmult_0_l, sin_0, Rmult_0_l. ring. }
    rewrite Cplus_0_r. apply csum_ext. intros m Hm. unfold s. reflexivity. }
  rewrite <- csum_plus. apply csum_ext. intros m Hm. unfold s.
  replace (2 * PI * INR m * (u - v) / INR F)%R with (INR m * u * k - INR m * v * k)%R
    by (unfold k, Rdiv; ring).
  rewrite cos_minus, RtoC_plus. ring.
Qed.

(** cos(2 pi m d / F) for integer d depends on d modulo F only. *)
Lemma cos_periodic m d e F : (0 < F)%nat -> Zcong (Z.of_nat F) d e ->
  cos (2 * PI * INR m * IZR d / INR F) = cos (2 * PI * INR m * IZR e / INR F).
Proof.
  intros HF Hc.
  assert (omega F (Z.of_nat m * d) = omega F (Z.of_nat m * e)) as H.
  { apply omega_cong; [assumption|]. destruct Hc as [q ->]. exists (Z.of_nat m * q)%Z. ring. }
  unfold omega, cis in H. injection H as H _.
  rewrite !mult_IZR, <- !INR_IZR_INZ in H.
  replace (2 * PI * INR m * IZR d / INR F)%R with (2 * PI * (INR m * IZR d) / INR F)%R by (unfold Rdiv; ring).
  replace (2 * PI * INR m * IZR e / INR F)%R with (2 * PI * (INR m * IZR e) / INR F)%R by (unfold Rdiv; ring).
  exact H.
Qed.

(** In terms of grid points, when the operators are periodic on the grid. *)
Lemma cos_sin_kernel ap b n f N o c : bsize b = N -> (0 < N)%nat -> (0 < n)%nat ->
  let F := match f with Some F => F | None => N end in
  (0 < F)%nat -> (N mod F = 0)%nat ->
  get_periodic_operators_for_real_isotropic_noise ap b (Some n) f = Some o ->
  let e := {| nops := o; neig := {| ashape := [(n + (n - 1))%nat];
              aflat := fun a => RtoC (INR N) * (if (a <? n)%nat then c a else c (n - 1 - (a - n))%nat) |} |} in
  exists D, get_diagonal_kernel_from_diagonal_operators e = Some D /\ ashape D = [(N * N)%nat] /\
    forall x y, (x < N)%nat -> (y < N)%nat ->
      entry2 N D x y = csum (fun m => c m *
        RtoC (cos (2 * PI * INR m * (INR x - INR y) / INR F))) n.
Proof.
  intros Hb HN Hn F HF HM Ho. cbv zeta.
  destruct (cos_sin_rebuild ap b n f N o c Hb HN Hn Ho) as [D [HD [HS HE]]].
  exists D. split; [exact HD|]. split; [exact HS|]. intros x y Hx Hy. rewrite HE by assumption. fold F.
  apply csum_ext. intros m Hm. f_equal. f_equal.
  rewrite <- minus_IZR, !INR_IZR_INZ. rewrite <- (minus_IZR (Z.of_nat x)).
  rewrite <- !INR_IZR_INZ. apply cos_periodic; [assumption|].
  destruct (freq_cong_nk N x F Hx HF HM) as [q1 ->]. destruct (freq_cong_nk N y F Hy HF HM) as [q2 ->].
  exists (q1 - q2)%Z. ring.
Qed.

Lemma cos_sin_exists ap b n f : (ap = true -> periodic_sample [bsize b] [match f with Some F => F | None => bsize b end] = true) ->
  exists o, get_periodic_operators_for_real_isotropic_noise ap b (Some n) f = Some o.
Proof.
  intros H. unfold get_periodic_operators_for_real_isotropic_noise.
  destruct ap; cbn [andb]; [rewrite H by reflexivity|]; cbn [negb]; eexists; reflexivity.
Qed.

(** ** The real Fourier operators never match their eigenvalues *)

Lemma real_fft_count ap b k n o : get_periodic_noise_operators_real_isotropic_fft ap b k n = Some o ->
  let F := match n with Some n => (2 * n + 1)%nat | None => bsize b end in
  noise_count o = (F / 2 + (F / 2 - 1))%nat /\ ashape (neig o) = [F].
Proof.
  unfold get_periodic_noise_operators_real_isotropic_fft. destruct (negb _); [discriminate|].
  cbv zeta. set (F := match n with Some n => _ | None => _ end).
  unfold get_periodic_operators_for_real_isotropic_noise. destruct (ap && _); [discriminate|].
  unfold get_noise_eigenvalues_isotropic_fft. destruct (ashape k) as [|m [|? ?]]; try discriminate.
  destruct (pad_ft_1d _ _ _ _) as [p|]; [|discriminate].
  destruct (all_equal _ _ _); [|discriminate]. intros H. injection H as <-.
  split; reflexivity.
Qed.

Lemma real_fft_raises ap b k n o : get_periodic_noise_operators_real_isotropic_fft ap b k n = Some o ->
  (4 <= match n with Some n => (2 * n + 1)%nat | None => bsize b end)%nat ->
  get_diagonal_kernel_from_diagonal_operators o = None.
Proof.
  intros H HF. destruct (real_fft_count ap b k n o H) as [Hc He]. cbv zeta in *.
  set (F := match n with Some n => _ | None => _ end) in *.
  unfold get_diagonal_kernel_from_diagonal_operators. unfold noise_count in Hc. rewrite Hc, He.
  destruct (reshape_rows _ _); [|reflexivity].
  unfold einsum_dim. destruct (Nat.eqb_spec F (F / 2 + (F / 2 - 1))); [lia|].
  destruct (Nat.eqb_spec F 1); [lia|]. destruct (Nat.eqb_spec (F / 2 + (F / 2 - 1)) 1); [lia|]. reflexivity.
Qed.
