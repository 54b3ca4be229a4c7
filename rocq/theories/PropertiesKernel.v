(** Noise kernels: conversions (C21, C22, C26), noise operators (C23-C25, C60),
    truncation (C27, C55), temperature correction (C56), positivity (C59). *)
From Coq Require Import Reals Psatz.
From Verif Require Import ZLib Csum DFT NumPy Interp Index Spec SpecReal Basis SpecBasis BasisFacts Operator SpecOperator
  OperatorFacts Kernel SpecKernel KernelProofs KernelProofs2 KernelProofs3 KernelProofs4 KernelProofs5 KernelFacts.
Local Open Scope R_scope.
Local Open Scope C_scope.

(** ** C21 *)

(** A diagonal kernel on 2 x 3 points, and a full kernel with 36 entries. *)
Definition ex_diagonal : ndarray := {| ashape := [6%nat]; aflat := fun t => RtoC (INR t) |}.
Definition ex_full : ndarray := {| ashape := [36%nat]; aflat := fun t => RtoC (INR t) |}.
Example ex_diagonal_ok : nprod (ashape ex_diagonal) = (2 * 3)%nat /\ length (ashape ex_diagonal) = 1%nat /\
  nprod (ashape ex_full) = (2 * 2 * 3 * 3)%nat.
Proof. repeat split. Qed.

Theorem C21_full_from_diagonal :
  forall n m d, nprod (ashape d) = (n * m)%nat -> length (ashape d) = 1%nat ->
  exists F, as_full_kernel_from_diagonal n m d = Some F /\ ashape F = [(n * n * m * m)%nat] /\
    forall i k j l, (i < n)%nat -> (k < n)%nat -> (j < m)%nat -> (l < m)%nat ->
      entry4 n m m F i k j l = cdelta i k * cdelta j l * entry2 m d i j.
Proof. exact full_from_diagonal. Qed.
Print Assumptions C21_full_from_diagonal.

Theorem C21_diagonal_from_full :
  forall n m F, nprod (ashape F) = (n * n * m * m)%nat ->
  exists d, as_diagonal_kernel_from_full n m F = Some d /\ ashape d = [(n * m)%nat] /\
    forall i j, (i < n)%nat -> (j < m)%nat -> entry2 m d i j = entry4 n m m F i i j j.
Proof. exact diagonal_from_full. Qed.
Print Assumptions C21_diagonal_from_full.

Theorem C21_diagonal_round_trip :
  forall n m d F, nprod (ashape d) = (n * m)%nat -> length (ashape d) = 1%nat ->
  as_full_kernel_from_diagonal n m d = Some F ->
  exists d', as_diagonal_kernel_from_full n m F = Some d' /\ ashape d' = ashape d /\
    forall t, (t < n * m)%nat -> aflat d' t = aflat d t.
Proof. exact diagonal_round_trip_kernel. Qed.
Print Assumptions C21_diagonal_round_trip.

(** The other round trip is exact on kernels which vanish off [i,i,j,j] and on no others. *)
Theorem C21_full_round_trip :
  forall n m F, nprod (ashape F) = (n * n * m * m)%nat ->
  exists d F', as_diagonal_kernel_from_full n m F = Some d /\ as_full_kernel_from_diagonal n m d = Some F' /\
    ((forall i k j l, (i < n)%nat -> (k < n)%nat -> (j < m)%nat -> (l < m)%nat ->
        entry4 n m m F' i k j l = entry4 n m m F i k j l) <->
     (forall i k j l, (i < n)%nat -> (k < n)%nat -> (j < m)%nat -> (l < m)%nat ->
        i <> k \/ j <> l -> entry4 n m m F i k j l = 0)).
Proof. exact full_round_trip_kernel. Qed.
Print Assumptions C21_full_round_trip.

(** ** C22 *)

Definition ex_isotropic : ndarray := {| ashape := [3%nat]; aflat := fun t => RtoC (INR t) |}.
Definition ex_stacked : ndarray := {| ashape := [6%nat]; aflat := fun t => RtoC (INR t) |}.
Example ex_isotropic_ok : nprod (ashape ex_isotropic) = 3%nat /\ nprod (ashape ex_stacked) = nprod [2; 3]%nat /\
  displacement [2; 3]%nat [1; 2]%nat [0; 1]%nat [1; 2]%nat.
Proof.
  repeat split; try (cbn; lia).
  - exists (1)%Z. cbn. lia.
  - exists (1)%Z. cbn. lia.
Qed.

Theorem C22_diagonal_from_isotropic_stacked :
  forall shape k, (0 < nprod shape)%nat -> nprod (ashape k) = nprod shape ->
  exists D, as_diagonal_kernel_from_isotropic_stacked shape k = Some D /\
    ashape D = [(nprod shape * nprod shape)%nat] /\
    forall x y d, in_shape x shape -> in_shape y shape -> displacement shape d x y ->
      entry2 (nprod shape) D (ravel shape x) (ravel shape y) = aflat k (ravel shape d).
Proof. exact diagonal_from_isotropic_stacked. Qed.
Print Assumptions C22_diagonal_from_isotropic_stacked.

Theorem C22_isotropic_from_diagonal_stacked :
  forall shape D, (0 < nprod shape)%nat -> nprod (ashape D) = (nprod shape * nprod shape)%nat ->
  exists o, as_isotropic_kernel_from_diagonal_stacked false shape D = Some o /\ ashape o = [nprod shape] /\
    (forall i, (i < nprod shape)%nat -> aflat o i = entry2 (nprod shape) D i 0) /\
    (forall o', as_isotropic_kernel_from_diagonal_stacked true shape D = Some o' <->
       o' = o /\
       forall x y d, in_shape x shape -> in_shape y shape -> displacement shape d x y ->
         entry2 (nprod shape) D (ravel shape x) (ravel shape y) = entry2 (nprod shape) D (ravel shape d) 0).
Proof. exact isotropic_stacked_value. Qed.
Print Assumptions C22_isotropic_from_diagonal_stacked.

Theorem C22_stacked_round_trip :
  forall shape k D, (0 < nprod shape)%nat -> nprod (ashape k) = nprod shape ->
  as_diagonal_kernel_from_isotropic_stacked shape k = Some D ->
  forall assert_isotropic,
  exists o, as_isotropic_kernel_from_diagonal_stacked assert_isotropic shape D = Some o /\
    ashape o = [nprod shape] /\ forall i, (i < nprod shape)%nat -> aflat o i = aflat k i.
Proof. exact isotropic_stacked_round_trip. Qed.
Print Assumptions C22_stacked_round_trip.

Theorem C22_diagonal_from_isotropic :
  forall n k, (0 < n)%nat -> nprod (ashape k) = n ->
  ashape (as_diagonal_kernel_from_isotropic n k) = [(n * n)%nat] /\
  forall i j d, (i < n)%nat -> (j < n)%nat -> (d < n)%nat ->
    Zcong (Z.of_nat n) (Z.of_nat d) (Z.of_nat i - Z.of_nat j) ->
    entry2 n (as_diagonal_kernel_from_isotropic n k) i j = aflat k d.
Proof. exact diagonal_from_isotropic. Qed.
Print Assumptions C22_diagonal_from_isotropic.

(** The one-dimensional inverse reads the first row, not the first column. *)
Theorem C22_isotropic_from_diagonal :
  forall n d, (0 < n)%nat -> nprod (ashape d) = (n * n)%nat ->
  exists o, as_isotropic_kernel_from_diagonal false n d = Some o /\ ashape o = [n] /\
    forall j, (j < n)%nat -> aflat o j = entry2 n d 0 j.
Proof. exact (fun n d Hn Hd => proj1 (isotropic_from_diagonal n d Hn Hd)). Qed.
Print Assumptions C22_isotropic_from_diagonal.

Theorem C22_isotropic_check :
  forall n d, (0 < n)%nat -> nprod (ashape d) = (n * n)%nat ->
  (exists o, as_isotropic_kernel_from_diagonal true n d = Some o) <->
  (forall i j e, (i < n)%nat -> (j < n)%nat -> (e < n)%nat ->
     Zcong (Z.of_nat n) (Z.of_nat e) (Z.of_nat i - Z.of_nat j) -> entry2 n d i j = entry2 n d 0 e).
Proof. exact isotropic_check. Qed.
Print Assumptions C22_isotropic_check.

(** The round trip reverses the kernel ... *)
Theorem C22_round_trip_reverses :
  forall n k, (0 < n)%nat -> nprod (ashape k) = n ->
  exists o, as_isotropic_kernel_from_diagonal false n (as_diagonal_kernel_from_isotropic n k) = Some o /\
    ashape o = [n] /\
    forall x y, (x < n)%nat -> (y < n)%nat -> Zcong (Z.of_nat n) (Z.of_nat y) (- Z.of_nat x) ->
      aflat o x = aflat k y.
Proof. exact isotropic_round_trip. Qed.
Print Assumptions C22_round_trip_reverses.

(** ... and with the check it fails exactly when the kernel is not even. *)
Theorem C22_round_trip_check :
  forall n k, (0 < n)%nat -> nprod (ashape k) = n ->
  (exists o, as_isotropic_kernel_from_diagonal true n (as_diagonal_kernel_from_isotropic n k) = Some o) <->
  (forall x y, (x < n)%nat -> (y < n)%nat -> Zcong (Z.of_nat n) (Z.of_nat y) (- Z.of_nat x) ->
     aflat k x = aflat k y).
Proof. exact isotropic_round_trip_check. Qed.
Print Assumptions C22_round_trip_check.

(** ** C23 *)

(** [diagonal_eigh] decomposes the unit kernels: the hypotheses on eigh can be met. *)
Example ex_eigh_full : forall A,
  mat_eq (2 * 2) A (fun p q => entry4 2 2 2 (unit_kernel4 2) (p mod 2) (p / 2) (q / 2) (q mod 2)) ->
  eigendecomposition (2 * 2) A (diagonal_eigh (2 * 2) A).
Proof.
  intros A H. apply diagonal_eigh_ok. intros i j Hi Hj. rewrite (H i j Hi Hj), (H i i Hi Hi).
  rewrite !unit_kernel4_matrix by (try assumption; lia). rewrite cdelta_refl. cbn [fst RtoC]. ring.
Qed.
Example ex_eigh_diagonal : forall A, mat_eq 3 A (entry2 3 (unit_kernel2 3)) ->
  eigendecomposition 3 A (diagonal_eigh 3 A).
Proof.
  intros A H. apply diagonal_eigh_ok. intros i j Hi Hj. rewrite (H i j Hi Hj), (H i i Hi Hi).
  rewrite !unit_kernel2_entry by assumption. rewrite cdelta_refl. unfold cdelta. destruct (Nat.eqb_spec i j) as [->|]; [|ring].
  rewrite Cmult_1_r. cbn [fst RtoC]. ring.
Qed.

Theorem C23_full_kernel :
  forall o, noise_wf o ->
  let r := bsize (lrow (nops o)) in let c := bsize (lcol (nops o)) in
  exists F, get_full_kernel_from_operators o = Some F /\ ashape F = [(c * r * r * c)%nat] /\
    forall i j k l, (i < c)%nat -> (j < r)%nat -> (k < r)%nat -> (l < c)%nat ->
      entry4 r r c F i j k l = kernel_of o i j k l.
Proof. exact full_kernel_spec. Qed.
Print Assumptions C23_full_kernel.

Theorem C23_diagonal_kernel :
  forall o, diagonal_noise_wf o -> (0 < noise_count o)%nat ->
  let n := bsize (lrow (nops o)) in
  exists D, get_diagonal_kernel_from_diagonal_operators o = Some D /\ ashape D = [(n * n)%nat] /\
    forall i j, (i < n)%nat -> (j < n)%nat -> entry2 n D i j = diagonal_kernel_of o i j.
Proof. exact diagonal_kernel_spec. Qed.
Print Assumptions C23_diagonal_kernel.

Theorem C23_eigenvalue_operators_rebuild :
  forall eigh b0 b1 n K, bsize b0 = n -> bsize b1 = n -> nprod (ashape K) = (n * n * n * n)%nat ->
  (forall A, mat_eq (n * n) A (fun p q => entry4 n n n K (p mod n) (p / n) (q / n) (q mod n)) ->
     eigendecomposition (n * n) A (eigh (n * n)%nat A)) ->
  exists o F, get_periodic_noise_operators_eigenvalue eigh b0 b1 K = Some o /\ noise_wf o /\
    noise_count o = (n * n)%nat /\ get_full_kernel_from_operators o = Some F /\
    ashape F = [(n * n * n * n)%nat] /\ forall t, (t < n * n * n * n)%nat -> aflat F t = aflat K t.
Proof. exact eigenvalue_rebuild. Qed.
Print Assumptions C23_eigenvalue_operators_rebuild.

Theorem C23_diagonal_eigenvalue_operators_rebuild :
  forall eigh b0 b1 n K, (0 < n)%nat -> bsize b0 = n -> bsize b1 = n -> nprod (ashape K) = (n * n)%nat ->
  (forall A, mat_eq n A (entry2 n K) -> eigendecomposition n A (eigh n A)) ->
  exists o D, get_periodic_noise_operators_diagonal_eigenvalue eigh b0 b1 K = Some o /\ diagonal_noise_wf o /\
    noise_count o = n /\ get_diagonal_kernel_from_diagonal_operators o = Some D /\
    ashape D = [(n * n)%nat] /\ forall t, (t < n * n)%nat -> aflat D t = aflat K t.
Proof. exact diagonal_eigenvalue_rebuild. Qed.
Print Assumptions C23_diagonal_eigenvalue_operators_rebuild.

(** With bases of different size the kernel is not rebuilt: a 2 x 3 counterexample. *)
Theorem C23_rectangular_refuted :
  exists m o F, kernel_matrix (BFund 2) (BFund 3) rect_kernel = Some m /\
    eigendecomposition 6 (at2 m) (rect_eigh 6 (at2 m)) /\
    get_periodic_noise_operators_eigenvalue rect_eigh (BFund 2) (BFund 3) rect_kernel = Some o /\
    get_full_kernel_from_operators o = Some F /\ ashape F = ashape rect_kernel /\
    aflat F 8 <> aflat rect_kernel 8.
Proof. exact rectangular_not_rebuilt. Qed.
Print Assumptions C23_rectangular_refuted.

(** Diagonal operators turned into full ones have the full version of their kernel. *)
Theorem C23_kernel_of_full_operators :
  forall o f, diagonal_noise_wf o -> (0 < bsize (lrow (nops o)))%nat ->
  as_noise_operators_from_diagonal o = Some f ->
  forall i j k l, (i < bsize (lrow (nops o)))%nat -> (j < bsize (lrow (nops o)))%nat ->
    (k < bsize (lrow (nops o)))%nat -> (l < bsize (lrow (nops o)))%nat ->
    kernel_of f i j k l = cdelta i j * cdelta k l * diagonal_kernel_of o i k.
Proof. exact kernel_of_full. Qed.
Print Assumptions C23_kernel_of_full_operators.

(** ** C24 *)

Theorem C24_isotropic_fft_rebuild :
  forall ap b k N, bsize b = N -> ashape k = [N] -> (0 < N)%nat ->
  exists o D, get_periodic_noise_operators_isotropic_fft ap b k None = Some o /\ diagonal_noise_wf o /\
    noise_count o = N /\ get_diagonal_kernel_from_diagonal_operators o = Some D /\
    forall t, (t < N * N)%nat -> aflat D t = aflat (as_diagonal_kernel_from_isotropic N k) t.
Proof. exact isotropic_fft_full. Qed.
Print Assumptions C24_isotropic_fft_rebuild.

(** With fundamental_n = F dividing N: the kernel at the displacement modulo F, taken
    with the smallest absolute value. *)
Example ex_resampled : (6 mod 3 = 0)%nat /\ Zcong 3 (-1) (Z.of_nat 5 - Z.of_nat 0) /\
  (- (3 / 2) <= -1 <= (3 - 1) / 2)%Z /\ is_freq 6 5 (-1).
Proof.
  split; [reflexivity|]. split; [exists (-2)%Z; reflexivity|]. split; [split; vm_compute; congruence|].
  repeat split; try (vm_compute; congruence); try reflexivity; try (cbn; lia). exists (-1)%Z. reflexivity.
Qed.
Theorem C24_isotropic_fft_resampled :
  forall ap b k F N, bsize b = N -> ashape k = [N] -> (0 < N)%nat -> (0 < F)%nat -> (N mod F = 0)%nat ->
  exists o D, get_periodic_noise_operators_isotropic_fft ap b k (Some F) = Some o /\ noise_count o = F /\
    get_diagonal_kernel_from_diagonal_operators o = Some D /\ ashape D = [(N * N)%nat] /\
    forall x y f z, (x < N)%nat -> (y < N)%nat -> (z < N)%nat ->
      Zcong (Z.of_nat F) f (Z.of_nat x - Z.of_nat y) ->
      (- (Z.of_nat F / 2) <= f <= (Z.of_nat F - 1) / 2)%Z -> is_freq N z f ->
      entry2 N D x y = aflat k z.
Proof. exact isotropic_fft_resampled. Qed.
Print Assumptions C24_isotropic_fft_resampled.

Theorem C24_stacked_fft_rebuild :
  forall ap b shape k, bsize b = nprod shape -> nprod (ashape k) = nprod shape ->
  Forall (fun n => 0 < n)%nat shape ->
  exists o D K, get_periodic_noise_operators_isotropic_stacked_fft ap b shape shape k None = Some o /\
    noise_count o = nprod shape /\ get_diagonal_kernel_from_diagonal_operators o = Some D /\
    as_diagonal_kernel_from_isotropic_stacked shape k = Some K /\
    forall t, (t < nprod shape * nprod shape)%nat -> aflat D t = aflat K t.
Proof. exact stacked_fft_full. Qed.
Print Assumptions C24_stacked_fft_rebuild.

Theorem C24_stacked_fft_resampled :
  forall ap b shape F k, bsize b = nprod shape -> nprod (ashape k) = nprod shape -> length F = length shape ->
  (forall ax, (ax < length F)%nat -> (0 < nth ax F 0)%nat /\ (nth ax shape 0 mod nth ax F 0 = 0)%nat) ->
  Forall (fun n => 0 < n)%nat shape ->
  exists o D, get_periodic_noise_operators_isotropic_stacked_fft ap b shape shape k (Some F) = Some o /\
    diagonal_noise_wf o /\ noise_count o = nprod F /\
    get_diagonal_kernel_from_diagonal_operators o = Some D /\
    ashape D = [(nprod shape * nprod shape)%nat] /\
    forall x y d e, in_shape x shape -> in_shape y shape -> displacement F d x y -> in_shape e shape ->
      same_slots (fun ax => Some (nth ax F 0%nat)) 0 shape e d ->
      entry2 (nprod shape) D (ravel shape x) (ravel shape y) = aflat k (ravel shape e).
Proof. exact stacked_fft_rebuild. Qed.
Print Assumptions C24_stacked_fft_resampled.

(** ** C25 *)

Example ex_cos_sin : exists o, get_periodic_operators_for_real_isotropic_noise true (BFund 6) (Some 2%nat) (Some 3%nat) = Some o.
Proof. apply cos_sin_exists. intros _. reflexivity. Qed.

Theorem C25_cosine_series :
  forall ap b n f N o c, bsize b = N -> (0 < N)%nat -> (0 < n)%nat ->
  let F := match f with Some F => F | None => N end in
  (0 < F)%nat -> (N mod F = 0)%nat ->
  get_periodic_operators_for_real_isotropic_noise ap b (Some n) f = Some o ->
  let e := {| nops := o;
              neig := {| ashape := [(n + (n - 1))%nat];
                         aflat := fun a => RtoC (INR N) * (if Nat.ltb a n then c a else c (n - 1 - (a - n))%nat) |} |} in
  exists D, get_diagonal_kernel_from_diagonal_operators e = Some D /\ ashape D = [(N * N)%nat] /\
    forall x y, (x < N)%nat -> (y < N)%nat ->
      entry2 N D x y = csum (fun m => c m * RtoC (cos (2 * PI * INR m * (INR x - INR y) / INR F))) n.
Proof. exact cos_sin_kernel. Qed.
Print Assumptions C25_cosine_series.

(** The same without the check that F divides N: the displacement is measured
    between the signed grid positions. *)
Theorem C25_cosine_series_any_period :
  forall ap b n f N o c, bsize b = N -> (0 < N)%nat -> (0 < n)%nat ->
  get_periodic_operators_for_real_isotropic_noise ap b (Some n) f = Some o ->
  let F := match f with Some F => F | None => N end in
  let e := {| nops := o;
              neig := {| ashape := [(n + (n - 1))%nat];
                         aflat := fun a => RtoC (INR N) * (if Nat.ltb a n then c a else c (n - 1 - (a - n))%nat) |} |} in
  exists D, get_diagonal_kernel_from_diagonal_operators e = Some D /\ ashape D = [(N * N)%nat] /\
    forall x y, (x < N)%nat -> (y < N)%nat ->
      entry2 N D x y =
      csum (fun m => c m * RtoC (cos (2 * PI * INR m * (IZR (nk_points N x) - IZR (nk_points N y)) / INR F))) n.
Proof. exact cos_sin_rebuild. Qed.
Print Assumptions C25_cosine_series_any_period.

Theorem C25_operators_exist :
  forall ap b n f,
  (ap = true -> periodic_sample [bsize b] [match f with Some F => F | None => bsize b end] = true) ->
  exists o, get_periodic_operators_for_real_isotropic_noise ap b (Some n) f = Some o.
Proof. exact cos_sin_exists. Qed.
Print Assumptions C25_operators_exist.

(** get_periodic_noise_operators_real_isotropic_fft accepts every real even kernel but
    pairs F eigenvalues with fewer
    operators, so that the kernel of its result cannot be computed. *)
Theorem C25_real_fft_accepts_even :
  forall ap b k N, bsize b = N -> ashape k = [N] -> (0 < N)%nat ->
  (forall x, (x < N)%nat -> snd (aflat k x) = 0%R) ->
  (forall x y, (x < N)%nat -> (y < N)%nat -> Zcong (Z.of_nat N) (Z.of_nat y) (- Z.of_nat x) ->
     aflat k x = aflat k y) ->
  exists o, get_periodic_noise_operators_real_isotropic_fft ap b k None = Some o.
Proof. exact real_fft_accepts. Qed.
Print Assumptions C25_real_fft_accepts_even.

Theorem C25_real_fft_counts :
  forall ap b k n o, get_periodic_noise_operators_real_isotropic_fft ap b k n = Some o ->
  let F := match n with Some n0 => (2 * n0 + 1)%nat | None => bsize b end in
  noise_count o = (F / 2 + (F / 2 - 1))%nat /\ ashape (neig o) = [F].
Proof. exact real_fft_count. Qed.
Print Assumptions C25_real_fft_counts.

Theorem C25_real_fft_not_rebuilt :
  forall ap b k n o, get_periodic_noise_operators_real_isotropic_fft ap b k n = Some o ->
  (4 <= match n with Some n0 => 2 * n0 + 1 | None => bsize b end)%nat ->
  get_diagonal_kernel_from_diagonal_operators o = None.
Proof. exact real_fft_raises. Qed.
Print Assumptions C25_real_fft_not_rebuilt.

(** ** C26 *)

Example ex_product_kernel : product_kernel [2; 3]%nat product_example /\ aflat product_example 0 <> 0 /\
  nprod (ashape product_example) = nprod [2; 3]%nat /\ ~ product_kernel [2; 2]%nat sum_example.
Proof. split; [apply product_example_ok|split; [apply product_example_ok|split; [reflexivity|exact sum_example_not]]]. Qed.

Theorem C26_isotropic_from_axis :
  forall l shape idx, map (fun a => nprod (ashape a)) l = shape -> in_shape idx shape ->
  aflat (as_isotropic_kernel_from_axis l) (ravel shape idx) =
  axis_product 0 (fun ax i => aflat (nth ax l no_array) i) idx.
Proof. exact from_axis_spec. Qed.
Print Assumptions C26_isotropic_from_axis.

Theorem C26_axis_kernels :
  forall shape k, (0 < length shape)%nat -> nprod (ashape k) = nprod shape -> aflat k 0 <> 0 ->
  exists l, as_axis_kernel_from_isotropic shape k = Some l /\ length l = length shape /\
    ashape (as_isotropic_kernel_from_axis l) = [nprod shape] /\
    forall idx, in_shape idx shape ->
      aflat (as_isotropic_kernel_from_axis l) (ravel shape idx) * aflat k 0 ^ (length shape - 1) =
      axis_product 0 (fun ax i => aflat k (ravel shape (axis_point (length shape) ax i))) idx.
Proof. exact axis_round_trip. Qed.
Print Assumptions C26_axis_kernels.

Theorem C26_round_trip_iff_product :
  forall shape k, (0 < length shape)%nat -> Forall (fun n => 0 < n)%nat shape ->
  nprod (ashape k) = nprod shape -> aflat k 0 <> 0 ->
  forall l, as_axis_kernel_from_isotropic shape k = Some l ->
  (forall t, (t < nprod shape)%nat -> aflat (as_isotropic_kernel_from_axis l) t = aflat k t) <->
  product_kernel shape k.
Proof. exact axis_round_trip_iff. Qed.
Print Assumptions C26_round_trip_iff_product.

(** ** C27 *)

Example ex_argsort : exists argsort, is_argsort argsort.
Proof. exact (ex_intro _ some_argsort some_argsort_ok). Qed.
Example ex_three : diagonal_noise_wf three_operators /\ (0 < noise_count three_operators)%nat /\
  nprod (ashape (ldata (nops three_operators))) = (noise_count three_operators * 2)%nat /\
  ashape (neig three_operators) = [noise_count three_operators] /\
  python_indices 3 [0; -1]%Z = Some [0; 2]%nat.
Proof. split; [exact three_operators_wf|repeat split; cbn; lia]. Qed.

(** Operators whose numbers in decreasing order are given, each with its own eigenvalue. *)
Theorem C27_diagonal_truncation_selects :
  forall argsort, is_argsort argsort ->
  forall o m, (0 < noise_count o)%nat -> nprod (ashape (ldata (nops o))) = (noise_count o * m)%nat ->
  ashape (neig o) = [noise_count o] ->
  forall truncation sel, python_indices (noise_count o) truncation = Some sel ->
  exists t, truncate_diagonal_noise_operator_list argsort o truncation = Some t /\
    picks o t (map (fun p => argsort (fun a => Cmod (eigenvalue o a)) (noise_count o) (noise_count o - 1 - p)%nat) sel) m.
Proof. exact (truncate_picks Cmod). Qed.
Print Assumptions C27_diagonal_truncation_selects.

(** truncation = 0 .. c-1 keeps the c operators with the largest |eigenvalue|. *)
Theorem C27_diagonal_truncation_keeps_largest :
  forall argsort, is_argsort argsort ->
  forall o m, (0 < noise_count o)%nat -> nprod (ashape (ldata (nops o))) = (noise_count o * m)%nat ->
  ashape (neig o) = [noise_count o] ->
  forall c, (c <= noise_count o)%nat ->
  exists t kept, truncate_diagonal_noise_operator_list argsort o (map Z.of_nat (seq 0 c)) = Some t /\
    length kept = c /\ NoDup kept /\ (forall a, In a kept -> (a < noise_count o)%nat) /\ picks o t kept m /\
    (forall i j, (i <= j < c)%nat -> (Cmod (eigenvalue t j) <= Cmod (eigenvalue t i))%R) /\
    (forall a j, (a < noise_count o)%nat -> ~ In a kept -> (j < c)%nat ->
       (Cmod (eigenvalue o a) <= Cmod (eigenvalue t j))%R).
Proof. exact (truncate_largest Cmod). Qed.
Print Assumptions C27_diagonal_truncation_keeps_largest.

Theorem C27_diagonal_truncation_raises :
  forall argsort o, ashape (neig o) = [noise_count o] ->
  forall truncation, python_indices (noise_count o) truncation = None ->
  truncate_diagonal_noise_operator_list argsort o truncation = None.
Proof. exact (truncate_raises Cmod). Qed.
Print Assumptions C27_diagonal_truncation_raises.

(** The version for full operators orders by the (real) eigenvalue, not its modulus ... *)
Theorem C27_full_truncation_keeps_largest_signed :
  forall argsort, is_argsort argsort ->
  forall o m, (0 < noise_count o)%nat -> nprod (ashape (ldata (nops o))) = (noise_count o * m)%nat ->
  ashape (neig o) = [noise_count o] ->
  forall c, (c <= noise_count o)%nat ->
  exists t kept, truncate_noise_operator_list argsort o (map Z.of_nat (seq 0 c)) = Some t /\
    length kept = c /\ NoDup kept /\ (forall a, In a kept -> (a < noise_count o)%nat) /\ picks o t kept m /\
    (forall i j, (i <= j < c)%nat -> (fst (eigenvalue t j) <= fst (eigenvalue t i))%R) /\
    (forall a j, (a < noise_count o)%nat -> ~ In a kept -> (j < c)%nat ->
       (fst (eigenvalue o a) <= fst (eigenvalue t j))%R).
Proof. exact (truncate_largest fst). Qed.
Print Assumptions C27_full_truncation_keeps_largest_signed.

(** ... so that it can drop the operator with the largest |eigenvalue|. *)
Theorem C27_full_truncation_by_modulus_refuted :
  forall argsort, is_argsort argsort -> exists t,
  truncate_noise_operator_list argsort signed_operators [0%Z] = Some t /\ noise_count t = 1%nat /\
  Cmod (eigenvalue t 0) = 2%R /\ Cmod (eigenvalue signed_operators 0) = 5%R.
Proof. exact signed_truncation. Qed.
Print Assumptions C27_full_truncation_by_modulus_refuted.

(** ** C55 *)

Theorem C55_truncate_kernel_keeping_all :
  forall argsort eigh b0 b1 n K, is_argsort argsort -> (0 < n)%nat -> bsize b0 = n -> bsize b1 = n ->
  nprod (ashape K) = (n * n * n * n)%nat ->
  (forall A, mat_eq (n * n) A (fun p q => entry4 n n n K (p mod n) (p / n) (q / n) (q mod n)) ->
     eigendecomposition (n * n) A (eigh (n * n)%nat A)) ->
  exists F, truncate_noise_kernel argsort eigh b0 b1 K (map Z.of_nat (seq 0 (n * n))) = Some F /\
    ashape F = [(n * n * n * n)%nat] /\ forall t, (t < n * n * n * n)%nat -> aflat F t = aflat K t.
Proof. exact truncate_kernel_all. Qed.
Print Assumptions C55_truncate_kernel_keeping_all.

Theorem C55_truncate_diagonal_kernel_has_one_entry :
  forall argsort eigh b0 b1 n K truncation D, (1 < n)%nat -> bsize b0 = n -> bsize b1 = n ->
  truncate_diagonal_noise_kernel argsort eigh b0 b1 K truncation = Some D -> nprod (ashape D) = 1%nat.
Proof. exact truncate_diagonal_kernel_size. Qed.
Print Assumptions C55_truncate_diagonal_kernel_has_one_entry.

(** ** C56 *)

Example ex_temperature : identity_test never_same /\ bwf (BFund 2) /\ explicit_orthonormal (BFund 2) /\ op_wf ex_x /\
  orow ex_x = BFund 2 /\ ocol ex_x = BFund 2 /\ list_wf (nops ex_noise) /\ diag_list_wf (nops ex_diagonal_noise) /\
  compatible (BFund 2) (BFund 2).
Proof. exact temperature_case. Qed.

Theorem C56_temperature_correction :
  forall same b h o kt, identity_test same -> bwf b -> explicit_orthonormal b -> kt <> 0%R ->
  op_wf h -> orow h = b -> ocol h = b -> list_wf (nops o) ->
  compatible (lrow (nops o)) b -> compatible (lcol (nops o)) b ->
  exists F p, convert_matrix same (lrow (nops o)) b (lcol (nops o)) b = Some F /\
    get_temperature_corrected_noise_operators same h o kt = Some p /\ list_wf (nops p) /\ neig p = neig o /\
    lbasis (nops p) = lbasis (nops o) /\ lrow (nops p) = b /\ lcol (nops p) = b /\
    forall a i j, (a < noise_count o)%nat -> (i < bsize b)%nat -> (j < bsize b)%nat ->
      let L := F (list_entry (nops o) a) in
      list_entry (nops p) a i j =
      L i j - (matmul (bsize b) (op_entry h) L i j - matmul (bsize b) L (op_entry h) i j) * RtoC (/ (4 * kt)).
Proof. exact temperature_spec. Qed.
Print Assumptions C56_temperature_correction.

Theorem C56_temperature_correction_diagonal :
  forall same b h o kt, identity_test same -> bwf b -> explicit_orthonormal b -> kt <> 0%R ->
  op_wf h -> compatible (orow h) b -> compatible (ocol h) b -> diag_list_wf (nops o) ->
  lrow (nops o) = b -> lcol (nops o) = b ->
  exists G p, convert_matrix same (orow h) b (ocol h) b = Some G /\
    get_temperature_corrected_diagonal_noise_operators same h o kt = Some p /\ list_wf (nops p) /\
    neig p = neig o /\ lbasis (nops p) = lbasis (nops o) /\ lrow (nops p) = b /\ lcol (nops p) = b /\
    forall a i j, (a < noise_count o)%nat -> (i < bsize b)%nat -> (j < bsize b)%nat ->
      let L := diag_entry (nops o) a in
      list_entry (nops p) a i j =
      (if Nat.eqb i j then L i else 0) - (G (op_entry h) i j * L j - L i * G (op_entry h) i j) * RtoC (/ (4 * kt)).
Proof. exact temperature_diagonal_spec. Qed.
Print Assumptions C56_temperature_correction_diagonal.

(** ** C59 *)

Example ex_nonnegative : forall a, (a < noise_count ex_diagonal_noise)%nat ->
  exists r, (0 <= r)%R /\ eigenvalue ex_diagonal_noise a = RtoC r.
Proof. intros a _. exists (INR a). split; [apply pos_INR|reflexivity]. Qed.

Theorem C59_real_eigenvalues_hermitian :
  forall o, (forall a, (a < noise_count o)%nat -> snd (eigenvalue o a) = 0%R) ->
  forall i j, diagonal_kernel_of o j i = Cconj (diagonal_kernel_of o i j).
Proof. exact diagonal_kernel_hermitian. Qed.
Print Assumptions C59_real_eigenvalues_hermitian.

Theorem C59_nonnegative_eigenvalues_positive :
  forall o n c, (forall a, (a < noise_count o)%nat -> exists r, (0 <= r)%R /\ eigenvalue o a = RtoC r) ->
  exists s, (0 <= s)%R /\
    csum (fun i => csum (fun j => Cconj (c j) * diagonal_kernel_of o i j * c i) n) n = RtoC s.
Proof. exact diagonal_kernel_psd. Qed.
Print Assumptions C59_nonnegative_eigenvalues_positive.

(** ** C60 *)

Example ex_axis_operators : Forall (fun o => diagonal_noise_wf o /\ (0 < noise_count o)%nat) [ex_diagonal_noise; three_operators].
Proof. repeat constructor; try reflexivity; cbn; lia. Qed.

Theorem C60_operators_from_axis :
  forall l, Forall (fun o => diagonal_noise_wf o /\ (0 < noise_count o)%nat) l ->
  let s := map (fun o => bsize (lrow (nops o))) l in
  exists o, get_diagonal_noise_operators_from_axis l = Some o /\ diagonal_noise_wf o /\
    noise_count o = nprod (map noise_count l) /\ bsize (lrow (nops o)) = nprod s /\
    forall x y, in_shape x s -> in_shape y s ->
      diagonal_kernel_of o (ravel s x) (ravel s y) = product_of_kernels l x y.
Proof. exact axis_operators_kernel. Qed.
Print Assumptions C60_operators_from_axis.

Theorem C60_real_stacked_fft :
  forall shape k, (0 < length shape)%nat -> Forall (fun n => 0 < n)%nat shape ->
  nprod (ashape k) = nprod shape -> aflat k 0 <> 0 ->
  forall ap, exists l o D, as_axis_kernel_from_isotropic shape k = Some l /\
    get_periodic_noise_operators_real_isotropic_stacked_fft ap shape k (fun _ => None) = Some o /\
    diagonal_noise_wf o /\ get_diagonal_kernel_from_diagonal_operators o = Some D /\
    ashape D = [(nprod shape * nprod shape)%nat] /\
    forall x y d, in_shape x shape -> in_shape y shape -> displacement shape d x y ->
      entry2 (nprod shape) D (ravel shape x) (ravel shape y) = aflat (as_isotropic_kernel_from_axis l) (ravel shape d).
Proof. exact real_stacked_fft. Qed.
Print Assumptions C60_real_stacked_fft.

Theorem C60_real_stacked_fft_product :
  forall shape k, (0 < length shape)%nat -> Forall (fun n => 0 < n)%nat shape ->
  nprod (ashape k) = nprod shape -> aflat k 0 <> 0 ->
  forall ap, product_kernel shape k ->
  exists o D K, get_periodic_noise_operators_real_isotropic_stacked_fft ap shape k (fun _ => None) = Some o /\
    get_diagonal_kernel_from_diagonal_operators o = Some D /\
    as_diagonal_kernel_from_isotropic_stacked shape k = Some K /\
    forall t, (t < nprod shape * nprod shape)%nat -> aflat D t = aflat K t.
Proof. exact real_stacked_fft_product. Qed.
Print Assumptions C60_real_stacked_fft_product.
