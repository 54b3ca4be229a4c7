(** The stacked linear operators, isotropic kernels of operators, and kernels along the axes. *)
From Coq Require Import Reals Lra Lia Psatz.
From Verif Require Import ZLib Csum DFT NumPy Spec Index IndexProofs Basis SpecBasis BasisProofs BasisProofs2 BasisProofs3
  Operator SpecOperator OperatorProofs OperatorProofs2 Kernel SpecKernel KernelProofs KernelProofs2 KernelProofs3 KernelFacts KernelConvert Hamiltonian HamiltonianProofs Wavepacket SpecWavepacket
  Taylor SpecTaylor TaylorProofs TaylorProofs2 TaylorProofs3 TaylorProofs4 TaylorProofs5 NoiseBuild SpecNoiseBuild.
Local Open Scope R_scope.
Local Open Scope C_scope.

Lemma from_middle_spec N j : (j < N)%nat ->
  Zcong (Z.of_nat N) (from_middle N j) (Z.of_nat (N / 2) - Z.of_nat j) /\
  (- (Z.of_nat N / 2) <= from_middle N j < - (Z.of_nat N / 2) + Z.of_nat N)%Z.
Proof.
  intros Hj. rewrite Nat2Z.inj_div. change (Z.of_nat 2) with 2%Z. unfold from_middle.
  assert (D := Z.div_mod (Z.of_nat N) 2 ltac:(lia)). assert (M := Z.mod_pos_bound (Z.of_nat N) 2 ltac:(lia)).
  destruct (Nat.even N) eqn:E.
  - assert (M0 : (Z.of_nat N mod 2 = 0)%Z). { apply Nat.even_spec in E. destruct E as [q ->]. rewrite Nat2Z.inj_mul. change (Z.of_nat 2) with 2%Z. rewrite Z.mul_comm. apply Z.mod_mul. lia. }
    destruct (Nat.eqb_spec j 0) as [->|Hj0]; cbn [andb].
    + split; [exists (-1)%Z; lia|lia].
    + split; [exists 0%Z; lia|lia].
  - rewrite Bool.andb_false_r. assert (M1 : (Z.of_nat N mod 2 = 1)%Z).
    { assert (O1 : Nat.odd N = true) by (unfold Nat.odd; rewrite E; reflexivity). apply Nat.odd_spec in O1. destruct O1 as [q ->].
      replace (Z.of_nat (2 * q + 1)) with (1 + Z.of_nat q * 2)%Z by lia. rewrite Z.mod_add by lia. reflexivity. }
    split; [exists 0%Z; lia|lia].
Qed.

Lemma linear_axis N dx a lambda t : (0 < N)%nat -> let n := match t with Some n => n | None => N end in (0 < n)%nat ->
  exists o, get_linear_gaussian_noise_operators_explicit_taylor (BFund N) dx a lambda t = Some o /\
    diagonal_noise_wf o /\ (0 < noise_count o)%nat /\ bsize (lrow (nops o)) = N /\
    forall x y, (x < N)%nat -> (y < N)%nat -> diagonal_kernel_of o x y =
      RtoC (rsum (fun m => (nth m (gaussian_series a (2 * PI * lambda / dx) n) 0 *
         ((2 * PI * IZR (from_middle N x) / INR N) * (2 * PI * IZR (from_middle N y) / INR N)) ^ m)%R) n).
Proof.
  intros HN n Hn.
  destruct (linear_gaussian (BFund N) N dx a lambda t eq_refl HN Hn (from_middle N) (from_middle_spec N)) as [o [D [Eo [ED [SD VD]]]]].
  exists o. split; [exact Eo|].
  assert (W : diagonal_noise_wf o /\ (0 < noise_count o)%nat /\ bsize (lrow (nops o)) = N).
  { unfold get_linear_gaussian_noise_operators_explicit_taylor, get_linear_noise_operators_explicit_taylor_expansion, get_linear_operators_for_noise in Eo.
    cbn [bfund bsize] in Eo. rewrite (proj2 (Nat.eqb_neq N 0) ltac:(lia)) in Eo. injection Eo as <-.
    unfold diagonal_noise_wf, diag_list_wf, noise_count, get_explicit_taylor_coefficients_gaussian. cbn [nops neig lbasis lrow lcol ldata real_array ashape array2 nprod bsize].
    rewrite map_length, seq_length. fold n. cbn [nprod fold_right]. repeat split; lia. }
  destruct W as [W [C0 B]]. split; [exact W|]. split; [exact C0|]. split; [exact B|]. intros x y Hx Hy.
  destruct (diagonal_kernel_spec o W C0) as [D' [ED' [_ HD]]]. rewrite ED in ED'. injection ED' as <-. rewrite B in HD.
  rewrite <- HD by assumption. apply VD; assumption.
Qed.

Lemma linear_axes_operators a lambda : forall axes sizes, linear_axes axes sizes ->
  exists os, linear_axis_operators axes a lambda sizes = Some os /\
    Forall (fun o => diagonal_noise_wf o /\ (0 < noise_count o)%nat) os /\ map (fun o => bsize (lrow (nops o))) os = map fst axes /\
    forall x y, in_shape x (map fst axes) -> in_shape y (map fst axes) -> product_of_kernels os x y = RtoC (linear_product a lambda axes sizes x y).
Proof.
  induction axes as [|[N dx] axes IH]; intros sizes H.
  - exists []. split; [reflexivity|]. split; [constructor|]. split; [reflexivity|]. intros x y Hx Hy. reflexivity.
  - destruct sizes as [|t sizes]; [destruct H|]. destruct H as [HN [Hn HR]].
    destruct (linear_axis N dx a lambda t HN Hn) as [o [Eo [W [C0 [B K]]]]]. destruct (IH sizes HR) as [os [Eos [Ws [Bs Ks]]]].
    exists (o :: os). cbn [linear_axis_operators]. rewrite Eo, Eos. split; [reflexivity|]. split; [constructor; [split; assumption|exact Ws]|].
    split; [cbn [map fst]; rewrite B, Bs; reflexivity|].
    intros x y Hx Hy. cbn [map fst] in Hx, Hy. inversion Hx as [|i ? x' ? Hi Hx']; subst. inversion Hy as [|j ? y' ? Hj Hy']; subst.
    cbn [product_of_kernels linear_product]. rewrite K, Ks by assumption. rewrite RtoC_mult. reflexivity.
Qed.

Lemma linear_stacked axes a lambda shape : linear_axes axes (sizes_of (length axes) shape) ->
  let s := map fst axes in
  exists o D, get_linear_gaussian_operators_explicit_taylor_stacked axes a lambda shape = Some o /\
    get_diagonal_kernel_from_diagonal_operators o = Some D /\ ashape D = [(nprod s * nprod s)%nat] /\
    forall x y, in_shape x s -> in_shape y s ->
      entry2 (nprod s) D (ravel s x) (ravel s y) = RtoC (linear_product a lambda axes (sizes_of (length axes) shape) x y).
Proof.
  intros Hg s. destruct (linear_axes_operators a lambda axes _ Hg) as [os [Eos [Ws [Bs Ks]]]].
  destruct (axis_operators_kernel os Ws) as [o [Eo [W [C [B K]]]]]. rewrite Bs in B, K. fold s in B, K, Ks.
  assert (C0 : (0 < noise_count o)%nat).
  { rewrite C. clear -Ws. induction Ws as [|o os [_ H] _ IH]; cbn [map nprod fold_right]; [cbn; lia|]. cbn [map nprod fold_right] in *. unfold nprod in *. cbn [fold_right]. nia. }
  destruct (diagonal_kernel_spec o W C0) as [D [ED [SD HD]]]. rewrite B in SD, HD.
  exists o, D. unfold get_linear_gaussian_operators_explicit_taylor_stacked. unfold sizes_of in Eos. rewrite Eos.
  split; [exact Eo|]. split; [exact ED|]. split; [exact SD|].
  intros x y Hx Hy. rewrite HD by (apply ravel_lt; assumption). rewrite K by assumption. apply Ks; assumption.
Qed.

(** ** The isotropic kernel of full operators *)
Lemma isotropic_of_operators o n : noise_wf o -> bsize (lrow (nops o)) = n -> bsize (lcol (nops o)) = n -> (0 < n)%nat -> (0 < noise_count o)%nat ->
  exists k, get_isotropic_kernel_from_operators false o = Some k /\ ashape k = [n] /\
    (forall j, (j < n)%nat -> aflat k j = diagonal_correlation o 0 j) /\
    ((exists k', get_isotropic_kernel_from_operators true o = Some k') <->
     forall i j e, (i < n)%nat -> (j < n)%nat -> (e < n)%nat -> Zcong (Z.of_nat n) (Z.of_nat e) (Z.of_nat i - Z.of_nat j) ->
       diagonal_correlation o i j = diagonal_correlation o 0 e).
Proof.
  intros [Wl We] R1 R2 Hn Hc.
  destruct (OperatorProofs2.as_diagonal_spec (nops o) Wl ltac:(congruence) ltac:(rewrite R1; exact Hn)) as [d [Ed [Wd [B1 [B2 [B3 V]]]]]].
  set (o' := {| nops := d; neig := neig o |}).
  assert (W' : diagonal_noise_wf o') by (split; [exact Wd|unfold o', noise_count; cbn [nops neig]; rewrite B1; exact We]).
  assert (C' : noise_count o' = noise_count o) by (unfold o', noise_count; cbn [nops]; rewrite B1; reflexivity).
  destruct (diagonal_kernel_spec o' W' ltac:(rewrite C'; exact Hc)) as [D [ED [SD VD]]].
  assert (N' : bsize (lrow (nops o')) = n) by (unfold o'; cbn [nops]; rewrite B2; exact R1). rewrite N' in SD, VD.
  assert (K : forall i j, (i < n)%nat -> (j < n)%nat -> entry2 n D i j = diagonal_correlation o i j).
  { intros i j Hi Hj. rewrite VD by assumption. unfold diagonal_kernel_of, diagonal_correlation. rewrite C'. apply csum_ext. intros a Ha.
    unfold o'. cbn [nops]. rewrite !V by (try assumption; rewrite ?R1; assumption). reflexivity. }
  assert (E : forall c, get_isotropic_kernel_from_operators c o = as_isotropic_kernel_from_diagonal c n D).
  { intros c. unfold get_isotropic_kernel_from_operators, as_diagonal_noise_operators_from_full. rewrite Ed. fold o'.
    unfold get_isotropic_kernel_from_diagonal_operators. rewrite ED, N'. reflexivity. }
  assert (SD' : nprod (ashape D) = (n * n)%nat) by (rewrite SD; cbn; lia).
  destruct (proj1 (isotropic_from_diagonal n D Hn SD')) as [k [Ek [Sk Vk]]].
  exists k. rewrite E. split; [exact Ek|]. split; [exact Sk|]. split; [intros j Hj; rewrite (Vk j Hj); apply K; assumption|].
  rewrite E. rewrite (isotropic_check n D Hn SD'). split.
  - intros H i j e Hi Hj He Hz. rewrite <- !K by assumption. apply H; assumption.
  - intros H i j e Hi Hj He Hz. rewrite !K by assumption. apply H; assumption.
Qed.

(** ** Kernels along the axes *)
Lemma fundamental_axis_kernels same axes k : identity_test same -> bwf (BTuple axes) -> explicit_orthonormal (BTuple axes) ->
  ashape k = [bsize (BTuple axes)] ->
  exists k', convert_isotropic_kernel_to_basis same (BTuple axes) k (BTuple (map (fun b => BFund (bfund b)) axes)) = Some k' /\
    ashape k' = [nprod (map bfund axes)] /\
    (forall x, (x < nprod (map bfund axes))%nat -> aflat k' x = amplitude (BTuple axes) (aflat k) x) /\
    get_fundamental_axis_kernels_from_isotropic same axes k = as_axis_kernel_from_isotropic (map bfund axes) k'.
Proof.
  intros Hs W O E. unfold get_fundamental_axis_kernels_from_isotropic, convert_isotropic_kernel_to_basis. rewrite E, Nat.eqb_refl.
  assert (P : BTuple (map (fun b => BFund (bfund b)) axes) = points axes) by reflexivity. rewrite P.
  destruct (proj2 (convert_some_iff same (BTuple axes) (points axes)) (proj1 (compatible_points axes))) as [F HF]. rewrite HF.
  assert (N : bsize (points axes) = nprod (map bfund axes)) by (unfold points, as_fundamental_position; cbn [bsize]; rewrite map_map; reflexivity).
  eexists. split; [reflexivity|]. split; [cbn [ashape]; rewrite N; reflexivity|]. split; [|reflexivity].
  intros x Hx. cbn [aflat]. rewrite (convert_orthonormal same Hs _ _ F W (points_wf axes W) O HF _ x ltac:(rewrite N; exact Hx)).
  unfold amplitude. apply csum_ext. intros i Hi. rewrite overlap_points by (try assumption). ring.
Qed.

(** One operator with elements off its diagonal. *)
Definition matrix_noise : noise_operators :=
  {| nops := {| lbasis := BFund 1; lrow := BFund 2; lcol := BFund 2; ldata := {| ashape := [4%nat]; aflat := fun i => RtoC (INR i + 1) |} |};
     neig := {| ashape := [1%nat]; aflat := fun _ => 2 |} |}.
Lemma matrix_noise_wf : noise_wf matrix_noise /\ bsize (lrow (nops matrix_noise)) = 2%nat /\ bsize (lcol (nops matrix_noise)) = 2%nat /\ (0 < noise_count matrix_noise)%nat.
Proof. split; [split; reflexivity|]. split; [reflexivity|]. split; [reflexivity|]. cbn. lia. Qed.
