(** Gaussian and lorentzian expansions; integer overflow. *)
From Coq Require Import Reals Lra Lia List Arith ZArith Psatz.
From Coquelicot Require Import Coquelicot.
From Verif Require Import ZLib Csum DFT NumPy Index Spec SpecBasis IndexProofs Basis Operator SpecOperator Kernel SpecKernel KernelProofs KernelProofs2 KernelProofs3 KernelFacts
  Dynamics SpecDynamics Spectral Oscillator Taylor SpecTaylor TaylorProofs TaylorProofs2 TaylorProofs3.
Import ListNotations.
Local Open Scope R_scope.
Local Open Scope C_scope.

Lemma pseries_scale q (s x l : R) : is_pseries q ((s * x) ^ 2)%R l -> is_pseries (fun m => (q m * (s ^ 2) ^ m)%R) (x ^ 2)%R l.
Proof.
  intros H. apply is_pseries_R. apply is_pseries_R in H. eapply is_series_ext; [|exact H]. intros m. cbv beta.
  rewrite Rpow_mult_distr, Rpow_mult_distr. rewrite <- !pow_mult. change (q m * (s ^ (2 * m) * x ^ (2 * m)) = q m * s ^ (2 * m) * x ^ (2 * m))%R. ring.
Qed.

Lemma explicit_of solve b N p c : bsize b = N -> (0 < N)%nat -> (0 < length p)%nat -> length c = length p ->
  get_cos_coefficients_for_taylor_series solve p None = Some c ->
  exists o, get_periodic_noise_operators_explicit_taylor_expansion solve b p (Some (length p)) = Some o /\
    diagonal_noise_wf o /\ (0 < noise_count o)%nat /\ bsize (lrow (nops o)) = N /\
    (forall x y, (x < N)%nat -> (y < N)%nat -> diagonal_kernel_of o x y = RtoC (cosine_series c (2 * PI * (INR x - INR y) / INR N))).
Proof.
  intros Hb HN Hp Lc Ec. destruct (periodic_operators_exist b (length p)) as [L EL]; [lia|].
  unfold get_periodic_noise_operators_explicit_taylor_expansion, get_periodic_coefficients_for_taylor_series. rewrite EL, Ec.
  destruct (periodic_kernel b N (length p) L c Hb HN Lc Hp EL) as [W [K [B H]]].
  eexists. split; [reflexivity|]. split; [exact W|]. split; [rewrite K; lia|]. split; [exact B|exact H].
Qed.

Lemma kernel_of_cosine o N c : diagonal_noise_wf o -> (0 < noise_count o)%nat -> bsize (lrow (nops o)) = N ->
  (forall x y, (x < N)%nat -> (y < N)%nat -> diagonal_kernel_of o x y = RtoC (cosine_series c (2 * PI * (INR x - INR y) / INR N))) ->
  exists D, get_diagonal_kernel_from_diagonal_operators o = Some D /\ cosine_kernel N c D.
Proof.
  intros W K B H. destruct (diagonal_kernel_spec o W K) as [D [ED [SD HD]]]. rewrite B in SD, HD. exists D. split; [exact ED|]. split; [exact SD|].
  intros x y Hx Hy. now rewrite HD, H.
Qed.

(** A polynomial given by its coefficients. *)
Lemma explicit_polynomial solve b N p k : solve_ok solve -> bsize b = N -> (0 < N)%nat -> (0 < length p)%nat -> significant p k -> (k <= 10)%nat ->
  exists o D c, get_periodic_noise_operators_explicit_taylor_expansion solve b p (Some (length p)) = Some o /\
    get_diagonal_kernel_from_diagonal_operators o = Some D /\ cosine_kernel N c D /\ length c = length p /\
    agree_to_order (2 * k) (cosine_series c) (even_polynomial p).
Proof.
  intros Hs Hb HN Hp Hk H10. destruct (explicit_taylor solve b N p k Hs Hb HN Hp Hk H10) as [o [c [Eo [W [K [B [Lc [Hc H]]]]]]]].
  destruct (kernel_of_cosine o N c W K B H) as [D [ED HD]]. exists o, D, c. repeat (split; [assumption|]).
  apply (cosine_agrees c p k Hc _ 1%R Rlt_0_1). intros x _. apply even_polynomial_pseries.
Qed.

Lemma gaussian_series_length a s n : length (gaussian_series a s n) = n.
Proof. unfold gaussian_series. now rewrite map_length, seq_length. Qed.
Lemma gaussian_series_nth a s n m : (m < n)%nat -> nth m (gaussian_series a s n) 0%R = (a ^ 2 / INR (fact m) * (-1 / (2 * s ^ 2)) ^ m)%R.
Proof. intros H. unfold gaussian_series. exact (seq_map_nth (fun m => (a ^ 2 / INR (fact m) * (-1 / (2 * s ^ 2)) ^ m)%R) n m H). Qed.

Lemma gaussian_agrees c dx a lambda n k : dx <> 0%R -> lambda <> 0%R -> (k <= n)%nat ->
  (forall m, (m < k)%nat -> rsum (fun i => (nth i c 0 * exact_matrix m i)%R) (length c) = nth m (gaussian_series a (2 * PI * lambda / dx)%R n) 0%R) ->
  agree_to_order (2 * k) (fun d => cosine_series c (2 * PI / dx * d)) (fun d => (a ^ 2 * exp (- d ^ 2 / (2 * lambda ^ 2)))%R).
Proof.
  intros Hd Hl Hk H. set (s := (2 * PI / dx)%R).
  apply (agree_even _ _ (fun m => (rsum (fun i => (nth i c 0 * exact_matrix m i)%R) (length c) * (s ^ 2) ^ m)%R)
           (fun m => (a ^ 2 / INR (fact m) * (-1 / (2 * lambda ^ 2)) ^ m)%R) 1%R k Rlt_0_1).
  - intros x _. apply pseries_scale. apply cosine_series_pseries.
  - intros x _. apply gaussian_pseries.
  - intros m Hm. rewrite H, gaussian_series_nth by lia. replace (2 * PI * lambda / dx)%R with (s * lambda)%R by (unfold s; field; exact Hd).
    assert (s <> 0)%R by (unfold s; apply Rmult_integral_contrapositive; split; [pose proof PI_RGT_0; lra|apply Rinv_neq_0_compat; exact Hd]).
    rewrite Rmult_assoc. f_equal. rewrite <- Rpow_mult_distr. f_equal. field. split; assumption.
Qed.

Lemma gaussian_axis solve b N dx a lambda n_terms k : solve_ok solve -> bfund b = N -> (0 < N)%nat -> (0 < terms_of n_terms N)%nat -> dx <> 0%R -> lambda <> 0%R ->
  significant (gaussian_series a (2 * PI * lambda / dx) (terms_of n_terms N)) k -> (k <= 10)%nat ->
  exists o c, get_periodic_gaussian_operators_explicit_taylor solve b dx a lambda n_terms = Some o /\
    (diagonal_noise_wf o /\ (0 < noise_count o)%nat) /\ bsize (lrow (nops o)) = N /\ length c = terms_of n_terms N /\
    (forall x y, (x < N)%nat -> (y < N)%nat -> diagonal_kernel_of o x y = RtoC (cosine_series c (2 * PI * (INR x - INR y) / INR N))) /\
    agree_to_order (2 * k) (fun d => cosine_series c (2 * PI / dx * d)) (fun d => (a ^ 2 * exp (- d ^ 2 / (2 * lambda ^ 2)))%R).
Proof.
  intros Hs Hb HN Hn Hd Hl Hk H10. unfold get_periodic_gaussian_operators_explicit_taylor. rewrite Hb. cbn [bsize]. fold (terms_of n_terms N).
  set (n := terms_of n_terms N) in *. change (get_explicit_taylor_coefficients_gaussian a (2 * PI * lambda / dx) n) with (gaussian_series a (2 * PI * lambda / dx) n).
  set (p := gaussian_series a (2 * PI * lambda / dx) n) in *. assert (Lp : length p = n) by apply gaussian_series_length.
  destruct (explicit_taylor solve (BFund N) N p k Hs eq_refl HN) as [o [c [Eo [W [K [B [Lc [Hc H]]]]]]]]; try assumption; [lia|]. rewrite Lp in Eo.
  exists o, c. split; [exact Eo|]. split; [split; assumption|]. split; [exact B|]. split; [lia|]. split; [exact H|].
  apply (gaussian_agrees c dx a lambda n k Hd Hl); [|exact Hc]. destruct Hk as [mx [_ [_ [Hk _]]]]. lia.
Qed.

Lemma gaussian_kernel solve b N dx a lambda n_terms k : solve_ok solve -> bfund b = N -> (0 < N)%nat -> (0 < terms_of n_terms N)%nat -> dx <> 0%R -> lambda <> 0%R ->
  significant (gaussian_series a (2 * PI * lambda / dx) (terms_of n_terms N)) k -> (k <= 10)%nat ->
  exists o D c, get_periodic_gaussian_operators_explicit_taylor solve b dx a lambda n_terms = Some o /\
    get_diagonal_kernel_from_diagonal_operators o = Some D /\ cosine_kernel N c D /\ length c = terms_of n_terms N /\
    agree_to_order (2 * k) (fun d => cosine_series c (2 * PI / dx * d)) (fun d => (a ^ 2 * exp (- d ^ 2 / (2 * lambda ^ 2)))%R).
Proof.
  intros Hs Hb HN Hn Hd Hl Hk H10. destruct (gaussian_axis solve b N dx a lambda n_terms k Hs Hb HN Hn Hd Hl Hk H10) as [o [c [Eo [[W K] [B [Lc [H A]]]]]]].
  destruct (kernel_of_cosine o N c W K B H) as [D [ED HD]]. exists o, D, c. repeat (split; [assumption|]). exact A.
Qed.

(** ** Stacked *)

Lemma gaussian_axes_length solve a lambda : forall axes sizes os, gaussian_axis_operators solve axes a lambda sizes = Some os -> length os = length axes.
Proof.
  induction axes as [|[n dx] axes IH]; intros sizes os E; cbn in E; [now injection E as <-|].
  destruct sizes as [|t sizes]; [discriminate|]. destruct (get_periodic_gaussian_operators_explicit_taylor _ _ _ _ _ _); [|discriminate].
  destruct (gaussian_axis_operators solve axes a lambda sizes) eqn:E'; [|discriminate]. injection E as <-. cbn. f_equal. eapply IH, E'.
Qed.

Lemma gaussian_axes solve a lambda : solve_ok solve -> lambda <> 0%R -> forall axes sizes ks, good_axes a lambda axes sizes ks ->
  exists os cs, gaussian_axis_operators solve axes a lambda sizes = Some os /\
    Forall (fun o => diagonal_noise_wf o /\ (0 < noise_count o)%nat) os /\ map (fun o => bsize (lrow (nops o))) os = map fst axes /\
    (forall x y, in_shape x (map fst axes) -> in_shape y (map fst axes) -> product_of_kernels os x y = RtoC (series_product axes cs x y)) /\
    length cs = length axes /\
    forall i, (i < length axes)%nat ->
      agree_to_order (2 * nth i ks 0%nat) (fun d => cosine_series (nth i cs []) (2 * PI / snd (nth i axes (0%nat, 0%R)) * d)) (fun d => (a ^ 2 * exp (- d ^ 2 / (2 * lambda ^ 2)))%R).
Proof.
  intros Hs Hl. induction axes as [|[N dx] axes IH]; intros sizes ks H.
  - exists [], []. split; [reflexivity|]. split; [constructor|]. split; [reflexivity|]. split; [intros; reflexivity|]. split; [reflexivity|]. intros i Hi. cbn in Hi. lia.
  - destruct sizes as [|t sizes]; [destruct H|]. destruct ks as [|k ks]; [destruct H|]. destruct H as [[HN [Ht [Hd [Hk H10]]]] HR].
    destruct (gaussian_axis solve (BFund N) N dx a lambda t k Hs eq_refl HN Ht Hd Hl Hk) as [o [c [Eo [W [B [Lc [K A]]]]]]]; [lia|].
    destruct (IH sizes ks HR) as [os [cs [Eos [Ws [Bs [Ks [Ls As]]]]]]].
    exists (o :: os), (c :: cs). cbn [gaussian_axis_operators]. rewrite Eo, Eos. split; [reflexivity|]. split; [now constructor|]. split; [cbn [map fst]; now rewrite B, Bs|].
    split; [|split; [cbn; now rewrite Ls|]].
    + intros x y Hx Hy. cbn [map fst] in Hx, Hy. inversion Hx as [|i ? x' ? Hi Hx']; subst. inversion Hy as [|j ? y' ? Hj Hy']; subst.
      cbn [product_of_kernels series_product]. rewrite K, Ks by assumption. now rewrite RtoC_mult.
    + intros [|i] Hi; cbn [nth snd]; [exact A|]. apply As. cbn in Hi. lia.
Qed.

Lemma gaussian_stacked solve axes a lambda shape ks : solve_ok solve -> lambda <> 0%R -> good_axes a lambda axes (sizes_of (length axes) shape) ks ->
  let s := map fst axes in
  exists o D cs, get_periodic_gaussian_operators_explicit_taylor_stacked solve axes a lambda shape = Some o /\
    get_diagonal_kernel_from_diagonal_operators o = Some D /\ ashape D = [(nprod s * nprod s)%nat] /\
    (forall x y, in_shape x s -> in_shape y s -> entry2 (nprod s) D (ravel s x) (ravel s y) = RtoC (series_product axes cs x y)) /\
    length cs = length axes /\
    forall i, (i < length axes)%nat ->
      agree_to_order (2 * nth i ks 0%nat) (fun d => cosine_series (nth i cs []) (2 * PI / snd (nth i axes (0%nat, 0%R)) * d)) (fun d => (a ^ 2 * exp (- d ^ 2 / (2 * lambda ^ 2)))%R).
Proof.
  intros Hs Hl Hg s. destruct (gaussian_axes solve a lambda Hs Hl axes _ ks Hg) as [os [cs [Eos [Ws [Bs [Ks [Ls As]]]]]]].
  destruct (axis_operators_kernel os Ws) as [o [Eo [W [C [B K]]]]]. rewrite Bs in B, K. fold s in B, K, Ks.
  assert (C0 : (0 < noise_count o)%nat).
  { rewrite C. clear -Ws. induction Ws as [|o os [_ H] _ IH]; cbn [map nprod]; [lia|]. nia. }
  destruct (diagonal_kernel_spec o W C0) as [D [ED [SD HD]]]. rewrite B in SD, HD.
  exists o, D, cs. unfold get_periodic_gaussian_operators_explicit_taylor_stacked. unfold sizes_of in Eos. rewrite Eos.
  split; [exact Eo|]. split; [exact ED|]. split; [exact SD|]. split; [|split; assumption].
  intros x y Hx Hy. rewrite HD by (now apply ravel_lt). rewrite K by assumption. now apply Ks.
Qed.

Lemma series_product_diagonal a axes cs : (forall i, (i < length axes)%nat -> cosine_series (nth i cs []) 0 = (a ^ 2)%R) -> length cs = length axes ->
  forall x, length x = length axes -> series_product axes cs x x = (a ^ (2 * length axes))%R.
Proof.
  revert cs. induction axes as [|[N dx] axes IH]; intros cs H L x Lx; [reflexivity|]. destruct cs as [|c cs]; [discriminate|]. destruct x as [|i x]; [discriminate|].
  cbn [series_product length]. rewrite IH; [|intros j Hj; exact (H (S j) ltac:(cbn; lia))|now injection L|now injection Lx].
  specialize (H 0%nat ltac:(cbn; lia)). cbn [nth] in H. replace (2 * PI * (INR i - INR i) / INR N)%R with 0%R by (unfold Rdiv; ring). rewrite H.
  replace (2 * S (length axes))%nat with (2 + 2 * length axes)%nat by lia. now rewrite pow_add.
Qed.

(** ** Linear operators *)

Lemma linear_kernel b p : (0 < bsize b)%nat -> (0 < length p)%nat ->
  forall d : nat -> Z, (forall j, (j < bsize b)%nat -> Zcong (Z.of_nat (bsize b)) (d j) (Z.of_nat (bsize b / 2) - Z.of_nat j) /\
      (- (Z.of_nat (bsize b) / 2) <= d j < - (Z.of_nat (bsize b) / 2) + Z.of_nat (bsize b))%Z) ->
  exists o D, get_linear_noise_operators_explicit_taylor_expansion b p (Some (length p)) = Some o /\
    get_diagonal_kernel_from_diagonal_operators o = Some D /\ ashape D = [(bsize b * bsize b)%nat] /\
    forall x y, (x < bsize b)%nat -> (y < bsize b)%nat -> entry2 (bsize b) D x y =
      RtoC (rsum (fun m => (nth m p 0 * ((2 * PI * IZR (d x) / INR (bsize b)) * (2 * PI * IZR (d y) / INR (bsize b))) ^ m)%R) (length p)).
Proof.
  intros Hb Hp d Hd. set (N := bsize b) in *.
  assert (Ed : forall j, (j < N)%nat -> displacements_matrix_nx N (N / 2) j = d j).
  { intros j Hj. destruct (Hd j Hj) as [[q Hq] Hr]. destruct (displacements_matrix_nx_spec N (N / 2) j Hb) as [[r Hr'] Hs].
    set (D := displacements_matrix_nx N (N / 2) j) in *. assert (r = q); nia. }
  unfold get_linear_noise_operators_explicit_taylor_expansion, get_linear_operators_for_noise. fold N. rewrite (proj2 (Nat.eqb_neq N 0) ltac:(lia)).
  set (L := {| lbasis := _ |}). set (o := {| nops := L; neig := real_array p |}).
  assert (W : diagonal_noise_wf o).
  { unfold o, L, diagonal_noise_wf, diag_list_wf, noise_count. cbn [nops neig lbasis lrow lcol ldata real_array ashape array2 nprod bsize]. fold N. repeat split; lia. }
  destruct (diagonal_kernel_spec o W) as [D [ED [SD HD]]]; [unfold noise_count, o, L; cbn; lia|].
  change (bsize (lrow (nops o))) with N in SD, HD. exists o, D. split; [reflexivity|]. split; [exact ED|]. split; [exact SD|]. intros x y Hx Hy. rewrite HD by assumption.
  unfold diagonal_kernel_of. change (noise_count o) with (length p). rewrite <- csum_RtoC. apply csum_ext. intros m Hm.
  assert (Eop : forall j, (j < N)%nat -> diag_entry (nops o) m j = RtoC ((2 * PI * IZR (d j) / INR N) ^ m)%R).
  { intros j Hj. unfold diag_entry, o, L. cbn [nops ldata aflat array2 lrow]. fold N. rewrite Nat.div_add_l, (Nat.div_small j N) by lia. rewrite (Nat.add_comm (m * N)), Nat.mod_add, (Nat.mod_small j N), Nat.add_0_r by lia.
    rewrite Ed by assumption. reflexivity. }
  rewrite !Eop by assumption. unfold eigenvalue, o. cbn [neig real_array aflat]. rewrite Cconj_RtoC, <- !RtoC_mult, Rpow_mult_distr. f_equal. ring.
Qed.

Lemma agree_value n f g : (0 < n)%nat -> agree_to_order n f g -> f 0%R = g 0%R.
Proof. intros Hn H. destruct (H 0%nat Hn) as [_ [_ E]]. exact E. Qed.

Lemma good_axes_k a lambda : forall axes sizes ks, good_axes a lambda axes sizes ks -> forall i, (i < length axes)%nat -> (0 < nth i ks 0)%nat.
Proof.
  induction axes as [|[N dx] axes IH]; intros sizes ks H i Hi; [cbn in Hi; lia|]. destruct sizes; [destruct H|]. destruct ks; [destruct H|]. destruct H as [[_ [_ [_ [_ H]]]] HR].
  destruct i; cbn [nth]; [lia|]. apply (IH _ _ HR). cbn in Hi. lia.
Qed.

Lemma stacked_zero solve axes a lambda shape ks : solve_ok solve -> lambda <> 0%R -> good_axes a lambda axes (sizes_of (length axes) shape) ks ->
  let s := map fst axes in
  exists o D, get_periodic_gaussian_operators_explicit_taylor_stacked solve axes a lambda shape = Some o /\
    get_diagonal_kernel_from_diagonal_operators o = Some D /\
    forall x, in_shape x s -> entry2 (nprod s) D (ravel s x) (ravel s x) = RtoC (a ^ (2 * length axes)).
Proof.
  intros Hs Hl Hg s. destruct (gaussian_stacked solve axes a lambda shape ks Hs Hl Hg) as [o [D [cs [Eo [ED [_ [V [L A]]]]]]]]. exists o, D. split; [exact Eo|]. split; [exact ED|].
  intros x Hx. rewrite V by assumption. f_equal. apply series_product_diagonal; [|exact L|].
  - intros i Hi. pose proof (agree_value (2 * nth i ks 0%nat) _ _ ltac:(pose proof (good_axes_k a lambda axes _ ks Hg i Hi); lia) (A i Hi)) as E. cbv beta in E.
    rewrite Rmult_0_r in E. rewrite E. replace (- 0 ^ 2 / (2 * lambda ^ 2))%R with 0%R by (field; exact Hl). rewrite exp_0. ring.
  - apply in_shape_length in Hx. rewrite Hx. unfold s. now rewrite map_length.
Qed.

(** The coefficients are determined by the agreement. *)
Lemma cosine_unique c c' r : length c = length c' -> (forall i, (r <= i)%nat -> nth i c 0%R = 0%R) -> (forall i, (r <= i)%nat -> nth i c' 0%R = 0%R) -> (r <= length c)%nat ->
  forall g, agree_to_order (2 * r) (cosine_series c) g -> agree_to_order (2 * r) (cosine_series c') g -> c = c'.
Proof.
  intros L Z Z' Hr g A A'. apply (nth_ext _ _ 0%R 0%R L). intros i Hi. destruct (Nat.lt_ge_cases i r) as [Hir|Hir]; [|now rewrite Z, Z'].
  assert (E : forall m, (m < r)%nat -> rsum (fun i => (nth i c 0 * exact_matrix m i)%R) (length c) = rsum (fun i => (nth i c' 0 * exact_matrix m i)%R) (length c')).
  { intros m Hm. destruct (A (2 * m)%nat ltac:(lia)) as [_ [_ E]], (A' (2 * m)%nat ltac:(lia)) as [_ [_ E']]. rewrite <- E' in E.
    destruct (even_taylor (cosine_series c) _ 1%R Rlt_0_1 (fun x _ => cosine_series_pseries c x) (2 * m)) as [_ D].
    destruct (even_taylor (cosine_series c') _ 1%R Rlt_0_1 (fun x _ => cosine_series_pseries c' x) (2 * m)) as [_ D'].
    rewrite D, D', !spread_even in E. apply Rmult_eq_reg_r in E; [exact E|apply INR_fact_neq_0]. }
  assert (Q : RtoC (nth i c 0) - RtoC (nth i c' 0) = 0).
  { apply (exact_injective r (fun i => RtoC (nth i c 0) - RtoC (nth i c' 0))); [|exact Hir]. intros m Hm. specialize (E m Hm).
    rewrite (rsum_extend _ r (length c)) in E by (try lia; intros; rewrite Z by lia; ring). rewrite (rsum_extend _ r (length c')) in E by (try lia; intros; rewrite Z' by lia; ring).
    apply (f_equal RtoC) in E. rewrite <- !csum_RtoC in E.
    rewrite (csum_ext _ (fun i => RtoC (nth i c 0 * exact_matrix m i)%R - RtoC (nth i c' 0 * exact_matrix m i)%R)) by (intros; rewrite !RtoC_mult; ring).
    rewrite csum_minus, E. ring. }
  rewrite <- RtoC_minus in Q. apply RtoC_inj in Q. lra.
Qed.

Lemma cosine_coefficients solve p n_terms k : solve_ok solve -> significant p k -> (Nat.min k (terms p n_terms) <= 10)%nat ->
  exists c, get_cos_coefficients_for_taylor_series solve p n_terms = Some c /\ length c = terms p n_terms /\
    (forall i, (Nat.min k (terms p n_terms) <= i)%nat -> nth i c 0%R = 0%R) /\
    agree_to_order (2 * Nat.min k (terms p n_terms)) (cosine_series c) (even_polynomial p) /\
    forall c', length c' = terms p n_terms -> (forall i, (Nat.min k (terms p n_terms) <= i)%nat -> nth i c' 0%R = 0%R) ->
      agree_to_order (2 * Nat.min k (terms p n_terms)) (cosine_series c') (even_polynomial p) -> c' = c.
Proof.
  intros Hs Hk H10. destruct (cos_coefficients solve p n_terms k Hs Hk H10) as [c [Ec [Lc [Zc Hc]]]].
  assert (A : agree_to_order (2 * Nat.min k (terms p n_terms)) (cosine_series c) (even_polynomial p)).
  { apply (cosine_agrees c p _ Hc _ 1%R Rlt_0_1). intros x _. apply even_polynomial_pseries. }
  exists c. repeat (split; [assumption|]). intros c' L' Z' A'. symmetry. apply (cosine_unique c c' _ ltac:(now rewrite Lc, L') Zc Z' ltac:(lia) _ A A').
Qed.
