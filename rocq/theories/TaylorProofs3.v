(** The cosine coefficients and the operators made of them. *)
From Coq Require Import Reals Lra Lia List Arith ZArith Psatz.
From Coquelicot Require Import Coquelicot.
From Verif Require Import ZLib Csum DFT NumPy Spec SpecBasis Basis Operator SpecOperator Kernel SpecKernel KernelProofs KernelProofs2 KernelFacts
  Dynamics SpecDynamics Spectral Oscillator Taylor SpecTaylor TaylorProofs TaylorProofs2.
Import ListNotations.
Local Open Scope R_scope.
Local Open Scope C_scope.

Lemma fold_max l : forall x, (forall y, In y (x :: l) -> (y <= fold_left Rmax l x)%R) /\ In (fold_left Rmax l x) (x :: l).
Proof.
  induction l as [|z l IH]; intros x; cbn [fold_left].
  - split; [intros y [<-|[]]; lra|now left].
  - destruct (IH (Rmax x z)) as [A B]. split.
    + intros y [<-|[<-|H]]; [|  |apply A; now right]; eapply Rle_trans; [|apply A; now left| |apply A; now left]; [apply Rmax_l|apply Rmax_r].
    + destruct B as [B|B]; [|right; now right]. rewrite <- B. unfold Rmax. destruct (Rle_dec x z); [right; now left|now left].
Qed.

Lemma maximum_unique p mx : In mx p -> (forall x, In x p -> (x <= mx)%R) -> polynomial_max p = Some mx.
Proof.
  destruct p as [|x p]; [intros []|]. intros Hi Hm. cbn. f_equal. destruct (fold_max p x) as [A B]. apply Rle_antisym; [now apply Hm|now apply A].
Qed.

Lemma first_close_spec atol : forall p k, (k <= length p)%nat -> (forall m, (m < k)%nat -> (atol < Rabs (nth m p 0%R))%R) ->
  ((k < length p)%nat -> (Rabs (nth k p 0%R) <= atol)%R) -> first_close atol p = k.
Proof.
  induction p as [|x p IH]; intros k Hk H H'; cbn in *; [lia|]. destruct (Rle_dec (Rabs x) atol) as [Hle|Hgt].
  - destruct k as [|k]; [reflexivity|]. specialize (H 0%nat ltac:(lia)). cbn in H. lra.
  - destruct k as [|k]; [specialize (H' ltac:(lia)); cbn in H'; lra|]. f_equal. apply IH; [lia| |].
    + intros m Hm. exact (H (S m) ltac:(lia)).
    + intros Hl. exact (H' ltac:(lia)).
Qed.

(** Powers of at most 9 to at most 18 do not wrap. *)
Lemma power_exact i m : (i < 10)%nat -> (m < 10)%nat -> IZR (i64 (Z.of_nat i ^ Z.of_nat (2 * m))) = (INR i ^ (2 * m))%R.
Proof.
  intros Hi Hm. rewrite INR_IZR_INZ, pow_IZR. f_equal. unfold i64. rewrite Z.mod_small; [lia|].
  assert (0 <= Z.of_nat i ^ Z.of_nat (2 * m) <= 10 ^ 18)%Z.
  { split; [apply Z.pow_nonneg; lia|]. apply Z.le_trans with (10 ^ Z.of_nat (2 * m))%Z; [apply Z.pow_le_mono_l; lia|apply Z.pow_le_mono_r; lia]. }
  lia.
Qed.

Definition exact_matrix (m i : nat) : R := ((-1) ^ m / INR (fact (2 * m)) * INR i ^ (2 * m))%R.

Lemma RtoC_pow (x : R) n : RtoC (x ^ n)%R = Cpow (RtoC x) n.
Proof. induction n as [|n IH]; [reflexivity|]. cbn. rewrite RtoC_mult, IH. reflexivity. Qed.

Lemma prefactor_nonzero m : ((-1) ^ m / INR (fact (2 * m)) <> 0)%R.
Proof. unfold Rdiv. apply Rmult_integral_contrapositive. split; [apply pow_nonzero; lra|apply Rinv_neq_0_compat, INR_fact_neq_0]. Qed.

Lemma exact_injective n (x : nat -> C) : (forall m, (m < n)%nat -> csum (fun i => RtoC (exact_matrix m i) * x i) n = 0) -> forall j, (j < n)%nat -> x j = 0.
Proof.
  intros H. apply (nodes_injective n (fun i => RtoC (INR i ^ 2))).
  - intros i j Hi Hj E. apply RtoC_inj in E. apply INR_eq. pose proof (pos_INR i). pose proof (pos_INR j). nra.
  - intros m Hm. specialize (H m Hm). pose proof (prefactor_nonzero m) as Hp. set (c := ((-1) ^ m / INR (fact (2 * m)))%R) in *.
    rewrite (csum_ext _ (fun i => RtoC (/ c) * (RtoC (exact_matrix m i) * x i))).
    + rewrite csum_scal_l, H. ring.
    + intros i Hi. unfold exact_matrix. fold c. rewrite <- RtoC_pow, <- pow_mult, Cmult_assoc. f_equal. rewrite <- RtoC_mult. f_equal. field. exact Hp.
Qed.

Lemma taylor_exact m i : (i < 10)%nat -> (m < 10)%nat -> taylor_matrix m i = exact_matrix m i.
Proof. intros Hi Hm. unfold taylor_matrix, exact_matrix. now rewrite power_exact. Qed.

Lemma taylor_solvable n : (n <= 10)%nat -> exists W, inverse_matrices n (fun m i => RtoC (taylor_matrix m i)) W.
Proof.
  intros Hn. apply injective_inverse. intros x H. apply exact_injective. intros m Hm. rewrite <- (H m Hm). apply csum_ext. intros i Hi.
  rewrite taylor_exact by lia. reflexivity.
Qed.

Lemma seq_map_nth (f : nat -> R) n i : (i < n)%nat -> nth i (map f (seq 0 n)) 0%R = f i.
Proof. intros H. rewrite (nth_indep _ 0%R (f 0%nat)) by (now rewrite map_length, seq_length). rewrite map_nth, seq_nth by assumption. reflexivity. Qed.

Lemma rsum_extend (f : nat -> R) k n : (k <= n)%nat -> (forall i, (k <= i < n)%nat -> f i = 0%R) -> rsum f n = rsum f k.
Proof. intros Hk H. induction n as [|n IH]; [now replace k with 0%nat by lia|]. destruct (Nat.eq_dec k (S n)) as [->|]; [reflexivity|]. cbn. rewrite H, IH by (try lia; intros; apply H; lia). ring. Qed.


Lemma cos_coefficients solve p n_terms k : solve_ok solve -> significant p k -> (Nat.min k (terms p n_terms) <= 10)%nat ->
  exists c, get_cos_coefficients_for_taylor_series solve p n_terms = Some c /\ length c = terms p n_terms /\
    (forall i, (Nat.min k (terms p n_terms) <= i)%nat -> nth i c 0%R = 0%R) /\
    forall m, (m < Nat.min k (terms p n_terms))%nat -> rsum (fun i => (nth i c 0 * exact_matrix m i)%R) (length c) = nth m p 0%R.
Proof.
  intros Hs [mx [Hi [Hm [Hl [H1 H2]]]]] Hk. unfold get_cos_coefficients_for_taylor_series. fold (terms p n_terms). set (n := terms p n_terms) in *.
  rewrite (maximum_unique p mx Hi Hm). cbv zeta. rewrite (first_close_spec _ p k Hl H1 H2). set (r := Nat.min k n) in *.
  destruct (Hs r _ (fun m => RtoC (nth m p 0%R)) (taylor_solvable r Hk)) as [x [-> Hx]]. eexists. split; [reflexivity|].
  split; [now rewrite map_length, seq_length|]. split.
  - intros i Hri. destruct (Nat.lt_ge_cases i n) as [Hin|Hin]; [|apply nth_overflow; rewrite map_length, seq_length; exact Hin].
    rewrite seq_map_nth by assumption. now rewrite (proj2 (Nat.ltb_ge i r) Hri).
  - intros m Hmr. rewrite map_length, seq_length. rewrite (rsum_extend _ r n).
    + specialize (Hx m Hmr). unfold applied in Hx. apply (f_equal fst) in Hx. change (fst (RtoC (nth m p 0%R))) with (nth m p 0%R) in Hx. rewrite <- Hx.
      assert (F : forall (f : nat -> C) N, fst (csum f N) = rsum (fun i => fst (f i)) N) by (intros f N; induction N as [|N IH]; [reflexivity|]; cbn; now rewrite IH).
      rewrite F. apply rsum_ext. intros i Hir. rewrite seq_map_nth by (unfold r in Hir; lia). rewrite (proj2 (Nat.ltb_lt i r) Hir). rewrite taylor_exact by lia. cbn. ring.
    + unfold r; lia.
    + intros i Hir. rewrite seq_map_nth by lia. rewrite (proj2 (Nat.ltb_ge i r)) by lia. ring.
Qed.

Lemma cosine_agrees c p k : (forall m, (m < k)%nat -> rsum (fun i => (nth i c 0 * exact_matrix m i)%R) (length c) = nth m p 0%R) ->
  forall g r, (0 < r)%R -> (forall x, (Rabs x < r)%R -> is_pseries (fun m => nth m p 0%R) (x ^ 2)%R (g x)) -> agree_to_order (2 * k) (cosine_series c) g.
Proof.
  intros H g r Hr Hg. apply (agree_even _ _ (fun m => rsum (fun i => (nth i c 0 * exact_matrix m i)%R) (length c)) (fun m => nth m p 0%R) r); try assumption.
  intros x Hx. apply cosine_series_pseries.
Qed.

(** ** The noise operators *)

Lemma real_array_wf l : ashape (real_array l) = [length l].
Proof. reflexivity. Qed.

Lemma mirrored (c : list R) n a : length c = n -> (0 < n)%nat -> (a < n + (n - 1))%nat ->
  nth a (c ++ rev (tl c)) 0%R = if (a <? n)%nat then nth a c 0%R else nth (n - 1 - (a - n)) c 0%R.
Proof.
  intros Hl Hn Ha. destruct (Nat.ltb_spec a n) as [H|H]; [apply app_nth1; lia|]. rewrite app_nth2 by lia.
  destruct c as [|x c]; cbn in Hl; [lia|]. cbn [tl length]. rewrite Hl, rev_nth by lia. replace (n - 1 - (a - n))%nat with (S (length c - S (a - n)))%nat by lia. reflexivity.
Qed.

Lemma periodic_kernel b N n L c : bsize b = N -> (0 < N)%nat -> length c = n -> (0 < n)%nat ->
  get_periodic_operators_for_real_isotropic_noise true b (Some n) None = Some L ->
  let o := {| nops := L; neig := real_array (map (fun x => (x * INR (bsize b))%R) (c ++ rev (tl c))) |} in
  diagonal_noise_wf o /\ noise_count o = (n + (n - 1))%nat /\ bsize (lrow (nops o)) = N /\
  forall x y, (x < N)%nat -> (y < N)%nat -> diagonal_kernel_of o x y = RtoC (cosine_series c (2 * PI * (INR x - INR y) / INR N)).
Proof.
  intros Hb HN Hc Hn HL o.
  pose proof HL as HL'. unfold get_periodic_operators_for_real_isotropic_noise in HL'. rewrite Hb in HL'.
  destruct (true && negb (periodic_sample [N] [N]))%bool eqn:P; [discriminate|]. injection HL' as EL.
  assert (W : diagonal_noise_wf o).
  { unfold o, diagonal_noise_wf, diag_list_wf, noise_count. cbn [nops neig]. rewrite real_array_wf, map_length, app_length, rev_length.
    assert (T : length (tl c) = (n - 1)%nat) by (destruct c; cbn in *; lia). rewrite T, Hc. rewrite <- EL. cbn. rewrite Hb. repeat split; try reflexivity; lia. }
  assert (K : noise_count o = (n + (n - 1))%nat) by (unfold o, noise_count; cbn [nops]; rewrite <- EL; reflexivity).
  assert (B : bsize (lrow (nops o)) = N) by (unfold o; cbn [nops]; rewrite <- EL; exact Hb).
  split; [exact W|]. split; [exact K|]. split; [exact B|]. intros x y Hx Hy.
  destruct (cos_sin_kernel true b n None N L (fun i => RtoC (nth i c 0%R)) Hb HN Hn HN (Nat.mod_same N ltac:(lia)) HL) as [D [ED [SD HD]]]. cbv zeta in ED.
  set (e := {| nops := L; neig := _ |}) in ED.
  assert (We : diagonal_noise_wf e).
  { destruct W as [W1 W2]. split; [exact W1|]. unfold noise_count in *. unfold e, o in *. cbn [nops neig ashape] in *. now rewrite K. }
  destruct (diagonal_kernel_spec e We) as [D' [ED' [_ HD']]]; [unfold noise_count in *; unfold e, o in *; cbn [nops] in *; lia|].
  rewrite ED in ED'. injection ED' as <-. change (bsize (lrow (nops e))) with (bsize (lrow (nops o))) in HD'. rewrite B in HD'.
  transitivity (diagonal_kernel_of e x y).
  - unfold diagonal_kernel_of. change (noise_count e) with (noise_count o). rewrite K. apply csum_ext. intros a Ha. do 2 f_equal.
    unfold eigenvalue, o, e. cbn [neig aflat real_array]. rewrite (nth_indep _ 0%R ((fun z => z * INR (bsize b))%R 0%R)) by (rewrite map_length, app_length, rev_length; destruct c; cbn in *; lia).
    rewrite (map_nth (fun z => (z * INR (bsize b))%R)), (mirrored c n a Hc Hn Ha), Hb, RtoC_mult. destruct (a <? n)%nat; ring.
  - rewrite <- HD' by assumption. rewrite HD by assumption. unfold cosine_series. rewrite Hc, <- csum_RtoC. apply csum_ext. intros i Hi. rewrite <- RtoC_mult. do 3 f_equal. unfold Rdiv. ring.
Qed.

Lemma periodic_operators_exist b n : (0 < bsize b)%nat -> exists L, get_periodic_operators_for_real_isotropic_noise true b (Some n) None = Some L.
Proof. intros H. apply cos_sin_exists. intros _. apply periodic_sample_1. split; [lia|]. apply Nat.mod_same. lia. Qed.

(** ** Explicit Taylor expansions *)

Lemma explicit_taylor solve b N p k : solve_ok solve -> bsize b = N -> (0 < N)%nat -> (0 < length p)%nat -> significant p k -> (k <= 10)%nat ->
  exists o c, get_periodic_noise_operators_explicit_taylor_expansion solve b p (Some (length p)) = Some o /\
    diagonal_noise_wf o /\ (0 < noise_count o)%nat /\ bsize (lrow (nops o)) = N /\ length c = length p /\
    (forall m, (m < k)%nat -> rsum (fun i => (nth i c 0 * exact_matrix m i)%R) (length c) = nth m p 0%R) /\
    forall x y, (x < N)%nat -> (y < N)%nat -> diagonal_kernel_of o x y = RtoC (cosine_series c (2 * PI * (INR x - INR y) / INR N)).
Proof.
  intros Hs Hb HN Hp Hk Hk10. assert (Kle : (k <= length p)%nat) by (destruct Hk as [mx [_ [_ [H _]]]]; exact H).
  destruct (cos_coefficients solve p None k Hs Hk) as [c [Ec [Lc [_ Hc]]]]; [cbn [terms]; lia|]. cbn [terms] in *. rewrite Nat.min_l in Hc by lia.
  destruct (periodic_operators_exist b (length p)) as [L EL]; [lia|].
  unfold get_periodic_noise_operators_explicit_taylor_expansion, get_periodic_coefficients_for_taylor_series. rewrite EL, Ec.
  destruct (periodic_kernel b N (length p) L c Hb HN Lc Hp EL) as [W [K [B H]]].
  eexists. exists c. split; [reflexivity|]. split; [exact W|]. split; [rewrite K; lia|]. split; [exact B|]. split; [exact Lc|]. split; [exact Hc|exact H].
Qed.
