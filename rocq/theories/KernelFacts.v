(** Concrete objects used to show that the hypotheses of the kernel theorems can be met. *)
From Coq Require Import Reals Lra Lia Permutation Sorted.
From Verif Require Import ZLib Csum DFT NumPy Interp Index Spec InterpProofs InterpProofs2 IndexProofs Basis SpecBasis BasisProofs
  Operator SpecOperator OperatorProofs OperatorFacts Kernel SpecKernel KernelProofs KernelProofs2 KernelProofs3 KernelProofs5.
Local Open Scope R_scope.
Local Open Scope C_scope.

(** An argsort: insertion sort. *)
Fixpoint insert_by (key : nat -> R) (i : nat) (l : list nat) : list nat :=
  match l with
  | [] => [i]
  | j :: l' => if Rle_dec (key i) (key j) then i :: l else j :: insert_by key i l'
  end.
Definition order_by (key : nat -> R) (n : nat) : list nat := fold_right (insert_by key) [] (seq 0 n).
Definition some_argsort (key : nat -> R) (n a : nat) : nat := nth a (order_by key n) 0%nat.

Lemma insert_perm key i l : Permutation (i :: l) (insert_by key i l).
Proof.
  induction l as [|j l IH]; cbn [insert_by]; [apply Permutation_refl|].
  destruct (Rle_dec _ _); [apply Permutation_refl|].
  eapply perm_trans; [apply perm_swap|]. apply perm_skip. exact IH.
Qed.
Lemma order_perm key n : Permutation (seq 0 n) (order_by key n).
Proof.
  unfold order_by. induction (seq 0 n) as [|i l IH]; cbn [fold_right]; [constructor|].
  eapply perm_trans; [apply perm_skip; exact IH|apply insert_perm].
Qed.
Lemma insert_sorted key i l : StronglySorted (fun a b => (key a <= key b)%R) l ->
  StronglySorted (fun a b => (key a <= key b)%R) (insert_by key i l).
Proof.
  induction 1 as [|j l H IH HF]; cbn [insert_by]; [repeat constructor|].
  destruct (Rle_dec (key i) (key j)) as [Hle|Hgt].
  - constructor; [constructor; assumption|]. constructor; [assumption|].
    eapply Forall_impl; [|exact HF]. intros a Ha. cbv beta in *. lra.
  - constructor; [exact IH|]. apply Forall_forall. intros a Ha.
    apply (Permutation_in _ (Permutation_sym (insert_perm key i l))) in Ha. destruct Ha as [<-|Ha]; [lra|].
    rewrite Forall_forall in HF. apply HF. assumption.
Qed.
Lemma order_sorted key n : StronglySorted (fun a b => (key a <= key b)%R) (order_by key n).
Proof. unfold order_by. induction (seq 0 n) as [|i l IH]; cbn [fold_right]; [constructor|]. apply insert_sorted. exact IH. Qed.
Lemma sorted_nth key l : StronglySorted (fun a b => (key a <= key b)%R) l ->
  forall a b, (a <= b < length l)%nat -> (key (nth a l 0%nat) <= key (nth b l 0%nat))%R.
Proof.
  induction 1 as [|j l H IH HF]; intros a b Hab; cbn [length] in Hab; [lia|].
  destruct a as [|a]; destruct b as [|b]; cbn [nth]; try lra; try lia.
  - rewrite Forall_forall in HF. apply HF. apply nth_In. lia.
  - apply IH. lia.
Qed.

Lemma some_argsort_ok : is_argsort some_argsort.
Proof.
  intros key n. assert (P := order_perm key n). assert (L : length (order_by key n) = n).
  { rewrite <- (Permutation_length P). apply seq_length. }
  split; [|split].
  - intros a Ha. unfold some_argsort. assert (In (nth a (order_by key n) 0%nat) (seq 0 n)) as Hin.
    { apply (Permutation_in _ (Permutation_sym P)). apply nth_In. lia. }
    apply in_seq in Hin. lia.
  - intros a b Ha Hb E. assert (N : NoDup (order_by key n)) by (apply (Permutation_NoDup P), seq_NoDup).
    rewrite (NoDup_nth _ 0%nat) in N. apply N; [lia|lia|exact E].
  - intros a b Hab. apply sorted_nth; [apply order_sorted|lia].
Qed.

(** A diagonal matrix has the obvious eigendecomposition. *)
Definition diagonal_eigh : nat -> (nat -> nat -> C) -> eigh_result :=
  fun n A => ((fun k => fst (A k k)), cdelta).
Lemma diagonal_eigh_ok n (A : nat -> nat -> C) :
  (forall i j, (i < n)%nat -> (j < n)%nat -> A i j = cdelta i j * RtoC (fst (A i i))) ->
  eigendecomposition n A (diagonal_eigh n A).
Proof.
  intros H i j Hi Hj. unfold diagonal_eigh; cbn [fst snd]. rewrite (H i j) by assumption. symmetry.
  rewrite (csum_ext _ (fun k => cdelta i k * (RtoC (fst (A k k)) * Cconj (cdelta j k)))) by (intros; ring).
  rewrite (csum_delta_l (fun k => RtoC (fst (A k k)) * Cconj (cdelta j k))) by assumption.
  unfold cdelta. rewrite (Nat.eqb_sym j i).
  destruct (Nat.eqb i j); unfold Cconj, Cmult, RtoC; cbn [fst snd]; f_equal; ring.
Qed.

(** The identity kernel on n points, full and diagonal. *)
Definition unit_kernel4 (n : nat) : ndarray :=
  {| ashape := [(n * n * n * n)%nat]; aflat := fun t => cdelta (t / (n * n) mod n * n + t / (n * n) / n) (t mod (n * n)) |}.
Definition unit_kernel2 (n : nat) : ndarray :=
  {| ashape := [(n * n)%nat]; aflat := fun t => RtoC (INR (t / n + 1)) * cdelta (t / n) (t mod n) |}.

Lemma unit_kernel2_entry n i j : (j < n)%nat -> entry2 n (unit_kernel2 n) i j = RtoC (INR (i + 1)) * cdelta i j.
Proof. intros Hj. unfold entry2, unit_kernel2. cbn [aflat]. rewrite div_add_small, mod_add_small by assumption. reflexivity. Qed.

Lemma unit_kernel4_matrix n p q : (0 < n)%nat -> (p < n * n)%nat -> (q < n * n)%nat ->
  entry4 n n n (unit_kernel4 n) (p mod n) (p / n) (q / n) (q mod n) = cdelta p q.
Proof.
  intros Hn Hp Hq. unfold entry4, unit_kernel4. cbn [aflat].
  replace (((p mod n * n + p / n) * n + q / n) * n + q mod n)%nat
    with ((p mod n * n + p / n) * (n * n) + q)%nat by (pose proof (Nat.div_mod q n ltac:(lia)); nia).
  assert (p / n < n)%nat by (apply Nat.div_lt_upper_bound; lia).
  rewrite (div_add_small _ (n * n)), (mod_add_small _ (n * n)) by assumption.
  rewrite div_add_small, mod_add_small by assumption. f_equal.
  pose proof (Nat.div_mod p n ltac:(lia)). lia.
Qed.

(** A product kernel on a 2 x 3 grid: (1 + x)(2 + y). *)
Definition product_example : ndarray :=
  {| ashape := [6%nat]; aflat := fun t => RtoC (INR (1 + t / 3)) * RtoC (INR (2 + t mod 3)) |}.
Lemma product_example_ok : product_kernel [2; 3]%nat product_example /\ aflat product_example 0 <> 0.
Proof.
  split.
  - exists (fun ax i => if Nat.eqb ax 0 then RtoC (INR (1 + i)) else RtoC (INR (2 + i))).
    intros idx Hi. inversion Hi as [|x ? idx1 ? Hx Hi1]; subst. inversion Hi1 as [|y ? idx2 ? Hy Hi2]; subst.
    inversion Hi2; subst. unfold product_example. cbn [aflat ravel nprod axis_product Nat.eqb].
    replace (x * (3 * 1) + (y * 1 + 0))%nat with (x * 3 + y)%nat by lia.
    rewrite div_add_small, mod_add_small by assumption. ring.
  - unfold product_example. cbn [aflat]. intros E. rewrite <- RtoC_mult in E. apply RtoC_inj in E. cbn in E. lra.
Qed.

(** x + y + 1 on the same grid is not a product. *)
Definition sum_example : ndarray := {| ashape := [4%nat]; aflat := fun t => RtoC (INR (1 + t / 2 + t mod 2)) |}.
Lemma sum_example_not : ~ product_kernel [2; 2]%nat sum_example.
Proof.
  intros [h H].
  assert (A : forall x y, (x < 2)%nat -> (y < 2)%nat -> RtoC (INR (1 + x + y)) = h 0%nat x * h 1%nat y).
  { intros x y Hx Hy. specialize (H [x; y] (Forall2_cons _ _ Hx (Forall2_cons _ _ Hy (Forall2_nil _)))).
    unfold sum_example in H. cbn [aflat ravel nprod axis_product] in H.
    replace (x * (2 * 1) + (y * 1 + 0))%nat with (x * 2 + y)%nat in H by lia.
    rewrite div_add_small, mod_add_small in H by assumption. rewrite H. ring. }
  assert (X : RtoC (INR (1 + 0 + 0)) * RtoC (INR (1 + 1 + 1)) = RtoC (INR (1 + 0 + 1)) * RtoC (INR (1 + 1 + 0))).
  { rewrite (A 0 0)%nat, (A 1 1)%nat, (A 0 1)%nat, (A 1 0)%nat by lia. ring. }
  rewrite <- !RtoC_mult in X. apply RtoC_inj in X. cbn in X. lra.
Qed.

(** Three diagonal operators on two points, with eigenvalues -5, 1 and 2. *)
Definition three_operators : noise_operators :=
  {| nops := {| lbasis := BFund 3; lrow := BFund 2; lcol := BFund 2;
                ldata := {| ashape := [6%nat]; aflat := fun t => RtoC (INR t) |} |};
     neig := {| ashape := [3%nat]; aflat := fun a => if Nat.eqb a 0 then RtoC (-5) else RtoC (INR a) |} |}.
Lemma three_operators_wf : diagonal_noise_wf three_operators.
Proof. repeat split. Qed.
(** The same eigenvalues with full 1 x 1 operators. *)
Definition signed_operators : noise_operators :=
  {| nops := {| lbasis := BFund 3; lrow := BFund 1; lcol := BFund 1;
                ldata := {| ashape := [3%nat]; aflat := fun t => RtoC (INR t) |} |};
     neig := {| ashape := [3%nat]; aflat := fun a => if Nat.eqb a 0 then RtoC (-5) else RtoC (INR a) |} |}.

(** Truncating full operators to one operator drops the largest |eigenvalue|. *)
Lemma signed_truncation argsort : is_argsort argsort -> exists t,
  truncate_noise_operator_list argsort signed_operators [0%Z] = Some t /\
  noise_count t = 1%nat /\ Cmod (eigenvalue t 0) = 2%R /\ Cmod (eigenvalue signed_operators 0) = 5%R.
Proof.
  intros Hs.
  destruct (truncate_largest fst argsort Hs signed_operators 1 ltac:(cbn; lia) eq_refl eq_refl 1 ltac:(cbn; lia))
    as [t [kept [Ht [HL [HN [Hlt [Hp [_ Hd]]]]]]]].
  exists t. split; [exact Ht|]. destruct Hp as [Hc [_ [_ [_ [_ Hv]]]]]. rewrite HL in Hc. split; [exact Hc|].
  destruct kept as [|a [|? ?]]; cbn [length] in HL; try lia.
  assert (Ha : (a < 3)%nat) by (apply Hlt; left; reflexivity).
  destruct (Hv 0%nat ltac:(cbn; lia)) as [E _]. cbn [nth] in E.
  assert (a = 2%nat) as ->.
  { destruct (Nat.eq_dec a 2) as [->|Hne]; [reflexivity|]. exfalso.
    specialize (Hd 2%nat 0%nat ltac:(cbn; lia) ltac:(intros [X|[]]; lia) ltac:(lia)). rewrite E in Hd.
    unfold eigenvalue, signed_operators in Hd. cbn [neig aflat Nat.eqb fst RtoC] in Hd.
    destruct a as [|[|a]]; [| |lia]; cbn in Hd; lra. }
  rewrite E. unfold eigenvalue, signed_operators. cbn [neig aflat Nat.eqb]. split.
  - rewrite Cmod_R. cbn. rewrite Rabs_right; lra.
  - rewrite Cmod_R. rewrite Rabs_left; lra.
Qed.

(** get_periodic_noise_operators_real_isotropic_fft accepts every real even kernel. *)
Lemma all_equal_true n (u v : nat -> C) : (forall t, (t < n)%nat -> u t = v t) -> all_equal n u v = true.
Proof.
  intros H. unfold all_equal. apply forallb_forall. intros t Ht. apply in_seq in Ht.
  destruct (Ceq_dec (u t) (v t)) as [|Hne]; [reflexivity|]. exfalso. apply Hne, H. lia.
Qed.
Lemma real_fft_accepts ap b k N : bsize b = N -> ashape k = [N] -> (0 < N)%nat ->
  (forall x, (x < N)%nat -> snd (aflat k x) = 0%R) ->
  (forall x y, (x < N)%nat -> (y < N)%nat -> Zcong (Z.of_nat N) (Z.of_nat y) (- Z.of_nat x) -> aflat k x = aflat k y) ->
  exists o, get_periodic_noise_operators_real_isotropic_fft ap b k None = Some o.
Proof.
  intros Hb Hk HN Hr He. unfold get_periodic_noise_operators_real_isotropic_fft.
  rewrite all_equal_true.
  2:{ intros t Ht. rewrite Hk in Ht. cbn [nprod] in Ht. rewrite Hr by lia. reflexivity. }
  cbn [negb]. unfold get_periodic_operators_for_real_isotropic_noise, get_noise_eigenvalues_isotropic_fft.
  rewrite Hb, Hk. cbv zeta.
  assert (ap && negb (periodic_sample [N] [N]) = false) as ->.
  { destruct ap; [|reflexivity]. rewrite (proj2 (periodic_sample_1 N N)); [reflexivity|].
    split; [lia|apply Nat.mod_same; lia]. }
  destruct (pad_ft_1d_spec (RtoC 0) N N (aflat k)) as [p [Hp Hs]]. rewrite Hp.
  assert (Hpk : forall d, (d < N)%nat -> p d = aflat k d).
  { intros d Hd. destruct (Hs d Hd) as [H1 _]. apply (H1 d (freq N d) Hd); apply freq_is_freq; assumption. }
  rewrite all_equal_true; [eexists; reflexivity|].
  intros t Ht. cbn [aflat]. f_equal. unfold ifft_forward.
  set (g := fun z => ((N - z) mod N)%nat).
  assert (Hg : forall z, (z < N)%nat -> (g z < N)%nat /\ g (g z) = z).
  { intros z Hz. split; [apply Nat.mod_upper_bound; lia|]. unfold g. destruct (Nat.eq_dec z 0) as [->|Hz0].
    - rewrite Nat.sub_0_r, Nat.mod_same, Nat.sub_0_r by lia. apply Nat.mod_same. lia.
    - rewrite (Nat.mod_small (N - z)) by lia. rewrite Nat.mod_small by lia. lia. }
  rewrite <- (csum_bij _ N N g g Hg Hg). apply csum_ext. intros z Hz.
  destruct (Hg z Hz) as [Hgz _]. rewrite !Hpk by assumption.
  assert (Hc : Zcong (Z.of_nat N) (Z.of_nat (g z)) (- Z.of_nat z)).
  { unfold g. destruct (Nat.eq_dec z 0) as [->|Hz0].
    - rewrite Nat.sub_0_r, Nat.mod_same by lia. exists 0%Z. lia.
    - rewrite Nat.mod_small by lia. exists 1%Z. lia. }
  rewrite <- (He z (g z)) by assumption. f_equal. apply omega_cong; [assumption|].
  destruct Hc as [q Hq]. rewrite Hq.
  exists (- Z.of_nat z + q * (1 + Z.of_nat t) + 0)%Z.
  replace (Z.of_nat (1 + (N - 1 - 1 - t)))%nat with (Z.of_nat N - 1 - Z.of_nat t)%Z by lia. 
  rewrite Nat2Z.inj_add. ring_simplify. cbn [Z.of_nat]. ring.
Qed.

(** A basis comparison which never short-circuits. *)
Definition never_same : basis -> basis -> bool := fun _ _ => false.
Definition ex_noise : noise_operators :=
  {| nops := ex_list; neig := {| ashape := [2%nat]; aflat := fun a => RtoC (INR a) |} |}.
Definition ex_diagonal_noise : noise_operators :=
  {| nops := ex_diag; neig := {| ashape := [2%nat]; aflat := fun a => RtoC (INR a) |} |}.
Lemma temperature_case : identity_test never_same /\ bwf (BFund 2) /\ explicit_orthonormal (BFund 2) /\ op_wf ex_x /\
  orow ex_x = BFund 2 /\ ocol ex_x = BFund 2 /\ list_wf (nops ex_noise) /\ diag_list_wf (nops ex_diagonal_noise) /\
  compatible (BFund 2) (BFund 2).
Proof.
  split; [intros a c H; discriminate|]. split; [cbn; lia|]. split; [exact I|].
  repeat split. apply compatible_other; [|reflexivity]. intros la lb [X _]. discriminate.
Qed.
