From Coq Require Import Reals Lra Lia Psatz List Permutation FinFun.
From Verif Require Import ZLib Csum DFT NumPy Index Basis Operator Spec SpecBasis SpecOperator OperatorProofs SpecMatrix Kernel SpecKernel KernelProofs KernelProofs2 KernelProofs5 KernelFacts
  KernelConvert LatticeProofs Sample SampleProofs SampleProofs2 Plots SpecPlots ValuePlotsProofs OccupationProofs OccupationProofs2 KernelPlots KernelPlotsProofs KernelPlotsProofs2.
Import ListNotations.
Local Open Scope R_scope.
Local Open Scope C_scope.

(** ** Truncation of full kernels *)

Lemma eigenvalue_shape eigh b0 b1 K o : get_periodic_noise_operators_eigenvalue eigh b0 b1 K = Some o -> nprod (ashape (neig o)) = noise_count o.
Proof.
  unfold get_periodic_noise_operators_eigenvalue. destruct (kernel_matrix b0 b1 K); [|discriminate].
  destruct (eigh _ _) as [lam V]. intros E. injection E as <-. unfold noise_count. cbn. ring.
Qed.

Lemma indices_in_range N ts : Forall (fun t => (0 <= t < Z.of_nat N)%Z) ts -> python_indices N ts = Some (map Z.to_nat ts).
Proof.
  induction 1 as [|t ts Ht _ IH]; [reflexivity|]. cbn [python_indices map]. rewrite IH. unfold python_index.
  replace ((0 <=? t)%Z && (t <? Z.of_nat N)%Z)%bool with true by (symmetry; apply Bool.andb_true_iff; split; [apply Z.leb_le|apply Z.ltb_lt]; lia).
  reflexivity.
Qed.

Lemma combine_maps {A B D} (f : A -> B) (g : A -> D) l : combine (map f l) (map g l) = map (fun a => (f a, g a)) l.
Proof. induction l as [|a l IH]; [reflexivity|]. cbn [map combine]. rewrite IH. reflexivity. Qed.

Lemma full_truncation_line argsort eigh b0 b1 K o ts : get_periodic_noise_operators_eigenvalue eigh b0 b1 K = Some o ->
  Forall (fun t => (0 <= t <= Z.of_nat (noise_count o))%Z) ts ->
  plot_kernel_truncation_error argsort eigh b0 b1 K (Some ts) =
  Some (map (fun t => (IZR t, cumulative_modulus argsort (noise_count o) (eigenvalue o) (Z.to_nat t))) ts).
Proof.
  intros E F. unfold plot_kernel_truncation_error. rewrite E, (eigenvalue_shape _ _ _ _ _ E).
  rewrite indices_in_range by (eapply Forall_impl; [|exact F]; cbn beta; intros a Ha; lia).
  rewrite map_map. rewrite (combine_maps IZR (fun t => cumulative_modulus argsort (noise_count o) (aflat (neig o)) (Z.to_nat t))). reflexivity.
Qed.

Lemma range_step_spec size step t : (0 < step)%nat -> In t (range_step size step) <-> (t < size)%nat /\ exists k, t = (k * step)%nat.
Proof.
  intros Hs. unfold range_step. rewrite in_map_iff. split.
  - intros (k & <- & Hk). apply in_seq in Hk. split; [|exists k; reflexivity].
    assert (k + 1 <= (size + step - 1) / step)%nat by lia.
    assert (step * ((size + step - 1) / step) <= size + step - 1)%nat by (apply Nat.mul_div_le; lia). nia.
  - intros (Ht & k & ->). exists k. split; [reflexivity|]. apply in_seq. split; [lia|]. cbn.
    apply (Nat.mul_lt_mono_pos_l step); [exact Hs|].
    pose proof (Nat.mod_upper_bound (size + step - 1) step ltac:(lia)). pose proof (Nat.div_mod (size + step - 1) step ltac:(lia)). nia.
Qed.

Lemma full_default_line argsort eigh b0 b1 K o : get_periodic_noise_operators_eigenvalue eigh b0 b1 K = Some o ->
  let N := noise_count o in
  plot_kernel_truncation_error argsort eigh b0 b1 K None =
  Some (map (fun t => (INR t, cumulative_modulus argsort N (eigenvalue o) t)) (range_step (N + 1) (1 + (N + 1) / 100))).
Proof.
  intros E N. transitivity (plot_kernel_truncation_error argsort eigh b0 b1 K (Some (map Z.of_nat (range_step (N + 1) (1 + (N + 1) / 100))))).
  - unfold plot_kernel_truncation_error. rewrite E, (eigenvalue_shape _ _ _ _ _ E). reflexivity.
  - rewrite (full_truncation_line argsort eigh b0 b1 K o _ E).
    + f_equal. rewrite map_map. apply map_ext. intros t. rewrite Nat2Z.id, <- INR_IZR_INZ. reflexivity.
    + apply Forall_forall. intros z Hz. apply in_map_iff in Hz. destruct Hz as (t & <- & Ht). apply range_step_spec in Ht; [|lia]. fold N. lia.
Qed.

(** ** Eigenvalues *)

Lemma noise_eigenvalues_line argsort o m truncation : is_argsort argsort ->
  let N := nprod (ashape (neig o)) in let line := plot_noise_eigenvalues argsort o truncation m in
  let value := measured_vector m (aflat (neig o)) in
  (match truncation with
   | None => length line = N
   | Some t => ((0 <= t < Z.of_nat N)%Z -> length line = (N - 1 - Z.to_nat t)%nat) /\
               ((- Z.of_nat N <= t < 0)%Z -> length line = (Z.to_nat (- t) - 1)%nat)
   end) /\
  exists kept, NoDup kept /\ (forall a, In a kept -> (a < N)%nat) /\ line = map value kept /\
    (forall a b, (a <= b < length line)%nat -> nth b line 0 <= nth a line 0)%R /\
    (forall a b, (a < N)%nat -> ~ In a kept -> In b kept -> value a <= value b)%R.
Proof.
  intros Hs N line value. set (count := Z.to_nat (Z.of_nat N - 1 - backward_stop N truncation)).
  assert (Hc : (count <= N)%nat).
  { unfold count, backward_stop. destruct truncation as [t|]; [destruct (t <? 0)%Z eqn:E|]; lia. }
  assert (L : length line = count) by (unfold line, plot_noise_eigenvalues; rewrite map_length, seq_length; reflexivity).
  destruct (Hs value N) as (B & I & M). set (order := argsort value N) in *. split.
  - rewrite L. unfold count, backward_stop. destruct truncation as [t|]; [|lia]. split; intros Ht.
    + replace (t <? 0)%Z with false by (symmetry; apply Z.ltb_ge; lia). lia.
    + replace (t <? 0)%Z with true by (symmetry; apply Z.ltb_lt; lia). lia.
  - exists (map (fun a => order (N - 1 - a)%nat) (seq 0 count)). split; [|split; [|split; [|split]]].
    + assert (Q : forall l, NoDup l -> (forall a, In a l -> (a < N)%nat) -> NoDup (map (fun a => order (N - 1 - a)%nat) l)).
      { clear - I. induction 1 as [|a l Ha Hl IH]; intros HF; cbn [map]; [constructor|]. constructor; [|apply IH; intros b Hb; apply HF; right; exact Hb].
        intros Hin. apply in_map_iff in Hin. destruct Hin as (b & E & Hb). pose proof (HF a (or_introl eq_refl)). pose proof (HF b (or_intror Hb)).
        apply I in E; [|lia|lia]. assert (a = b) by lia. subst b. contradiction. }
      apply Q; [apply seq_NoDup|]. intros a Ha. apply in_seq in Ha. lia.
    + intros a Ha. apply in_map_iff in Ha. destruct Ha as (s & <- & Hin). apply in_seq in Hin. apply B. lia.
    + rewrite map_map. reflexivity.
    + rewrite L. intros a b Hab. assert (V : forall k, (k < count)%nat -> nth k line 0%R = value (order (N - 1 - k)%nat)).
      { intros k Hk. unfold line, plot_noise_eigenvalues. fold N value order. fold count. apply (listed (fun k => value (order (N - 1 - k)%nat))). exact Hk. }
      rewrite !V by lia. apply M. lia.
    + intros a b Ha Na Hb. apply in_map_iff in Hb. destruct Hb as (s & <- & Hin). apply in_seq in Hin.
      assert (S : bSurjective N order) by (apply bInjective_bSurjective; [exact B|]; intros x y Hx Hy; apply I; assumption).
      destruct (S a Ha) as (p & Hp & <-). apply M. split; [|lia]. destruct (le_lt_dec (N - count) p) as [Hle|]; [|lia].
      exfalso. apply Na. apply in_map_iff. exists (N - 1 - p)%nat. split; [f_equal; lia|]. apply in_seq. lia.
Qed.

(** ** Samples *)

Section Sampled.
Variable o : noise_operators.
Hypothesis (Hw : diagonal_noise_wf o) (Hc : (0 < noise_count o)%nat).
Notation n := (bsize (lrow (nops o))).

Lemma selected_entry i : (i < noise_count o)%nat -> exists op, select_diagonal_operator (nops o) (Z.of_nat i) = Some op /\
  forall x, aflat (odata op) x = diag_entry (nops o) i x.
Proof using Hw Hc.
  intros Hi. destruct Hw as [[Wr Wd] _]. unfold select_diagonal_operator. change (bsize (lbasis (nops o))) with (noise_count o) in *.
  replace (noise_count o =? 0)%nat with false by (symmetry; apply Nat.eqb_neq; lia). rewrite Wd.
  rewrite (Nat.mul_comm (noise_count o)), Nat.mod_mul by lia. rewrite Nat.eqb_refl. unfold python_index.
  replace ((0 <=? Z.of_nat i)%Z && (Z.of_nat i <? Z.of_nat (noise_count o))%Z)%bool with true by (symmetry; apply Bool.andb_true_iff; split; [apply Z.leb_le|apply Z.ltb_lt]; lia).
  rewrite Nat.div_mul by lia. eexists. split; [reflexivity|]. intros x. cbn. rewrite Nat2Z.id, Nat.mul_1_r. reflexivity.
Qed.

Lemma added term (g : nat -> nat -> C) c : (forall i op x, (i < noise_count o)%nat -> (forall x, aflat (odata op) x = diag_entry (nops o) i x) -> term i op x = g i x) ->
  (c <= noise_count o)%nat -> exists v, add_selected o term c = Some v /\ forall x, v x = csum (fun i => g i x) c.
Proof using Hw Hc.
  intros HT. induction c as [|c IH]; intros Hle.
  - eexists. split; [reflexivity|]. reflexivity.
  - destruct IH as (v & E & V); [lia|]. destruct (selected_entry c ltac:(lia)) as (op & Eo & Vo).
    cbn [add_selected]. rewrite E, Eo. eexists. split; [reflexivity|]. intros x. cbn [csum]. rewrite V, (HT c op x); [reflexivity|lia|exact Vo].
Qed.

Variables (argsort : (nat -> R) -> nat -> nat -> nat) (hbar : R) (re im : nat -> R).
Hypothesis Hs : is_argsort argsort.

Lemma sample_of_first ts sel : python_indices (noise_count o) ts = Some sel -> (length ts <= noise_count o)%nat -> (0 < n)%nat ->
  exists v, noise_operators_single_sample argsort hbar re im o (Some ts) = Some v /\
    forall x, v x = csum (fun i => (RtoC (re i) + Ci * RtoC (im i)) / RtoC (sqrt 2) * scimath_sqrt (eigenvalue o i * RtoC hbar) * (diag_entry (nops o) i x - diag_entry (nops o) i 0)) (length ts).
Proof using Hs Hw Hc.
  intros Hi Hl Hn. assert (Wd := proj2 (proj1 Hw)). change (bsize (lbasis (nops o))) with (noise_count o) in Wd.
  destruct (truncate_picks Cmod argsort Hs o n Hc Wd (proj2 Hw) ts sel Hi) as (t & Et & P).
  destruct P as (P1 & P2 & P3 & P4 & P5 & _). rewrite map_length in *.
  assert (Ls : length sel = length ts).
  { clear - Hi. revert sel Hi. induction ts as [|a ts IH]; intros sel; cbn [python_indices].
    - intros E. injection E as <-. reflexivity.
    - destruct (python_index _ a); [|discriminate]. destruct (python_indices _ ts) as [r|]; [|discriminate]. intros E. injection E as <-. cbn [length]. f_equal. apply IH. reflexivity. }
  unfold noise_operators_single_sample. change (truncate_diagonal_noise_operator_list argsort o ts) with (truncate_operators Cmod argsort o ts). rewrite Et.
  set (term := fun i op x => _).
  destruct (added term (fun i x => (RtoC (re i) + Ci * RtoC (im i)) / RtoC (sqrt 2) * scimath_sqrt (eigenvalue o i * RtoC hbar) * diag_entry (nops o) i x) (length ts)) as (v & E & V).
  - intros i op x _ Vo. unfold term. rewrite Vo. unfold eigenvalue. field. intros Z. apply (f_equal fst) in Z. cbn [fst RtoC] in Z. pose proof (sqrt_lt_R0 2 ltac:(lra)). lra.
  - exact Hl.
  - rewrite P2. cbn [nprod]. rewrite Nat.mul_1_r, Ls, E. rewrite P3. replace (n =? 0)%nat with false by (symmetry; apply Nat.eqb_neq; lia).
    eexists. split; [reflexivity|]. intros x. cbn beta. rewrite !V. rewrite <- csum_minus. apply csum_ext. intros i _. ring.
Qed.

Lemma sample_all : (0 < n)%nat -> forall L, sample_noise_from_diagonal_operators hbar (fun _ => re) (fun _ => im) o 1 = Some L ->
  exists v, noise_operators_single_sample argsort hbar re im o None = Some v /\
    forall x, (x < n)%nat -> v x = diag_entry L 0 x - diag_entry L 0 0.
Proof using Hs Hw Hc.
  intros Hn L HL. destruct (diagonal_sample_spec hbar (fun _ => re) (fun _ => im) o 1 Hw Hc ltac:(lia)) as [L' (E1 & _ & _ & _ & _ & E6)].
  rewrite HL in E1. injection E1 as <-.
  assert (Es : nprod (ashape (neig o)) = noise_count o) by (rewrite (proj2 Hw); cbn; ring).
  destruct (sample_of_first (map Z.of_nat (seq 0 (noise_count o))) (seq 0 (noise_count o))) as (v & E & V).
  - apply range_indices. lia.
  - rewrite map_length, seq_length. lia.
  - exact Hn.
  - exists v. split; [unfold noise_operators_single_sample in *; rewrite Es; exact E|]. intros x Hx. rewrite V, map_length, seq_length.
    rewrite !E6 by lia. rewrite <- csum_minus. apply csum_ext. intros i _. cbn beta. unfold noise_factor, Cdiv. ring.
Qed.
End Sampled.

(** Two operators, the second with the larger eigenvalue: the sample truncated to one operator shows the first. *)
Definition two_noise : noise_operators :=
  {| nops := {| lbasis := BFund 2; lrow := BFund 2; lcol := BFund 2; ldata := {| ashape := [4%nat]; aflat := fun t => match t with 1%nat => 1 | _ => 0 end |} |};
     neig := {| ashape := [2%nat]; aflat := fun a => RtoC (INR (a + 1)) |} |}.

Lemma two_noise_wf : diagonal_noise_wf two_noise.
Proof. repeat split. Qed.

Lemma truncated_sample_wrong argsort : is_argsort argsort -> exists t v,
  truncate_diagonal_noise_operator_list argsort two_noise [0%Z] = Some t /\
  (forall x, (x < 2)%nat -> diag_entry (nops t) 0 x = 0) /\
  noise_operators_single_sample argsort 1 (fun _ => 1%R) (fun _ => 0%R) two_noise (Some [0%Z]) = Some v /\ v 1%nat <> 0.
Proof.
  intros Hs. destruct (truncate_picks Cmod argsort Hs two_noise 2 ltac:(cbn; lia) eq_refl eq_refl [0%Z] [0%nat] eq_refl) as (t & Et & P).
  destruct (sample_of_first two_noise two_noise_wf ltac:(cbn; lia) argsort 1 (fun _ => 1%R) (fun _ => 0%R) Hs [0%Z] [0%nat] eq_refl ltac:(cbn; lia) ltac:(cbn; lia)) as (v & E & V).
  exists t, v. split; [exact Et|]. destruct P as (_ & _ & P3 & _ & _ & P6). cbn [map length] in P6.
  assert (O1 : argsort (fun a => Cmod (eigenvalue two_noise a)) 2%nat (2 - 1 - 0)%nat = 1%nat).
  { destruct (Hs (fun a => Cmod (eigenvalue two_noise a)) 2%nat) as (B & I & M). set (ord := argsort _ _) in *.
    pose proof (B 0%nat ltac:(lia)). pose proof (B 1%nat ltac:(lia)). pose proof (I 0%nat 1%nat ltac:(lia) ltac:(lia)) as J. specialize (M 0%nat 1%nat ltac:(lia)).
    change (2 - 1 - 0)%nat with 1%nat. destruct (ord 1%nat) as [|[|k]] eqn:E1; [|reflexivity|lia]. exfalso.
    destruct (ord 0%nat) as [|[|k]] eqn:E0; [discriminate (J eq_refl)| |lia].
    unfold eigenvalue, two_noise in M. cbn [neig aflat] in M. rewrite !Cmod_R in M. rewrite !Rabs_pos_eq in M by (apply pos_INR). cbn in M. lra. }
  split.
  - intros x Hx. destruct (P6 0%nat ltac:(lia)) as [_ Q]. cbn [nth] in Q. change (noise_count two_noise) with 2%nat in Q. rewrite O1 in Q.
    unfold diag_entry. rewrite P3. change (bsize (lrow (nops two_noise))) with 2%nat. rewrite Q by exact Hx. destruct x as [|[|x]]; [reflexivity|reflexivity|lia].
  - split; [exact E|]. rewrite V. cbn [length csum]. intros Z.
    assert (S1 : scimath_sqrt (eigenvalue two_noise 0 * RtoC 1) = 1).
    { unfold eigenvalue, two_noise. cbn [neig aflat Nat.add INR]. unfold scimath_sqrt. rewrite Cmult_1_r, Cmod_R, Rabs_R1. cbn [fst snd RtoC].
      destruct (Rle_dec 0 0) as [_|N]; [|lra]. replace ((1 + 1) / 2)%R with 1%R by field. replace ((1 - 1) / 2)%R with 0%R by field.
      rewrite sqrt_1, sqrt_0, Rmult_0_r. reflexivity. }
    rewrite S1 in Z. unfold diag_entry, two_noise in Z. cbn [nops lrow bsize ldata aflat Nat.mul Nat.add] in Z.
    assert (N2 : RtoC (sqrt 2) <> 0) by (intros Q; apply (f_equal fst) in Q; cbn [fst RtoC] in Q; pose proof (sqrt_lt_R0 2 ltac:(lra)); lra).
    apply (f_equal (fun z => z * RtoC (sqrt 2))) in Z.
    replace ((0 + (RtoC 1 + Ci * RtoC 0) / RtoC (sqrt 2) * 1 * (1 - 0)) * RtoC (sqrt 2)) with (RtoC 1) in Z by (field; exact N2).
    rewrite Cmult_0_l in Z. apply (f_equal fst) in Z. cbn in Z. lra.
Qed.

(** ** Percentage errors *)

Section Percent.
Variables (same : basis -> basis -> bool) (b b' : basis) (true_kernel fitted converted : ndarray).
Hypothesis Hc : convert_isotropic_kernel_to_basis same b' fitted b = Some converted.

Lemma percentage_built : exists err, noise_kernel_percentage_error same b true_kernel b' fitted = Some err /\
  forall x, (aflat true_kernel x = 0 -> err x = None) /\
    (aflat true_kernel x <> 0 -> exists e, err x = Some e /\ aflat converted x = aflat true_kernel x * (1 + e / RtoC 100)).
Proof using Hc.
  unfold noise_kernel_percentage_error. rewrite Hc. eexists. split; [reflexivity|]. intros x. cbn beta. destruct (Ceq_dec (aflat true_kernel x) (RtoC 0)) as [E|E].
  - split; [reflexivity|]. intros N. contradiction.
  - split; [intros Z; contradiction|]. intros _. eexists. split; [reflexivity|]. field. split; [exact E|].
    intros Z. apply (f_equal fst) in Z. cbn in Z. lra.
Qed.
End Percent.

(** ** Meshes *)

Lemma diagonal_mesh b0 K m : (0 < bsize b0)%nat -> nprod (ashape K) = (bsize b0 * bsize b0)%nat -> m <> PAngle ->
  exists mesh, plot_diagonal_kernel_2d b0 K m = Some mesh /\
    forall i j p q, let n := bsize b0 in (i < n)%nat -> (j < n)%nat -> (p < n)%nat -> (q < n)%nat ->
      Zcong (Z.of_nat n) (Z.of_nat p) (Z.of_nat i - Z.of_nat (n / 2)) -> Zcong (Z.of_nat n) (Z.of_nat q) (Z.of_nat j - Z.of_nat (n / 2)) ->
      mesh_value mesh i j = measured_vector m (fun _ => entry2 n K p q) 0 /\ mesh_at mesh i j = (INR j, INR i).
Proof.
  intros Hn HK Hm. unfold plot_diagonal_kernel_2d. set (n := bsize b0) in *.
  unfold reshape. cbn [nprod]. rewrite Nat.mul_1_r, HK, Nat.eqb_refl. unfold plot_data_2d.
  replace (n * n =? 0)%nat with false by (symmetry; apply Nat.eqb_neq; nia).
  eexists. split; [reflexivity|]. intros i j p q Hi Hj Hp Hq Cp Cq. cbn [mesh_value mesh_at]. split; [|reflexivity].
  assert (Q : forall (u w : nat), (u < n)%nat -> Zcong (Z.of_nat n) (Z.of_nat u) (Z.of_nat w - Z.of_nat (n / 2)) -> Z.to_nat ((Z.of_nat w - Z.of_nat (n / 2)) mod Z.of_nat n) = u).
  { intros u w Hu [k E]. replace (Z.of_nat w - Z.of_nat (n / 2))%Z with (Z.of_nat u + (- k) * Z.of_nat n)%Z by lia.
    rewrite Z.mod_add by lia. rewrite Z.mod_small by lia. apply Nat2Z.id. }
  unfold measured_matrix, fftshift_vector. destruct m; cbn [measured_vector]; rewrite ?(Q p i Hp Cp), ?(Q q j Hq Cq); try reflexivity. contradiction.
Qed.
