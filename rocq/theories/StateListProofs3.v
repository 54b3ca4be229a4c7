(** Proofs about inner products of lists of states. *)
From Coq Require Import Reals Lra Permutation Sorted.
From Verif Require Import ZLib Csum DFT NumPy Index IndexProofs AxesProofs Spec SpecReal Basis SpecBasis BasisProofs BasisProofs2 BasisProofs3
  Operator SpecOperator OperatorProofs OperatorProofs2 Reduce SpecReduce ReduceProofs ReduceProofs2 Wavepacket SpecWavepacket Localize
  LocalizeProofs3 StateList SpecStateList StateListProofs StateListProofs2.
Local Open Scope R_scope.
Local Open Scope C_scope.

Lemma sorted_fixed axes : StronglySorted lt axes -> sorted_nat axes = axes.
Proof.
  intros H. apply sorted_unique; [apply sorted_nat_sorted| |apply sorted_nat_perm].
  induction H as [|a l H IH F]; constructor; [exact IH|]. eapply Forall_impl; [|exact F]. intros; lia.
Qed.

Lemma removed_sorted {A} (d : A) axes l : StronglySorted lt axes -> good_axes (length l) axes ->
  removed d axes l = map (fun a => nth a l d) axes.
Proof.
  intros S0 [N F]. unfold removed. change (filter _ _) with (filter (fun k => memb k axes) (seq 0 (length l))).
  rewrite sorted_axes_filter by assumption. rewrite sorted_fixed by exact S0. reflexivity.
Qed.

Lemma wrapped_id shape : forall idx, in_shape idx shape -> wrapped shape (map Z.of_nat idx) = idx.
Proof.
  induction shape as [|n shape IH]; intros idx H; inversion H; subst; [reflexivity|]. cbn [map wrapped].
  rewrite IH by assumption. rewrite Z.mod_small by lia. rewrite Nat2Z.id. reflexivity.
Qed.

Lemma along_sorted lb b data axes idx :
  Forall (fun n => (0 < n)%nat) (map bsize lb) -> nprod (ashape data) = (nprod (map bsize lb) * bsize b)%nat ->
  good_axes (length lb) axes -> StronglySorted lt axes -> in_shape idx (remaining 0%nat axes (map bsize lb)) ->
  exists s, get_state_along_axis lb b data axes (Some idx) = Some s /\
    slist s = BTuple (map (fun a => nth a lb (BFund 1)) axes) /\
    forall out full, in_shape out (map (fun a => nth a (map bsize lb) 0%nat) axes) -> at_axes (length lb) axes out idx full ->
    exists v w, get_state_vector s (Stacked (map Z.of_nat out)) = Some v /\
      get_state_vector {| slist := BTuple lb; sbasis := b; sdata := data |} (Stacked (map Z.of_nat full)) = Some w /\
      vbasis v = vbasis w /\ ashape (vdata v) = ashape (vdata w) /\
      forall t, (t < bsize b)%nat -> aflat (vdata v) t = aflat (vdata w) t.
Proof.
  intros P W G S0 I. destruct (along_spec lb b data axes idx P W G I) as [s [E [L [B [Wf V]]]]]. exists s. split; [exact E|].
  rewrite removed_sorted in L by assumption. split; [exact L|]. intros out full Ho Hf.
  assert (Es : map bsize (map (fun a => nth a lb (BFund 1)) axes) = map (fun a => nth a (map bsize lb) 0%nat) axes).
  { rewrite map_map. apply map_ext_in. intros a Ha. destruct G as [_ F]. rewrite Forall_forall in F.
    rewrite (nth_indep _ 0%nat (bsize (BFund 1))) by (rewrite map_length; apply F, Ha). rewrite map_nth. reflexivity. }
  assert (Hf' := full_in_range lb b data axes idx P W G I out full Ho Hf).
  destruct s as [sl sb sd]. cbn [slist sbasis] in L, B. subst sl sb.
  destruct (get_state_stacked (map (fun a => nth a lb (BFund 1)) axes) b sd (map Z.of_nat out) Wf) as [v [Ev Hv]].
  { rewrite Es. apply Forall_forall. intros n Hn. apply in_map_iff in Hn. destruct Hn as [a [<- Ha]].
    destruct G as [_ F]. rewrite Forall_forall in F, P. apply P, nth_In. rewrite map_length. apply F, Ha. }
  { rewrite !map_length. apply in_shape_length in Ho. rewrite map_length in Ho. exact Ho. }
  destruct (get_state_stacked lb b data (map Z.of_nat full)) as [w [Ew Hw]]; [exact W|exact P| |].
  { rewrite map_length. apply in_shape_length in Hf'. rewrite map_length in Hf'. exact Hf'. }
  exists v, w. split; [exact Ev|]. split; [exact Ew|]. destruct Hv as [Bv [Sv Dv]], Hw as [Bw [Sw Dw]].
  split; [congruence|]. split; [congruence|]. intros t Ht. rewrite Dv, Dw by exact Ht. rewrite Es.
  rewrite !wrapped_id by assumption. rewrite (V out full) by assumption. reflexivity.
Qed.

(** ** Inner products *)

Lemma array2_at n m f i j : (j < m)%nat -> aflat (ravel_array (array2 n m f)) (i * m + j) = f i j.
Proof.
  intros Hj. cbn [ravel_array array2 aflat]. rewrite Nat.div_add_l by lia. rewrite (Nat.div_small j) by lia. rewrite Nat.add_0_r.
  rewrite Nat.add_comm, Nat.mod_add by lia. rewrite Nat.mod_small by lia. reflexivity.
Qed.

Lemma grid_inner_overlap b0 b1 u v : grid_inner b0 b1 u v =
  csum (fun k => Cconj (u k) * csum (fun l => overlap b0 b1 k l * v l) (bsize b1)) (bsize b0).
Proof.
  unfold grid_inner, amplitude.
  transitivity (csum (fun x => csum (fun k => csum (fun l => Cconj (u k) * (Cconj (bstate b0 k x) * bstate b1 l x * v l)) (bsize b1)) (bsize b0)) (bfund b1)).
  { apply csum_ext. intros x Hx. rewrite Cconj_csum, <- csum_scal_r. apply csum_ext. intros k Hk.
    rewrite <- csum_scal_l. apply csum_ext. intros l Hl. rewrite Cconj_mult. ring. }
  rewrite csum_swap. apply csum_ext. intros k Hk. rewrite csum_swap. rewrite <- csum_scal_l. apply csum_ext. intros l Hl.
  rewrite csum_scal_l. f_equal. unfold overlap. rewrite <- csum_scal_r. reflexivity.
Qed.

Section Products.
  Variables (same : basis -> basis -> bool) (s0 s1 : state_list).
  Context (Hs : identity_test same) (H0 : bwf (sbasis s0)) (H1 : bwf (sbasis s1)) (O1 : explicit_orthonormal (sbasis s1))
    (W0 : well_formed_list s0) (W1 : well_formed_list s1) (Hc : compatible (sbasis s1) (sbasis s0)).

  Lemma converted_sum : exists c, convert_state_list same s1 (sbasis s0) = Some c /\ slist c = slist s1 /\ sbasis c = sbasis s0 /\
    well_formed_list c /\ forall u j, csum (fun k => Cconj (u k) * state_of c j k) (bsize (sbasis s0)) = grid_inner (sbasis s0) (sbasis s1) u (state_of s1 j).
  Proof using Hs H0 H1 O1 W1 Hc.
    destruct (convert_list_spec same s1 (sbasis s0) W1 Hc) as [F [c [EF [Ec [Lc [Bc [Wc Dc]]]]]]].
    exists c. split; [exact Ec|]. split; [exact Lc|]. split; [exact Bc|]. split; [exact Wc|]. intros u j.
    rewrite grid_inner_overlap. apply csum_ext. intros k Hk. f_equal. rewrite Dc by exact Hk.
    apply (convert_orthonormal same Hs _ _ F H1 H0 O1 EF); exact Hk.
  Qed.

  Lemma inner_products_entries : exists o, calculate_inner_products same s0 s1 = Some o /\
    orow o = slist s0 /\ ocol o = slist s1 /\ ashape (odata o) = [(bsize (slist s0) * bsize (slist s1))%nat] /\
    forall i j, (i < bsize (slist s0))%nat -> (j < bsize (slist s1))%nat ->
      aflat (odata o) (i * bsize (slist s1) + j) = grid_inner (sbasis s0) (sbasis s1) (state_of s0 i) (state_of s1 j).
  Proof using Hs H0 H1 O1 W0 W1 Hc.
    destruct converted_sum as [c [Ec [Lc [Bc [Wc Dc]]]]]. unfold calculate_inner_products. rewrite Ec.
    rewrite !as_matrix_some by assumption. eexists. split; [reflexivity|]. split; [reflexivity|]. split; [reflexivity|].
    split; [cbn; rewrite Nat.mul_1_r; reflexivity|]. intros i j Hi Hj. cbn [odata]. rewrite array2_at by exact Hj.
    rewrite <- Dc. apply csum_ext. intros k Hk. unfold at2. cbn [ashape aflat nth]. rewrite Bc. unfold state_of, row. rewrite Bc. reflexivity.
  Qed.

  Lemma elementwise_entries : bsize (slist s1) = bsize (slist s0) ->
    exists d, calculate_inner_products_elementwise same s0 s1 = Some (slist s0, d) /\ ashape d = [bsize (slist s0)] /\
    forall i, (i < bsize (slist s0))%nat -> aflat d i = grid_inner (sbasis s0) (sbasis s1) (state_of s0 i) (state_of s1 i).
  Proof using Hs H0 H1 O1 W0 W1 Hc.
    intros E. destruct converted_sum as [c [Ec [Lc [Bc [Wc Dc]]]]]. unfold calculate_inner_products_elementwise. rewrite Ec.
    rewrite !as_matrix_some by assumption. unfold einsum_length. rewrite E, Nat.eqb_refl. eexists. split; [reflexivity|].
    split; [reflexivity|]. intros i Hi. cbn [aflat]. rewrite <- Dc. apply csum_ext. intros k Hk.
    unfold at2. cbn [ashape aflat nth]. rewrite Bc. unfold state_of, row. rewrite Bc.
    replace (einsum_pos (bsize (slist s0)) i) with i; [reflexivity|]. unfold einsum_pos. destruct (Nat.eqb_spec (bsize (slist s0)) 1); lia.
  Qed.

  (** Lists of different lengths. *)
  Lemma elementwise_lengths : bsize (slist s1) <> bsize (slist s0) ->
    match calculate_inner_products_elementwise same s0 s1 with
    | Some (lb, d) => lb = slist s0 /\
        ((bsize (slist s0) = 1%nat /\ ashape d = [bsize (slist s1)]) \/ (bsize (slist s1) = 1%nat /\ ashape d = [bsize (slist s0)]))
    | None => bsize (slist s0) <> 1%nat /\ bsize (slist s1) <> 1%nat
    end.
  Proof using Hs H0 H1 O1 W0 W1 Hc.
    intros E. destruct converted_sum as [c [Ec [Lc [Bc [Wc Dc]]]]]. unfold calculate_inner_products_elementwise. rewrite Ec.
    rewrite !as_matrix_some by assumption. unfold einsum_length.
    destruct (Nat.eqb_spec (bsize (slist s0)) (bsize (slist s1))); [lia|].
    destruct (Nat.eqb_spec (bsize (slist s0)) 1); [split; [reflexivity|left; split; [assumption|reflexivity]]|].
    destruct (Nat.eqb_spec (bsize (slist s1)) 1); [split; [reflexivity|right; split; [assumption|reflexivity]]|].
    split; assumption.
  Qed.
End Products.

Lemma grid_inner_conj b0 b1 u v : bfund b0 = bfund b1 -> Cconj (grid_inner b0 b1 u v) = grid_inner b1 b0 v u.
Proof.
  intros E. unfold grid_inner. rewrite Cconj_csum, E. apply csum_ext. intros x Hx. rewrite Cconj_mult, Cconj_conj. ring.
Qed.

Lemma compatible_fund a b : compatible a b -> bfund a = bfund b.
Proof. intros H; inversion H; assumption. Qed.

Lemma inner_products_adjoint same s0 s1 o o' : identity_test same -> bwf (sbasis s0) -> bwf (sbasis s1) ->
  explicit_orthonormal (sbasis s0) -> explicit_orthonormal (sbasis s1) -> well_formed_list s0 -> well_formed_list s1 ->
  calculate_inner_products same s0 s1 = Some o -> calculate_inner_products same s1 s0 = Some o' ->
  forall i j, (i < bsize (slist s0))%nat -> (j < bsize (slist s1))%nat ->
    aflat (odata o') (j * bsize (slist s0) + i) = Cconj (aflat (odata o) (i * bsize (slist s1) + j)).
Proof.
  intros Hs H0 H1 O0 O1 W0 W1 E E' i j Hi Hj.
  assert (C01 : forall s t o, calculate_inner_products same s t = Some o -> compatible (sbasis t) (sbasis s)).
  { intros s t q Eq. apply (convert_some_iff same). unfold calculate_inner_products, convert_state_list in Eq.
    destruct (as_matrix t); [|discriminate]. destruct (convert same (sbasis t) (sbasis s)) as [F|]; [eauto|discriminate]. }
  destruct (inner_products_entries same s0 s1 Hs H0 H1 O1 W0 W1 (C01 _ _ _ E)) as [p [Ep [_ [_ [_ V]]]]].
  destruct (inner_products_entries same s1 s0 Hs H1 H0 O0 W1 W0 (C01 _ _ _ E')) as [p' [Ep' [_ [_ [_ V']]]]].
  rewrite E in Ep. injection Ep as <-. rewrite E' in Ep'. injection Ep' as <-.
  rewrite V' by assumption. rewrite V by assumption. symmetry. apply grid_inner_conj.
  symmetry. apply compatible_fund, (C01 _ _ _ E).
Qed.

Lemma grid_inner_same b u v : bwf b -> explicit_orthonormal b -> grid_inner b b u v = inner_product (bsize b) u v.
Proof.
  intros Hw Ho. rewrite grid_inner_overlap. unfold inner_product. apply csum_ext. intros k Hk. f_equal.
  rewrite (csum_ext _ (fun l => cdelta k l * v l)).
  - apply csum_delta_l; exact Hk.
  - intros l Hl. rewrite explicit_orthonormal_sound by assumption. reflexivity.
Qed.

(** Weighted by eigenvalues. *)
Lemma eigenvalue_products s0 e0 s1 e1 : well_formed_list s0 -> well_formed_list s1 -> bsize (sbasis s1) = bsize (sbasis s0) ->
  exists o, calculate_inner_products_eigenvalues s0 e0 s1 e1 = Some o /\ orow o = slist s0 /\ ocol o = slist s1 /\
    forall i j, (i < bsize (slist s0))%nat -> (j < bsize (slist s1))%nat ->
      aflat (odata o) (i * bsize (slist s1) + j) =
      Cconj (e0 i) * e1 j * inner_product (bsize (sbasis s0)) (state_of s0 i) (state_of s1 j).
Proof.
  intros W0 W1 E. unfold calculate_inner_products_eigenvalues. rewrite !as_matrix_some by assumption.
  unfold einsum_length. rewrite E, Nat.eqb_refl. eexists. split; [reflexivity|]. split; [reflexivity|]. split; [reflexivity|].
  intros i j Hi Hj. cbn [odata]. rewrite array2_at by exact Hj. unfold inner_product. rewrite <- csum_scal_l. apply csum_ext. intros k Hk.
  unfold at2. cbn [ashape aflat nth]. unfold state_of, row. rewrite E.
  replace (einsum_pos (bsize (sbasis s0)) k) with k; [ring|]. unfold einsum_pos. destruct (Nat.eqb_spec (bsize (sbasis s0)) 1); lia.
Qed.

(** Single vectors. *)
Lemma inner_product_dual v w b f g : is_vector v b f -> is_vector w b g ->
  calculate_inner_product v (as_dual_vector w) = Some (inner_product (bsize b) g f).
Proof.
  intros [Bv [Sv Dv]] [Bw [Sw Dw]]. unfold calculate_inner_product. cbn [as_dual_vector vdata conj_data ashape]. rewrite Sv, Sw, Nat.eqb_refl.
  f_equal. unfold inner_product. apply csum_ext. intros k Hk. cbn [aflat as_dual_vector vdata conj_data]. rewrite Dv, Dw by exact Hk. reflexivity.
Qed.

Lemma rsum_nonneg f n : (forall i, (i < n)%nat -> (0 <= f i)%R) -> (0 <= rsum f n)%R.
Proof. induction n as [|n IH]; intros H; cbn; [lra|]. assert (A := H n ltac:(lia)). assert (B := IH ltac:(intros; apply H; lia)). lra. Qed.
Lemma rsum_zero f n : (forall i, (i < n)%nat -> (0 <= f i)%R) -> rsum f n = 0%R -> forall i, (i < n)%nat -> f i = 0%R.
Proof.
  induction n as [|n IH]; intros H E i Hi; [lia|]. cbn in E.
  assert (A := H n ltac:(lia)). assert (B := rsum_nonneg f n ltac:(intros; apply H; lia)).
  destruct (Nat.eq_dec i n) as [->|]; [lra|]. apply IH; [intros; apply H; lia|lra|lia].
Qed.

Lemma normalization_spec v b f : is_vector v b f ->
  calculate_inner_product v (as_dual_vector v) = Some (RtoC (calculate_normalization v)) /\
  (0 <= calculate_normalization v)%R /\
  (calculate_normalization v = 0%R <-> forall t, (t < bsize b)%nat -> f t = 0).
Proof.
  intros [Bv [Sv Dv]].
  assert (P : forall i, (i < bsize b)%nat -> (0 <= Cmod (aflat (vdata v) i) ^ 2)%R) by (intros; apply pow2_ge_0).
  unfold calculate_normalization. rewrite Sv. cbn [nprod]. rewrite Nat.mul_1_r. split; [|split].
  - rewrite (inner_product_dual v v b f f) by (split; [exact Bv|split; [exact Sv|exact Dv]]). f_equal. unfold inner_product.
    rewrite <- csum_RtoC. apply csum_ext. intros k Hk. rewrite Dv by exact Hk.
    replace (Cmod (f k) ^ 2)%R with (Cnorm2 (f k)) by (rewrite Cnorm2_Cmod; ring).
    destruct (f k) as [x y]. apply injective_projections; cbn; unfold Cnorm2; cbn; ring.
  - apply rsum_nonneg, P.
  - split.
    + intros E t Ht. assert (Q := rsum_zero _ _ P E t Ht). cbn beta in Q. rewrite Dv in Q by exact Ht. cbn in Q.
      rewrite Rmult_1_r in Q. apply Rmult_integral in Q. apply Cmod_eq_0. destruct Q; assumption.
    + intros E. rewrite (rsum_ext _ (fun _ => 0%R)).
      * clear. induction (bsize b) as [|n IH]; cbn; [reflexivity|rewrite IH; lra].
      * intros k Hk. rewrite Dv, E by exact Hk. rewrite Cmod_0. ring.
Qed.

(** Gram matrices are positive: their quadratic form is the norm of the weighted state. *)
Lemma gram_positive same s w v o : identity_test same -> bwf (sbasis s) -> explicit_orthonormal (sbasis s) -> well_formed_list s ->
  (0 < bsize (slist s))%nat -> ashape (vdata w) = [bsize (slist s)] ->
  get_weighted_state_vector s w = Some v -> calculate_inner_products same s s = Some o ->
  csum (fun i => csum (fun j => Cconj (aflat (vdata w) i) * aflat (vdata w) j * aflat (odata o) (i * bsize (slist s) + j)) (bsize (slist s))) (bsize (slist s))
  = RtoC (calculate_normalization v).
Proof.
  intros Hs Hw Ho W Hn Sw Ev Eo. destruct (weighted_spec s w W Hn Sw) as [v' [Ev' Vv]]. rewrite Ev in Ev'. injection Ev' as <-.
  assert (C := compatible_refl (sbasis s)).
  destruct (inner_products_entries same s s Hs Hw Hw Ho W W C) as [p [Ep [_ [_ [_ V]]]]]. rewrite Eo in Ep. injection Ep as <-.
  assert (N := proj1 (normalization_spec _ _ _ Vv)). rewrite (inner_product_dual _ _ _ _ _ Vv Vv) in N. injection N as <-.
  unfold inner_product.
  transitivity (csum (fun i => csum (fun j => csum (fun k =>
     Cconj (aflat (vdata w) i * state_of s i k) * (aflat (vdata w) j * state_of s j k)) (bsize (sbasis s))) (bsize (slist s))) (bsize (slist s))).
  { apply csum_ext. intros i Hi. apply csum_ext. intros j Hj. rewrite V by assumption. rewrite grid_inner_same by assumption.
    unfold inner_product. rewrite <- csum_scal_l. apply csum_ext. intros k Hk. rewrite Cconj_mult. ring. }
  transitivity (csum (fun i => csum (fun k => csum (fun j =>
     Cconj (aflat (vdata w) i * state_of s i k) * (aflat (vdata w) j * state_of s j k)) (bsize (slist s))) (bsize (sbasis s))) (bsize (slist s))).
  { apply csum_ext. intros i Hi. apply csum_swap. }
  rewrite csum_swap. apply csum_ext. intros k Hk. rewrite Cconj_csum, <- csum_scal_r. apply csum_ext. intros i Hi. rewrite csum_scal_l. reflexivity.
Qed.

(** Converting both keeps the inner product. *)
Lemma inner_product_converted same v w b v' w' c f g : identity_test same -> bwf b -> bwf c -> explicit_orthonormal b -> complete c ->
  is_vector v b f -> is_vector w b g ->
  convert_vector_to same v c = Some v' -> convert_dual_to same (as_dual_vector w) c = Some w' ->
  calculate_inner_product v' w' = calculate_inner_product v (as_dual_vector w).
Proof.
  intros Hs Hb Hc Ob Cc Vv Vw Ev Ew. rewrite (inner_product_dual _ _ _ _ _ Vv Vw). destruct Vv as [Bv [Sv Dv]], Vw as [Bw [Sw Dw]].
  unfold convert_vector_to in Ev. rewrite reshape_some in Ev by (rewrite Sv, Bv; reflexivity). rewrite Bv in Ev.
  destruct (convert same b c) as [F|] eqn:EF; [|discriminate]. injection Ev as <-.
  unfold convert_dual_to in Ew. cbn [as_dual_vector vbasis vdata] in Ew.
  rewrite reshape_some in Ew by (cbn [conj_data ashape]; rewrite Sw, Bw; reflexivity). rewrite Bw in Ew.
  unfold convert_dual in Ew. rewrite EF in Ew. injection Ew as <-.
  unfold calculate_inner_product. cbn [vdata ashape]. rewrite Nat.eqb_refl. f_equal. cbn [aflat conj_data].
  assert (I := convert_inner same Hs b c F Hb Hc Ob Cc EF g f). unfold inner_product in *. rewrite <- I. apply csum_ext. intros k Hk.
  assert (M := convert_orthonormal same Hs b c F Hb Hc Ob EF). rewrite !M by exact Hk. f_equal; [f_equal|]; apply csum_ext; intros l Hl.
  - rewrite Dw by exact Hl. rewrite Cconj_conj. reflexivity.
  - rewrite Dv by exact Hl. reflexivity.
Qed.

(** The entries are the inner products of the single states. *)
Lemma entry_is_single same s0 s1 o i j v w : identity_test same -> bwf (sbasis s0) -> explicit_orthonormal (sbasis s0) ->
  well_formed_list s0 -> well_formed_list s1 -> sbasis s1 = sbasis s0 ->
  (i < bsize (slist s0))%nat -> (j < bsize (slist s1))%nat ->
  calculate_inner_products same s0 s1 = Some o ->
  get_state_vector s1 (Flat (Z.of_nat j)) = Some v -> get_state_dual_vector s0 (Z.of_nat i) = Some w ->
  calculate_inner_product v w = Some (aflat (odata o) (i * bsize (slist s1) + j)).
Proof.
  intros Hs Hw Ho W0 W1 E Hi Hj Eo Ev Ew.
  destruct (get_state_flat s1 (Z.of_nat j) j W1 Hj (or_introl eq_refl)) as [v' [Ev' Vv]]. rewrite Ev in Ev'. injection Ev' as <-.
  destruct (get_state_flat s0 (Z.of_nat i) i W0 Hi (or_introl eq_refl)) as [w' [Ew' Vw]].
  rewrite dual_is_conj, Ew' in Ew. injection Ew as <-. rewrite E in Vv.
  rewrite (inner_product_dual _ _ _ _ _ Vv Vw).
  destruct (inner_products_entries same s0 s1 Hs Hw ltac:(rewrite E; exact Hw) ltac:(rewrite E; exact Ho) W0 W1 ltac:(rewrite E; apply compatible_refl))
    as [p [Ep [_ [_ [_ V]]]]]. rewrite Eo in Ep. injection Ep as <-. rewrite V by assumption. rewrite E.
  rewrite grid_inner_same by assumption. reflexivity.
Qed.

(** The basis states on the grid. *)
Lemma basis_states_grid same b : identity_test same -> bwf b -> explicit_orthonormal b -> (0 < bsize b)%nat -> (0 < bfund b)%nat ->
  exists c, convert_state_list same (get_basis_states b) (BFund (bfund b)) = Some c /\
    forall k x, (k < bsize b)%nat -> (x < bfund b)%nat -> state_of c k x = bstate b k x.
Proof.
  intros Hs Hw Ho Hn Hf. destruct (basis_states_spec b 0 Hn) as [W [_ [B _]]].
  assert (C : compatible b (BFund (bfund b))) by (apply compatible_other; [intros ? ? [_ ?]; discriminate|reflexivity]).
  destruct (convert_list_spec same (get_basis_states b) (BFund (bfund b)) W C) as [F [c [EF [Ec [_ [_ [_ D]]]]]]].
  exists c. split; [exact Ec|]. intros k x Hk Hx. rewrite D by exact Hx.
  rewrite (convert_orthonormal same Hs b (BFund (bfund b)) F Hw Hf Ho EF _ x Hx).
  destruct (basis_states_spec b k Hn) as [_ [_ [_ V]]].
  rewrite (csum_ext _ (fun l => bstate b l x * cdelta k l)).
  - rewrite (csum_ext _ (fun l => cdelta k l * bstate b l x)) by (intros; ring). apply (csum_delta_l (fun l => bstate b l x)); exact Hk.
  - intros l Hl. rewrite V by exact Hl. f_equal. unfold overlap. cbn [bstate].
    rewrite (csum_ext _ (fun y => cdelta x y * bstate b l y)).
    + apply csum_delta_l; exact Hx.
    + intros y Hy. f_equal. unfold cdelta. destruct (Nat.eqb x y); apply Csum.Cconj_RtoC.
Qed.

(** Without indices the other axes are at their first position. *)
Lemma along_default lb b data axes :
  Forall (fun n => (0 < n)%nat) (map bsize lb) -> nprod (ashape data) = (nprod (map bsize lb) * bsize b)%nat ->
  good_axes (length lb) axes ->
  exists s, get_state_along_axis lb b data axes None = Some s /\
    slist s = BTuple (removed (BFund 1) axes lb) /\ sbasis s = b /\ well_formed_list s /\
    forall out full, in_shape out (map (fun a => nth a (map bsize lb) 0%nat) axes) -> length full = length lb ->
      (forall j, (j < length axes)%nat -> nth (nth j axes 0%nat) full 0%nat = nth j out 0%nat) ->
      (forall k, (k < length lb)%nat -> ~ In k axes -> nth k full 0%nat = 0%nat) ->
      forall t, (t < bsize b)%nat ->
        state_of s (ravel (map (fun a => nth a (map bsize lb) 0%nat) axes) out) t =
        row (bsize b) (aflat data) (ravel (map bsize lb) full) t.
Proof.
  intros Hpos Hd Hg. set (idx := map (fun _ => 0%nat) (other_axes (length lb) axes)).
  assert (Hidx : in_shape idx (remaining 0%nat axes (map bsize lb))).
  { unfold idx, remaining. rewrite map_length. assert (R : Forall (fun k => (k < length lb)%nat) (other_axes (length lb) axes)).
    { rewrite Forall_forall. intros k Hk. unfold other_axes in Hk. apply filter_In in Hk. destruct Hk as [Hk _]. apply in_seq in Hk. lia. }
    induction R as [|k l Hk R IH]; constructor; [|exact IH]. rewrite Forall_forall in Hpos. apply Hpos, nth_In. rewrite map_length. exact Hk. }
  assert (E : idx = repeat 0%nat (length lb - length axes)).
  { assert (L := len_idx lb b data axes idx Hpos Hd Hg Hidx). replace (length lb - length axes)%nat with (length idx) by lia.
    unfold idx. rewrite map_length. clear. induction (other_axes (length lb) axes) as [|k l IH]; [reflexivity|]. cbn. f_equal. exact IH. }
  destruct (along_spec lb b data axes idx Hpos Hd Hg Hidx) as [s [Es [Ls [Bs [Ws V]]]]]. exists s.
  split; [unfold get_state_along_axis in *; rewrite <- E; exact Es|]. split; [exact Ls|]. split; [exact Bs|]. split; [exact Ws|].
  intros out full Ho Lf Ha Hz. apply V; [exact Ho|]. split; [exact Lf|]. split; [exact Ha|].
  unfold idx. apply map_ext_in. intros k Hk. unfold other_axes in Hk. apply filter_In in Hk. destruct Hk as [Hk Hn]. apply in_seq in Hk.
  apply Hz; [lia|]. intros I. apply negb_true_iff in Hn. assert (existsb (Nat.eqb k) axes = true) as T; [|congruence].
  apply existsb_exists. exists k. split; [exact I|apply Nat.eqb_refl].
Qed.
