(** Proofs about single states and lists of states. *)
From Coq Require Import Reals Lra Permutation Sorted.
From Verif Require Import ZLib Csum DFT NumPy Index IndexProofs AxesProofs Spec SpecReal Basis SpecBasis BasisProofs BasisProofs2 BasisProofs3
  Operator SpecOperator OperatorProofs OperatorProofs2 Reduce SpecReduce ReduceProofs ReduceProofs2 Wavepacket SpecWavepacket Localize
  LocalizeProofs3 StateList SpecStateList.
Local Open Scope R_scope.
Local Open Scope C_scope.

Lemma as_matrix_some s : well_formed_list s ->
  as_matrix s = Some {| ashape := [bsize (slist s); bsize (sbasis s)]; aflat := aflat (sdata s) |}.
Proof. intros H. unfold as_matrix. apply reshape_some. rewrite H. cbn [nprod]. lia. Qed.

Lemma python_index_cases n i : python_index n i = None <-> ~ (- Z.of_nat n <= i < Z.of_nat n)%Z.
Proof.
  unfold python_index.
  destruct (Z.leb_spec 0 i), (Z.ltb_spec i (Z.of_nat n)), (Z.leb_spec (- Z.of_nat n) i), (Z.ltb_spec i 0); cbn;
    split; intros; try discriminate; try lia; reflexivity.
Qed.
Lemma python_index_at n i k : (k < n)%nat -> (i = Z.of_nat k \/ i = Z.of_nat k - Z.of_nat n)%Z -> python_index n i = Some k.
Proof.
  intros Hk H. unfold python_index.
  destruct (Z.leb_spec 0 i), (Z.ltb_spec i (Z.of_nat n)), (Z.leb_spec (- Z.of_nat n) i), (Z.ltb_spec i 0); cbn;
    try lia; f_equal; lia.
Qed.

Lemma select_vector s k : is_vector
  {| vbasis := sbasis s; vdata := select_row {| ashape := [bsize (slist s); bsize (sbasis s)]; aflat := aflat (sdata s) |} k |}
  (sbasis s) (state_of s k).
Proof.
  split; [reflexivity|]. split; [reflexivity|]. intros t Ht. cbn [vdata select_row aflat ashape tl nprod].
  unfold state_of, row. f_equal. lia.
Qed.

Lemma get_state_flat s i k : well_formed_list s -> (k < bsize (slist s))%nat ->
  (i = Z.of_nat k \/ i = Z.of_nat k - Z.of_nat (bsize (slist s)))%Z ->
  exists v, get_state_vector s (Flat i) = Some v /\ is_vector v (sbasis s) (state_of s k).
Proof.
  intros H Hk Hi. unfold get_state_vector. rewrite as_matrix_some by exact H. cbn [list_position].
  rewrite (python_index_at _ _ k Hk Hi). eexists. split; [reflexivity|apply select_vector].
Qed.

Lemma get_state_none s i : well_formed_list s ->
  (get_state_vector s (Flat i) = None <-> ~ (- Z.of_nat (bsize (slist s)) <= i < Z.of_nat (bsize (slist s)))%Z).
Proof.
  intros H. rewrite <- python_index_cases. unfold get_state_vector. rewrite as_matrix_some by exact H. cbn [list_position].
  destruct (python_index _ _); split; intros; try discriminate; reflexivity.
Qed.

Lemma wrapped_spec shape : forall idx, Forall (fun n => (0 < n)%nat) shape -> length idx = length shape ->
  in_shape (wrapped shape idx) shape /\ get_flat_index shape idx MWrap = Some (ravel shape (wrapped shape idx)).
Proof.
  induction shape as [|n shape IH]; intros [|i idx] H E; try discriminate.
  - split; [constructor|reflexivity].
  - inversion H; subst. injection E as E. destruct (IH idx H3 E) as [A B]. cbn [wrapped]. split.
    + constructor; [|exact A]. assert (B' := Z.mod_pos_bound i (Z.of_nat n) ltac:(lia)). lia.
    + unfold get_flat_index in *. cbn [indices_in_mode index_in_mode].
      destruct (Nat.eqb_spec n 0); [lia|]. destruct (indices_in_mode MWrap shape idx) as [l|]; [|discriminate].
      injection B as B. cbn [ravel]. rewrite B. reflexivity.
Qed.

Lemma get_state_stacked axes b d idx : let s := {| slist := BTuple axes; sbasis := b; sdata := d |} in
  well_formed_list s -> Forall (fun n => (0 < n)%nat) (map bsize axes) -> length idx = length axes ->
  exists v, get_state_vector s (Stacked idx) = Some v /\ is_vector v b (state_of s (ravel (map bsize axes) (wrapped (map bsize axes) idx))).
Proof.
  intros s H P E. unfold get_state_vector. rewrite as_matrix_some by exact H. cbn [list_position s slist].
  destruct (wrapped_spec (map bsize axes) idx P ltac:(rewrite map_length; exact E)) as [_ ->].
  eexists. split; [reflexivity|apply (select_vector s)].
Qed.

(** Dual vectors. *)
Lemma dual_is_conj s i : get_state_dual_vector s i =
  match get_state_vector s (Flat i) with Some v => Some (as_dual_vector v) | None => None end.
Proof.
  unfold get_state_dual_vector, get_state_vector. cbn [list_position]. destruct (as_matrix s); [|reflexivity].
  destruct (python_index _ _); reflexivity.
Qed.

Lemma as_vector_dual v b f : is_vector v b f -> is_vector (as_vector (as_dual_vector v)) b f /\
  is_vector (as_dual_vector v) b (fun t => Cconj (f t)).
Proof.
  intros [A [B D]]. split; (split; [exact A|split; [exact B|]]); intros t Ht; cbn; rewrite D by exact Ht; [|reflexivity].
  apply Cconj_conj.
Qed.

(** Iteration. *)
Lemma into_iter_spec s : well_formed_list s ->
  exists l, state_vector_list_into_iter s = Some l /\ length l = bsize (slist s) /\
    forall k d, (k < bsize (slist s))%nat -> get_state_vector s (Flat (Z.of_nat k)) = Some (nth k l d).
Proof.
  intros H. unfold state_vector_list_into_iter. rewrite as_matrix_some by exact H. eexists. split; [reflexivity|].
  split; [rewrite map_length, seq_length; reflexivity|]. intros k d Hk.
  unfold get_state_vector. rewrite as_matrix_some by exact H. cbn [list_position].
  rewrite (python_index_at _ _ k Hk (or_introl eq_refl)). f_equal.
  set (f := fun i => _). rewrite (nth_indep _ d (f 0%nat)) by (rewrite map_length, seq_length; exact Hk).
  rewrite map_nth, seq_nth by exact Hk. reflexivity.
Qed.

Lemma collect_spec l v0 : l <> [] -> (forall v, In v l -> ashape (vdata v) = [bsize (vbasis (hd v0 l))]) ->
  exists s, as_state_vector_list l = Some s /\ slist s = BFund (length l) /\ sbasis s = vbasis (hd v0 l) /\ well_formed_list s /\
    forall k t, (k < length l)%nat -> (t < bsize (sbasis s))%nat -> state_of s k t = aflat (vdata (nth k l v0)) t.
Proof.
  intros Hl H. destruct l as [|v l]; [contradiction|]. cbn [hd] in *. unfold as_state_vector_list.
  replace (forallb _ _) with true.
  2:{ symmetry. apply forallb_forall. intros w Hw. rewrite (H w Hw), (H v (or_introl eq_refl)).
      destruct (list_eq_dec _ _ _); [reflexivity|contradiction]. }
  rewrite (H v (or_introl eq_refl)). cbn [nprod]. rewrite Nat.mul_1_r. eexists. split; [reflexivity|].
  split; [reflexivity|]. split; [reflexivity|]. split.
  { unfold well_formed_list. cbn [sdata ashape slist sbasis nprod bsize]. lia. }
  cbn [sbasis]. intros k t Hk Ht. unfold state_of, row. cbn [sbasis sdata aflat].
  rewrite Nat.div_add_l by lia. rewrite (Nat.div_small t) by lia. rewrite Nat.add_0_r.
  replace ((k * bsize (vbasis v) + t) mod bsize (vbasis v))%nat with t
    by (rewrite Nat.add_comm, Nat.mod_add by lia; rewrite Nat.mod_small by lia; reflexivity).
  rewrite (nth_indep _ v v0) by exact Hk. reflexivity.
Qed.

Lemma round_trip_spec s : well_formed_list s -> (0 < bsize (slist s))%nat ->
  exists l s', state_vector_list_into_iter s = Some l /\ as_state_vector_list l = Some s' /\
    slist s' = BFund (bsize (slist s)) /\ sbasis s' = sbasis s /\ well_formed_list s' /\
    forall t, (t < bsize (slist s) * bsize (sbasis s))%nat -> aflat (sdata s') t = aflat (sdata s) t.
Proof.
  intros H Hn. destruct (into_iter_spec s H) as [l [El [Len G]]]. exists l.
  set (v0 := {| vbasis := sbasis s; vdata := sdata s |}).
  assert (V : forall k, (k < bsize (slist s))%nat -> is_vector (nth k l v0) (sbasis s) (state_of s k)).
  { intros k Hk. destruct (get_state_flat s (Z.of_nat k) k H Hk (or_introl eq_refl)) as [v [Ev Hv]].
    rewrite (G k v0 Hk) in Ev. injection Ev as <-. exact Hv. }
  assert (Hd : hd v0 l = nth 0 l v0) by (destruct l; reflexivity).
  assert (B0 : vbasis (hd v0 l) = sbasis s) by (rewrite Hd; apply (V 0%nat Hn)).
  destruct (collect_spec l v0) as [s' [Es' [L' [B' [W' D']]]]].
  - intros ->. cbn in Len. lia.
  - intros v Hv. destruct (In_nth l v v0 Hv) as [k [Hk <-]]. rewrite Len in Hk. rewrite B0. apply (V k Hk).
  - exists s'. split; [exact El|]. split; [exact Es'|]. rewrite L', Len, B', B0. split; [reflexivity|]. split; [reflexivity|].
    split; [exact W'|]. intros t Ht. assert (Hm : (0 < bsize (sbasis s))%nat) by nia.
    assert (Hq : (t / bsize (sbasis s) < bsize (slist s))%nat) by (apply Nat.div_lt_upper_bound; nia).
    assert (Hr : (t mod bsize (sbasis s) < bsize (sbasis s))%nat) by (apply Nat.mod_upper_bound; lia).
    specialize (D' (t / bsize (sbasis s))%nat (t mod bsize (sbasis s))%nat ltac:(lia) ltac:(rewrite B', B0; exact Hr)).
    unfold state_of, row in D'. rewrite B', B0 in D'.
    replace (t / bsize (sbasis s) * bsize (sbasis s) + t mod bsize (sbasis s))%nat with t in D'
      by (rewrite Nat.mul_comm; apply Nat.div_mod; lia).
    rewrite D'. destruct (V _ Hq) as [_ [_ ->]]; [|exact Hr]. unfold state_of, row. f_equal.
    rewrite Nat.mul_comm. symmetry. apply Nat.div_mod; lia.
Qed.

(** Weighted sums. *)
Lemma weighted_spec s w : well_formed_list s -> (0 < bsize (slist s))%nat -> ashape (vdata w) = [bsize (slist s)] ->
  exists v, get_weighted_state_vector s w = Some v /\
    is_vector v (sbasis s) (fun t => csum (fun i => aflat (vdata w) i * state_of s i t) (bsize (slist s))).
Proof.
  intros H Hn Hw. unfold get_weighted_state_vector. destruct (Nat.eqb_spec (bsize (slist s)) 0); [lia|].
  rewrite H, Nat.mul_comm, Nat.mod_mul, Nat.eqb_refl, Nat.div_mul by lia. rewrite Hw, Nat.eqb_refl.
  eexists. split; [reflexivity|]. split; [reflexivity|]. split; [reflexivity|]. intros t Ht. reflexivity.
Qed.

Lemma weighted_none s w : well_formed_list s -> ashape (vdata w) <> [bsize (slist s)] -> get_weighted_state_vector s w = None.
Proof.
  intros H Hw. unfold get_weighted_state_vector. destruct (Nat.eqb_spec (bsize (slist s)) 0); [reflexivity|].
  destruct (_ =? 0)%nat; [|reflexivity]. destruct (ashape (vdata w)) as [|k [|]]; try reflexivity.
  destruct (Nat.eqb_spec k (bsize (slist s))); [subst; contradiction|reflexivity].
Qed.

Lemma convert_list_spec same s b : well_formed_list s -> compatible (sbasis s) b ->
  exists F c, convert same (sbasis s) b = Some F /\ convert_state_list same s b = Some c /\
    slist c = slist s /\ sbasis c = b /\ well_formed_list c /\
    forall i t, (t < bsize b)%nat -> state_of c i t = F (state_of s i) t.
Proof.
  intros H C. destruct (proj2 (convert_some_iff same _ _) C) as [F HF]. exists F. unfold convert_state_list.
  rewrite as_matrix_some by exact H. rewrite HF. eexists. split; [reflexivity|]. split; [reflexivity|].
  split; [reflexivity|]. split; [reflexivity|]. split.
  - unfold well_formed_list. cbn. lia.
  - intros i t Ht. unfold state_of at 1, row. cbn [sbasis sdata ravel_array array2 aflat].
    rewrite Nat.div_add_l by lia. rewrite (Nat.div_small t) by lia. rewrite Nat.add_0_r.
    rewrite Nat.add_comm, Nat.mod_add by lia. rewrite Nat.mod_small by lia. reflexivity.
Qed.

Lemma weighted_convert same s w b v c : identity_test same -> bwf (sbasis s) -> bwf b -> explicit_orthonormal (sbasis s) ->
  well_formed_list s -> (0 < bsize (slist s))%nat -> ashape (vdata w) = [bsize (slist s)] ->
  get_weighted_state_vector s w = Some v -> convert_state_list same s b = Some c ->
  exists v1 v2, convert_vector_to same v b = Some v1 /\ get_weighted_state_vector c w = Some v2 /\
    vbasis v1 = b /\ vbasis v2 = b /\ forall t, (t < bsize b)%nat -> aflat (vdata v1) t = aflat (vdata v2) t.
Proof.
  intros Hs Ha Hb Ho H Hn Hw Ev Ec. destruct (weighted_spec s w H Hn Hw) as [v' [Ev' [Bv [Sv Dv]]]].
  rewrite Ev in Ev'. injection Ev' as <-.
  assert (HF : exists F, convert same (sbasis s) b = Some F).
  { unfold convert_state_list in Ec. destruct (as_matrix s); [|discriminate]. destruct (convert _ _ _) as [F|]; [|discriminate]. eauto. }
  destruct (convert_list_spec same s b H (proj1 (convert_some_iff same _ _) HF)) as [F [c' [EF [Ec' [Lc [Bc [Wc Dc]]]]]]].
  rewrite Ec in Ec'. injection Ec' as <-.
  destruct (weighted_spec c w Wc ltac:(rewrite Lc; exact Hn) ltac:(rewrite Lc; exact Hw)) as [v2 [E2 [B2 [S2 D2]]]].
  rewrite Bc in *. rewrite Lc in *. unfold convert_vector_to. rewrite Bv, EF.
  rewrite reshape_some by (rewrite Sv; reflexivity). eexists. exists v2. split; [reflexivity|]. split; [exact E2|].
  split; [reflexivity|]. split; [exact B2|]. intros t Ht. cbn [vdata aflat]. rewrite D2 by exact Ht.
  assert (M := convert_orthonormal same Hs _ _ F Ha Hb Ho EF). rewrite M by exact Ht.
  rewrite (csum_ext _ (fun k => csum (fun i => aflat (vdata w) i * (overlap b (sbasis s) t k * state_of s i k)) (bsize (slist s)))).
  2:{ intros k Hk. rewrite Dv by exact Hk. rewrite <- csum_scal_l. apply csum_ext. intros; ring. }
  rewrite csum_swap. apply csum_ext. intros i Hi. rewrite Dc by exact Ht. rewrite M by exact Ht. rewrite csum_scal_l. reflexivity.
Qed.

(** Averages. *)
Lemma average_state_spec lb b data ax : Forall (fun n => 0 < n)%nat (map bsize lb) ->
  nprod (ashape data) = (nprod (map bsize lb) * bsize b)%nat -> good_axes (length lb) ax ->
  exists s, average_state_vector lb b data (Some (map Z.of_nat ax)) = Some s /\
    slist s = BTuple (remaining (BFund 1) ax lb) /\ sbasis s = b /\ well_formed_list s /\
    forall out i, in_shape out (map bsize (remaining (BFund 1) ax lb)) -> (i < bsize b)%nat ->
      state_of s (ravel (map bsize (remaining (BFund 1) ax lb)) out) i =
      sum_matching ax (map bsize lb) (fun t => aflat data (t * bsize b + i)%nat) out
      / RtoC (INR (nprod (removed 0%nat ax (map bsize lb)))).
Proof.
  intros P W G. destruct (average_axes_spec lb b data ax P W G) as [d [E [S1 V]]].
  unfold average_probabilities in E. unfold average_state_vector.
  destruct (_ =? 0)%nat; [discriminate|]. destruct (_ =? 0)%nat; [|discriminate].
  destruct (np_average _ _ _) as [d'|]; [|discriminate]. injection E as E1 <-. eexists. split; [reflexivity|].
  split; [cbn [slist]; rewrite E1; reflexivity|]. split; [reflexivity|]. split.
  - unfold well_formed_list. cbn [sdata slist sbasis]. rewrite S1, E1. cbn [nprod bsize]. lia.
  - intros out i Ho Hi. unfold state_of, row. cbn [sbasis sdata]. apply V; assumption.
Qed.

Lemma average_default lb b data : average_state_vector lb b data None =
  average_state_vector lb b data (Some (map Z.of_nat (seq 0 (length lb)))).
Proof. reflexivity. Qed.

(** The states of a basis. *)
Lemma basis_states_spec b k : (0 < bsize b)%nat -> well_formed_list (get_basis_states b) /\
  slist (get_basis_states b) = BFund (bsize b) /\ sbasis (get_basis_states b) = b /\
  forall t, (t < bsize b)%nat -> state_of (get_basis_states b) k t = cdelta k t.
Proof.
  intros Hn. split; [unfold well_formed_list; cbn; lia|]. split; [reflexivity|]. split; [reflexivity|]. intros t Ht.
  unfold state_of, row. cbn [get_basis_states sbasis sdata ravel_array array2 aflat].
  rewrite Nat.div_add_l by lia. rewrite (Nat.div_small t) by lia. rewrite Nat.add_0_r.
  rewrite Nat.add_comm, Nat.mod_add by lia. rewrite Nat.mod_small by lia. reflexivity.
Qed.
