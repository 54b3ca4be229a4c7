(** Properties of lists of states (C86) and of their inner products (C87). *)
From Coq Require Import Reals Permutation Sorted.
From Verif Require Import ZLib Csum DFT NumPy Index Spec SpecReal Basis SpecBasis Operator SpecOperator Reduce SpecReduce SpecWavepacket Localize
  StateList SpecStateList StateListProofs StateListProofs2 StateListProofs3 StateListFacts.
Local Open Scope R_scope.
Local Open Scope C_scope.

(** ** C86 *)
Example ex_C86_list : well_formed_list ex_list /\ (0 < bsize (slist ex_list))%nat /\ bwf (sbasis ex_list) /\ explicit_orthonormal (sbasis ex_list) /\
  ashape (vdata ex_weights) = [bsize (slist ex_list)] /\ bsize (slist ex_list) = 6%nat /\ bsize (sbasis ex_list) = 4%nat /\
  compatible (sbasis ex_list) (BTuple [BFund 3; BFundT 2]).
Proof. exact ex_list_ok. Qed.

(** A flat index counts from the start or, when negative, from the end. *)
Theorem C86_get_state_vector :
  forall s i k, well_formed_list s -> (k < bsize (slist s))%nat ->
  (i = Z.of_nat k \/ i = Z.of_nat k - Z.of_nat (bsize (slist s)))%Z ->
  exists v, get_state_vector s (Flat i) = Some v /\ is_vector v (sbasis s) (state_of s k).
Proof. exact get_state_flat. Qed.
Print Assumptions C86_get_state_vector.

Theorem C86_out_of_range_raises :
  forall s i, well_formed_list s ->
  (get_state_vector s (Flat i) = None <-> ~ (- Z.of_nat (bsize (slist s)) <= i < Z.of_nat (bsize (slist s)))%Z).
Proof. exact get_state_none. Qed.
Print Assumptions C86_out_of_range_raises.

(** A tuple names one position per axis of the list and is taken periodically. *)
Theorem C86_stacked_index :
  forall axes b d idx, let s := {| slist := BTuple axes; sbasis := b; sdata := d |} in
  well_formed_list s -> Forall (fun n => (0 < n)%nat) (map bsize axes) -> length idx = length axes ->
  exists v, get_state_vector s (Stacked idx) = Some v /\
    is_vector v b (state_of s (ravel (map bsize axes) (wrapped (map bsize axes) idx))).
Proof. exact get_state_stacked. Qed.
Print Assumptions C86_stacked_index.

Theorem C86_dual_vectors :
  (forall s i, get_state_dual_vector s i =
     match get_state_vector s (Flat i) with Some v => Some (as_dual_vector v) | None => None end) /\
  (forall v b f, is_vector v b f -> is_vector (as_vector (as_dual_vector v)) b f /\ is_vector (as_dual_vector v) b (fun t => Cconj (f t))).
Proof. exact (conj dual_is_conj as_vector_dual). Qed.
Print Assumptions C86_dual_vectors.

(** Iterating gives the states in order. *)
Theorem C86_iteration :
  forall s, well_formed_list s ->
  exists l, state_vector_list_into_iter s = Some l /\ length l = bsize (slist s) /\
    forall k d, (k < bsize (slist s))%nat -> get_state_vector s (Flat (Z.of_nat k)) = Some (nth k l d).
Proof. exact into_iter_spec. Qed.
Print Assumptions C86_iteration.

(** Collecting states that all have the size of the first one: they get its basis. *)
Theorem C86_collect :
  forall l v0, l <> [] -> (forall v, In v l -> ashape (vdata v) = [bsize (vbasis (hd v0 l))]) ->
  exists s, as_state_vector_list l = Some s /\ slist s = BFund (length l) /\ sbasis s = vbasis (hd v0 l) /\ well_formed_list s /\
    forall k t, (k < length l)%nat -> (t < bsize (sbasis s))%nat -> state_of s k t = aflat (vdata (nth k l v0)) t.
Proof. exact collect_spec. Qed.
Print Assumptions C86_collect.

Theorem C86_round_trip :
  forall s, well_formed_list s -> (0 < bsize (slist s))%nat ->
  exists l s', state_vector_list_into_iter s = Some l /\ as_state_vector_list l = Some s' /\
    slist s' = BFund (bsize (slist s)) /\ sbasis s' = sbasis s /\ well_formed_list s' /\
    forall t, (t < bsize (slist s) * bsize (sbasis s))%nat -> aflat (sdata s') t = aflat (sdata s) t.
Proof. exact round_trip_spec. Qed.
Print Assumptions C86_round_trip.

(** The sum of the states with the given weights. *)
Theorem C86_weighted :
  forall s w, well_formed_list s -> (0 < bsize (slist s))%nat -> ashape (vdata w) = [bsize (slist s)] ->
  exists v, get_weighted_state_vector s w = Some v /\
    is_vector v (sbasis s) (fun t => csum (fun i => aflat (vdata w) i * state_of s i t) (bsize (slist s))).
Proof. exact weighted_spec. Qed.
Print Assumptions C86_weighted.

Theorem C86_weighted_wrong_length_raises :
  forall s w, well_formed_list s -> ashape (vdata w) <> [bsize (slist s)] -> get_weighted_state_vector s w = None.
Proof. exact weighted_none. Qed.
Print Assumptions C86_weighted_wrong_length_raises.

(** Converting the sum is summing the converted states. *)
Theorem C86_weighted_converts :
  forall same s w b v c, identity_test same -> bwf (sbasis s) -> bwf b -> explicit_orthonormal (sbasis s) ->
  well_formed_list s -> (0 < bsize (slist s))%nat -> ashape (vdata w) = [bsize (slist s)] ->
  get_weighted_state_vector s w = Some v -> convert_state_list same s b = Some c ->
  exists v1 v2, convert_vector_to same v b = Some v1 /\ get_weighted_state_vector c w = Some v2 /\
    vbasis v1 = b /\ vbasis v2 = b /\ forall t, (t < bsize b)%nat -> aflat (vdata v1) t = aflat (vdata v2) t.
Proof. exact weighted_convert. Qed.
Print Assumptions C86_weighted_converts.

(** Averages over axes of the list, and over all of them by default. *)
Theorem C86_average :
  forall lb b data ax, Forall (fun n => 0 < n)%nat (map bsize lb) ->
  nprod (ashape data) = (nprod (map bsize lb) * bsize b)%nat -> good_axes (length lb) ax ->
  exists s, average_state_vector lb b data (Some (map Z.of_nat ax)) = Some s /\
    slist s = BTuple (remaining (BFund 1) ax lb) /\ sbasis s = b /\ well_formed_list s /\
    forall out i, in_shape out (map bsize (remaining (BFund 1) ax lb)) -> (i < bsize b)%nat ->
      state_of s (ravel (map bsize (remaining (BFund 1) ax lb)) out) i =
      sum_matching ax (map bsize lb) (fun t => aflat data (t * bsize b + i)%nat) out
      / RtoC (INR (nprod (removed 0%nat ax (map bsize lb)))).
Proof. exact average_state_spec. Qed.
Print Assumptions C86_average.

Theorem C86_average_default :
  forall lb b data, average_state_vector lb b data None =
    average_state_vector lb b data (Some (map Z.of_nat (seq 0 (length lb)))).
Proof. exact average_default. Qed.
Print Assumptions C86_average_default.

(** The states of a basis: unit vectors, and on the grid the basis functions. *)
Theorem C86_basis_states :
  (forall b k, (0 < bsize b)%nat -> well_formed_list (get_basis_states b) /\
     slist (get_basis_states b) = BFund (bsize b) /\ sbasis (get_basis_states b) = b /\
     forall t, (t < bsize b)%nat -> state_of (get_basis_states b) k t = cdelta k t) /\
  (forall same b, identity_test same -> bwf b -> explicit_orthonormal b -> (0 < bsize b)%nat -> (0 < bfund b)%nat ->
     exists c, convert_state_list same (get_basis_states b) (BFund (bfund b)) = Some c /\
       forall k x, (k < bsize b)%nat -> (x < bfund b)%nat -> state_of c k x = bstate b k x).
Proof. exact (conj basis_states_spec basis_states_grid). Qed.
Print Assumptions C86_basis_states.

Example ex_C86_axes : Forall (fun n => (0 < n)%nat) (map bsize ex_lb) /\ nprod (ashape ex_data) = (nprod (map bsize ex_lb) * bsize ex_sb)%nat /\
  good_axes (List.length ex_lb) [1%nat] /\ StronglySorted lt [1%nat] /\ in_shape [1%nat] (remaining 0%nat [1%nat] (map bsize ex_lb)) /\
  in_shape [2%nat] (map (fun a => nth a (map bsize ex_lb) 0%nat) [1%nat]) /\ at_axes (List.length ex_lb) [1%nat] [2%nat] [1%nat] [1%nat; 2%nat].
Proof. exact ex_axes_ok. Qed.

(** The states along some axes, given in increasing order: the same states as in the list,
    at the same positions along those axes. *)
Theorem C86_along_axes :
  forall lb b data axes idx,
  Forall (fun n => (0 < n)%nat) (map bsize lb) -> nprod (ashape data) = (nprod (map bsize lb) * bsize b)%nat ->
  good_axes (length lb) axes -> StronglySorted lt axes -> in_shape idx (remaining 0%nat axes (map bsize lb)) ->
  exists s, get_state_along_axis lb b data axes (Some idx) = Some s /\
    slist s = BTuple (map (fun a => nth a lb (BFund 1)) axes) /\
    forall out full, in_shape out (map (fun a => nth a (map bsize lb) 0%nat) axes) -> at_axes (length lb) axes out idx full ->
    exists v w, get_state_vector s (Stacked (map Z.of_nat out)) = Some v /\
      get_state_vector {| slist := BTuple lb; sbasis := b; sdata := data |} (Stacked (map Z.of_nat full)) = Some w /\
      vbasis v = vbasis w /\ ashape (vdata v) = ashape (vdata w) /\
      forall t, (t < bsize b)%nat -> aflat (vdata v) t = aflat (vdata w) t.
Proof. exact along_sorted. Qed.
Print Assumptions C86_along_axes.

(** In any order: the data follow the order asked for, the basis the order of the list. *)
Theorem C86_along_axes_any_order :
  forall lb b data axes idx,
  Forall (fun n => (0 < n)%nat) (map bsize lb) -> nprod (ashape data) = (nprod (map bsize lb) * bsize b)%nat ->
  good_axes (length lb) axes -> in_shape idx (remaining 0%nat axes (map bsize lb)) ->
  exists s, get_state_along_axis lb b data axes (Some idx) = Some s /\
    slist s = BTuple (removed (BFund 1) axes lb) /\ sbasis s = b /\ well_formed_list s /\
    forall out full, in_shape out (map (fun a => nth a (map bsize lb) 0%nat) axes) -> at_axes (length lb) axes out idx full ->
      forall t, (t < bsize b)%nat ->
        state_of s (ravel (map (fun a => nth a (map bsize lb) 0%nat) axes) out) t =
        row (bsize b) (aflat data) (ravel (map bsize lb) full) t.
Proof. exact along_spec. Qed.
Print Assumptions C86_along_axes_any_order.

(** Without indices the states are those at the first position along every other axis. *)
Theorem C86_along_axes_default :
  forall lb b data axes,
  Forall (fun n => (0 < n)%nat) (map bsize lb) -> nprod (ashape data) = (nprod (map bsize lb) * bsize b)%nat ->
  good_axes (length lb) axes ->
  exists s, get_state_along_axis lb b data axes None = Some s /\
    slist s = BTuple (removed (BFund 1) axes lb) /\ sbasis s = b /\ well_formed_list s /\
    forall out full, in_shape out (map (fun a => nth a (map bsize lb) 0%nat) axes) -> length full = length lb ->
      (forall j, (j < length axes)%nat -> nth (nth j axes 0%nat) full 0%nat = nth j out 0%nat) ->
      (forall k, (k < length lb)%nat -> ~ In k axes -> nth k full 0%nat = 0%nat) ->
      forall t, (t < bsize b)%nat ->
        state_of s (ravel (map (fun a => nth a (map bsize lb) 0%nat) axes) out) t =
        row (bsize b) (aflat data) (ravel (map bsize lb) full) t.
Proof. exact along_default. Qed.
Print Assumptions C86_along_axes_default.

(** So with axes (1, 0) the state at index (0, 1) is not that of the list (finding). *)
Theorem C86_along_axes_order_refuted :
  exists s v w, get_state_along_axis [BFund 2; BFund 3] (BFund 1) order_data [1%nat; 0%nat] None = Some s /\
  slist s = BTuple [BFund 2; BFund 3] /\
  get_state_vector s (Stacked [0; 1]%Z) = Some v /\
  get_state_vector {| slist := BTuple [BFund 2; BFund 3]; sbasis := BFund 1; sdata := order_data |} (Stacked [0; 1]%Z) = Some w /\
  aflat (vdata v) 0%nat = RtoC 3 /\ aflat (vdata w) 0%nat = RtoC 1.
Proof. exact along_order. Qed.
Print Assumptions C86_along_axes_order_refuted.

(** ** C87 *)

(** Entry (i, j) is the inner product, over the grid, of the functions the two states stand
    for, in whatever bases they are given. *)
Theorem C87_inner_products :
  forall same s0 s1, identity_test same -> bwf (sbasis s0) -> bwf (sbasis s1) -> explicit_orthonormal (sbasis s1) ->
  well_formed_list s0 -> well_formed_list s1 -> compatible (sbasis s1) (sbasis s0) ->
  exists o, calculate_inner_products same s0 s1 = Some o /\
    orow o = slist s0 /\ ocol o = slist s1 /\ ashape (odata o) = [(bsize (slist s0) * bsize (slist s1))%nat] /\
    forall i j, (i < bsize (slist s0))%nat -> (j < bsize (slist s1))%nat ->
      aflat (odata o) (i * bsize (slist s1) + j) = grid_inner (sbasis s0) (sbasis s1) (state_of s0 i) (state_of s1 j).
Proof. exact inner_products_entries. Qed.
Print Assumptions C87_inner_products.

(** Exchanging the lists gives the adjoint. *)
Theorem C87_inner_products_adjoint :
  forall same s0 s1 o o', identity_test same -> bwf (sbasis s0) -> bwf (sbasis s1) ->
  explicit_orthonormal (sbasis s0) -> explicit_orthonormal (sbasis s1) -> well_formed_list s0 -> well_formed_list s1 ->
  calculate_inner_products same s0 s1 = Some o -> calculate_inner_products same s1 s0 = Some o' ->
  forall i j, (i < bsize (slist s0))%nat -> (j < bsize (slist s1))%nat ->
    aflat (odata o') (j * bsize (slist s0) + i) = Cconj (aflat (odata o) (i * bsize (slist s1) + j)).
Proof. exact inner_products_adjoint. Qed.
Print Assumptions C87_inner_products_adjoint.

(** The quadratic form of the matrix of a list with itself is the norm of the weighted state. *)
Theorem C87_gram_matrix_positive :
  forall same s w v o, identity_test same -> bwf (sbasis s) -> explicit_orthonormal (sbasis s) -> well_formed_list s ->
  (0 < bsize (slist s))%nat -> ashape (vdata w) = [bsize (slist s)] ->
  get_weighted_state_vector s w = Some v -> calculate_inner_products same s s = Some o ->
  csum (fun i => csum (fun j => Cconj (aflat (vdata w) i) * aflat (vdata w) j * aflat (odata o) (i * bsize (slist s) + j)) (bsize (slist s))) (bsize (slist s))
  = RtoC (calculate_normalization v).
Proof. exact gram_positive. Qed.
Print Assumptions C87_gram_matrix_positive.

(** The entries are the inner products of the single states. *)
Theorem C87_entries_are_single_products :
  forall same s0 s1 o i j v w, identity_test same -> bwf (sbasis s0) -> explicit_orthonormal (sbasis s0) ->
  well_formed_list s0 -> well_formed_list s1 -> sbasis s1 = sbasis s0 ->
  (i < bsize (slist s0))%nat -> (j < bsize (slist s1))%nat ->
  calculate_inner_products same s0 s1 = Some o ->
  get_state_vector s1 (Flat (Z.of_nat j)) = Some v -> get_state_dual_vector s0 (Z.of_nat i) = Some w ->
  calculate_inner_product v w = Some (aflat (odata o) (i * bsize (slist s1) + j)).
Proof. exact entry_is_single. Qed.
Print Assumptions C87_entries_are_single_products.

Theorem C87_elementwise :
  forall same s0 s1, identity_test same -> bwf (sbasis s0) -> bwf (sbasis s1) -> explicit_orthonormal (sbasis s1) ->
  well_formed_list s0 -> well_formed_list s1 -> compatible (sbasis s1) (sbasis s0) -> bsize (slist s1) = bsize (slist s0) ->
  exists d, calculate_inner_products_elementwise same s0 s1 = Some (slist s0, d) /\ ashape d = [bsize (slist s0)] /\
    forall i, (i < bsize (slist s0))%nat -> aflat d i = grid_inner (sbasis s0) (sbasis s1) (state_of s0 i) (state_of s1 i).
Proof. exact elementwise_entries. Qed.
Print Assumptions C87_elementwise.

(** Lists of different lengths are accepted when one has length one; the result carries the
    basis of the first list even when the second is the longer one (finding). *)
Theorem C87_elementwise_lengths :
  forall same s0 s1, identity_test same -> bwf (sbasis s0) -> bwf (sbasis s1) -> explicit_orthonormal (sbasis s1) ->
  well_formed_list s0 -> well_formed_list s1 -> compatible (sbasis s1) (sbasis s0) -> bsize (slist s1) <> bsize (slist s0) ->
  match calculate_inner_products_elementwise same s0 s1 with
  | Some (lb, d) => lb = slist s0 /\
      ((bsize (slist s0) = 1%nat /\ ashape d = [bsize (slist s1)]) \/ (bsize (slist s1) = 1%nat /\ ashape d = [bsize (slist s0)]))
  | None => bsize (slist s0) <> 1%nat /\ bsize (slist s1) <> 1%nat
  end.
Proof. exact elementwise_lengths. Qed.
Print Assumptions C87_elementwise_lengths.

(** Weighted by the eigenvalues, for lists in the same basis. *)
Theorem C87_eigenvalue_products :
  forall s0 e0 s1 e1, well_formed_list s0 -> well_formed_list s1 -> bsize (sbasis s1) = bsize (sbasis s0) ->
  exists o, calculate_inner_products_eigenvalues s0 e0 s1 e1 = Some o /\ orow o = slist s0 /\ ocol o = slist s1 /\
    forall i j, (i < bsize (slist s0))%nat -> (j < bsize (slist s1))%nat ->
      aflat (odata o) (i * bsize (slist s1) + j) =
      Cconj (e0 i) * e1 j * inner_product (bsize (sbasis s0)) (state_of s0 i) (state_of s1 j).
Proof. exact eigenvalue_products. Qed.
Print Assumptions C87_eigenvalue_products.

(** In different bases of the same size the coefficients are multiplied all the same (finding). *)
Theorem C87_eigenvalue_products_ignore_bases_refuted :
  forall same, identity_test same ->
  let s0 := get_basis_states (BFund 2) in let s1 := get_basis_states (BFundT 2) in
  exists o o', calculate_inner_products_eigenvalues s0 (fun _ => 1) s1 (fun _ => 1) = Some o /\
    calculate_inner_products same s0 s1 = Some o' /\ aflat (odata o) 1%nat = 0 /\ aflat (odata o') 1%nat <> 0.
Proof. exact eigenvalue_bases. Qed.
Print Assumptions C87_eigenvalue_products_ignore_bases_refuted.

(** The normalisation is the inner product with the own dual: not negative, zero for the
    zero vector only. *)
Theorem C87_normalization :
  forall v b f, is_vector v b f ->
  calculate_inner_product v (as_dual_vector v) = Some (RtoC (calculate_normalization v)) /\
  (0 <= calculate_normalization v)%R /\
  (calculate_normalization v = 0%R <-> forall t, (t < bsize b)%nat -> f t = 0).
Proof. exact normalization_spec. Qed.
Print Assumptions C87_normalization.

(** Converting a state and a dual state to a complete basis keeps their inner product. *)
Theorem C87_inner_product_basis_independent :
  forall same v w b v' w' c f g, identity_test same -> bwf b -> bwf c -> explicit_orthonormal b -> complete c ->
  is_vector v b f -> is_vector w b g ->
  convert_vector_to same v c = Some v' -> convert_dual_to same (as_dual_vector w) c = Some w' ->
  calculate_inner_product v' w' = calculate_inner_product v (as_dual_vector w).
Proof. exact inner_product_converted. Qed.
Print Assumptions C87_inner_product_basis_independent.
