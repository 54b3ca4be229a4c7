(** Concrete lists of states, and disagreements. *)
From Coq Require Import Reals Lra Permutation Sorted.
From Verif Require Import ZLib Csum DFT NumPy Index IndexProofs AxesProofs Spec SpecReal Basis SpecBasis BasisProofs BasisProofs2 BasisProofs3
  Operator SpecOperator OperatorProofs OperatorProofs2 Reduce SpecReduce ReduceProofs ReduceProofs2 Wavepacket SpecWavepacket Localize
  LocalizeProofs3 StateList SpecStateList StateListProofs StateListProofs2 StateListProofs3.
Local Open Scope R_scope.
Local Open Scope C_scope.

Definition ex_lb : list basis := [BFund 2; BFund 3].
Definition ex_sb : basis := BTuple [BTrans 2 3; BFund 2].
Definition ex_data : ndarray := {| ashape := [24%nat]; aflat := fun t => RtoC (INR t) |}.
Definition ex_list : state_list := {| slist := BTuple ex_lb; sbasis := ex_sb; sdata := ex_data |}.
Definition ex_weights : vector := {| vbasis := BTuple ex_lb; vdata := {| ashape := [6%nat]; aflat := fun t => cis (INR t) |} |}.

Lemma ex_list_ok : well_formed_list ex_list /\ (0 < bsize (slist ex_list))%nat /\ bwf (sbasis ex_list) /\ explicit_orthonormal (sbasis ex_list) /\
  ashape (vdata ex_weights) = [bsize (slist ex_list)] /\ bsize (slist ex_list) = 6%nat /\ bsize (sbasis ex_list) = 4%nat /\
  compatible (sbasis ex_list) (BTuple [BFund 3; BFundT 2]).
Proof.
  repeat split; try (vm_compute; lia); try reflexivity. apply compatible_stacked; [reflexivity|].
  repeat constructor; intros ? ? [? ?]; discriminate.
Qed.
Lemma ex_axes_ok : Forall (fun n => (0 < n)%nat) (map bsize ex_lb) /\ nprod (ashape ex_data) = (nprod (map bsize ex_lb) * bsize ex_sb)%nat /\
  good_axes (List.length ex_lb) [1%nat] /\ StronglySorted lt [1%nat] /\ in_shape [1%nat] (remaining 0%nat [1%nat] (map bsize ex_lb)) /\
  in_shape [2%nat] (map (fun a => nth a (map bsize ex_lb) 0%nat) [1%nat]) /\ at_axes (List.length ex_lb) [1%nat] [2%nat] [1%nat] [1%nat; 2%nat].
Proof.
  split; [repeat constructor|]. split; [reflexivity|]. split.
  { split; [constructor; [intros []|constructor]|repeat constructor]. }
  split; [repeat constructor|]. split; [repeat constructor|]. split; [repeat constructor|].
  split; [reflexivity|]. split; [|reflexivity]. intros [|j] Hj; [reflexivity|cbn in Hj; lia].
Qed.

(** Along axes given in another order: the basis keeps the order of the list. *)
Definition order_data : ndarray := {| ashape := [6%nat]; aflat := fun t => RtoC (INR t) |}.
Lemma along_order : exists s v w, get_state_along_axis [BFund 2; BFund 3] (BFund 1) order_data [1%nat; 0%nat] None = Some s /\
  slist s = BTuple [BFund 2; BFund 3] /\
  get_state_vector s (Stacked [0; 1]%Z) = Some v /\
  get_state_vector {| slist := BTuple [BFund 2; BFund 3]; sbasis := BFund 1; sdata := order_data |} (Stacked [0; 1]%Z) = Some w /\
  aflat (vdata v) 0%nat = RtoC 3 /\ aflat (vdata w) 0%nat = RtoC 1.
Proof.
  eexists. eexists. eexists. split; [reflexivity|]. split; [reflexivity|]. split; [reflexivity|]. split; [reflexivity|].
  split.
  - cbn -[INR]. replace 3%R with (INR 3) by (cbn; ring). reflexivity.
  - cbn -[INR]. reflexivity.
Qed.

(** The products weighted by eigenvalues do not convert. *)
Lemma eigenvalue_bases same : identity_test same ->
  let s0 := get_basis_states (BFund 2) in let s1 := get_basis_states (BFundT 2) in
  exists o o', calculate_inner_products_eigenvalues s0 (fun _ => 1) s1 (fun _ => 1) = Some o /\
    calculate_inner_products same s0 s1 = Some o' /\ aflat (odata o) 1%nat = 0 /\ aflat (odata o') 1%nat <> 0.
Proof.
  intros Hs s0 s1. destruct (basis_states_spec (BFund 2) 0 ltac:(cbn; lia)) as [W0 [L0 [B0 V0]]].
  destruct (basis_states_spec (BFundT 2) 1 ltac:(cbn; lia)) as [W1 [L1 [B1 V1]]].
  destruct (eigenvalue_products s0 (fun _ => 1) s1 (fun _ => 1) W0 W1 eq_refl) as [o [Eo [_ [_ Vo]]]].
  destruct (inner_products_entries same s0 s1 Hs ltac:(cbn; lia) ltac:(cbn; lia) I W0 W1) as [o' [Eo' [_ [_ [_ Vo']]]]].
  { apply compatible_other; [intros ? ? [? ?]; discriminate|reflexivity]. }
  exists o, o'. split; [exact Eo|]. split; [exact Eo'|]. specialize (Vo 0%nat 1%nat ltac:(cbn; lia) ltac:(cbn; lia)).
  specialize (Vo' 0%nat 1%nat ltac:(cbn; lia) ltac:(cbn; lia)). cbn [Nat.mul Nat.add bsize] in Vo, Vo'.
  change (aflat (odata o) 1%nat = 0 /\ aflat (odata o') 1%nat <> 0).
  change (0 * bsize (slist s1) + 1)%nat with 1%nat in Vo, Vo'. split.
  - rewrite Vo. unfold inner_product. cbn [csum sbasis bsize get_basis_states s0].
    rewrite !V0 by (cbn; lia). rewrite !V1 by (cbn; lia). cbn. rewrite !Csum.Cconj_RtoC. ring.
  - rewrite Vo'. unfold grid_inner, amplitude. cbn [csum bsize bfund sbasis get_basis_states s0 s1].
    rewrite !V0 by (cbn; lia). rewrite !V1 by (cbn; lia). cbn [cdelta Nat.eqb bstate csum]. unfold cdelta. cbn [Nat.eqb].
    replace (_ + _) with (plane_wave 2 (freq 2 1) 0).
    2:{ unfold cdelta. cbn [Nat.eqb]. rewrite !Cconj_plus, !Cconj_mult, !Csum.Cconj_RtoC. ring. }
    unfold plane_wave. rewrite Z.mul_0_r, omega_0, Cmult_1_r. intros E. assert (Q := isqrt_sqr 2 ltac:(lia)). rewrite E in Q.
    rewrite Cmult_0_l in Q. injection Q as Q. cbn in Q. lra.
Qed.
