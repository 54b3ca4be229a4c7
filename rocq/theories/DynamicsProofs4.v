(** The matrix of jump rates. *)
From Coq Require Import Reals Psatz.
From Coquelicot Require Import Coquelicot.
From Verif Require Import ZLib Csum DFT NumPy Index IndexProofs Lattice Basis SpecBasis BasisProofs Operator SpecOperator OperatorProofs Wavepacket Kernel
  Dynamics SpecDynamics.
Local Open Scope R_scope.
Local Open Scope C_scope.

Lemma kernel_all_some {A B} (f : A -> option B) (d : B) (l : list A) (a : A) : (forall x, In x l -> exists y, f x = Some y) ->
  exists r, Kernel.all_some (map f l) = Some r /\ length r = length l /\
    forall i, (i < length l)%nat -> f (nth i l a) = Some (nth i r d).
Proof.
  induction l as [|x l IH]; intros H.
  - exists []. split; [reflexivity|]. split; [reflexivity|]. intros i Hi. inversion Hi.
  - destruct (H x (or_introl eq_refl)) as [y Hy]. destruct IH as [r [E [L N]]]; [intros z Hz; apply H; right; exact Hz|].
    exists (y :: r). cbn [map all_some]. rewrite Hy, E. split; [reflexivity|]. split; [cbn; lia|].
    intros [|i] Hi; cbn [nth]; [exact Hy|]. apply N. cbn in Hi. lia.
Qed.

Lemma hop_shift_spec hop : (hop < 9)%nat -> get_hop_shift hop 2 = Some [hop_step (hop / 3); hop_step (hop mod 3)].
Proof. intros H. do 9 (destruct hop as [|hop]; [reflexivity|]). lia. Qed.

Lemma moved_lt n x d : (0 < n)%nat -> (moved_by n x d < n)%nat.
Proof. intros H. unfold moved_by. pose proof (Z.mod_pos_bound (Z.of_nat x + d) (Z.of_nat n) ltac:(lia)). lia. Qed.
Lemma moved_0 n x : (x < n)%nat -> moved_by n x 0 = x.
Proof. intros H. unfold moved_by. rewrite Z.add_0_r, Z.mod_small by lia. lia. Qed.
Lemma moved_moved n x d e : (0 < n)%nat -> moved_by n (moved_by n x d) e = moved_by n x (d + e).
Proof.
  intros H. unfold moved_by. pose proof (Z.mod_pos_bound (Z.of_nat x + d) (Z.of_nat n) ltac:(lia)).
  rewrite Z2Nat.id by lia. rewrite Z.add_mod_idemp_l by lia. f_equal. f_equal. lia.
Qed.
Lemma moved_iff n x y d : (x < n)%nat -> (y < n)%nat -> (moved_by n y (- d) = x <-> y = moved_by n x d).
Proof.
  intros Hx Hy. split; intros H.
  - rewrite <- H, moved_moved by lia. replace (- d + d)%Z with 0%Z by lia. symmetry. apply moved_0. exact Hy.
  - rewrite H, moved_moved by lia. replace (d + - d)%Z with 0%Z by lia. apply moved_0. exact Hx.
Qed.

Lemma site_lt n0 n1 nb x0 x1 b : (x0 < n0)%nat -> (x1 < n1)%nat -> (b < nb)%nat -> (site n1 nb x0 x1 b < n0 * n1 * nb)%nat.
Proof. intros. unfold site. assert (x0 * n1 + x1 < n0 * n1)%nat by nia. nia. Qed.
Lemma flat_eqb n a b c d : (b < n)%nat -> (d < n)%nat -> (a * n + b =? c * n + d)%nat = (a =? c)%nat && (b =? d)%nat.
Proof.
  intros Hb Hd. destruct (Nat.eqb_spec (a * n + b) (c * n + d)) as [E|E].
  - assert (a = c) by (apply (f_equal (fun t => t / n)%nat) in E; rewrite !div_add_small in E by lia; exact E). subst.
    assert (b = d) by lia. subst. rewrite !Nat.eqb_refl. reflexivity.
  - destruct (Nat.eqb_spec a c), (Nat.eqb_spec b d); subst; try reflexivity. congruence.
Qed.

Lemma hop_operator hop n0 n1 : (hop < 9)%nat -> exists o, build_hop_operator hop [n0; n1] = Some o /\
  forall c0 c1 r0 r1, (c0 < n0)%nat -> (c1 < n1)%nat -> (r0 < n0)%nat -> (r1 < n1)%nat ->
    aflat o (ravel [n0; n1; n0; n1] [c0; c1; r0; r1]) = if hops_to n0 n1 hop r0 r1 c0 c1 then 1 else 0.
Proof.
  intros Hh. unfold build_hop_operator. change (length [n0; n1]) with 2%nat. rewrite (hop_shift_spec hop Hh).
  unfold reshape. cbn [ashape array2 app]. replace (nprod [nprod [n0; n1]; nprod [n0; n1]] =? nprod [n0; n1; n0; n1])%nat with true.
  2:{ symmetry. apply Nat.eqb_eq. cbn [nprod]. ring. }
  eexists. split; [reflexivity|]. intros c0 c1 r0 r1 H0 H1 H2 H3. cbn [aflat]. unfold flatten.
  rewrite unravel_ravel. 2:{ repeat constructor; assumption. }
  cbn [firstn skipn roll_indices app]. unfold stack. cbn [aflat].
  change (Z.to_nat ((Z.of_nat c0 - hop_step (hop / 3)) mod Z.of_nat n0)) with (moved_by n0 c0 (- hop_step (hop / 3))).
  change (Z.to_nat ((Z.of_nat c1 - hop_step (hop mod 3)) mod Z.of_nat n1)) with (moved_by n1 c1 (- hop_step (hop mod 3))).
  pose proof (moved_lt n0 c0 (- hop_step (hop / 3)) ltac:(lia)) as L0. pose proof (moved_lt n1 c1 (- hop_step (hop mod 3)) ltac:(lia)) as L1.
  pose proof (moved_iff n0 r0 c0 (hop_step (hop / 3)) H2 H0) as I0. pose proof (moved_iff n1 r1 c1 (hop_step (hop mod 3)) H3 H1) as I1.
  revert L0 L1 I0 I1. generalize (moved_by n0 c0 (- hop_step (hop / 3))) as a. generalize (moved_by n1 c1 (- hop_step (hop mod 3))) as b.
  intros b a L0 L1 I0 I1.
  replace (ravel [n0; n1; n0; n1] [a; b; r0; r1]) with ((a * n1 + b) * nprod [n0; n1] + (r0 * n1 + r1))%nat by (cbn [nprod ravel]; ring).
  assert (L : (r0 * n1 + r1 < nprod [n0; n1])%nat) by (cbn [nprod]; nia).
  cbn [array2 aflat]. rewrite div_add_small, mod_add_small by exact L. unfold cdelta. rewrite flat_eqb by assumption.
  unfold hops_to.
  replace (a =? r0)%nat with (c0 =? moved_by n0 r0 (hop_step (hop / 3)))%nat.
  2:{ destruct (Nat.eqb_spec c0 (moved_by n0 r0 (hop_step (hop / 3)))), (Nat.eqb_spec a r0); tauto || reflexivity. }
  replace (b =? r1)%nat with (c1 =? moved_by n1 r1 (hop_step (hop mod 3)))%nat.
  2:{ destruct (Nat.eqb_spec c1 (moved_by n1 r1 (hop_step (hop mod 3)))), (Nat.eqb_spec b r1); tauto || reflexivity. }
  reflexivity.
Qed.

Lemma a_matrix_defined nb jump n0 n1 kk : (0 < nb)%nat -> nprod (ashape jump) = (nb * nb * 9)%nat ->
  (exists A, get_a_matrix_from_jump_matrix nb jump n0 n1 kk = Some A) <-> (match kk with None => (nb * nb)%nat | Some k => k end = nb).
Proof.
  intros Hnb Hj. unfold get_a_matrix_from_jump_matrix. set (k := match kk with None => (nb * nb)%nat | Some k => k end).
  destruct (kernel_all_some (fun hop => build_hop_operator hop [n0; n1]) {| ashape := []; aflat := fun _ => RtoC 0%R |} (seq 0 9) 0%nat) as [ops [E _]].
  { intros x Hx. apply in_seq in Hx. destruct (hop_operator x n0 n1 ltac:(lia)) as [o [Ho _]]. exists o. exact Ho. }
  unfold reshape. rewrite Hj, E. cbn [nprod].
  destruct (Nat.eqb_spec (nb * nb * 9) (k * (k * (9 * 1)))) as [Q|Q].
  - assert (k = nb) by nia. split; [intros _; assumption|]. intros _.
    rewrite (proj2 (Nat.leb_le k (Nat.min k nb))) by lia. eexists. reflexivity.
  - split; [intros [A HA]; discriminate|]. intros ->. exfalso. apply Q. ring.
Qed.

Lemma a_matrix_spec nb jump n0 n1 : nprod (ashape jump) = (nb * nb * 9)%nat ->
  exists A, get_a_matrix_from_jump_matrix nb jump n0 n1 (Some nb) = Some A /\ square (n0 * n1 * nb) A /\
  forall x0 x1 b0 y0 y1 b1, (x0 < n0)%nat -> (x1 < n1)%nat -> (b0 < nb)%nat -> (y0 < n0)%nat -> (y1 < n1)%nat -> (b1 < nb)%nat ->
    op_entry A (site n1 nb x0 x1 b0) (site n1 nb y0 y1 b1) =
    csum (fun hop => if hops_to n0 n1 hop x0 x1 y0 y1 then aflat jump ((b0 * nb + b1) * 9 + hop) else 0) 9.
Proof.
  intros Hj. unfold get_a_matrix_from_jump_matrix.
  destruct (kernel_all_some (fun hop => build_hop_operator hop [n0; n1]) {| ashape := []; aflat := fun _ => RtoC 0%R |} (seq 0 9) 0%nat) as [ops [E [Len Nth]]].
  { intros x Hx. apply in_seq in Hx. destruct (hop_operator x n0 n1 ltac:(lia)) as [o [Ho _]]. exists o. exact Ho. }
  unfold reshape. rewrite Hj, E. cbn [nprod]. replace (nb * (nb * (9 * 1)))%nat with (nb * nb * 9)%nat by ring. rewrite Nat.eqb_refl.
  rewrite Nat.min_id, Nat.leb_refl.
  assert (Sz : bsize (get_basis_from_shape n0 n1 nb nb) = (n0 * n1 * nb)%nat).
  { unfold get_basis_from_shape. rewrite Nat.min_id. cbn. ring. }
  eexists. split; [reflexivity|]. split.
  { split; [|split; exact Sz]. unfold op_wf. cbn [odata orow ocol]. rewrite Sz. cbn. ring. }
  intros x0 x1 b0 y0 y1 b1 Hx0 Hx1 Hb0 Hy0 Hy1 Hb1. unfold op_entry. cbn [odata ocol]. rewrite Sz.
  unfold ravel_array. cbn [aflat ashape]. rewrite array2_flat by (apply site_lt; assumption).
  apply csum_ext. intros hop Hh. unfold site. rewrite !div_add_small, !mod_add_small by assumption.
  assert (Hs : (hop < length (seq 0 9))%nat) by exact Hh. specialize (Nth hop Hs). rewrite seq_nth in Nth by exact Hh. rewrite Nat.add_0_l in Nth.
  destruct (hop_operator hop n0 n1 Hh) as [o [Ho Hv]]. cbv beta in Nth. rewrite Ho in Nth. injection Nth as <-.
  rewrite Hv by assumption. unfold at3. cbn [ashape nth aflat].
  destruct (hops_to n0 n1 hop x0 x1 y0 y1); ring.
Qed.

Lemma hops_translate n0 n1 hop x0 x1 y0 y1 d0 d1 : (x0 < n0)%nat -> (x1 < n1)%nat -> (y0 < n0)%nat -> (y1 < n1)%nat ->
  hops_to n0 n1 hop (moved_by n0 x0 d0) (moved_by n1 x1 d1) (moved_by n0 y0 d0) (moved_by n1 y1 d1) = hops_to n0 n1 hop x0 x1 y0 y1.
Proof.
  assert (K : forall n x y d s, (x < n)%nat -> (y < n)%nat ->
     Nat.eqb (moved_by n y d) (moved_by n (moved_by n x d) s) = Nat.eqb y (moved_by n x s)).
  { intros n x y d s Hx Hy. rewrite moved_moved by lia.
    destruct (Nat.eqb_spec y (moved_by n x s)) as [->|Hne].
    - rewrite moved_moved by lia. rewrite Z.add_comm. apply Nat.eqb_refl.
    - apply Nat.eqb_neq. intros E. apply Hne. apply (f_equal (fun t => moved_by n t (- d))) in E. rewrite !moved_moved in E by lia.
      replace (d + - d)%Z with 0%Z in E by lia. rewrite moved_0 in E by exact Hy. rewrite E. f_equal. lia. }
  intros. unfold hops_to. rewrite !K by assumption. reflexivity.
Qed.
Lemma hops_distinct n0 n1 h h' x0 x1 y0 y1 : (3 <= n0)%nat -> (3 <= n1)%nat -> (x0 < n0)%nat -> (x1 < n1)%nat -> (h < 9)%nat -> (h' < 9)%nat ->
  hops_to n0 n1 h x0 x1 y0 y1 = true -> hops_to n0 n1 h' x0 x1 y0 y1 = true -> h = h'.
Proof.
  intros N0 N1 Hx0 Hx1 Hh Hh' E E'. unfold hops_to in *.
  apply andb_true_iff in E as [E1 E2]. apply andb_true_iff in E' as [E1' E2'].
  apply Nat.eqb_eq in E1, E2, E1', E2'.
  assert (K : forall n x a b, (3 <= n)%nat -> (x < n)%nat -> (a < 3)%nat -> (b < 3)%nat ->
    moved_by n x (hop_step a) = moved_by n x (hop_step b) -> a = b).
  { intros n x a b Hn Hx Ha Hb E. apply (f_equal (fun t => moved_by n t (- Z.of_nat x))) in E. rewrite !moved_moved in E by lia.
    unfold moved_by in E.
    replace (Z.of_nat x + (hop_step a + - Z.of_nat x))%Z with (hop_step a) in E by lia.
    replace (Z.of_nat x + (hop_step b + - Z.of_nat x))%Z with (hop_step b) in E by lia.
    assert (V : forall k, (k < 3)%nat -> Z.to_nat (hop_step k mod Z.of_nat n) = match k with 0 => 0 | 1 => 1 | _ => n - 1 end%nat).
    { intros k Hk. destruct k as [|[|[|k]]]; [| | |lia]; cbn [hop_step].
      - rewrite Z.mod_0_l by lia. reflexivity.
      - rewrite Z.mod_small by lia. reflexivity.
      - replace (-1)%Z with (Z.of_nat n - 1 + (-1) * Z.of_nat n)%Z by lia. rewrite Z.mod_add by lia. rewrite Z.mod_small by lia. lia. }
    rewrite !V in E by assumption. destruct a as [|[|[|a]]], b as [|[|[|b]]]; lia. }
  assert (h / 3 = h' / 3)%nat.
  { apply (K n0 x0); try assumption; try (apply Nat.div_lt_upper_bound; lia). congruence. }
  assert (h mod 3 = h' mod 3)%nat.
  { apply (K n1 x1); try assumption; try (apply Nat.mod_upper_bound; lia). congruence. }
  rewrite (Nat.div_mod h 3), (Nat.div_mod h' 3) by lia. congruence.
Qed.
Lemma hops_outgoing n0 n1 h x0 x1 (a : C) : (0 < n0)%nat -> (0 < n1)%nat ->
  csum (fun y0 => csum (fun y1 => if hops_to n0 n1 h x0 x1 y0 y1 then a else 0) n1) n0 = a.
Proof.
  intros H0 H1. pose proof (moved_lt n0 x0 (hop_step (h / 3)) H0) as L0. pose proof (moved_lt n1 x1 (hop_step (h mod 3)) H1) as L1.
  rewrite (csum_single _ n0 (moved_by n0 x0 (hop_step (h / 3))) L0).
  - rewrite (csum_single _ n1 (moved_by n1 x1 (hop_step (h mod 3))) L1).
    + unfold hops_to. rewrite !Nat.eqb_refl. reflexivity.
    + intros y1 _ Hne. unfold hops_to. apply Nat.eqb_neq in Hne. rewrite Hne, andb_false_r. reflexivity.
  - intros y0 _ Hne. apply csum_zero_ext. intros y1 _. unfold hops_to. apply Nat.eqb_neq in Hne. rewrite Hne. reflexivity.
Qed.
Lemma hops_incoming n0 n1 h y0 y1 (a : C) : (y0 < n0)%nat -> (y1 < n1)%nat ->
  csum (fun x0 => csum (fun x1 => if hops_to n0 n1 h x0 x1 y0 y1 then a else 0) n1) n0 = a.
Proof.
  intros H0 H1. pose proof (moved_lt n0 y0 (- hop_step (h / 3)) ltac:(lia)) as L0. pose proof (moved_lt n1 y1 (- hop_step (h mod 3)) ltac:(lia)) as L1.
  rewrite (csum_single _ n0 (moved_by n0 y0 (- hop_step (h / 3))) L0).
  - rewrite (csum_single _ n1 (moved_by n1 y1 (- hop_step (h mod 3))) L1).
    + unfold hops_to. rewrite !moved_moved by lia.
      replace (- hop_step (h / 3) + hop_step (h / 3))%Z with 0%Z by lia. replace (- hop_step (h mod 3) + hop_step (h mod 3))%Z with 0%Z by lia.
      rewrite !moved_0, !Nat.eqb_refl by assumption. reflexivity.
    + intros x1 Hx Hne. unfold hops_to. rewrite (proj2 (Nat.eqb_neq y1 _)), andb_false_r; [reflexivity|].
      intros E. apply Hne. symmetry. apply moved_iff; assumption.
  - intros x0 Hx Hne. apply csum_zero_ext. intros x1 _. unfold hops_to. rewrite (proj2 (Nat.eqb_neq y0 _)); [reflexivity|].
    intros E. apply Hne. symmetry. apply moved_iff; assumption.
Qed.
