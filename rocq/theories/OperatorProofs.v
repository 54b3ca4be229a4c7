From Coq Require Import Reals Psatz.
From Verif Require Import ZLib Csum DFT NumPy IndexProofs Basis SpecBasis BasisProofs BasisProofs2 BasisProofs3 Operator SpecOperator.
Local Open Scope R_scope.
Local Open Scope C_scope.

(** ** Arrays *)

Lemma nprod_app s t : nprod (s ++ t) = (nprod s * nprod t)%nat.
Proof. induction s as [|a s IH]; simpl; [lia|]. rewrite IH. lia. Qed.

Lemma broadcast_rev_same s : broadcast_rev s s = Some s.
Proof. induction s as [|a s IH]; simpl; [reflexivity|]. rewrite IH, Nat.eqb_refl. reflexivity. Qed.

Lemma broadcast_index_same s idx : Forall2 lt idx s -> broadcast_index s idx = idx.
Proof.
  induction 1 as [|i a idx s Hi H IH]; simpl; [reflexivity|]. rewrite IH.
  destruct (Nat.eqb_spec a 1); f_equal; lia.
Qed.

Lemma Forall2_rev {A B} (P : A -> B -> Prop) l l' : Forall2 P l l' -> Forall2 P (rev l) (rev l').
Proof.
  induction 1; simpl; [constructor|]. apply Forall2_app; [assumption|]. constructor; [assumption|constructor].
Qed.

Lemma nprod_pos_all s t : (t < nprod s)%nat -> Forall (fun n => 0 < n)%nat s.
Proof.
  revert t. induction s as [|a s IH]; intros t H; constructor; simpl in H; [nia|].
  destruct (nprod s) eqn:E; [lia|]. apply (IH 0%nat). lia.
Qed.

Lemma broadcast_same f a b : ashape a = ashape b ->
  exists d, broadcast_op f a b = Some d /\ ashape d = ashape a /\
    forall t, (t < nprod (ashape a))%nat -> aflat d t = f (aflat a t) (aflat b t).
Proof.
  intros E. unfold broadcast_op. rewrite E, broadcast_rev_same. eexists. split; [reflexivity|].
  simpl. rewrite rev_involutive. split; [reflexivity|].
  intros t Ht. rewrite ?E in *.
  assert (Hi : Forall2 lt (unravel (ashape b) t) (ashape b)).
  { apply unravel_in_shape; assumption. }
  assert (R : ravel (ashape b) (unravel (ashape b) t) = t) by (apply ravel_unravel; assumption).
  rewrite broadcast_index_same by (apply Forall2_rev; assumption).
  rewrite rev_involutive, R. reflexivity.
Qed.

Lemma reshape_some a s : nprod (ashape a) = nprod s -> reshape a s = Some {| ashape := s; aflat := aflat a |}.
Proof. intros E. unfold reshape. rewrite E, Nat.eqb_refl. reflexivity. Qed.

Lemma reshape_auto_some a s k : (0 < nprod s)%nat -> nprod (ashape a) = (k * nprod s)%nat ->
  reshape_auto a s = Some {| ashape := k :: s; aflat := aflat a |}.
Proof.
  intros Hp E. unfold reshape_auto. destruct (Nat.eqb_spec (nprod s) 0); [lia|].
  rewrite E, Nat.mod_mul, Nat.eqb_refl, Nat.div_mul by lia. reflexivity.
Qed.

Lemma div_add_small i m j : (j < m)%nat -> ((i * m + j) / m = i)%nat.
Proof. intros H. rewrite Nat.div_add_l by lia. rewrite Nat.div_small by lia. lia. Qed.
Lemma mod_add_small i m j : (j < m)%nat -> ((i * m + j) mod m = j)%nat.
Proof. intros H. rewrite Nat.add_comm, Nat.mod_add by lia. apply Nat.mod_small. lia. Qed.

Lemma array2_flat n m f i j : (j < m)%nat -> aflat (array2 n m f) (i * m + j) = f i j.
Proof. intros H. simpl. rewrite div_add_small, mod_add_small by lia. reflexivity. Qed.

Lemma array3_flat l n m f k i j : (i < n)%nat -> (j < m)%nat ->
  aflat (array3 l n m f) ((k * n + i) * m + j) = f k i j.
Proof.
  intros Hi Hj. simpl. rewrite !div_add_small, !mod_add_small by lia. reflexivity.
Qed.

(** ** Single operators *)

Lemma op_reshape o : op_wf o ->
  reshape (odata o) [bsize (orow o); bsize (ocol o)]
  = Some {| ashape := [bsize (orow o); bsize (ocol o)]; aflat := aflat (odata o) |}.
Proof. intros H. apply reshape_some. unfold op_wf in H. rewrite H. simpl. lia. Qed.

Lemma matmul_operator_spec l r : op_wf l -> op_wf r -> bsize (ocol l) = bsize (orow r) ->
  exists p, matmul_operator l r = Some p /\ orow p = orow l /\ ocol p = ocol r /\
    ashape (odata p) = [bsize (orow l); bsize (ocol r)] /\
    forall i j, (j < bsize (ocol r))%nat ->
      op_entry p i j = matmul (bsize (ocol l)) (op_entry l) (op_entry r) i j.
Proof.
  intros Hl Hr E. unfold matmul_operator. rewrite !op_reshape by assumption.
  rewrite <- E, Nat.eqb_refl. eexists. split; [reflexivity|]. simpl.
  repeat split. intros i j Hj. unfold op_entry at 1. cbn [ocol odata].
  rewrite array2_flat by assumption. unfold at2. simpl. reflexivity.
Qed.

Lemma matmul_ext n A A' B B' i j : (forall k, (k < n)%nat -> A i k = A' i k) ->
  (forall k, (k < n)%nat -> B k j = B' k j) -> matmul n A B i j = matmul n A' B' i j.
Proof. intros H H'. unfold matmul. apply csum_ext; intros k Hk. rewrite H, H' by assumption. reflexivity. Qed.

Lemma combine_operator_spec f (op : operator -> operator -> option operator)
  (Hop : forall a b, op a b = match broadcast_op f (odata a) (odata b) with
     | Some d => Some {| orow := orow a; ocol := ocol a; odata := d |} | None => None end) a b :
  ashape (odata a) = ashape (odata b) -> op_wf a -> bsize (ocol b) = bsize (ocol a) ->
  exists p, op a b = Some p /\ orow p = orow a /\ ocol p = ocol a /\ ashape (odata p) = ashape (odata a) /\
    forall i j, (i < bsize (orow a))%nat -> (j < bsize (ocol a))%nat ->
      op_entry p i j = f (op_entry a i j) (op_entry b i j).
Proof.
  intros E Hw Ec. rewrite Hop. destruct (broadcast_same f _ _ E) as [d [Hd [Hs Hf]]]. rewrite Hd.
  eexists. split; [reflexivity|]. simpl. repeat split; [assumption|].
  intros i j Hi Hj. unfold op_entry. simpl. rewrite Ec. apply Hf. rewrite Hw. nia.
Qed.

Lemma commutator_gen f (comm : operator -> operator -> option operator)
  (sub : operator -> operator -> option operator)
  (Hsub : forall a b, sub a b = match broadcast_op f (odata a) (odata b) with
     | Some d => Some {| orow := orow a; ocol := ocol a; odata := d |} | None => None end)
  (Hcomm : forall l r, comm l r = match matmul_operator l r, matmul_operator r l with
     | Some x, Some y => sub x y | _, _ => None end) n l r :
  square n l -> square n r ->
  exists p, comm l r = Some p /\ orow p = orow l /\ ocol p = ocol r /\ square n p /\
    forall i j, (i < n)%nat -> (j < n)%nat ->
      op_entry p i j = f (matmul n (op_entry l) (op_entry r) i j) (matmul n (op_entry r) (op_entry l) i j).
Proof.
  intros [Wl [Rl Cl]] [Wr [Rr Cr]]. rewrite Hcomm.
  destruct (matmul_operator_spec l r Wl Wr ltac:(lia)) as [x [Hx [X1 [X2 [X3 X4]]]]].
  destruct (matmul_operator_spec r l Wr Wl ltac:(lia)) as [y [Hy [Y1 [Y2 [Y3 Y4]]]]].
  rewrite Hx, Hy.
  assert (Wx : op_wf x) by (unfold op_wf; rewrite X3, X1, X2; simpl; lia).
  destruct (combine_operator_spec f sub Hsub x y) as [p [Hp [P1 [P2 [P3 P4]]]]].
  { rewrite X3, Y3. congruence. } { assumption. } { rewrite X2, Y2. lia. }
  exists p. split; [assumption|]. rewrite P1, P2. split; [assumption|]. split; [assumption|].
  rewrite X1, X2 in *. split.
  - unfold square, op_wf. rewrite P3, X3, P1, P2. simpl. split; [lia|]. split; lia.
  - intros i j Hi Hj. rewrite P4 by lia. rewrite X4, Y4 by lia. rewrite Cl, Cr. reflexivity.
Qed.

Lemma commutator_spec n l r : square n l -> square n r ->
  exists p, get_commutator l r = Some p /\ orow p = orow l /\ ocol p = ocol r /\ square n p /\
    forall i j, (i < n)%nat -> (j < n)%nat ->
      op_entry p i j = matmul n (op_entry l) (op_entry r) i j - matmul n (op_entry r) (op_entry l) i j.
Proof.
  apply (commutator_gen Cminus get_commutator subtract_operator); intros; reflexivity.
Qed.

Lemma anti_commutator_spec n l r : square n l -> square n r ->
  exists p, get_anti_commutator l r = Some p /\ orow p = orow l /\ ocol p = ocol r /\ square n p /\
    forall i j, (i < n)%nat -> (j < n)%nat ->
      op_entry p i j = matmul n (op_entry l) (op_entry r) i j + matmul n (op_entry r) (op_entry l) i j.
Proof.
  apply (commutator_gen Cplus get_anti_commutator add_operator); intros; reflexivity.
Qed.

(** ** Matrix algebra *)

Lemma matmul_assoc n A B D i j : matmul n (matmul n A B) D i j = matmul n A (matmul n B D) i j.
Proof.
  unfold matmul. transitivity (csum (fun k => csum (fun l => A i l * B l k * D k j) n) n).
  { apply csum_ext; intros k Hk. rewrite <- csum_scal_r. reflexivity. }
  rewrite csum_swap. apply csum_ext; intros l Hl. rewrite <- csum_scal_l. apply csum_ext; intros; ring.
Qed.

Lemma matmul_plus_l n A B D i j : matmul n (fun i j => A i j + B i j) D i j = matmul n A D i j + matmul n B D i j.
Proof. unfold matmul. rewrite <- csum_plus. apply csum_ext; intros; ring. Qed.
Lemma matmul_plus_r n A B D i j : matmul n A (fun i j => B i j + D i j) i j = matmul n A B i j + matmul n A D i j.
Proof. unfold matmul. rewrite <- csum_plus. apply csum_ext; intros; ring. Qed.
Lemma matmul_minus_l n A B D i j : matmul n (fun i j => A i j - B i j) D i j = matmul n A D i j - matmul n B D i j.
Proof. unfold matmul. rewrite <- csum_minus. apply csum_ext; intros; ring. Qed.
Lemma matmul_minus_r n A B D i j : matmul n A (fun i j => B i j - D i j) i j = matmul n A B i j - matmul n A D i j.
Proof. unfold matmul. rewrite <- csum_minus. apply csum_ext; intros; ring. Qed.
Lemma matmul_scal_l n c A B i j : matmul n (fun i j => A i j * c) B i j = c * matmul n A B i j.
Proof. unfold matmul. rewrite <- csum_scal_l. apply csum_ext; intros; ring. Qed.
Lemma matmul_scal_r n c A B i j : matmul n A (fun i j => B i j * c) i j = c * matmul n A B i j.
Proof. unfold matmul. rewrite <- csum_scal_l. apply csum_ext; intros; ring. Qed.
Lemma matmul_delta_l n A i j : (i < n)%nat -> matmul n cdelta A i j = A i j.
Proof. intros H. unfold matmul. apply (csum_delta_l (fun k => A k j)). assumption. Qed.
Lemma matmul_delta_r n A i j : (j < n)%nat -> matmul n A cdelta i j = A i j.
Proof. intros H. unfold matmul. rewrite (csum_delta_r (fun k => A i k)) || rewrite (csum_delta_r' (fun k => A i k)); [reflexivity|assumption]. Qed.

Lemma matmul_adjoint n A B i j : matmul n (adjoint A) (adjoint B) i j = adjoint (matmul n B A) i j.
Proof.
  unfold matmul, adjoint. rewrite Cconj_csum. apply csum_ext; intros. rewrite Cconj_mult. ring.
Qed.

Section Algebra.
Variable n : nat.
Implicit Types a b c p q r : operator.

Lemma commutator_some a b p : square n a -> square n b -> get_commutator a b = Some p ->
  orow p = orow a /\ ocol p = ocol b /\ square n p /\
  forall i j, (i < n)%nat -> (j < n)%nat ->
    op_entry p i j = matmul n (op_entry a) (op_entry b) i j - matmul n (op_entry b) (op_entry a) i j.
Proof.
  intros Ha Hb E. destruct (commutator_spec n a b Ha Hb) as [p' [E' H]].
  rewrite E in E'. inversion E'; subst p'. assumption.
Qed.

Lemma anti_commutator_some a b p : square n a -> square n b -> get_anti_commutator a b = Some p ->
  orow p = orow a /\ ocol p = ocol b /\ square n p /\
  forall i j, (i < n)%nat -> (j < n)%nat ->
    op_entry p i j = matmul n (op_entry a) (op_entry b) i j + matmul n (op_entry b) (op_entry a) i j.
Proof.
  intros Ha Hb E. destruct (anti_commutator_spec n a b Ha Hb) as [p' [E' H]].
  rewrite E in E'. inversion E'; subst p'. assumption.
Qed.

Lemma commutator_antisym a b p q : square n a -> square n b ->
  get_commutator a b = Some p -> get_commutator b a = Some q ->
  mat_eq n (op_entry p) (fun i j => - op_entry q i j).
Proof.
  intros Ha Hb E F i j Hi Hj.
  destruct (commutator_some a b p Ha Hb E) as [_ [_ [_ H1]]].
  destruct (commutator_some b a q Hb Ha F) as [_ [_ [_ H2]]].
  rewrite H1, H2 by assumption. ring.
Qed.

Lemma commutator_jacobi a b c ab bc ca x y z : square n a -> square n b -> square n c ->
  get_commutator b c = Some bc -> get_commutator c a = Some ca -> get_commutator a b = Some ab ->
  get_commutator a bc = Some x -> get_commutator b ca = Some y -> get_commutator c ab = Some z ->
  forall i j, (i < n)%nat -> (j < n)%nat -> op_entry x i j + op_entry y i j + op_entry z i j = 0.
Proof.
  intros Ha Hb Hc E1 E2 E3 E4 E5 E6 i j Hi Hj.
  destruct (commutator_some b c bc Hb Hc E1) as [_ [_ [S1 H1]]].
  destruct (commutator_some c a ca Hc Ha E2) as [_ [_ [S2 H2]]].
  destruct (commutator_some a b ab Ha Hb E3) as [_ [_ [S3 H3]]].
  destruct (commutator_some a bc x Ha S1 E4) as [_ [_ [_ H4]]].
  destruct (commutator_some b ca y Hb S2 E5) as [_ [_ [_ H5]]].
  destruct (commutator_some c ab z Hc S3 E6) as [_ [_ [_ H6]]].
  rewrite H4, H5, H6 by assumption.
  assert (L : forall o X Y (d : operator), (forall i j, (i < n)%nat -> (j < n)%nat -> op_entry o i j = matmul n X Y i j - matmul n Y X i j) ->
    matmul n (op_entry d) (op_entry o) i j - matmul n (op_entry o) (op_entry d) i j =
    matmul n (op_entry d) (matmul n X Y) i j - matmul n (op_entry d) (matmul n Y X) i j
    - matmul n X (matmul n Y (op_entry d)) i j + matmul n Y (matmul n X (op_entry d)) i j).
  { intros o X Y d H.
    rewrite (matmul_ext n (op_entry d) (op_entry d) (op_entry o) (fun i j => matmul n X Y i j - matmul n Y X i j)) by auto.
    rewrite (matmul_ext n (op_entry o) (fun i j => matmul n X Y i j - matmul n Y X i j) (op_entry d) (op_entry d)) by auto.
    rewrite matmul_minus_l, matmul_minus_r, !matmul_assoc. ring. }
  rewrite (L _ _ _ a H1), (L _ _ _ b H2), (L _ _ _ c H3). ring.
Qed.

Lemma scale_square (c : C) a : square n a -> square n (scale_operator c a).
Proof. intros [H1 H2]. split; assumption. Qed.

Lemma scale_entry (c : C) a i j : op_entry (scale_operator c a) i j = op_entry a i j * c.
Proof. reflexivity. Qed.

Lemma add_operator_spec a b : square n a -> square n b -> ashape (odata a) = ashape (odata b) ->
  exists p, add_operator a b = Some p /\ square n p /\ orow p = orow a /\ ocol p = ocol a /\
    forall i j, (i < n)%nat -> (j < n)%nat -> op_entry p i j = op_entry a i j + op_entry b i j.
Proof.
  intros [W1 [R1 C1]] [W2 [R2 C2]] E.
  destruct (combine_operator_spec Cplus add_operator (fun _ _ => eq_refl) a b E W1 ltac:(lia)) as [p [Hp [P1 [P2 [P3 P4]]]]].
  exists p. split; [assumption|]. split.
  { unfold square, op_wf. rewrite P1, P2, P3. auto. }
  split; [assumption|]. split; [assumption|]. intros. apply P4; lia.
Qed.

(** Linear in the first argument; with antisymmetry also in the second. *)
Lemma commutator_linear (u v : C) a b c s p q r : square n a -> square n b -> square n c ->
  ashape (odata a) = ashape (odata b) ->
  add_operator (scale_operator u a) (scale_operator v b) = Some s ->
  get_commutator s c = Some p -> get_commutator a c = Some q -> get_commutator b c = Some r ->
  mat_eq n (op_entry p) (fun i j => u * op_entry q i j + v * op_entry r i j).
Proof.
  intros Ha Hb Hc Es E1 E2 E3 E4 i j Hi Hj.
  destruct (add_operator_spec (scale_operator u a) (scale_operator v b) (scale_square u a Ha) (scale_square v b Hb) Es)
    as [s' [Hs' [S1 [_ [_ S2]]]]].
  rewrite E1 in Hs'. inversion Hs'; subst s'.
  destruct (commutator_some s c p S1 Hc E2) as [_ [_ [_ H1]]].
  destruct (commutator_some a c q Ha Hc E3) as [_ [_ [_ H2]]].
  destruct (commutator_some b c r Hb Hc E4) as [_ [_ [_ H3]]].
  rewrite H1, H2, H3 by assumption.
  rewrite (matmul_ext n (op_entry s) (fun i j => op_entry a i j * u + op_entry b i j * v) (op_entry c) (op_entry c))
    by (intros; rewrite ?S2, ?scale_entry; auto).
  rewrite (matmul_ext n (op_entry c) (op_entry c) (op_entry s) (fun i j => op_entry a i j * u + op_entry b i j * v))
    by (intros; rewrite ?S2, ?scale_entry; auto).
  rewrite matmul_plus_l, matmul_plus_r, !matmul_scal_l, !matmul_scal_r. ring.
Qed.

Lemma matmul_hermitian A B i j : hermitian n A -> hermitian n B -> (i < n)%nat -> (j < n)%nat ->
  Cconj (matmul n A B j i) = matmul n B A i j.
Proof.
  intros HA HB Hi Hj. unfold matmul. rewrite Cconj_csum. apply csum_ext; intros k Hk.
  rewrite Cconj_mult, (HA j k), (HB k i) by assumption. unfold adjoint. rewrite !Cconj_conj. ring.
Qed.

Lemma commutator_hermitian a b p : square n a -> square n b ->
  hermitian n (op_entry a) -> hermitian n (op_entry b) -> get_commutator a b = Some p ->
  anti_hermitian n (op_entry p).
Proof.
  intros Ha Hb HA HB E i j Hi Hj. destruct (commutator_some a b p Ha Hb E) as [_ [_ [_ H]]].
  unfold adjoint. rewrite !H by assumption. rewrite Cconj_minus, !matmul_hermitian by assumption. ring.
Qed.

Lemma anti_commutator_hermitian a b p : square n a -> square n b ->
  hermitian n (op_entry a) -> hermitian n (op_entry b) -> get_anti_commutator a b = Some p ->
  hermitian n (op_entry p).
Proof.
  intros Ha Hb HA HB E i j Hi Hj. destruct (anti_commutator_some a b p Ha Hb E) as [_ [_ [_ H]]].
  unfold adjoint. rewrite !H by assumption. rewrite Cconj_plus, !matmul_hermitian by assumption. ring.
Qed.
End Algebra.

(** Flat data plus data with two axes: numpy refuses, except for 1 x 1. *)
Lemma add_flat_square a b n : (1 < n)%nat -> ashape (odata a) = [(n * n)%nat] -> ashape (odata b) = [n; n] ->
  add_operator a b = None /\ add_operator b a = None.
Proof.
  intros Hn Ea Eb. unfold add_operator, broadcast_op. rewrite Ea, Eb. simpl.
  destruct (Nat.eqb_spec (n * n) n); [nia|]. destruct (Nat.eqb_spec (n * n) 1); [nia|].
  destruct (Nat.eqb_spec n (n * n)); [nia|].
  destruct (Nat.eqb_spec n 1); [lia|]. split; reflexivity.
Qed.
