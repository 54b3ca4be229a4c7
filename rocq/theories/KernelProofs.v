(** Conversions between full, diagonal and isotropic kernels. *)
From Coq Require Import Reals Psatz.
From Verif Require Import ZLib Csum DFT NumPy Spec Index IndexProofs SpecBasis Basis Operator SpecOperator
  OperatorProofs Kernel SpecKernel.
Local Open Scope R_scope.
Local Open Scope C_scope.

Lemma array4_flat n0 n1 n2 n3 f i j k l : (j < n1)%nat -> (k < n2)%nat -> (l < n3)%nat ->
  aflat (array4 n0 n1 n2 n3 f) (((i * n1 + j) * n2 + k) * n3 + l) = f i j k l.
Proof.
  intros Hj Hk Hl. unfold array4; cbn [aflat].
  rewrite div_add_small, mod_add_small by assumption.
  rewrite div_add_small, mod_add_small by assumption.
  rewrite div_add_small, mod_add_small by assumption. reflexivity.
Qed.

Lemma reshape_rows_some a n m : (0 < n)%nat -> nprod (ashape a) = (n * m)%nat ->
  reshape_rows a n = Some {| ashape := [n; m]; aflat := aflat a |}.
Proof.
  intros Hn E. unfold reshape_rows. rewrite E.
  destruct (Nat.eqb_spec n 0); [lia|].
  rewrite Nat.mul_comm, Nat.mod_mul, Nat.div_mul by lia. reflexivity.
Qed.

Lemma all_equal_true n u v : all_equal n u v = true <-> forall t, (t < n)%nat -> u t = v t.
Proof.
  unfold all_equal. rewrite forallb_forall. split; intros H t Ht.
  - specialize (H t ltac:(apply in_seq; lia)). cbv beta in H. destruct (Ceq_dec (u t) (v t)); [assumption|discriminate].
  - apply in_seq in Ht. destruct (Ceq_dec (u t) (v t)); [reflexivity|]. destruct n0. apply H; lia.
Qed.

Lemma pair_lt n m i j : (i < n)%nat -> (j < m)%nat -> (i * m + j < n * m)%nat.
Proof. intros Hi Hj. nia. Qed.

Lemma pair_split n m t : (t < n * m)%nat -> exists i j, (i < n)%nat /\ (j < m)%nat /\ t = (i * m + j)%nat.
Proof.
  intros Ht. assert (m <> 0)%nat by nia. exists (t / m)%nat, (t mod m)%nat.
  split; [apply Nat.div_lt_upper_bound; lia|]. split; [apply Nat.mod_upper_bound; lia|].
  rewrite (Nat.div_mod t m) at 1 by lia. lia.
Qed.

(** ** Full and diagonal *)

Lemma full_from_diagonal n m d : nprod (ashape d) = (n * m)%nat -> length (ashape d) = 1%nat ->
  exists F, as_full_kernel_from_diagonal n m d = Some F /\ ashape F = [(n * n * m * m)%nat] /\
    forall i k j l, (i < n)%nat -> (k < n)%nat -> (j < m)%nat -> (l < m)%nat ->
      entry4 n m m F i k j l = cdelta i k * cdelta j l * entry2 m d i j.
Proof.
  intros E H1. destruct d as [s v]; simpl in *. destruct s as [|p [|? ?]]; try discriminate.
  simpl in E. rewrite Nat.mul_1_r in E. subst p.
  unfold as_full_kernel_from_diagonal; cbn [np_diag ashape].
  rewrite reshape_some by (simpl; nia).
  eexists. split; [reflexivity|]. split.
  { unfold ravel_array, swapaxes12, array4; cbn [ashape aflat nth nprod]. f_equal. nia. }
  intros i k j l Hi Hk Hj Hl. unfold entry4, entry2, ravel_array; cbn [aflat].
  unfold swapaxes12; cbn [ashape nth].
  etransitivity; [apply (array4_flat n n m m); assumption|].
  unfold at4; cbn [aflat ashape nth].
  replace (((i * m + j) * n + k) * m + l)%nat with ((i * m + j) * (n * m) + (k * m + l))%nat by ring.
  assert (i * m + j < n * m)%nat by (apply pair_lt; assumption).
  assert (k * m + l < n * m)%nat by (apply pair_lt; assumption).
  etransitivity; [apply (array2_flat (n * m)); assumption|]. cbv beta.
  destruct (Nat.eqb_spec (i * m + j) (k * m + l)) as [E|N].
  - assert (i = k) by nia. assert (j = l) by nia. subst k l.
    rewrite !cdelta_refl. ring.
  - destruct (Nat.eq_dec i k) as [->|Hik]; [|rewrite (cdelta_neq i k) by assumption; ring].
    rewrite (cdelta_neq j l) by (intros ->; apply N; reflexivity). ring.
Qed.

Lemma diagonal_from_full n m F : nprod (ashape F) = (n * n * m * m)%nat ->
  exists d, as_diagonal_kernel_from_full n m F = Some d /\ ashape d = [(n * m)%nat] /\
    forall i j, (i < n)%nat -> (j < m)%nat -> entry2 m d i j = entry4 n m m F i i j j.
Proof.
  intros E. unfold as_diagonal_kernel_from_full.
  rewrite reshape_some by (simpl; nia).
  rewrite reshape_some by (unfold swapaxes12, array4; cbn [ashape nth nprod]; nia).
  eexists. split; [reflexivity|]. cbn [np_diag ashape ravel_array nprod].
  rewrite Nat.min_id. split; [f_equal; lia|].
  intros i j Hi Hj. unfold entry2, entry4, ravel_array, swapaxes12, at2; cbn [aflat ashape nth].
  replace ((i * m + j) * (n * m) + (i * m + j))%nat with (((i * m + j) * n + i) * m + j)%nat by ring.
  etransitivity; [apply (array4_flat n m n m); assumption|].
  unfold at4; cbn [ashape nth aflat]. reflexivity.
Qed.

Lemma diagonal_round_trip_kernel n m d F : nprod (ashape d) = (n * m)%nat -> length (ashape d) = 1%nat ->
  as_full_kernel_from_diagonal n m d = Some F ->
  exists d', as_diagonal_kernel_from_full n m F = Some d' /\ ashape d' = ashape d /\
    forall t, (t < n * m)%nat -> aflat d' t = aflat d t.
Proof.
  intros E H1 HF. destruct (full_from_diagonal n m d E H1) as [F' [HF' [HS HE]]].
  rewrite HF in HF'. injection HF' as <-.
  destruct (diagonal_from_full n m F) as [d' [Hd [HS' HE']]].
  { rewrite HS. simpl. lia. }
  exists d'. split; [exact Hd|]. split.
  { rewrite HS'. destruct (ashape d) as [|p [|? ?]]; try discriminate. simpl in E. f_equal. lia. }
  intros t Ht. destruct (pair_split n m t Ht) as [i [j [Hi [Hj ->]]]].
  fold (entry2 m d' i j) (entry2 m d i j). rewrite HE', HE by assumption.
  rewrite !cdelta_refl. ring.
Qed.

(** A full kernel supported on [i,i,j,j] is recovered. *)
Lemma full_round_trip_kernel n m F : nprod (ashape F) = (n * n * m * m)%nat ->
  exists d F', as_diagonal_kernel_from_full n m F = Some d /\
    as_full_kernel_from_diagonal n m d = Some F' /\
    ((forall i k j l, (i < n)%nat -> (k < n)%nat -> (j < m)%nat -> (l < m)%nat ->
        entry4 n m m F' i k j l = entry4 n m m F i k j l) <->
     (forall i k j l, (i < n)%nat -> (k < n)%nat -> (j < m)%nat -> (l < m)%nat ->
        i <> k \/ j <> l -> entry4 n m m F i k j l = 0)).
Proof.
  intros E. destruct (diagonal_from_full n m F E) as [d [Hd [HS HE]]].
  destruct (full_from_diagonal n m d) as [F' [HF [_ HFE]]].
  { rewrite HS. simpl. lia. } { rewrite HS. reflexivity. }
  exists d, F'. split; [exact Hd|]. split; [exact HF|]. split.
  - intros H i k j l Hi Hk Hj Hl N. rewrite <- H, HFE by assumption.
    destruct N as [N|N]; rewrite (cdelta_neq _ _ N); ring.
  - intros H i k j l Hi Hk Hj Hl. rewrite HFE, HE by assumption.
    destruct (Nat.eq_dec i k) as [<-|N].
    + destruct (Nat.eq_dec j l) as [<-|N].
      * rewrite !cdelta_refl. ring.
      * rewrite (cdelta_neq j l N), (H i i j l) by auto. ring.
    + rewrite (cdelta_neq i k N), (H i k j l) by auto. ring.
Qed.

(** ** Isotropic and diagonal, one axis *)

Lemma diagonal_from_isotropic n k : (0 < n)%nat -> nprod (ashape k) = n ->
  ashape (as_diagonal_kernel_from_isotropic n k) = [(n * n)%nat] /\
  forall i j d, (i < n)%nat -> (j < n)%nat -> (d < n)%nat ->
    Zcong (Z.of_nat n) (Z.of_nat d) (Z.of_nat i - Z.of_nat j) ->
    entry2 n (as_diagonal_kernel_from_isotropic n k) i j = aflat k d.
Proof.
  intros Hn E. unfold as_diagonal_kernel_from_isotropic. rewrite E. split.
  { cbn [ravel_array ashape array2 nprod]. f_equal. lia. }
  intros i j d Hi Hj Hd Hc. unfold entry2; cbn [ravel_array aflat].
  etransitivity; [apply array2_flat; assumption|]. cbv beta. f_equal.
  unfold nx_points. apply Zcong_mod_eq in Hc; [|lia].
  rewrite <- Hc. rewrite Z.mod_small by lia. apply Nat2Z.id.
Qed.

Lemma neg_slot n d : (d < n)%nat -> exists e, (e < n)%nat /\
  Zcong (Z.of_nat n) (Z.of_nat e) (- Z.of_nat d).
Proof.
  intros Hd. exists (Z.to_nat ((- Z.of_nat d) mod Z.of_nat n)). split; [lia|].
  rewrite Z2Nat.id by (apply Z.mod_pos_bound; lia). apply Zcong_mod. lia.
Qed.

Lemma diff_slot n i j : (0 < n)%nat -> exists d, (d < n)%nat /\
  Zcong (Z.of_nat n) (Z.of_nat d) (Z.of_nat i - Z.of_nat j).
Proof.
  intros Hn. exists (Z.to_nat ((Z.of_nat i - Z.of_nat j) mod Z.of_nat n)).
  pose proof (Z.mod_pos_bound (Z.of_nat i - Z.of_nat j) (Z.of_nat n) ltac:(lia)) as B.
  split; [lia|]. rewrite Z2Nat.id by lia. apply Zcong_mod. lia.
Qed.

Lemma isotropic_from_diagonal n d : (0 < n)%nat -> nprod (ashape d) = (n * n)%nat ->
  (exists o, as_isotropic_kernel_from_diagonal false n d = Some o /\ ashape o = [n] /\
     forall j, (j < n)%nat -> aflat o j = entry2 n d 0 j) /\
  as_isotropic_kernel_from_diagonal true n d =
    (if all_equal (n * n) (aflat (as_diagonal_kernel_from_isotropic n
          {| ashape := [n]; aflat := aflat d |})) (aflat d)
     then Some {| ashape := [n]; aflat := aflat d |} else None).
Proof.
  intros Hn E. unfold as_isotropic_kernel_from_diagonal. rewrite reshape_some by (simpl; lia).
  destruct (Nat.eqb_spec n 0); [lia|]. split.
  - eexists. split; [reflexivity|]. split; [reflexivity|]. intros j Hj.
    unfold entry2; cbn [aflat select_row ashape tl nprod]. reflexivity.
  - reflexivity.
Qed.

(** The built-in check accepts exactly the kernels which depend on j - i only. *)
Lemma isotropic_check n d : (0 < n)%nat -> nprod (ashape d) = (n * n)%nat ->
  (exists o, as_isotropic_kernel_from_diagonal true n d = Some o) <->
  (forall i j e, (i < n)%nat -> (j < n)%nat -> (e < n)%nat ->
     Zcong (Z.of_nat n) (Z.of_nat e) (Z.of_nat i - Z.of_nat j) -> entry2 n d i j = entry2 n d 0 e).
Proof.
  intros Hn E. destruct (isotropic_from_diagonal n d Hn E) as [_ ->].
  set (o := {| ashape := [n]; aflat := aflat d |}).
  destruct (diagonal_from_isotropic n o Hn) as [_ Ho]; [simpl; lia|].
  destruct (all_equal _ _ _) eqn:A.
  - pose proof (proj1 (all_equal_true _ _ _) A) as A'. split; [|intros _; exists o; reflexivity].
    intros _ i j e Hi Hj He Hc. unfold entry2 at 1.
    rewrite <- (A' (i * n + j)%nat) by (apply pair_lt; assumption).
    fold (entry2 n (as_diagonal_kernel_from_isotropic n o) i j). rewrite (Ho i j e) by assumption.
    reflexivity.
  - split; [intros [x Hx]; discriminate|]. intros H.
    assert (all_equal (n * n) (aflat (as_diagonal_kernel_from_isotropic n o)) (aflat d) = true) as T.
    { apply all_equal_true. intros t Ht. destruct (pair_split n n t Ht) as [i [j [Hi [Hj ->]]]].
      destruct (diff_slot n i j Hn) as [e [He Hc]].
      fold (entry2 n (as_diagonal_kernel_from_isotropic n o) i j). rewrite (Ho i j e) by assumption.
      fold (entry2 n d i j). rewrite (H i j e) by assumption. reflexivity. }
    rewrite A in T. discriminate.
Qed.

(** Round trip: the reversed kernel. *)
Lemma isotropic_round_trip n k : (0 < n)%nat -> nprod (ashape k) = n ->
  exists o, as_isotropic_kernel_from_diagonal false n (as_diagonal_kernel_from_isotropic n k) = Some o /\
    ashape o = [n] /\
    forall x y, (x < n)%nat -> (y < n)%nat -> Zcong (Z.of_nat n) (Z.of_nat y) (- Z.of_nat x) ->
      aflat o x = aflat k y.
Proof.
  intros Hn E. destruct (diagonal_from_isotropic n k Hn E) as [HS HE].
  destruct (isotropic_from_diagonal n (as_diagonal_kernel_from_isotropic n k) Hn) as [[o [Ho [HSo Hv]]] _].
  { rewrite HS. simpl. lia. }
  exists o. split; [exact Ho|]. split; [exact HSo|]. intros x y Hx Hy Hc.
  rewrite Hv by assumption. apply HE; [lia|assumption..|].
  replace (Z.of_nat 0 - Z.of_nat x)%Z with (- Z.of_nat x)%Z by lia. exact Hc.
Qed.

Lemma isotropic_round_trip_check n k : (0 < n)%nat -> nprod (ashape k) = n ->
  (exists o, as_isotropic_kernel_from_diagonal true n (as_diagonal_kernel_from_isotropic n k) = Some o) <->
  (forall x y, (x < n)%nat -> (y < n)%nat -> Zcong (Z.of_nat n) (Z.of_nat y) (- Z.of_nat x) ->
     aflat k x = aflat k y).
Proof.
  intros Hn E. destruct (diagonal_from_isotropic n k Hn E) as [HS HE].
  rewrite isotropic_check by (try assumption; rewrite HS; simpl; lia). split.
  - intros H x y Hx Hy Hc.
    rewrite <- (HE x 0%nat x) by (try assumption; replace (Z.of_nat x - Z.of_nat 0)%Z with (Z.of_nat x) by lia; apply Zcong_refl).
    rewrite (H x 0%nat x) by (try assumption; replace (Z.of_nat x - Z.of_nat 0)%Z with (Z.of_nat x) by lia; apply Zcong_refl).
    apply HE; [lia|assumption..|]. replace (Z.of_nat 0 - Z.of_nat x)%Z with (- Z.of_nat x)%Z by lia. exact Hc.
  - intros H i j e Hi Hj He Hc. destruct (neg_slot n e He) as [e' [He' Hc']].
    rewrite (HE i j e) by assumption. rewrite (HE 0%nat e e'); [|lia|assumption|assumption|].
    + apply H; assumption.
    + replace (Z.of_nat 0 - Z.of_nat e)%Z with (- Z.of_nat e)%Z by lia. exact Hc'.
Qed.

(** ** Isotropic and diagonal, any number of axes *)

Lemma displacement_length shape d x y : displacement shape d x y ->
  length d = length shape /\ length x = length shape /\ length y = length shape.
Proof.
  revert d x y; induction shape as [|n shape IH]; intros [|a d] [|b x] [|c y]; simpl; try tauto.
  intros [_ [_ H]]. apply IH in H. intuition lia.
Qed.

Lemma displacement_unique shape d d' x y : displacement shape d x y -> displacement shape d' x y -> d = d'.
Proof.
  revert d d' x y; induction shape as [|n shape IH]; intros [|a d] [|a' d'] [|b x] [|c y]; simpl; try tauto.
  intros [Ha [Hc H]] [Ha' [Hc' H']]. f_equal; [|apply (IH _ _ _ _ H H')].
  apply Nat2Z.inj. apply (Zcong_range_eq (Z.of_nat n) 0); [|lia|lia].
  eapply Zcong_trans; [exact Hc|]. apply Zcong_sym. exact Hc'.
Qed.

Lemma displacement_in_shape shape d x y : displacement shape d x y -> in_shape d shape.
Proof.
  revert d x y; induction shape as [|n shape IH]; intros [|a d] [|b x] [|c y]; simpl; try tauto; [constructor|].
  intros [Ha [_ H]]. constructor; [assumption|]. eapply IH; eassumption.
Qed.

Fixpoint displacement_list (shape x y : list nat) : list nat :=
  match shape, x, y with
  | n :: shape, b :: x, c :: y =>
      Z.to_nat ((Z.of_nat b - Z.of_nat c) mod Z.of_nat n) :: displacement_list shape x y
  | _, _, _ => []
  end.

Lemma displacement_list_spec shape x y : Forall (fun n => (0 < n)%nat) shape ->
  length x = length shape -> length y = length shape ->
  displacement shape (displacement_list shape x y) x y.
Proof.
  intros H; revert x y; induction H as [|n shape Hn H IH]; intros [|b x] [|c y]; simpl; try discriminate; [tauto|].
  intros Hx Hy. pose proof (Z.mod_pos_bound (Z.of_nat b - Z.of_nat c) (Z.of_nat n) ltac:(lia)) as B.
  split; [lia|]. split; [|apply IH; lia]. rewrite Z2Nat.id by lia. apply Zcong_mod. lia.
Qed.

Lemma displacement_list_map shape x y : length x = length shape -> length y = length shape ->
  map (fun ax => Z.to_nat ((Z.of_nat (nth ax x 0%nat) - Z.of_nat (nth ax y 0%nat))
                    mod Z.of_nat (nth ax shape 0%nat))) (seq 0 (length shape)) =
  displacement_list shape x y.
Proof.
  revert x y; induction shape as [|n shape IH]; intros [|b x] [|c y]; simpl; try discriminate; [reflexivity|].
  intros Hx Hy. f_equal. rewrite <- (IH x y) by lia. rewrite <- seq_shift, map_map. reflexivity.
Qed.

Lemma diagonal_from_isotropic_stacked shape k : (0 < nprod shape)%nat -> nprod (ashape k) = nprod shape ->
  exists D, as_diagonal_kernel_from_isotropic_stacked shape k = Some D /\
    ashape D = [(nprod shape * nprod shape)%nat] /\
    forall x y d, in_shape x shape -> in_shape y shape -> displacement shape d x y ->
      entry2 (nprod shape) D (ravel shape x) (ravel shape y) = aflat k (ravel shape d).
Proof.
  intros Hn E. unfold as_diagonal_kernel_from_isotropic_stacked.
  rewrite reshape_some by assumption. eexists. split; [reflexivity|].
  cbn [ravel_array ashape array2 nprod]. split; [f_equal; lia|].
  intros x y d Hx Hy Hd. unfold entry2.
  etransitivity; [apply array2_flat; apply ravel_lt; assumption|]. cbv beta. cbn [aflat]. f_equal. f_equal.
  apply (displacement_unique shape _ _ x y); [|exact Hd].
  unfold stacked_nx_points, meshgrid_ravel, flatten, nx_points.
  rewrite !unravel_ravel by assumption.
  rewrite displacement_list_map by (apply in_shape_length; assumption).
  apply displacement_list_spec; [|apply in_shape_length; assumption..].
  apply (nprod_pos_of_lt shape 0). assumption.
Qed.

Lemma zero_in_shape shape : Forall (fun n => (0 < n)%nat) shape -> in_shape (repeat 0%nat (length shape)) shape.
Proof. intros H; induction H; simpl; constructor; assumption. Qed.

Lemma ravel_zero shape : ravel shape (repeat 0%nat (length shape)) = 0%nat.
Proof. induction shape as [|n shape IH]; simpl; [reflexivity|]. rewrite IH. reflexivity. Qed.

Lemma displacement_zero shape x : in_shape x shape -> displacement shape x x (repeat 0%nat (length shape)).
Proof.
  intros H; induction H as [|i n x shape Hi H IH]; simpl; [exact I|].
  split; [assumption|]. split; [|exact IH]. replace (Z.of_nat i - 0)%Z with (Z.of_nat i) by lia. apply Zcong_refl.
Qed.

Lemma isotropic_stacked_value shape D : (0 < nprod shape)%nat ->
  nprod (ashape D) = (nprod shape * nprod shape)%nat ->
  exists o, as_isotropic_kernel_from_diagonal_stacked false shape D = Some o /\
    ashape o = [nprod shape] /\
    (forall i, (i < nprod shape)%nat -> aflat o i = entry2 (nprod shape) D i 0) /\
    forall o', as_isotropic_kernel_from_diagonal_stacked true shape D = Some o' <->
      o' = o /\ (forall x y d, in_shape x shape -> in_shape y shape -> displacement shape d x y ->
        entry2 (nprod shape) D (ravel shape x) (ravel shape y) = entry2 (nprod shape) D (ravel shape d) 0).
Proof.
  intros Hn E. set (n := nprod shape).
  assert (Forall (fun n => (0 < n)%nat) shape) as Hp by (apply (nprod_pos_of_lt shape 0); assumption).
  unfold as_isotropic_kernel_from_diagonal_stacked. fold n.
  rewrite reshape_some by (simpl; fold n in E; rewrite E; lia).
  destruct (Nat.eqb_spec n 0); [unfold n in *; lia|].
  eexists. split; [reflexivity|]. split; [reflexivity|]. split.
  { intros i Hi. unfold entry2, at2; cbn [aflat ashape nth]. reflexivity. }
  set (o := {| ashape := [n]; aflat := _ |}). intros o'.
  destruct (diagonal_from_isotropic_stacked shape o) as [D' [-> [HS HD]]]; [assumption|simpl; fold n; lia|].
  destruct (all_equal _ _ _) eqn:A.
  - pose proof (proj1 (all_equal_true _ _ _) A) as A'. split.
    + intros H. injection H as <-. split; [reflexivity|]. intros x y d Hx Hy Hd.
      unfold entry2 at 1. rewrite <- A' by (apply pair_lt; apply ravel_lt; assumption).
      fold (entry2 n D' (ravel shape x) (ravel shape y)). unfold n. rewrite (HD x y d) by assumption.
      unfold o, at2; cbn [aflat ashape nth]. reflexivity.
    + intros [-> _]. reflexivity.
  - split; [discriminate|]. intros [-> H].
    assert (all_equal (n * n) (aflat D') (aflat D) = true) as T.
    { apply all_equal_true. intros t Ht. destruct (pair_split n n t Ht) as [i [j [Hi [Hj ->]]]].
      specialize (HD (unravel shape i) (unravel shape j)
        (displacement_list shape (unravel shape i) (unravel shape j))
        (unravel_in_shape _ _ Hi) (unravel_in_shape _ _ Hj)
        (displacement_list_spec _ _ _ Hp (unravel_length _ _) (unravel_length _ _))).
      specialize (H (unravel shape i) (unravel shape j)
        (displacement_list shape (unravel shape i) (unravel shape j))
        (unravel_in_shape _ _ Hi) (unravel_in_shape _ _ Hj)
        (displacement_list_spec _ _ _ Hp (unravel_length _ _) (unravel_length _ _))).
      rewrite !ravel_unravel in HD, H by assumption.
      fold n in HD, H. fold (entry2 n D' i j) (entry2 n D i j). rewrite HD, H. reflexivity. }
    rewrite A in T. discriminate.
Qed.

Lemma isotropic_stacked_round_trip shape k D : (0 < nprod shape)%nat -> nprod (ashape k) = nprod shape ->
  as_diagonal_kernel_from_isotropic_stacked shape k = Some D ->
  forall assert_isotropic,
  exists o, as_isotropic_kernel_from_diagonal_stacked assert_isotropic shape D = Some o /\
    ashape o = [nprod shape] /\ forall i, (i < nprod shape)%nat -> aflat o i = aflat k i.
Proof.
  intros Hn E HD. destruct (diagonal_from_isotropic_stacked shape k Hn E) as [D' [HD' [HS HE]]].
  rewrite HD in HD'. injection HD' as <-.
  assert (Forall (fun n => (0 < n)%nat) shape) as Hp by (apply (nprod_pos_of_lt shape 0); assumption).
  destruct (isotropic_stacked_value shape D Hn) as [o [Ho [HSo [Hv Hc]]]]; [rewrite HS; simpl; lia|].
  assert (forall x, in_shape x shape -> entry2 (nprod shape) D (ravel shape x) 0 = aflat k (ravel shape x)) as H0.
  { intros x Hx. replace (entry2 (nprod shape) D (ravel shape x) 0) with
      (entry2 (nprod shape) D (ravel shape x) (ravel shape (repeat 0%nat (length shape))))
      by (rewrite ravel_zero; reflexivity).
    apply HE; [assumption|apply zero_in_shape; assumption|apply displacement_zero; assumption]. }
  assert (forall i, (i < nprod shape)%nat -> aflat o i = aflat k i) as Hok.
  { intros i Hi. rewrite Hv by assumption. rewrite <- (ravel_unravel shape i Hi).
    apply H0. apply unravel_in_shape. assumption. }
  intros [|]; exists o; (split; [|split; assumption]); [|exact Ho].
  apply Hc. split; [reflexivity|]. intros x y d Hx Hy Hd.
  rewrite (HE x y d) by assumption. symmetry. apply H0. apply (displacement_in_shape _ _ _ _ Hd).
Qed.
