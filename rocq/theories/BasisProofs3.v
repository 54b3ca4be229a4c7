(** Stacked, matrix and explicit conversions. *)
From Coq Require Import Reals Psatz FinFun FunctionalExtensionality.
From Verif Require Import ZLib Csum DFT NumPy Interp Spec InterpProofs Index IndexProofs Basis SpecBasis BasisProofs BasisProofs2.
Local Open Scope R_scope.
Local Open Scope C_scope.

Implicit Types u v w : nat -> C.

(** ** When convert raises *)

Lemma convert_axes_some same la lb :
  Forall2 (fun a b => exists F, convert same a b = Some F) la lb <->
  exists l, convert_axes same la lb = Some l.
Proof.
  split.
  - induction 1 as [|a b la lb [F HF] _ [l Hl]]; [exists []; reflexivity|].
    simpl. rewrite HF, Hl. eexists; reflexivity.
  - revert lb. induction la as [|a la IH]; intros [|b lb] [l Hl]; try discriminate; [constructor|].
    simpl in Hl. destruct (convert same a b) as [F|] eqn:E; [|discriminate].
    destruct (convert_axes same la lb) as [l'|] eqn:E'; [|discriminate].
    constructor; [exists F; assumption|]. apply IH. exists l'; assumption.
Qed.

Lemma convert_some_iff same a b : (exists F, convert same a b = Some F) <-> compatible a b.
Proof.
  revert b. induction a as [n|n N|n|n N|n s o|n s o|n vecs inner IH|la IH] using basis_ind'; intros b;
    try (split;
         [intros [F HF]; apply compatible_other; [intros ? ? [? ?]; discriminate|eapply convert_some_fund; eassumption]
         |intros H; inversion H; subst; simpl in *; match goal with E : _ = bfund _ |- _ => rewrite E, Nat.eqb_refl end; eexists; reflexivity]).
  destruct (convert_cases same (BTuple la) b) as [[la' [lb [E1 ->]]]|[Hn C]].
  - inversion E1; subst la'. rewrite convert_tuple.
    assert (R : Forall2 (fun a b => exists F, convert same a b = Some F) la lb <-> Forall2 compatible la lb).
    { clear E1. revert lb. induction IH as [|c la Hc _ IHl]; intros lb; split; intros H; inversion H; subst; constructor;
        try (apply Hc; assumption); try (apply IHl; assumption). }
    split.
    + intros [F HF]. destruct (Nat.eqb_spec (nprod (map bfund la)) (nprod (map bfund lb))) as [E|E]; [|discriminate].
      apply compatible_stacked; [exact E|]. apply R, convert_axes_some.
      destruct (convert_axes same la lb) as [l|]; [exists l; reflexivity|discriminate].
    + intros H. inversion H as [la' lb' E F| a' b' Hx]; subst; [|exfalso; eapply Hx; split; reflexivity].
      simpl in E. rewrite E, Nat.eqb_refl. apply R, convert_axes_some in F. destruct F as [l ->].
      eexists; reflexivity.
  - rewrite C. split.
    + intros [F HF]. destruct (Nat.eqb_spec (bfund (BTuple la)) (bfund b)) as [E|E]; [|discriminate].
      apply compatible_other; [|assumption]. intros l l' [E1 E2]. exact (Hn l l' E1 E2).
    + intros H. assert (E : bfund (BTuple la) = bfund b) by (inversion H; assumption).
      rewrite E, Nat.eqb_refl. eexists; reflexivity.
Qed.

Lemma convert_none_iff same a b : convert same a b = None <-> ~ compatible a b.
Proof.
  rewrite <- (convert_some_iff same). split.
  - intros -> [F HF]. discriminate.
  - intros H. destruct (convert same a b) as [F|]; [|reflexivity]. exfalso. apply H. exists F; reflexivity.
Qed.

(** ** Stacked bases *)

Lemma axis_overlaps_unravel la lb : Forall2 (fun a b => bfund a = bfund b) la lb ->
  forall j k, overlap (BTuple lb) (BTuple la) j k =
    axis_overlaps lb la (unravel (map bsize lb) j) (unravel (map bsize la) k).
Proof.
  induction 1 as [|a b la lb E H IH]; intros j k; [apply overlap_tuple_nil|].
  rewrite overlap_tuple_cons; [|assumption|].
  - cbn [map unravel axis_overlaps]. rewrite IH. reflexivity.
  - clear IH. induction H as [|? ? ? ? E' ? IH']; simpl; [reflexivity|]. rewrite E', IH'. reflexivity.
Qed.

Lemma compatible_axes_fund la lb : Forall2 compatible la lb -> Forall2 (fun a b => bfund a = bfund b) la lb.
Proof. induction 1; constructor; [inversion H; assumption|assumption]. Qed.

Lemma compatible_tuple_inv la lb : compatible (BTuple la) (BTuple lb) -> Forall2 compatible la lb.
Proof. intros H. inversion H as [? ? E F|? ? Hx]; subst; [assumption|]. exfalso. eapply Hx; split; reflexivity. Qed.

Lemma product_vector_sum la lb : Forall2 (fun a b => bfund a = bfund b) la lb ->
  forall vs, length vs = length la ->
  forall j,
  csum (fun k => overlap (BTuple lb) (BTuple la) j k * product_vector (combine (map bsize la) vs) k)
       (nprod (map bsize la)) =
  product_vector (combine (map bsize lb)
     (map (fun t => fun j => csum (fun k => overlap (fst (snd t)) (fst t) j k * snd (snd t) k) (bsize (fst t)))
        (combine la (combine lb vs)))) j.
Proof.
  induction 1 as [|a b la lb E H IH]; intros vs Hl j.
  - simpl. rewrite overlap_tuple_nil. ring.
  - destruct vs as [|v vs]; [discriminate|]. simpl in Hl.
    assert (El : map bfund la = map bfund lb).
    { clear IH Hl. induction H as [|? ? ? ? E' ? IH']; simpl; [reflexivity|]. rewrite E', IH'. reflexivity. }
    assert (Ll : length la = length lb) by (rewrite <- (map_length bfund la), El; apply map_length).
    assert (F1 : forall (l : list basis) (vs : list (nat -> C)), length vs = length l ->
        map fst (combine (map bsize l) vs) = map bsize l).
    { clear. induction l as [|c l IH]; intros [|v vs] E; try discriminate; [reflexivity|].
      simpl in *. rewrite IH by lia. reflexivity. }
    cbn [map combine product_vector nprod fst snd].
    rewrite F1 by lia.
    rewrite F1 by (rewrite map_length, !combine_length; lia).
    set (nl := nprod (map bsize la)). set (nl' := nprod (map bsize lb)).
    pose (g := fun k1 k2 => (overlap b a (j / nl') k1 * v k1) *
      (overlap (BTuple lb) (BTuple la) (j mod nl') k2 * product_vector (combine (map bsize la) vs) k2)).
    rewrite (csum_ext _ (fun k => g (k / nl)%nat (k mod nl)%nat)).
    2:{ intros k Hk. unfold g. rewrite overlap_tuple_cons by assumption. fold nl nl'. ring. }
    rewrite csum_div_mod. unfold g.
    rewrite (csum_prod (fun k1 => overlap b a (j / nl') k1 * v k1)).
    unfold nl. rewrite IH by lia. reflexivity.
Qed.

(** ** Matrices *)

Section Matrix.
Variable same : basis -> basis -> bool.
Hypothesis Hsame : identity_test same.

Lemma convert_matrix_some a b a' b' F : convert_matrix same a b a' b' = Some F ->
  exists f g, convert same a b = Some f /\ convert same a' b' = Some g /\
    F = fun m i j => Cconj (g (fun k => Cconj (f (fun l => m l k) i)) j).
Proof.
  unfold convert_matrix, convert_dual. destruct (convert same a b) as [f|]; [|discriminate].
  destruct (convert same a' b') as [g|]; [|discriminate]. intros E; inversion E; subst.
  exists f, g. repeat split.
Qed.

Lemma convert_matrix_sum a b a' b' F :
  bwf a -> bwf b -> bwf a' -> bwf b' -> explicit_orthonormal a -> explicit_orthonormal a' ->
  convert_matrix same a b a' b' = Some F ->
  forall m i j, (i < bsize b)%nat -> (j < bsize b')%nat ->
    F m i j = csum (fun p => csum (fun q => overlap b a i p * m p q * overlap a' b' q j) (bsize a')) (bsize a).
Proof.
  intros Ha Hb Ha' Hb' Oa Oa' HF m i j Hi Hj.
  destruct (convert_matrix_some _ _ _ _ _ HF) as [f [g [Hf [Hg ->]]]].
  assert (E' := convert_some_fund _ _ _ _ Hg).
  rewrite (convert_orthonormal same Hsame a' b' g Ha' Hb' Oa' Hg _ j Hj), Cconj_csum, csum_swap.
  apply csum_ext; intros q Hq.
  rewrite Cconj_mult, Cconj_conj, overlap_conj by assumption.
  rewrite (convert_orthonormal same Hsame a b f Ha Hb Oa Hf _ i Hi), <- csum_scal_l.
  apply csum_ext; intros p Hp. ring.
Qed.

Variables a b : basis.
Hypothesis Ha : bwf a.
Hypothesis Hb : bwf b.
Hypothesis Oa : explicit_orthonormal a.
Hypothesis Cb : complete b.
Variable F : (nat -> nat -> C) -> nat -> nat -> C.
Hypothesis HF : convert_matrix same a b a b = Some F.

Let Ef : bfund a = bfund b.
Proof.
  destruct (convert_matrix_some _ _ _ _ _ HF) as [f [g [Hf _]]]. eapply convert_some_fund; eassumption.
Qed.

Let S := convert_matrix_sum a b a b F Ha Hb Ha Hb Oa Oa HF.

Lemma overlap_delta p q : (p < bsize a)%nat -> (q < bsize a)%nat ->
  csum (fun j => overlap a b p j * overlap b a j q) (bsize b) = cdelta p q.
Proof.
  intros Hp Hq. rewrite overlap_comp by assumption. apply explicit_orthonormal_sound; assumption.
Qed.

Lemma convert_matrix_mul A B i j : (i < bsize b)%nat -> (j < bsize b)%nat ->
  F (matmul (bsize a) A B) i j = matmul (bsize b) (F A) (F B) i j.
Proof.
  intros Hi Hj. rewrite S by assumption. unfold matmul.
  set (n := bsize a) in *.
  transitivity (csum (fun k => csum (fun p => csum (fun q => csum (fun p' => csum (fun q' =>
     overlap b a i p * A p q * (overlap a b q k * overlap b a k p') * B p' q' * overlap a b q' j) n) n) n) n) (bsize b)).
  - rewrite (csum_swap _ (bsize b) n). apply csum_ext; intros p Hp.
    rewrite (csum_swap _ (bsize b) n).
    rewrite (csum_ext _ (fun q => csum (fun k => overlap b a i p * A p k * B k q * overlap a b q j) n)).
    2:{ intros q Hq. rewrite <- csum_scal_l, <- csum_scal_r. apply csum_ext; intros; ring. }
    rewrite csum_swap. apply csum_ext; intros q Hq. symmetry.
    rewrite (csum_swap _ (bsize b) n).
    rewrite (csum_ext _ (fun p' => cdelta q p' * csum (fun q' => overlap b a i p * A p q * B p' q' * overlap a b q' j) n)).
    + rewrite csum_delta_l by assumption. apply csum_ext; intros; ring.
    + intros p' Hp'. rewrite csum_swap, <- csum_scal_l. apply csum_ext; intros q' Hq'.
      rewrite (csum_ext _ (fun k => (overlap b a i p * A p q * B p' q' * overlap a b q' j) * (overlap a b q k * overlap b a k p'))) by (intros; ring).
      rewrite csum_scal_l, overlap_delta by assumption. ring.
  - apply csum_ext; intros k Hk. rewrite !S by assumption.
    rewrite <- csum_scal_r. apply csum_ext; intros p Hp.
    rewrite <- csum_scal_r. apply csum_ext; intros q Hq.
    rewrite <- csum_scal_l. apply csum_ext; intros p' Hp'.
    rewrite <- csum_scal_l. apply csum_ext; intros q' Hq'. ring.
Qed.

Lemma convert_matrix_adjoint A i j : (i < bsize b)%nat -> (j < bsize b)%nat ->
  F (adjoint A) i j = adjoint (F A) i j.
Proof.
  intros Hi Hj. unfold adjoint at 2. rewrite !S by assumption.
  rewrite Cconj_csum. rewrite csum_swap. apply csum_ext; intros p Hp.
  rewrite Cconj_csum. apply csum_ext; intros q Hq. unfold adjoint.
  rewrite !Cconj_mult, !overlap_conj by (auto using eq_sym). ring.
Qed.

Lemma convert_matrix_trace A : trace (bsize b) (F A) = trace (bsize a) A.
Proof.
  unfold trace.
  rewrite (csum_ext _ (fun i => csum (fun p => csum (fun q => A p q * (overlap a b q i * overlap b a i p)) (bsize a)) (bsize a))).
  2:{ intros i Hi. rewrite S by assumption. apply csum_ext; intros p Hp. apply csum_ext; intros q Hq. ring. }
  rewrite csum_swap. apply csum_ext; intros p Hp. rewrite csum_swap.
  rewrite (csum_ext _ (fun q => A p q * cdelta q p)).
  - apply csum_delta_r'; assumption.
  - intros q Hq. rewrite csum_scal_l, overlap_delta by assumption. reflexivity.
Qed.

Lemma convert_matrix_element f A u v : convert same a b = Some f ->
  matrix_element (bsize b) (f u) (F A) (f v) = matrix_element (bsize a) u A v.
Proof.
  intros Hf. unfold matrix_element.
  rewrite <- (convert_inner same Hsame a b f Ha Hb Oa Cb Hf).
  unfold inner_product. apply csum_ext; intros i Hi. f_equal.
  rewrite (csum_ext _ (fun k => csum (fun p => csum (fun q => csum (fun r =>
     overlap b a i p * A p q * v r * (overlap a b q k * overlap b a k r)) (bsize a)) (bsize a)) (bsize a))).
  2:{ intros k Hk. rewrite S by assumption. rewrite (convert_orthonormal same Hsame a b f Ha Hb Oa Hf v k Hk).
      rewrite <- csum_scal_r. apply csum_ext; intros p Hp.
      rewrite <- csum_scal_r. apply csum_ext; intros q Hq.
      rewrite <- csum_scal_l. apply csum_ext; intros r Hr. ring. }
  rewrite (convert_orthonormal same Hsame a b f Ha Hb Oa Hf _ i Hi).
  rewrite csum_swap. apply csum_ext; intros p Hp.
  rewrite csum_swap, <- csum_scal_l. apply csum_ext; intros q Hq.
  rewrite csum_swap.
  rewrite (csum_ext _ (fun r => cdelta q r * (overlap b a i p * A p q * v r))).
  - rewrite csum_delta_l by assumption. ring.
  - intros r Hr. rewrite csum_scal_l, overlap_delta by assumption. ring.
Qed.

End Matrix.

(** ** Orthonormal explicit bases *)

Lemma basis_round_trip b : bwf b -> explicit_orthonormal b ->
  forall v k, (k < bsize b)%nat -> from_fundamental b (into_fundamental b v) k = v k.
Proof.
  intros Hw Ho v k Hk.
  rewrite (fundamental_route_mat b b Hw Hw eq_refl v k Hk).
  rewrite (csum_ext _ (fun i => cdelta k i * v i)).
  - apply csum_delta_l; assumption.
  - intros i Hi. rewrite explicit_orthonormal_sound by assumption. reflexivity.
Qed.

Definition project (b : basis) (w : nat -> C) : nat -> C := into_fundamental b (from_fundamental b w).

Lemma project_idempotent b : bwf b -> explicit_orthonormal b ->
  forall w x, (x < bfund b)%nat -> project b (project b w) x = project b w x.
Proof.
  intros Hw Ho w x Hx. unfold project.
  eapply is_mat_ext; [apply into_fundamental_mat; assumption|assumption|].
  intros k Hk. apply basis_round_trip; assumption.
Qed.

Lemma project_sum b : bwf b -> forall w x, (x < bfund b)%nat ->
  project b w x = csum (fun k => bstate b k x * inner_product (bfund b) (bstate b k) w) (bsize b).
Proof.
  intros Hw w x Hx. unfold project. rewrite (into_fundamental_mat b Hw _ x Hx).
  apply csum_ext; intros k Hk. rewrite (from_fundamental_mat b Hw w k Hk). reflexivity.
Qed.

(** <u|P w> in terms of the components. *)
Lemma project_inner b : bwf b -> forall u w,
  inner_product (bfund b) u (project b w) =
  inner_product (bsize b) (from_fundamental b u) (from_fundamental b w).
Proof.
  intros Hw u w. unfold inner_product.
  rewrite (csum_ext _ (fun x => csum (fun k => Cconj (u x) * bstate b k x * from_fundamental b w k) (bsize b))).
  2:{ intros x Hx. unfold project. rewrite (into_fundamental_mat b Hw _ x Hx), <- csum_scal_l.
      apply csum_ext; intros; ring. }
  rewrite csum_swap. apply csum_ext; intros k Hk.
  rewrite csum_scal_r. f_equal. rewrite (from_fundamental_mat b Hw u k Hk), Cconj_csum.
  apply csum_ext; intros x Hx. rewrite Cconj_mult, Cconj_conj. ring.
Qed.

Lemma inner_conj n u v : Cconj (inner_product n u v) = inner_product n v u.
Proof.
  unfold inner_product. rewrite Cconj_csum. apply csum_ext; intros. rewrite Cconj_mult, Cconj_conj. ring.
Qed.

Lemma project_self_adjoint b : bwf b -> forall u w,
  inner_product (bfund b) u (project b w) = inner_product (bfund b) (project b u) w.
Proof.
  intros Hw u w. rewrite <- (inner_conj _ w (project b u)), !project_inner by assumption.
  rewrite inner_conj. reflexivity.
Qed.

Lemma inner_ext n u u' v v' : (forall k, (k < n)%nat -> u k = u' k) -> (forall k, (k < n)%nat -> v k = v' k) ->
  inner_product n u v = inner_product n u' v'.
Proof. intros Hu Hv. apply csum_ext; intros k Hk. rewrite Hu, Hv; auto. Qed.

Lemma inner_minus_r n u v w : inner_product n u (fun k => v k - w k) = inner_product n u v - inner_product n u w.
Proof. unfold inner_product. rewrite <- csum_minus. apply csum_ext; intros; ring. Qed.

Lemma inner_minus_l n u v w : inner_product n (fun k => u k - v k) w = inner_product n u w - inner_product n v w.
Proof. unfold inner_product. rewrite <- csum_minus. apply csum_ext; intros. rewrite Cconj_minus. ring. Qed.

Definition norm2 (n : nat) (v : nat -> C) : R := rsum (fun k => Cnorm2 (v k)) n.

Lemma inner_self n v : inner_product n v v = RtoC (norm2 n v).
Proof. apply csum_norm2. Qed.

Lemma norm2_nonneg n v : (0 <= norm2 n v)%R.
Proof. apply rsum_nonneg. intros. apply Cnorm2_nonneg. Qed.

Lemma project_norm b : bwf b -> explicit_orthonormal b ->
  forall w, (norm2 (bfund b) (project b w) <= norm2 (bfund b) w)%R.
Proof.
  intros Hw Ho w. set (n := bfund b). set (P := project b w).
  assert (H1 : inner_product n P P = inner_product n w P).
  { unfold P, n. rewrite <- project_self_adjoint by assumption. apply inner_ext; [reflexivity|].
    intros k Hk. apply project_idempotent; assumption. }
  assert (H2 : inner_product n P w = inner_product n P P).
  { rewrite <- (inner_conj n w P), <- H1. apply inner_conj. }
  assert (H3 : inner_product n (fun k => w k - P k) (fun k => w k - P k) = inner_product n w w - inner_product n P P).
  { rewrite inner_minus_r, !inner_minus_l, H2, <- H1. ring. }
  rewrite !inner_self in H3. rewrite <- RtoC_minus in H3. apply RtoC_inj in H3.
  assert (H4 := norm2_nonneg n (fun k => w k - P k)). lra.
Qed.

(** ** The reading of the stacked methods used in the model *)

Lemma convert_to_fundamental same c : same c (BFund (bfund c)) = false ->
  convert same c (BFund (bfund c)) = Some (into_fundamental c).
Proof.
  intros H. destruct (convert_cases same c (BFund (bfund c))) as [[? [? [? ?]]]|[_ ->]]; [discriminate|].
  simpl. rewrite Nat.eqb_refl. f_equal. apply functional_extensionality; intros v.
  unfold convert_generic. rewrite H. simpl. rewrite andb_false_r. reflexivity.
Qed.

Lemma convert_from_fundamental same c : same (BFund (bfund c)) c = false ->
  convert same (BFund (bfund c)) c = Some (from_fundamental c).
Proof.
  intros H. simpl. rewrite Nat.eqb_refl. f_equal. apply functional_extensionality; intros v.
  unfold convert_generic. rewrite H. simpl. reflexivity.
Qed.

Lemma convert_to_transformed same c : same c (BFundT (bfund c)) = false ->
  convert same c (BFundT (bfund c)) =
  Some (fun w => if is_transformed c then into_transformed c w else dft (bfund c) (into_fundamental c w)).
Proof.
  intros H. destruct (convert_cases same c (BFundT (bfund c))) as [[? [? [? ?]]]|[_ ->]]; [discriminate|].
  simpl. rewrite Nat.eqb_refl. f_equal. apply functional_extensionality; intros v.
  unfold convert_generic. rewrite H. simpl. rewrite andb_true_r. reflexivity.
Qed.

Lemma convert_from_transformed same c : same (BFundT (bfund c)) c = false ->
  convert same (BFundT (bfund c)) c =
  Some (fun w => if is_transformed c then from_transformed c w else from_fundamental c (idft (bfund c) w)).
Proof.
  intros H. simpl. rewrite Nat.eqb_refl. f_equal. apply functional_extensionality; intros v.
  unfold convert_generic. rewrite H. simpl. reflexivity.
Qed.

Lemma convert_axes_map same l (g h : basis -> basis) (f : basis -> (nat -> C) -> nat -> C) :
  (forall c, In c l -> convert same (g c) (h c) = Some (f c)) ->
  convert_axes same (map g l) (map h l) = Some (map (fun c => (bsize (g c), bsize (h c), f c)) l).
Proof.
  induction l as [|c l IH]; intros H; simpl; [reflexivity|].
  rewrite (H c) by (left; reflexivity). rewrite IH by (intros d Hd; apply H; right; assumption). reflexivity.
Qed.

(** Each stacked method is [_convert_tuple_basis_vector] with fresh bases. *)
Lemma tuple_methods same l :
  (forall c n, In c l -> same c (BFund n) = false /\ same (BFund n) c = false /\
                         same c (BFundT n) = false /\ same (BFundT n) c = false) ->
  (exists t, convert_axes same l (map (fun c => BFund (bfund c)) l) = Some t /\ into_fundamental (BTuple l) = convert_loop t) /\
  (exists t, convert_axes same (map (fun c => BFund (bfund c)) l) l = Some t /\ from_fundamental (BTuple l) = convert_loop t) /\
  (exists t, convert_axes same l (map (fun c => BFundT (bfund c)) l) = Some t /\ into_transformed (BTuple l) = convert_loop t) /\
  (exists t, convert_axes same (map (fun c => BFundT (bfund c)) l) l = Some t /\ from_transformed (BTuple l) = convert_loop t).
Proof.
  intros H. repeat split.
  - generalize (convert_axes_map same l (fun c => c) (fun c => BFund (bfund c)) into_fundamental). rewrite map_id. intros E.
    eexists; split; [apply E; intros c Hc; apply convert_to_fundamental, H, Hc|reflexivity].
  - generalize (convert_axes_map same l (fun c => BFund (bfund c)) (fun c => c) from_fundamental). rewrite map_id. intros E.
    eexists; split; [apply E; intros c Hc; apply convert_from_fundamental, H, Hc|reflexivity].
  - generalize (convert_axes_map same l (fun c => c) (fun c => BFundT (bfund c))
      (fun c w => if is_transformed c then into_transformed c w else dft (bfund c) (into_fundamental c w))). rewrite map_id. intros E.
    eexists; split; [apply E; intros c Hc; apply convert_to_transformed, H, Hc|reflexivity].
  - generalize (convert_axes_map same l (fun c => BFundT (bfund c)) (fun c => c)
      (fun c w => if is_transformed c then from_transformed c w else from_fundamental c (idft (bfund c) w))). rewrite map_id. intros E.
    eexists; split; [apply E; intros c Hc; apply convert_from_transformed, H, Hc|reflexivity].
Qed.

(** ** Momentum representation of any basis *)

Definition never (_ _ : basis) : bool := false.
Lemma never_identity : identity_test never.
Proof. intros a b H. discriminate. Qed.

Lemma never_mat a b F : bwf a -> bwf b -> convert never a b = Some F ->
  is_mat (bsize a) (bsize b) (overlap b a) F.
Proof. intros Ha Hb HF. apply (convert_mat never never_identity); auto. intros c _ H. discriminate. Qed.

Lemma momentum_basis_wf b : bwf b -> bwf (momentum_basis b).
Proof.
  induction b as [n|n N|n|n N|n s o|n s o|n vecs inner IH|l IH] using basis_ind'; intros H;
    try (apply (bfund_pos _ H)).
  - destruct H. apply IH; assumption.
  - apply bwf_tuple in H. simpl momentum_basis. apply bwf_tuple.
    apply Forall_map. eapply Forall_impl; [|exact H]. intros c Hc. apply (bfund_pos c Hc).
Qed.

Lemma momentum_basis_fund b : bfund (momentum_basis b) = bfund b /\ bsize (momentum_basis b) = bfund b.
Proof.
  induction b as [n|n N|n|n N|n s o|n s o|n vecs inner IH|l IH] using basis_ind'; try (split; reflexivity).
  - exact IH.
  - cbn [momentum_basis bfund bsize]. rewrite !map_map. split; reflexivity.
Qed.

Lemma into_transformed_mat b : bwf b ->
  is_mat (bsize b) (bfund b) (overlap (momentum_basis b) b) (into_transformed b).
Proof.
  induction b as [n|n N|n|n N|n s o|n s o|n vecs inner IH|l IH] using basis_ind'; intros Hw;
    try (match goal with |- is_mat _ _ (overlap _ ?b) _ =>
          generalize (never_mat b (BFundT (bfund b)) _ Hw (bfund_pos b Hw) (convert_to_transformed never b eq_refl)); exact (fun x => x) end).
  - destruct Hw as [Hn Hw]. specialize (IH Hw).
    eapply is_mat_eq; [eapply (is_mat_comp n (bsize inner) (bfund inner) (fun j k => vecs k j) _ (into_state_basis n vecs)); [|exact IH]|].
    + intros v j Hj. unfold into_state_basis. apply csum_ext; intros; ring.
    + intros p k Hp Hk. unfold overlap. cbn [bstate bfund momentum_basis].
      rewrite (csum_ext _ (fun i => csum (fun x => Cconj (bstate (momentum_basis inner) p x) * bstate inner i x * vecs k i) (bfund inner)))
        by (intros; rewrite csum_scal_r; reflexivity).
      rewrite csum_swap. apply csum_ext; intros x Hx. rewrite <- csum_scal_l. apply csum_ext; intros; ring.
  - destruct (tuple_methods never l) as [_ [_ [[t [Ht E]] _]]]; [intros; repeat split|].
    rewrite E. destruct (momentum_basis_fund (BTuple l)) as [F1 F2]. rewrite <- F2.
    apply never_mat; [assumption|apply momentum_basis_wf; assumption|].
    cbn [momentum_basis]. rewrite convert_tuple, Ht. cbn [momentum_basis bfund] in F1. rewrite F1, Nat.eqb_refl. reflexivity.
Qed.

Lemma from_transformed_mat b : bwf b ->
  is_mat (bfund b) (bsize b) (overlap b (momentum_basis b)) (from_transformed b).
Proof.
  induction b as [n|n N|n|n N|n s o|n s o|n vecs inner IH|l IH] using basis_ind'; intros Hw;
    try (match goal with |- is_mat _ _ (overlap ?b _) _ =>
          generalize (never_mat (BFundT (bfund b)) b _ (bfund_pos b Hw) Hw (convert_from_transformed never b eq_refl)); exact (fun x => x) end).
  - destruct Hw as [Hn Hw]. specialize (IH Hw). destruct (momentum_basis_fund inner) as [F1 _].
    eapply is_mat_eq; [eapply (is_mat_comp (bfund inner) (bsize inner) n _ (fun k j => Cconj (vecs k j)) _ (from_state_basis (bsize inner) vecs)); [exact IH|]|].
    + intros v j Hj. reflexivity.
    + intros k p Hk Hp. unfold overlap. cbn [bstate bfund momentum_basis]. rewrite F1.
      rewrite (csum_ext _ (fun i => csum (fun x => Cconj (vecs k i) * (Cconj (bstate inner i x) * bstate (momentum_basis inner) p x)) (bfund inner)))
        by (intros; rewrite csum_scal_l; reflexivity).
      rewrite csum_swap. apply csum_ext; intros x Hx. rewrite Cconj_csum, <- csum_scal_r.
      apply csum_ext; intros. rewrite Cconj_mult. ring.
  - destruct (tuple_methods never l) as [_ [_ [_ [t [Ht E]]]]]; [intros; repeat split|].
    rewrite E. destruct (momentum_basis_fund (BTuple l)) as [F1 F2]. rewrite <- F2.
    apply never_mat; [apply momentum_basis_wf; assumption|assumption|].
    cbn [momentum_basis]. rewrite convert_tuple, Ht. cbn [momentum_basis bfund] in F1. rewrite F1, Nat.eqb_refl. reflexivity.
Qed.

Lemma momentum_basis_full b : bwf b -> full (momentum_basis b).
Proof.
  induction b as [n|n N|n|n N|n s o|n s o|n vecs inner IH|l IH] using basis_ind'; intros H; try reflexivity.
  - destruct H. apply IH; assumption.
  - cbn [momentum_basis]. apply full_tuple. apply Forall_map. apply Forall_forall. intros c _. reflexivity.
Qed.

Lemma momentum_route b a : bwf a -> bwf b -> momentum_basis a = momentum_basis b ->
  forall v j, (j < bsize b)%nat ->
  from_transformed b (into_transformed a v) j = from_fundamental b (into_fundamental a v) j.
Proof.
  intros Ha Hb E v j Hj.
  destruct (momentum_basis_fund a) as [A1 A2]. destruct (momentum_basis_fund b) as [B1 B2].
  assert (Ef : bfund a = bfund b) by (rewrite <- A1, E; exact B1).
  assert (M := into_transformed_mat a Ha). rewrite Ef in M.
  rewrite (is_mat_comp _ _ _ _ _ _ _ M (from_transformed_mat b Hb) v j Hj).
  rewrite (fundamental_route_mat a b Ha Hb Ef v j Hj).
  apply csum_ext; intros k Hk. f_equal. rewrite E, <- B2. apply overlap_comp.
  - congruence.
  - apply full_complete; [apply momentum_basis_wf; assumption|]. apply momentum_basis_full; assumption.
Qed.
