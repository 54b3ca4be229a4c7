(** Functions with the properties asked of scipy.linalg.eigh and scipy.linalg.svd exist. *)
From Coq Require Import Reals Psatz.
From Verif Require Import ZLib Csum DFT NumPy Basis SpecBasis Operator SpecOperator SpecMatrix LinAlg Polar Localize SpecLocalize Spectral
  Spectral2.
Local Open Scope R_scope.
Local Open Scope C_scope.

(** Form of a vector in the span of eigenvectors. *)
Lemma diag_form n A V E x : unitary n V ->
  (forall i j, (i < n)%nat -> (j < n)%nat -> A i j = csum (fun k => V i k * RtoC (E k) * Cconj (V j k)) n) ->
  form n A x = rsum (fun k => E k * Cnorm2 (csum (fun i => Cconj (V i k) * x i)%C n))%R n.
Proof.
  intros HV HA. unfold form.
  assert (Ex : inner_product n x (mv n A x) = RtoC (rsum (fun k => E k * Cnorm2 (csum (fun i => Cconj (V i k) * x i)%C n))%R n)).
  { rewrite <- csum_RtoC. unfold inner_product, mv.
    rewrite (csum_ext _ (fun i => csum (fun k => csum (fun j => Cconj (x i) * (V i k * RtoC (E k) * Cconj (V j k) * x j)) n) n)).
    - rewrite csum_swap. apply csum_ext. intros k Hk. rewrite RtoC_mult, <- Cconj_mult_self, Cconj_csum, csum_mult.
      rewrite <- csum_scal_l. apply csum_ext. intros i Hi. rewrite <- csum_scal_l. apply csum_ext. intros j Hj.
      rewrite Cconj_mult, Cconj_conj. ring.
    - intros i Hi. rewrite csum_swap. rewrite <- csum_scal_l. apply csum_ext. intros j Hj. rewrite HA by assumption.
      rewrite <- csum_scal_r, <- csum_scal_l. apply csum_ext. intros. ring. }
  rewrite Ex. reflexivity.
Qed.
Lemma diag_nrm n V x : unitary n V -> nrm n x = rsum (fun k => Cnorm2 (csum (fun i => Cconj (V i k) * x i)%C n)) n.
Proof.
  intros [HR HC]. assert (Ex : RtoC (nrm n x) = RtoC (rsum (fun k => Cnorm2 (csum (fun i => Cconj (V i k) * x i)%C n)) n)).
  { rewrite <- csum_RtoC, <- ip_nrm. unfold inner_product.
    rewrite (csum_ext (fun k => RtoC _) (fun k => csum (fun i => csum (fun j => Cconj (x i) * x j * (V i k * Cconj (V j k))) n) n)).
    - rewrite csum_swap. apply csum_ext. intros i Hi. rewrite csum_swap.
      rewrite (csum_ext _ (fun j => (Cconj (x i) * x j) * cdelta i j)).
      + rewrite (csum_delta_r (fun j => Cconj (x i) * x j)) by exact Hi. reflexivity.
      + intros j Hj. rewrite csum_scal_l, HR by assumption. reflexivity.
    - intros k Hk. rewrite <- Cconj_mult_self, Cconj_csum, csum_mult. apply csum_ext. intros i Hi. apply csum_ext. intros j Hj.
      rewrite Cconj_mult, Cconj_conj. ring. }
  apply RtoC_inj in Ex. exact Ex.
Qed.

Lemma spectrum_le n A E E' : ascending_spectrum n A E -> ascending_spectrum n A E' -> forall k, (k < n)%nat -> (E' k <= E k)%R.
Proof.
  intros [SE [V [HV HA]]] [SE' [V' [HV' HA']]] k Hk. apply Rnot_lt_le. intros Hlt.
  (* n - 1 - k conditions: no component above k in V; k conditions: none below k in V' *)
  set (rows := fun r j => if (r <? k)%nat then Cconj (V' j r) else Cconj (V j (r + 1)%nat)).
  destruct (kernel_exists (n - 1) n rows ltac:(lia)) as [x [Hx Hz]].
  assert (P : (0 < nrm n x)%R) by (destruct (normalise n x Hx) as [P _]; exact P).
  assert (Z' : forall r, (r < k)%nat -> csum (fun i => Cconj (V' i r) * x i) n = 0).
  { intros r Hr. rewrite <- (Hz r ltac:(lia)). apply csum_ext. intros j _. unfold rows.
    replace (r <? k)%nat with true by (symmetry; apply Nat.ltb_lt; exact Hr). reflexivity. }
  assert (Z : forall r, (k < r)%nat -> (r < n)%nat -> csum (fun i => Cconj (V i r) * x i) n = 0).
  { intros r Hr Hn. rewrite <- (Hz (r - 1)%nat ltac:(lia)). apply csum_ext. intros j _. unfold rows.
    replace (r - 1 <? k)%nat with false by (symmetry; apply Nat.ltb_ge; lia). replace (r - 1 + 1)%nat with r by lia. reflexivity. }
  assert (F1 : (form n A x <= E k * nrm n x)%R).
  { rewrite (diag_form n A V E x HV HA), (diag_nrm n V x HV), <- rsum_scal_l. apply rsum_le. intros r Hr.
    destruct (Nat.le_gt_cases r k) as [L|G].
    - apply Rmult_le_compat_r; [apply Cnorm2_nonneg|]. apply SE; lia.
    - rewrite Z by lia. replace (Cnorm2 0) with 0%R by (unfold Cnorm2; cbn; ring). lra. }
  assert (F2 : (E' k * nrm n x <= form n A x)%R).
  { rewrite (diag_form n A V' E' x HV' HA'), (diag_nrm n V' x HV'), <- rsum_scal_l. apply rsum_le. intros r Hr.
    destruct (Nat.le_gt_cases k r) as [L|G].
    - apply Rmult_le_compat_r; [apply Cnorm2_nonneg|]. apply SE'; lia.
    - rewrite Z' by lia. replace (Cnorm2 0) with 0%R by (unfold Cnorm2; cbn; ring). lra. }
  assert (L : (E' k * nrm n x <= E k * nrm n x)%R) by lra. apply Rmult_le_reg_r in L; [lra|exact P].
Qed.
Lemma spectrum_unique n A E E' : ascending_spectrum n A E -> ascending_spectrum n A E' -> forall k, (k < n)%nat -> E k = E' k.
Proof. intros H H' k Hk. apply Rle_antisym; eapply spectrum_le; eassumption. Qed.

Lemma mat_dec n m (P Q : nat -> nat -> C) :
  {forall i j, (i < n)%nat -> (j < m)%nat -> P i j = Q i j} + {~ forall i j, (i < n)%nat -> (j < m)%nat -> P i j = Q i j}.
Proof.
  induction n as [|n IH]; [left; intros; lia|]. destruct IH as [H|H].
  - destruct (nonzero_dec m (fun j => P n j - Q n j)) as [[j [Hj Hne]]|Hz].
    + right. intros A. apply Hne. rewrite A by lia. ring.
    + left. intros i j Hi Hj. destruct (Nat.eq_dec i n) as [->|]; [|apply H; lia].
      transitivity (P n j - Q n j + Q n j); [ring|]. rewrite Hz by exact Hj. ring.
  - right. intros A. apply H. intros i j Hi Hj. apply A; lia.
Qed.
Lemma hermitian_dec n A : {hermitian n A} + {~ hermitian n A}.
Proof. exact (mat_dec n n A (adjoint A)). Qed.

Definition the_eigh : eigh_fn := fun n A lo hi =>
  match hermitian_dec n A with
  | left H => let VE := proj1_sig (spectral n A H) in (fun k => snd VE (lo + k)%nat, fun i k => fst VE i (lo + k)%nat)
  | right _ => (fun _ => 0%R, fun _ _ => RtoC 0)
  end.

Theorem eigh_exists : exists eigh, eigh_ok eigh.
Proof.
  exists the_eigh. intros n A lo hi HA Hlo Hhi. unfold the_eigh. destruct (hermitian_dec n A) as [H|N]; [|exfalso; exact (N HA)].
  destruct (spectral n A H) as [[V E] [HS [HU [HE HD]]]]. cbn [proj1_sig fst snd] in *. split; [|split].
  - intros a b Ha Hb. rewrite (proj2 HU) by lia. destruct (Nat.eq_dec a b) as [->|Hne]; [rewrite !cdelta_refl; reflexivity|].
    rewrite !cdelta_neq by lia. reflexivity.
  - intros k x Hk Hx. apply HE; lia.
  - intros E' HE' k Hk. apply (spectrum_unique n A); [|exact HE'|lia]. split; [exact HS|]. exists V. split; [exact HU|exact HD].
Qed.

(** ** Singular values *)

(** Gram matrix of the columns. *)
Definition gram (m : nat) (A : nat -> nat -> C) : nat -> nat -> C := fun i j => csum (fun k => Cconj (A k i) * A k j) m.
Lemma gram_hermitian m n A : hermitian n (gram m A).
Proof. intros i j _ _. unfold adjoint, gram. rewrite Cconj_csum. apply csum_ext. intros. rewrite Cconj_mult, Cconj_conj. ring. Qed.
Lemma gram_form m n A u v : inner_product n u (mv n (gram m A) v) = inner_product m (fun k => csum (fun j => A k j * u j) n) (fun k => csum (fun j => A k j * v j) n).
Proof.
  unfold inner_product, mv, gram.
  rewrite (csum_ext _ (fun i => csum (fun k => csum (fun j => Cconj (u i) * (Cconj (A k i) * A k j * v j)) n) m)).
  - rewrite csum_swap. apply csum_ext. intros k _. rewrite Cconj_csum, csum_mult. apply csum_ext. intros i _. apply csum_ext. intros j _.
    rewrite Cconj_mult. ring.
  - intros i _. rewrite csum_swap, <- csum_scal_l. apply csum_ext. intros j _. rewrite <- csum_scal_r, <- csum_scal_l. apply csum_ext. intros. ring.
Qed.

Lemma complete_columns m n (a : nat -> nat -> C) (s : nat -> R) : (n <= m)%nat ->
  (forall i j, (i < n)%nat -> (j < n)%nat -> inner_product m (a i) (a j) = cdelta i j * RtoC (s i * s i)%R) ->
  (forall i, (i < n)%nat -> (0 <= s i)%R) ->
  forall k, (k <= n)%nat -> {u : nat -> nat -> C |
    (forall i, (i < k)%nat -> s i <> 0%R -> forall x, u i x = RtoC (/ s i) * a i x) /\
    (forall i j, (i < k)%nat -> (j < k)%nat -> inner_product m (u i) (u j) = cdelta i j) /\
    forall i j, (i < k)%nat -> (k <= j)%nat -> (j < n)%nat -> inner_product m (u i) (a j) = 0}.
Proof.
  intros Hmn Ha Hs. induction k as [|k IH]; intros Hk.
  - exists (fun _ _ => RtoC 0). repeat split; intros; lia.
  - destruct (IH ltac:(lia)) as [u [U1 [U2 U3]]].
    assert (Step : {w : nat -> C | (s k <> 0%R -> forall x, w x = RtoC (/ s k) * a k x) /\ inner_product m w w = 1 /\
      (forall i, (i < k)%nat -> inner_product m (u i) w = 0) /\ forall j, (S k <= j)%nat -> (j < n)%nat -> inner_product m w (a j) = 0}).
    { destruct (Req_EM_T (s k) 0) as [Z|NZ].
      - destruct (kernel_exists (n - 1) m (fun r x => if (r <? k)%nat then Cconj (u r x) else Cconj (a (r + 1)%nat x)) ltac:(lia)) as [x [Hx Hz]].
        destruct (normalise m x Hx) as [_ N]. exists (fun i => RtoC (/ sqrt (nrm m x)) * x i). split; [contradiction|].
        split; [rewrite ip_nrm, N; reflexivity|]. split.
        + intros i Hi. rewrite ip_scal_r. replace (inner_product m (u i) x) with (RtoC 0); [ring|]. rewrite <- (Hz i ltac:(lia)).
          apply csum_ext. intros y _. replace (i <? k)%nat with true by (symmetry; apply Nat.ltb_lt; exact Hi). reflexivity.
        + intros j Hj Hjn. rewrite <- ip_conj, ip_scal_r. replace (inner_product m (a j) x) with (RtoC 0); [rewrite Cmult_0_r; apply Cconj_0|].
          rewrite <- (Hz (j - 1)%nat ltac:(lia)). apply csum_ext. intros y _.
          replace (j - 1 <? k)%nat with false by (symmetry; apply Nat.ltb_ge; lia). replace (j - 1 + 1)%nat with j by lia. reflexivity.
      - exists (fun x => RtoC (/ s k) * a k x). split; [reflexivity|]. split; [|split].
        + rewrite ip_scal_l, ip_scal_r, Ha by lia. rewrite cdelta_refl, Cconj_RtoC, Cmult_1_l, <- !RtoC_mult. f_equal. field. exact NZ.
        + intros i Hi. rewrite ip_scal_r, U3 by lia. ring.
        + intros j Hj Hjn. rewrite ip_scal_l, Ha by lia. rewrite cdelta_neq by lia. ring. }
    destruct Step as [w [W1 [W2 [W3 W4]]]].
    set (u' := fun i => if (i <? k)%nat then u i else w).
    assert (Ul : forall i, (i < k)%nat -> u' i = u i) by (intros i Hi; unfold u'; replace (i <? k)%nat with true by (symmetry; apply Nat.ltb_lt; exact Hi); reflexivity).
    assert (Uk : u' k = w) by (unfold u'; rewrite Nat.ltb_irrefl; reflexivity).
    exists u'. split; [|split].
    + intros i Hi Hne x. destruct (Nat.eq_dec i k) as [->|]; [rewrite Uk; apply W1; exact Hne|rewrite Ul by lia; apply U1; [lia|exact Hne]].
    + intros i j Hi Hj. destruct (Nat.eq_dec i k) as [->|Ni], (Nat.eq_dec j k) as [->|Nj]; rewrite ?Uk, ?Ul by lia.
      * rewrite cdelta_refl. exact W2.
      * rewrite <- ip_conj, W3, Cconj_0, cdelta_neq by lia. reflexivity.
      * rewrite W3, cdelta_neq by lia. reflexivity.
      * apply U2; lia.
    + intros i j Hi Hj Hjn. destruct (Nat.eq_dec i k) as [->|Ni]; rewrite ?Uk, ?Ul by lia; [apply W4; lia|apply U3; lia].
Qed.

Definition is_svd (m n : nat) (A : nat -> nat -> C) (u : nat -> nat -> C) (s : nat -> R) (vd : nat -> nat -> C) : Prop :=
  (forall k, (k < Nat.min m n)%nat -> (0 <= s k)%R) /\
  orthonormal_columns m (Nat.min m n) u /\ orthonormal_rows (Nat.min m n) n vd /\
  forall i j, (i < m)%nat -> (j < n)%nat -> A i j = csum (fun k => u i k * RtoC (s k) * vd k j) (Nat.min m n).

Lemma svd_tall m n A : (n <= m)%nat -> {r : (nat -> nat -> C) * (nat -> R) * (nat -> nat -> C) | is_svd m n A (fst (fst r)) (snd (fst r)) (snd r)}.
Proof.
  intros Hmn. destruct (spectral n (gram m A) (gram_hermitian m n A)) as [[V E] [_ [[VR VC] [HE _]]]]. cbn [fst snd] in *.
  set (a := fun k x => csum (fun j => A x j * V j k) n).
  assert (Ga : forall i j, (i < n)%nat -> (j < n)%nat -> inner_product m (a i) (a j) = cdelta i j * RtoC (E j)).
  { intros i j Hi Hj. unfold a. rewrite <- (gram_form m n A (fun x => V x i) (fun x => V x j)).
    rewrite (ip_ext n _ _ (fun x => V x i) (fun x => RtoC (E j) * V x j)); [|reflexivity|intros x Hx; apply HE; assumption].
    rewrite ip_scal_r. replace (inner_product n (fun x => V x i) (fun x => V x j)) with (cdelta i j); [ring|]. symmetry. apply VC; assumption. }
  assert (PE : forall i, (i < n)%nat -> (0 <= E i)%R).
  { intros i Hi. assert (G := Ga i i Hi Hi). rewrite ip_nrm, cdelta_refl, Cmult_1_l in G. apply RtoC_inj in G. rewrite <- G. apply nrm_nonneg. }
  set (s := fun i => sqrt (E i)).
  assert (Ps : forall i, (i < n)%nat -> (0 <= s i)%R) by (intros; apply sqrt_pos).
  assert (Ss : forall i, (i < n)%nat -> (s i * s i)%R = E i) by (intros; apply sqrt_sqrt; apply PE; assumption).
  destruct (complete_columns m n a s Hmn) with (k := n) as [u [U1 [U2 _]]]; [|exact Ps|lia|].
  { intros i j Hi Hj. rewrite Ga, Ss by assumption. destruct (Nat.eq_dec i j) as [->|]; [reflexivity|]. rewrite cdelta_neq by assumption. ring. }
  exists (fun x k => u k x, s, fun k j => Cconj (V j k)). cbn [fst snd]. unfold is_svd. rewrite Nat.min_r by exact Hmn.
  split; [exact Ps|]. split; [|split].
  - intros i j Hi Hj. apply U2; assumption.
  - intros i j Hi Hj. rewrite <- VC by assumption. apply csum_ext. intros. rewrite Cconj_conj. reflexivity.
  - intros i j Hi Hj.
    assert (Au : forall k, (k < n)%nat -> u k i * RtoC (s k) = a k i).
    { intros k Hk. destruct (Req_EM_T (s k) 0) as [Z|NZ].
      - rewrite Z, Cmult_0_r. symmetry. apply (nrm_zero m (a k)); [|exact Hi]. apply RtoC_inj. rewrite <- ip_nrm, Ga by assumption.
        rewrite <- Ss, Z, Rmult_0_l by assumption. ring.
      - rewrite U1 by assumption. rewrite RtoC_inv by exact NZ. field. intros Q. apply RtoC_inj in Q. exact (NZ Q). }
    rewrite (csum_ext _ (fun k => csum (fun y => A i y * (V y k * Cconj (V j k))) n)).
    + rewrite csum_swap. rewrite (csum_ext _ (fun y => A i y * cdelta j y)).
      * rewrite csum_delta_r by exact Hj. reflexivity.
      * intros y Hy. rewrite csum_scal_l, VR by assumption. rewrite (cdelta_sym j y). reflexivity.
    + intros k Hk. rewrite Au by exact Hk. unfold a. rewrite <- csum_scal_r. apply csum_ext. intros. ring.
Qed.

Lemma svd_any m n A : {r : (nat -> nat -> C) * (nat -> R) * (nat -> nat -> C) | is_svd m n A (fst (fst r)) (snd (fst r)) (snd r)}.
Proof.
  destruct (le_lt_dec n m) as [H|H]; [apply svd_tall; exact H|].
  destruct (svd_tall n m (fun i j => Cconj (A j i)) ltac:(lia)) as [[[u s] vd] [S1 [S2 [S3 S4]]]]. cbn [fst snd] in *.
  rewrite Nat.min_comm in S1, S2, S3, S4.
  exists (fun i k => Cconj (vd k i), s, fun k j => Cconj (u j k)). cbn [fst snd]. split; [exact S1|]. split; [|split].
  - intros i j Hi Hj. rewrite <- (S3 i j Hi Hj). apply csum_ext. intros. rewrite Cconj_conj. ring.
  - intros i j Hi Hj. rewrite <- (S2 i j Hi Hj). apply csum_ext. intros. rewrite Cconj_conj. ring.
  - intros i j Hi Hj. rewrite <- (Cconj_conj (A i j)). rewrite (S4 j i Hj Hi), Cconj_csum. apply csum_ext. intros k _.
    rewrite !Cconj_mult, Cconj_RtoC. ring.
Qed.

Definition the_svd : svd_fn := fun m n A => proj1_sig (svd_any m n A).
Theorem svd_exists : exists svd, svd_ok svd.
Proof.
  exists the_svd. intros m n A. unfold the_svd. destruct (svd_any m n A) as [[[u s] vd] H]. cbn [proj1_sig fst snd] in *. exact H.
Qed.
