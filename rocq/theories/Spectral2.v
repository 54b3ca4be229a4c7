(** Eigenvalue decompositions of Hermitian matrices exist and their ascending spectrum is
    unique. *)
From Coq Require Import Reals Psatz.
From Verif Require Import ZLib Csum DFT NumPy Basis SpecBasis Operator SpecOperator SpecMatrix LinAlg Polar Localize SpecLocalize Spectral.
Local Open Scope R_scope.
Local Open Scope C_scope.

Lemma shifted_hermitian n A (l : R) : hermitian n A -> hermitian n (fun i j => RtoC l * cdelta i j - A i j).
Proof.
  intros H i j Hi Hj. unfold adjoint. rewrite Cconj_minus, Cconj_mult, Cconj_RtoC, Cconj_cdelta, (cdelta_sym j i), (H i j Hi Hj).
  reflexivity.
Qed.
Lemma shifted_mv n A (l : R) x i : (i < n)%nat -> mv n (fun i j => RtoC l * cdelta i j - A i j) x i = RtoC l * x i - mv n A x i.
Proof.
  intros Hi. unfold mv. rewrite (csum_ext _ (fun j => cdelta i j * (RtoC l * x j) - A i j * x j)) by (intros; ring).
  rewrite csum_minus, csum_delta_l by exact Hi. reflexivity.
Qed.
Lemma shifted_form n A (l : R) x : form n (fun i j => RtoC l * cdelta i j - A i j) x = (l * nrm n x - form n A x)%R.
Proof.
  unfold form. rewrite (ip_ext n x _ x (fun i => RtoC l * x i + (-1) * mv n A x i)); [|reflexivity|].
  - rewrite ip_add_r, !ip_scal_r, ip_nrm. cbn. ring.
  - intros i Hi. rewrite shifted_mv by exact Hi. replace (RtoC (-1)) with (- (1 : C)) by (apply injective_projections; cbn; ring). ring.
Qed.

Lemma form_zero n A y : nrm n y = 0%R -> form n A y = 0%R.
Proof.
  intros H. destruct (form_bound n A) as [K [HK B]]. specialize (B y). rewrite H in B. lra.
Qed.

(** A positive form with bound [K]. *)
Lemma psd_image n M K x : hermitian n M -> (forall y, (0 <= form n M y)%R) -> (0 < K)%R -> (forall y, (form n M y <= K * nrm n y)%R) ->
  (nrm n (mv n M x) <= K * form n M x)%R.
Proof.
  intros H P HK B. set (w := mv n M x). assert (Q := P (fun i => x i + RtoC (- / K) * w i)).
  assert (E : form n M (fun i => x i + RtoC (- / K) * w i) = (form n M x - 2 * / K * nrm n w + / K * / K * form n M w)%R).
  { unfold form at 1. rewrite (ip_ext n _ (mv n M (fun i => x i + RtoC (- / K) * w i)) (fun i => x i + RtoC (- / K) * w i)
      (fun i => w i + RtoC (- / K) * mv n M w i)); [|reflexivity|].
    - rewrite ip_add_l, !ip_add_r, !ip_scal_l, !ip_scal_r. rewrite ip_nrm, Cconj_RtoC.
      rewrite <- (hermitian_ip n M x w H). fold w. rewrite ip_nrm, (form_real n M w H).
      change (inner_product n x w) with (inner_product n x (mv n M x)). rewrite (form_real n M x H).
      rewrite <- !RtoC_mult, <- !RtoC_plus. cbn. ring.
    - intros i Hi. rewrite mv_add, mv_scal. reflexivity. }
  rewrite E in Q. assert (Bw := B w). assert (IK : (0 < / K)%R) by (apply Rinv_0_lt_compat; exact HK).
  assert (Bw' : (/ K * / K * form n M w <= / K * nrm n w)%R).
  { replace (/ K * nrm n w)%R with (/ K * / K * (K * nrm n w))%R by (field; lra). apply Rmult_le_compat_l; [|exact Bw].
    apply Rmult_le_pos; lra. }
  assert (L : (/ K * nrm n w <= form n M x)%R) by lra.
  apply (Rmult_le_compat_l K) in L; [|lra]. replace (K * (/ K * nrm n w))%R with (nrm n w) in L by (field; lra). exact L.
Qed.

Lemma top_eigen n A : hermitian n A -> (0 < n)%nat ->
  {lv : R * (nat -> C) | nrm n (snd lv) = 1%R /\ (forall i, (i < n)%nat -> mv n A (snd lv) i = RtoC (fst lv) * snd lv i) /\
    forall y, (form n A y <= fst lv * nrm n y)%R}.
Proof.
  intros H Hn. destruct (form_bound n A) as [K [HK BK]].
  set (S := fun r => exists y, nrm n y = 1%R /\ r = form n A y).
  destruct (completeness S) as [l [Hub Hlub]].
  - exists K. intros r [y [Hy ->]]. specialize (BK y). rewrite Hy in BK. lra.
  - assert (E : exists j, (j < n)%nat /\ (fun _ : nat => (1 : C)) j <> 0).
    { exists 0%nat. split; [exact Hn|]. intros E. apply RtoC_inj in E. lra. }
    destruct (normalise n (fun _ => 1) E) as [_ N]. eexists. eexists. split; [exact N|reflexivity].
  - assert (U : forall y, (form n A y <= l * nrm n y)%R).
    { intros y. destruct (Req_dec (nrm n y) 0) as [Z|Z]; [rewrite form_zero, Z by exact Z; lra|].
      assert (P : (0 < nrm n y)%R) by (assert (Q := nrm_nonneg n y); lra).
      assert (Sq := sqrt_sqrt (nrm n y) ltac:(lra)). assert (Sp := sqrt_lt_R0 _ P).
      assert (N : nrm n (fun i => RtoC (/ sqrt (nrm n y)) * y i) = 1%R).
      { rewrite nrm_scal, Cnorm2_RtoC. rewrite <- Sq at 3. field. lra. }
      assert (L := Hub _ (ex_intro _ _ (conj N eq_refl))). rewrite form_scal, Cnorm2_RtoC in L.
      assert (E : form n A y = (nrm n y * (/ sqrt (nrm n y) * / sqrt (nrm n y) * form n A y))%R).
      { rewrite <- Sq at 1. field. lra. }
      rewrite E, Rmult_comm. apply Rmult_le_compat_r; lra. }
    set (M := fun i j => RtoC l * cdelta i j - A i j).
    destruct (kernel_dec n n M) as [[x [Hx Hk]]|[_ Hinj]].
    + destruct (normalise n x Hx) as [P N]. exists (l, fun i => RtoC (/ sqrt (nrm n x)) * x i). cbn [fst snd].
      split; [exact N|]. split; [|exact U]. intros i Hi. rewrite mv_scal.
      assert (E := Hk i Hi). change (mv n M x i = 0) in E. unfold M in E. rewrite shifted_mv in E by exact Hi.
      replace (mv n A x i) with (RtoC l * x i); [ring|].
      transitivity (RtoC l * x i - mv n A x i + mv n A x i); [ring|]. rewrite E. ring.
    + exfalso. assert (HM : hermitian n M) by (apply shifted_hermitian; exact H).
      destruct (bounded_below n M HM Hinj) as [c [Hc Bc]]. destruct (form_bound n M) as [K' [HK' BK']].
      assert (F : forall y, form n M y = (l * nrm n y - form n A y)%R) by (intros; apply shifted_form).
      assert (PM : forall y, (0 <= form n M y)%R) by (intros y; rewrite F; specialize (U y); lra).
      assert (CK : (0 < c * K')%R) by (apply Rmult_lt_0_compat; assumption).
      assert (Gap : is_upper_bound S (l - / (c * K'))%R).
      { intros r [y [Hy ->]]. assert (I := psd_image n M K' y HM PM HK' ltac:(intros z; apply BK')). specialize (Bc y). rewrite Hy in Bc.
        rewrite F, Hy in I. assert (I2 : (1 <= c * K' * (l - form n A y))%R).
        { apply Rle_trans with (1 := Bc). rewrite Rmult_assoc. apply Rmult_le_compat_l; [lra|]. lra. }
        apply (Rmult_le_compat_l (/ (c * K'))) in I2; [|left; apply Rinv_0_lt_compat; exact CK].
        replace (/ (c * K') * (c * K' * (l - form n A y)))%R with (l - form n A y)%R in I2 by (field; lra). lra. }
      assert (L := Hlub _ Gap). assert (0 < / (c * K'))%R by (apply Rinv_0_lt_compat; exact CK). lra.
Qed.

Definition decomposed (n : nat) (A : nat -> nat -> C) (k : nat) (V : nat -> nat -> C) (E : nat -> R) : Prop :=
  (forall a b, (a < k)%nat -> (b < k)%nat -> inner_product n (V a) (V b) = cdelta a b) /\
  (forall a i, (a < k)%nat -> (i < n)%nat -> mv n A (V a) i = RtoC (E a) * V a i) /\
  (forall a b, (a <= b)%nat -> (b < k)%nat -> (E b <= E a)%R) /\
  forall y, (forall b, (b < k)%nat -> inner_product n (V b) y = 0) -> forall a, (a < k)%nat -> (form n A y <= E a * nrm n y)%R.

Lemma deflated_mv n A k (V : nat -> nat -> C) (c : nat -> C) y i :
  mv n (fun i j => A i j - csum (fun a => c a * (V a i * Cconj (V a j))) k) y i =
  mv n A y i - csum (fun a => c a * inner_product n (V a) y * V a i) k.
Proof.
  unfold mv. rewrite (csum_ext _ (fun j => A i j * y j - csum (fun a => c a * V a i * (Cconj (V a j) * y j)) k)).
  - rewrite csum_minus. f_equal. rewrite csum_swap. apply csum_ext. intros a _. rewrite csum_scal_l. unfold inner_product. ring.
  - intros j _. transitivity (A i j * y j - csum (fun a => c a * (V a i * Cconj (V a j))) k * y j); [ring|].
    f_equal. f_equal. rewrite <- csum_scal_r. apply csum_ext. intros. ring.
Qed.

Lemma spectral_desc n A : hermitian n A -> forall k, (k <= n)%nat ->
  {VE : (nat -> nat -> C) * (nat -> R) | decomposed n A k (fst VE) (snd VE)}.
Proof.
  intros H. induction k as [|k IH]; intros Hk.
  - exists (fun _ _ => RtoC 0, fun _ => 0%R). repeat split; intros; lia.
  - destruct (IH ltac:(lia)) as [[V E] [HO [HE [HS HB]]]]. cbn [fst snd] in *.
    destruct (form_bound n A) as [K [HK BK]]. set (B := (K + 1)%R).
    set (c := fun a => RtoC (E a + B)%R).
    set (A' := fun i j => A i j - csum (fun a => c a * (V a i * Cconj (V a j))) k).
    assert (HA' : hermitian n A').
    { intros i j Hi Hj. unfold adjoint, A'. rewrite Cconj_minus, Cconj_csum, (H i j Hi Hj). unfold adjoint. f_equal.
      apply csum_ext. intros a _. unfold c. rewrite !Cconj_mult, Cconj_RtoC, Cconj_conj. ring. }
    destruct (top_eigen n A' HA' ltac:(lia)) as [[l v] [Nv [Ev Uv]]]. cbn [fst snd] in *.
    assert (MA : forall y i, mv n A' y i = mv n A y i - csum (fun a => c a * inner_product n (V a) y * V a i) k) by (intros; apply deflated_mv).
    assert (MO : forall y, (forall b, (b < k)%nat -> inner_product n (V b) y = 0) -> forall i, mv n A' y i = mv n A y i).
    { intros y Hy i. rewrite MA, csum_zero_ext; [ring|]. intros a Ha. rewrite Hy by exact Ha. ring. }
    assert (FO : forall y, (forall b, (b < k)%nat -> inner_product n (V b) y = 0) -> form n A' y = form n A y).
    { intros y Hy. unfold form. f_equal. apply ip_ext; [reflexivity|]. intros i Hi. apply MO. exact Hy. }
    assert (Ll : (- K <= l)%R).
    { destruct (kernel_exists k n (fun a j => Cconj (V a j)) ltac:(lia)) as [x [Hx Hkx]].
      destruct (normalise n x Hx) as [_ N]. set (y := fun i => RtoC (/ sqrt (nrm n x)) * x i) in *.
      assert (Hy : forall b, (b < k)%nat -> inner_product n (V b) y = 0).
      { intros b Hb. unfold y. rewrite ip_scal_r. unfold inner_product. rewrite Hkx by exact Hb. ring. }
      assert (U := Uv y). rewrite FO, N in U by exact Hy. assert (Q := BK y). rewrite N in Q. lra. }
    assert (Ov : forall a, (a < k)%nat -> inner_product n (V a) v = 0).
    { intros a Ha.
      assert (E1 : inner_product n (V a) (mv n A' v) = RtoC l * inner_product n (V a) v).
      { rewrite <- ip_scal_r. apply ip_ext; [reflexivity|exact Ev]. }
      assert (E2 : inner_product n (V a) (mv n A' v) = RtoC (- B) * inner_product n (V a) v).
      { rewrite <- hermitian_ip by exact HA'. rewrite <- (Cconj_RtoC (- B)), <- ip_scal_l. apply ip_ext; [|reflexivity].
        intros i Hi. rewrite MA, HE by assumption.
        rewrite (csum_ext _ (fun b => cdelta a b * (c b * V b i))).
        - rewrite csum_delta_l by exact Ha. unfold c. rewrite RtoC_plus, RtoC_opp. ring.
        - intros b Hb. rewrite HO by assumption. rewrite (cdelta_sym b a). ring. }
      rewrite E1 in E2. assert (Z : RtoC (l + B) * inner_product n (V a) v = 0).
      { rewrite RtoC_plus. transitivity (RtoC l * inner_product n (V a) v - RtoC (- B) * inner_product n (V a) v); [rewrite RtoC_opp; ring|]. rewrite E2. ring. }
      assert (NB : RtoC (l + B) <> 0) by (intros Q; apply RtoC_inj in Q; unfold B in Q; lra).
      transitivity (/ RtoC (l + B) * (RtoC (l + B) * inner_product n (V a) v)); [field; exact NB|]. rewrite Z. ring. }
    set (V' := fun a => if (a <? k)%nat then V a else v). set (E' := fun a => if (a <? k)%nat then E a else l).
    assert (Vl : forall a, (a < k)%nat -> V' a = V a /\ E' a = E a).
    { intros a Ha. unfold V', E'. replace (a <? k)%nat with true by (symmetry; apply Nat.ltb_lt; exact Ha). split; reflexivity. }
    assert (Vk : V' k = v /\ E' k = l) by (unfold V', E'; rewrite Nat.ltb_irrefl; split; reflexivity).
    assert (EvA : forall i, (i < n)%nat -> mv n A v i = RtoC l * v i).
    { intros i Hi. rewrite <- MO by exact Ov. apply Ev. exact Hi. }
    exists (V', E'). cbn [fst snd]. split; [|split; [|split]].
    + intros a b Ha Hb. destruct (Nat.eq_dec a k) as [->|Na], (Nat.eq_dec b k) as [->|Nb].
      * rewrite (proj1 Vk), ip_nrm, Nv, cdelta_refl. reflexivity.
      * rewrite (proj1 Vk), (proj1 (Vl b ltac:(lia))), <- ip_conj, Ov, Cconj_0 by lia. symmetry. apply cdelta_neq. lia.
      * rewrite (proj1 Vk), (proj1 (Vl a ltac:(lia))), Ov by lia. symmetry. apply cdelta_neq. lia.
      * rewrite (proj1 (Vl a ltac:(lia))), (proj1 (Vl b ltac:(lia))). apply HO; lia.
    + intros a i Ha Hi. destruct (Nat.eq_dec a k) as [->|Na].
      * rewrite (proj1 Vk), (proj2 Vk). apply EvA. exact Hi.
      * destruct (Vl a ltac:(lia)) as [-> ->]. apply HE; [lia|exact Hi].
    + assert (Lk : forall a, (a < k)%nat -> (l <= E a)%R).
      { intros a Ha. assert (Q := HB v Ov a Ha). rewrite Nv, Rmult_1_r in Q.
        replace (form n A v) with l in Q; [exact Q|]. unfold form. rewrite (ip_ext n v _ v (fun i => RtoC l * v i)); [|reflexivity|exact EvA].
        rewrite ip_scal_r, ip_nrm, Nv. cbn. ring. }
      intros a b Hab Hb. destruct (Nat.eq_dec b k) as [->|Nb].
      * rewrite (proj2 Vk). destruct (Nat.eq_dec a k) as [->|Na]; [rewrite (proj2 Vk); lra|].
        rewrite (proj2 (Vl a ltac:(lia))). apply Lk. lia.
      * rewrite (proj2 (Vl a ltac:(lia))), (proj2 (Vl b ltac:(lia))). apply HS; lia.
    + intros y Hy a Ha.
      assert (Hy' : forall b, (b < k)%nat -> inner_product n (V b) y = 0).
      { intros b Hb. rewrite <- (proj1 (Vl b Hb)). apply Hy. lia. }
      destruct (Nat.eq_dec a k) as [->|Na].
      * rewrite (proj2 Vk), <- FO by exact Hy'. apply Uv.
      * rewrite (proj2 (Vl a ltac:(lia))). apply HB; [exact Hy'|lia].
Qed.

(** The spectral theorem. *)
Theorem spectral n A : hermitian n A -> {VE : (nat -> nat -> C) * (nat -> R) |
  (forall i j, (i <= j)%nat -> (j < n)%nat -> (snd VE i <= snd VE j)%R) /\ unitary n (fst VE) /\
  (forall k i, (k < n)%nat -> (i < n)%nat -> csum (fun j => A i j * fst VE j k) n = RtoC (snd VE k) * fst VE i k) /\
  forall i j, (i < n)%nat -> (j < n)%nat -> A i j = csum (fun k => fst VE i k * RtoC (snd VE k) * Cconj (fst VE j k)) n}.
Proof.
  intros H. destruct (spectral_desc n A H n (le_n n)) as [[V E] [HO [HE [HS _]]]]. cbn [fst snd] in *.
  exists (fun i k => V (n - 1 - k)%nat i, fun k => E (n - 1 - k)%nat). cbn [fst snd].
  assert (OC : orthonormal_rows n n (fun k i => Cconj (V (n - 1 - k)%nat i))).
  { intros a b Ha Hb. rewrite (csum_ext _ (fun x => Cconj (V (n - 1 - a)%nat x) * V (n - 1 - b)%nat x)) by (intros; rewrite Cconj_conj; reflexivity).
    change (inner_product n (V (n - 1 - a)%nat) (V (n - 1 - b)%nat) = cdelta a b). rewrite HO by lia.
    destruct (Nat.eq_dec a b) as [->|Hne]; [rewrite !cdelta_refl; reflexivity|]. rewrite !cdelta_neq by lia. reflexivity. }
  assert (OR := orthonormal_square n _ OC).
  assert (Comp : forall i j, (i < n)%nat -> (j < n)%nat -> csum (fun k => V (n - 1 - k)%nat i * Cconj (V (n - 1 - k)%nat j)) n = cdelta i j).
  { intros i j Hi Hj. rewrite <- (OR i j Hi Hj). apply csum_ext. intros. rewrite Cconj_conj. reflexivity. }
  assert (Eig : forall k i, (k < n)%nat -> (i < n)%nat -> csum (fun j => A i j * V (n - 1 - k)%nat j) n = RtoC (E (n - 1 - k)%nat) * V (n - 1 - k)%nat i).
  { intros k i Hk Hi. apply HE; lia. }
  split; [intros i j Hij Hj; apply HS; lia|]. split; [|split; [exact Eig|]].
  - split.
    + intros i j Hi Hj. apply Comp; assumption.
    + intros a b Ha Hb. rewrite <- (OC a b Ha Hb). apply csum_ext. intros. rewrite Cconj_conj. reflexivity.
  - intros i j Hi Hj. rewrite (csum_ext _ (fun k => csum (fun y => A i y * (V (n - 1 - k)%nat y * Cconj (V (n - 1 - k)%nat j))) n)).
    + rewrite csum_swap. rewrite (csum_ext _ (fun y => A i y * cdelta j y)).
      * rewrite csum_delta_r by exact Hj. reflexivity.
      * intros y Hy. rewrite csum_scal_l, Comp by assumption. rewrite (cdelta_sym j y). reflexivity.
    + intros k Hk. rewrite (Cmult_comm (V (n - 1 - k)%nat i)), <- Eig by assumption. rewrite <- csum_scal_r. apply csum_ext. intros. ring.
Qed.
