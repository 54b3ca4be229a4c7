(** Proofs about sampled noise. *)
From Coq Require Import Reals Lra Lia.
From Verif Require Import ZLib Csum DFT NumPy Interp Index Spec Basis SpecBasis Operator SpecOperator OperatorProofs
  Kernel SpecKernel KernelProofs KernelProofs2 KernelProofs5 Sample SpecSample.
Local Open Scope R_scope.
Local Open Scope C_scope.

Lemma fst_le_Cmod z : (- Cmod z <= fst z <= Cmod z)%R.
Proof.
  assert (H : (Rabs (fst z) <= Cmod z)%R).
  { unfold Cmod. rewrite <- sqrt_Rsqr_abs. apply sqrt_le_1_alt. unfold Rsqr. nra. }
  assert (A := Rle_abs (fst z)). assert (B := Rle_abs (- fst z)). rewrite Rabs_Ropp in B. lra.
Qed.

Lemma scimath_sqrt_norm z : Cconj (scimath_sqrt z) * scimath_sqrt z = RtoC (Cmod z).
Proof.
  assert (H := fst_le_Cmod z).
  unfold scimath_sqrt. set (a := sqrt ((Cmod z + fst z) / 2)). set (b := sqrt ((Cmod z - fst z) / 2)).
  assert (A : (a * a = (Cmod z + fst z) / 2)%R) by (apply sqrt_sqrt; lra).
  assert (B : (b * b = (Cmod z - fst z) / 2)%R) by (apply sqrt_sqrt; lra).
  unfold Cconj, Cmult, RtoC; cbn [fst snd]. f_equal; [|destruct (Rle_dec 0 (snd z)); ring].
  destruct (Rle_dec 0 (snd z)); nra.
Qed.
Lemma scimath_sqrt_square z : scimath_sqrt z * scimath_sqrt z = z.
Proof.
  assert (H := fst_le_Cmod z).
  assert (M : (Cmod z * Cmod z = fst z * fst z + snd z * snd z)%R).
  { unfold Cmod. rewrite sqrt_sqrt by nra. ring. }
  unfold scimath_sqrt. set (a := sqrt ((Cmod z + fst z) / 2)). set (b := sqrt ((Cmod z - fst z) / 2)).
  assert (A : (a * a = (Cmod z + fst z) / 2)%R) by (apply sqrt_sqrt; lra).
  assert (B : (b * b = (Cmod z - fst z) / 2)%R) by (apply sqrt_sqrt; lra).
  assert (AB : (2 * (a * b) = Rabs (snd z))%R).
  { unfold a, b. rewrite <- sqrt_mult by lra.
    replace ((Cmod z + fst z) / 2 * ((Cmod z - fst z) / 2))%R with ((snd z / 2) * (snd z / 2))%R by nra.
    change (snd z / 2 * (snd z / 2))%R with (Rsqr (snd z / 2)). rewrite sqrt_Rsqr_abs.
    unfold Rdiv. rewrite Rabs_mult, (Rabs_right (/ 2)) by lra. lra. }
  transitivity (fst z, snd z); [|symmetry; apply surjective_pairing]. unfold Cmult; cbn [fst snd].
  destruct (Rle_dec 0 (snd z)) as [L|L].
  - rewrite Rabs_right in AB by lra. f_equal; nra.
  - rewrite Rabs_left in AB by lra. f_equal; nra.
Qed.

(** ** Shapes and entries *)

Lemma split_spec hbar re im o ns : diagonal_noise_wf o -> (0 < noise_count o)%nat ->
  let n := bsize (lrow (nops o)) in
  exists L, sample_noise_from_diagonal_operators_split hbar re im o ns = Some L /\ diag_list_wf L /\
    lbasis L = BTuple [lbasis (nops o); BFund ns] /\ lrow L = lrow (nops o) /\ lcol L = lcol (nops o) /\
    forall j s x, (j < noise_count o)%nat -> (s < ns)%nat -> (x < n)%nat ->
      diag_entry L (j * ns + s) x =
      noise_factor re im s j * scimath_sqrt (eigenvalue o j * RtoC hbar) * diag_entry (nops o) j x.
Proof.
  intros [[Hrc Hw] He] Hc. cbv zeta. unfold noise_count in *.
  unfold sample_noise_from_diagonal_operators_split. rewrite (reshape_rows_some _ _ _ Hc Hw), He, einsum_dim_same.
  eexists. split; [reflexivity|]. cbn [ashape nth]. split; [|split; [reflexivity|split; [reflexivity|split; [reflexivity|]]]].
  - split; [exact Hrc|]. cbn [ldata lbasis lrow ravel_array ashape array3 nprod bsize map]. ring.
  - intros j s x Hj Hs Hx. unfold diag_entry at 1. cbn [lrow ldata].
    etransitivity; [apply (array3_flat (bsize (lbasis (nops o))) ns (bsize (lrow (nops o)))); assumption|]. cbv beta.
    unfold noise_term. rewrite !einsum_index_lt by assumption. reflexivity.
Qed.

Lemma reshape_split_spec L b0 b3 : diag_list_wf L -> lbasis L = BTuple [b0; b3] -> (0 < bsize b0 * bsize b3)%nat ->
  reshape_split L = Some (b3, bsize b0, bsize b3, bsize (lrow L), fun j i k => diag_entry L (j * bsize b3 + i) k).
Proof.
  intros [_ Hw] Hb Hp. unfold reshape_split. rewrite Hb.
  assert (W : nprod (ashape (ldata L)) = (bsize b0 * bsize b3 * bsize (lrow L))%nat).
  { rewrite Hw, Hb. cbn [bsize map nprod]. ring. }
  rewrite (reshape_rows_some _ _ _ Hp W). reflexivity.
Qed.

Lemma from_split_spec L b0 b3 : diag_list_wf L -> lbasis L = BTuple [b0; b3] -> (0 < bsize b0 * bsize b3)%nat ->
  exists M, diagonal_operator_list_from_diagonal_split L = Some M /\ diag_list_wf M /\ lbasis M = b3 /\
    lrow M = lrow L /\ lcol M = lcol L /\
    forall s x, (s < bsize b3)%nat -> (x < bsize (lrow L))%nat ->
      diag_entry M s x = csum (fun j => diag_entry L (j * bsize b3 + s) x) (bsize b0).
Proof.
  intros Hw Hb Hp. unfold diagonal_operator_list_from_diagonal_split. rewrite (reshape_split_spec L b0 b3 Hw Hb Hp).
  eexists. split; [reflexivity|]. split; [|split; [reflexivity|split; [reflexivity|split; [reflexivity|]]]].
  - destruct Hw as [Hrc _]. split; [exact Hrc|]. cbn [ldata lbasis lrow ravel_array ashape array2 nprod]. ring.
  - intros s x Hs Hx. unfold diag_entry at 1. cbn [lrow ldata].
    exact (array2_flat (bsize b3) (bsize (lrow L)) (fun i k => csum (fun j => diag_entry L (j * bsize b3 + i) k) (bsize b0)) s x Hx).
Qed.

Lemma components_spec L b0 b3 : diag_list_wf L -> lbasis L = BTuple [b0; b3] -> (0 < bsize b0 * bsize b3)%nat ->
  exists l, get_diagonal_split_noise_components L = Some l /\ length l = bsize b0 /\
    forall j M, nth_error l j = Some M -> diag_list_wf M /\ lbasis M = b3 /\ lrow M = lrow L /\ lcol M = lcol L /\
      forall s x, (s < bsize b3)%nat -> (x < bsize (lrow L))%nat -> diag_entry M s x = diag_entry L (j * bsize b3 + s) x.
Proof.
  intros Hw Hb Hp. unfold get_diagonal_split_noise_components. rewrite (reshape_split_spec L b0 b3 Hw Hb Hp).
  eexists. split; [reflexivity|]. split; [rewrite map_length, seq_length; reflexivity|].
  intros j M HM. assert (Hj : (j < bsize b0)%nat).
  { assert (nth_error (map (fun j => {| lbasis := b3; lrow := lrow L; lcol := lcol L;
      ldata := ravel_array (array2 (bsize b3) (bsize (lrow L)) (fun i k => diag_entry L (j * bsize b3 + i) k)) |}) (seq 0 (bsize b0))) j <> None) as X by congruence.
    apply nth_error_Some in X. rewrite map_length, seq_length in X. exact X. }
  rewrite nth_error_map in HM. rewrite (nth_error_nth' (seq 0 (bsize b0)) 0%nat) in HM by (rewrite seq_length; exact Hj).
  rewrite seq_nth in HM by exact Hj. rewrite Nat.add_0_l in HM. injection HM as <-.
  split; [|split; [reflexivity|split; [reflexivity|split; [reflexivity|]]]].
  - destruct Hw as [Hrc _]. split; [exact Hrc|]. cbn [ldata lbasis lrow ravel_array ashape array2 nprod]. ring.
  - intros s x Hs Hx. unfold diag_entry at 1. cbn [lrow ldata].
    exact (array2_flat (bsize b3) (bsize (lrow L)) (fun i k => diag_entry L (j * bsize b3 + i) k) s x Hx).
Qed.

Lemma diagonal_sample_spec hbar re im o ns : diagonal_noise_wf o -> (0 < noise_count o)%nat -> (0 < ns)%nat ->
  exists L, sample_noise_from_diagonal_operators hbar re im o ns = Some L /\ diag_list_wf L /\ lbasis L = BFund ns /\
    lrow L = lrow (nops o) /\ lcol L = lcol (nops o) /\
    forall s x, (s < ns)%nat -> (x < bsize (lrow (nops o)))%nat ->
      diag_entry L s x = csum (fun j =>
        noise_factor re im s j * scimath_sqrt (eigenvalue o j * RtoC hbar) * diag_entry (nops o) j x) (noise_count o).
Proof.
  intros Hw Hc Hns. destruct (split_spec hbar re im o ns Hw Hc) as [S0 [HS [W [B [Rw [Cl V]]]]]].
  unfold sample_noise_from_diagonal_operators. rewrite HS.
  destruct (from_split_spec S0 (lbasis (nops o)) (BFund ns) W B) as [M [HM [WM [BM [RM [CM VM]]]]]].
  { cbn [bsize]. unfold noise_count in Hc. nia. }
  exists M. split; [exact HM|]. split; [exact WM|]. split; [exact BM|]. split; [congruence|]. split; [congruence|].
  intros s x Hs Hx. rewrite VM by (rewrite ?Rw; assumption). cbn [bsize]. apply csum_ext. intros j Hj.
  apply V; assumption.
Qed.

Lemma full_sample_spec hbar re im o ns : noise_wf o -> (0 < noise_count o)%nat ->
  exists L, sample_noise_from_operators hbar re im o ns = Some L /\ list_wf L /\ lbasis L = BFund ns /\
    lrow L = lrow (nops o) /\ lcol L = lcol (nops o) /\
    forall s i j, (s < ns)%nat -> (i < bsize (lrow (nops o)))%nat -> (j < bsize (lcol (nops o)))%nat ->
      list_entry L s i j = csum (fun a =>
        noise_factor re im s a * scimath_sqrt (eigenvalue o a * RtoC hbar) * list_entry (nops o) a i j) (noise_count o).
Proof.
  intros [Hw He] Hc. unfold noise_count in *. unfold sample_noise_from_operators.
  set (r := bsize (lrow (nops o))) in *. set (c := bsize (lcol (nops o))) in *.
  assert (Hw' : nprod (ashape (ldata (nops o))) = (bsize (lbasis (nops o)) * (r * c))%nat) by (rewrite Hw; unfold r, c; ring).
  rewrite (reshape_rows_some _ _ _ Hc Hw'), He, einsum_dim_same.
  eexists. split; [reflexivity|]. cbn [ashape nth]. split; [|split; [reflexivity|split; [reflexivity|split; [reflexivity|]]]].
  - unfold list_wf. cbn [ldata lbasis lrow lcol ravel_array ashape array2 nprod bsize]. fold r c. ring.
  - intros s i j Hs Hi Hj. unfold list_entry at 1. cbn [lrow lcol ldata]. fold r c.
    replace ((s * r + i) * c + j)%nat with (s * (r * c) + (i * c + j))%nat by ring.
    etransitivity; [apply (array2_flat ns (r * c)); apply pair_lt; assumption|]. cbv beta.
    apply csum_ext. intros a Ha. unfold noise_term. rewrite !einsum_index_lt by assumption.
    unfold at2, list_entry. cbn [ashape nth aflat]. fold r c. f_equal. f_equal. ring.
Qed.

(** ** Expectation values *)

Section Expectation.
  Context {D : Type} (P : (D -> C) -> Prop) (E : (D -> C) -> C) (HE : expectation P E).

  Lemma mean_ext f g v : (forall d, f d = g d) -> mean P E f v -> mean P E g v.
  Proof using HE. destruct HE as [H _]. intros Hfg [Hf <-]. exact (H f g Hfg Hf). Qed.
  Lemma mean_plus f g u v : mean P E f u -> mean P E g v -> mean P E (fun d => f d + g d) (u + v).
  Proof using HE. destruct HE as [_ [H _]]. intros [Hf <-] [Hg <-]. exact (H f g Hf Hg). Qed.
  Lemma mean_scal c f v : mean P E f v -> mean P E (fun d => c * f d) (c * v).
  Proof using HE. destruct HE as [_ [_ H]]. intros [Hf <-]. exact (H c f Hf). Qed.
  Lemma mean_eq f u v : mean P E f u -> u = v -> mean P E f v.
  Proof using. intros H <-. exact H. Qed.
  Lemma mean_csum (f : nat -> D -> C) v n : (0 < n)%nat -> (forall i, (i < n)%nat -> mean P E (f i) (v i)) ->
    mean P E (fun d => csum (fun i => f i d) n) (csum v n).
  Proof using HE.
    intros Hn. destruct n as [|n]; [lia|]. clear Hn. induction n as [|n IH]; intros H.
    - eapply mean_ext; [|eapply mean_eq; [apply (H 0%nat); lia|]].
      + intros d. rewrite csum_S. cbn. ring.
      + rewrite csum_S. cbn. ring.
    - eapply mean_ext; [|eapply mean_eq; [apply mean_plus; [apply IH; intros i Hi; apply H; lia|apply (H (S n)); lia]|]].
      + intros d. symmetry. apply (csum_S (fun i => f i d)).
      + symmetry. apply csum_S.
  Qed.

  Context (re im : D -> nat -> nat -> R) (ns m : nat) (HU : uncorrelated P E re im ns m).

  Lemma half_root : (RtoC (sqrt 2) * RtoC (sqrt 2) = RtoC 2)%C.
  Proof using. rewrite <- RtoC_mult, sqrt_sqrt by lra. reflexivity. Qed.
  Lemma root_nonzero : RtoC (sqrt 2) <> 0.
  Proof using. intros H. apply RtoC_inj in H. assert (X := Rlt_sqrt2_0). lra. Qed.

  Lemma factor_covariance s s' j j' : (s < ns)%nat -> (s' < ns)%nat -> (j < m)%nat -> (j' < m)%nat ->
    mean P E (fun d => Cconj (noise_factor (re d) (im d) s j) * noise_factor (re d) (im d) s' j') (both s s' j j') /\
    mean P E (fun d => noise_factor (re d) (im d) s j * noise_factor (re d) (im d) s' j') 0.
  Proof using HE HU.
    intros Hs Hs' Hj Hj'. destruct (HU s s' j j' Hs Hs' Hj Hj') as [A [B G]].
    destruct (HU s' s j' j Hs' Hs Hj' Hj) as [_ [_ G']].
    assert (K : forall c : C, mean P E (fun d => RtoC (/ 2) * (RtoC (re d s j * re d s' j') +
              (c * RtoC (im d s j * im d s' j')) + Ci * (RtoC (re d s j * im d s' j') + c * 0 + - c * RtoC (re d s' j' * im d s j))))
              (RtoC (/ 2) * (both s s' j j' + c * both s s' j j' + Ci * (0 + c * 0 + - c * 0)))).
    { intros c. apply mean_scal. apply mean_plus; [apply mean_plus; [exact A|apply mean_scal; exact B]|].
      apply mean_scal. apply mean_plus; [|apply mean_scal; exact G'].
      eapply mean_ext; [|eapply mean_eq; [exact G|]]; [intros d; cbv beta; ring|ring]. }
    assert (H2 : RtoC 2 <> 0) by (intros X; apply RtoC_inj in X; lra).
    assert (I2 : Ci * Ci = Copp 1) by (unfold Ci, Cmult, Copp, RtoC; cbn [fst snd]; f_equal; ring).
    split.
    - eapply mean_ext; [|eapply mean_eq; [apply (K 1)|]].
      + intros d. cbv beta. unfold noise_factor, Cdiv. rewrite Cconj_mult, Cconj_plus, Cconj_mult.
        replace (Cconj (/ RtoC (sqrt 2))) with (/ RtoC (sqrt 2)).
        2:{ rewrite <- RtoC_inv by (intros X; apply root_nonzero; rewrite X; reflexivity). unfold Cconj, RtoC; cbn [fst snd]; f_equal; ring. }
        rewrite !Cconj_RtoC. replace (Cconj Ci) with (- Ci) by (unfold Cconj, Ci, Copp; cbn [fst snd]; f_equal; ring).
        rewrite !RtoC_mult. replace (RtoC (/ 2)) with (/ RtoC (sqrt 2) * / RtoC (sqrt 2)).
        2:{ rewrite RtoC_inv by lra. rewrite <- half_root. field. apply root_nonzero. }
        generalize (/ RtoC (sqrt 2)) (RtoC (re d s j)) (RtoC (re d s' j')) (RtoC (im d s j)) (RtoC (im d s' j')).
        intros q a b c e. transitivity (q * q * (a * b - (Ci * Ci) * c * e + Ci * (a * e - b * c))); [rewrite I2; ring|ring].
      + rewrite RtoC_inv by lra. assert (T : RtoC 2 = 1 + 1) by (rewrite <- RtoC_plus; f_equal; lra). rewrite T in *. field. exact H2.
    - eapply mean_ext; [|eapply mean_eq; [apply (K (Copp 1))|]].
      + intros d. cbv beta. unfold noise_factor, Cdiv.
        rewrite !RtoC_mult. replace (RtoC (/ 2)) with (/ RtoC (sqrt 2) * / RtoC (sqrt 2)).
        2:{ rewrite RtoC_inv by lra. rewrite <- half_root. field. apply root_nonzero. }
        generalize (/ RtoC (sqrt 2)) (RtoC (re d s j)) (RtoC (re d s' j')) (RtoC (im d s j)) (RtoC (im d s' j')).
        intros q a b c e. transitivity (q * q * (a * b + (Ci * Ci) * c * e + Ci * (a * e + b * c))); [rewrite I2; ring|ring].
      + ring.
  Qed.

  (** Covariance of two noises that are linear in the factors. *)
  Lemma linear_covariance (w u : nat -> C) s s' : (0 < m)%nat -> (s < ns)%nat -> (s' < ns)%nat ->
    mean P E (fun d => Cconj (csum (fun j => noise_factor (re d) (im d) s j * w j) m)
                       * csum (fun j => noise_factor (re d) (im d) s' j * u j) m)
             (cdelta s s' * csum (fun j => Cconj (w j) * u j) m) /\
    mean P E (fun d => csum (fun j => noise_factor (re d) (im d) s j * w j) m
                       * csum (fun j => noise_factor (re d) (im d) s' j * u j) m) 0.
  Proof using HE HU.
    intros Hm Hs Hs'. split.
    - eapply mean_ext with (f := fun d => csum (fun j => csum (fun j' =>
        (Cconj (w j) * u j') * (Cconj (noise_factor (re d) (im d) s j) * noise_factor (re d) (im d) s' j')) m) m).
      { intros d. rewrite Cconj_csum, <- csum_scal_r. apply csum_ext. intros j Hj. rewrite <- csum_scal_l. apply csum_ext.
        intros j' Hj'. rewrite Cconj_mult. ring. }
      eapply mean_eq.
      { apply mean_csum; [exact Hm|]. intros j Hj. apply mean_csum with (v := fun j' => Cconj (w j) * u j' * both s s' j j'); [exact Hm|].
        intros j' Hj'. apply mean_scal. apply factor_covariance; assumption. }
      cbv beta. rewrite <- csum_scal_l. apply csum_ext. intros j Hj.
      rewrite (csum_single _ m j Hj).
      + unfold both, cdelta. rewrite Nat.eqb_refl, Bool.andb_true_r. destruct (Nat.eqb s s'); ring.
      + intros i Hi Hne. unfold both. destruct (Nat.eqb_spec j i) as [->|]; [contradiction|]. rewrite Bool.andb_false_r. ring.
    - eapply mean_ext with (f := fun d => csum (fun j => csum (fun j' =>
        (w j * u j') * (noise_factor (re d) (im d) s j * noise_factor (re d) (im d) s' j')) m) m).
      { intros d. rewrite <- csum_scal_r. apply csum_ext. intros j Hj. rewrite <- csum_scal_l. apply csum_ext.
        intros j' Hj'. ring. }
      eapply mean_eq.
      { apply mean_csum; [exact Hm|]. intros j Hj. apply mean_csum with (v := fun j' => w j * u j' * 0); [exact Hm|].
        intros j' Hj'. apply mean_scal. apply factor_covariance; assumption. }
      cbv beta. apply csum_zero_ext. intros i Hi. apply csum_zero_ext. intros; ring.
  Qed.
End Expectation.
