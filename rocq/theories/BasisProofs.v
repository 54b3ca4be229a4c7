(** Lemmas about the basis model. *)
From Coq Require Import Reals Psatz.
From Verif Require Import ZLib Csum DFT NumPy Interp Spec InterpProofs Index IndexProofs Basis SpecBasis.
Local Open Scope R_scope.
Local Open Scope C_scope.

Implicit Types v w : nat -> C.

(** ** Induction over nested bases *)

Lemma basis_ind' (P : basis -> Prop) :
  (forall n, P (BFund n)) -> (forall n N, P (BTrunc n N)) -> (forall n, P (BFundT n)) ->
  (forall n N, P (BTrans n N)) -> (forall n s o, P (BEven n s o)) ->
  (forall n s o, P (BEvenT n s o)) ->
  (forall n vecs inner, P inner -> P (BExpl n vecs inner)) ->
  (forall l, Forall P l -> P (BTuple l)) ->
  forall b, P b.
Proof.
  intros H1 H2 H3 H4 H5 H6 H7 H8.
  fix IH 1. intros [n|n N|n|n N|n s o|n s o|n vecs inner|l].
  - apply H1. - apply H2. - apply H3. - apply H4. - apply H5. - apply H6.
  - apply H7, IH.
  - apply H8. induction l as [|c l IHl]; constructor; [apply IH|exact IHl].
Qed.

Lemma bwf_tuple l : bwf (BTuple l) <-> Forall bwf l.
Proof.
  simpl. induction l as [|c l IH]; split; intros H; [constructor|exact I| |].
  - destruct H. constructor; [assumption|apply IH; assumption].
  - inversion H; subst. split; [assumption|apply IH; assumption].
Qed.

Lemma explicit_orthonormal_tuple l :
  explicit_orthonormal (BTuple l) <-> Forall explicit_orthonormal l.
Proof.
  simpl. induction l as [|c l IH]; split; intros H; [constructor|exact I| |].
  - destruct H. constructor; [assumption|apply IH; assumption].
  - inversion H; subst. split; [assumption|apply IH; assumption].
Qed.

Lemma full_tuple l : full (BTuple l) <-> Forall full l.
Proof.
  simpl. induction l as [|c l IH]; split; intros H; [constructor|exact I| |].
  - destruct H. constructor; [assumption|apply IH; assumption].
  - inversion H; subst. split; [assumption|apply IH; assumption].
Qed.

Lemma bsize_pos b : bwf b -> (0 < bsize b)%nat.
Proof.
  induction b as [n|n N|n|n N|n s o|n s o|n vecs inner IH|l IH] using basis_ind';
    intros H; try (simpl in *; tauto || lia).
  apply bwf_tuple in H. simpl. apply nprod_pos.
  induction IH as [|c l Hc _ IHl]; simpl; [constructor|].
  inversion H; subst. constructor; auto.
Qed.

Lemma bfund_pos b : bwf b -> (0 < bfund b)%nat.
Proof.
  induction b as [n|n N|n|n N|n s o|n s o|n vecs inner IH|l IH] using basis_ind';
    intros H; try (simpl in *; tauto || lia).
  apply bwf_tuple in H. simpl. apply nprod_pos.
  induction IH as [|c l Hc _ IHl]; simpl; [constructor|].
    inversion H; subst. constructor; auto.
Qed.

(** ** Frequencies *)

Lemma freq_is_freq n k : (k < n)%nat -> is_freq n k (freq n k).
Proof.
  intros H. unfold freq, is_freq. destruct (Z.leb_spec (Z.of_nat k) ((Z.of_nat n - 1) / 2)) as [E|E].
  - split; [apply Zcong_refl|]. split; [|assumption].
    assert (0 <= Z.of_nat n / 2)%Z by (apply Z.div_pos; lia). lia.
  - split; [exists (-1)%Z; lia|].
    assert (Z.of_nat n = 2 * (Z.of_nat n / 2) + Z.of_nat n mod 2)%Z by (apply Z.div_mod; lia).
    assert (Z.of_nat n - 1 = 2 * ((Z.of_nat n - 1) / 2) + (Z.of_nat n - 1) mod 2)%Z by (apply Z.div_mod; lia).
    assert (0 <= Z.of_nat n mod 2 < 2)%Z by (apply Z.mod_pos_bound; lia).
    assert (0 <= (Z.of_nat n - 1) mod 2 < 2)%Z by (apply Z.mod_pos_bound; lia).
    lia.
Qed.

Lemma slot_lt N f : (0 < N)%nat -> (slot N f < N)%nat.
Proof. intros H. unfold slot. assert (Hb := Z.mod_pos_bound f (Z.of_nat N) ltac:(lia)). lia. Qed.

Lemma slot_cong N f : (0 < N)%nat -> Zcong (Z.of_nat N) (Z.of_nat (slot N f)) f.
Proof.
  intros H. unfold slot. assert (Hb := Z.mod_pos_bound f (Z.of_nat N) ltac:(lia)).
  rewrite Z2Nat.id by lia. apply Zcong_mod. lia.
Qed.

Lemma half_mono n N : (n <= N)%nat ->
  (Z.of_nat n / 2 <= Z.of_nat N / 2)%Z /\ ((Z.of_nat n - 1) / 2 <= (Z.of_nat N - 1) / 2)%Z.
Proof. intros H. split; apply Z.div_le_mono; lia. Qed.

Lemma slot_is_freq n N k : (k < n)%nat -> (n <= N)%nat -> is_freq N (slot N (freq n k)) (freq n k).
Proof.
  intros Hk HN. destruct (freq_is_freq n k Hk) as [_ Hb]. destruct (half_mono n N HN).
  split; [apply Zcong_sym, slot_cong; lia|lia].
Qed.

Lemma slot_inj n N k k' : (k < n)%nat -> (k' < n)%nat -> (n <= N)%nat ->
  slot N (freq n k) = slot N (freq n k') -> k = k'.
Proof.
  intros Hk Hk' HN E.
  assert (H1 := slot_is_freq n N k Hk HN). assert (H2 := slot_is_freq n N k' Hk' HN).
  rewrite <- E in H2. assert (F := is_freq_unique _ _ _ _ H1 H2).
  apply (is_freq_inj n k k' (freq n k)); auto using freq_is_freq.
  rewrite F. apply freq_is_freq; assumption.
Qed.


Lemma preimage_dec (s : nat -> nat) n j :
  (exists k, (k < n)%nat /\ s k = j) \/ (forall k, (k < n)%nat -> s k <> j).
Proof.
  induction n as [|n [[k [Hk E]]|IH]].
  - right; intros; lia.
  - left; exists k; split; [lia|assumption].
  - destruct (Nat.eq_dec (s n) j) as [E|E]; [left; exists n; split; [lia|assumption]|].
    right. intros k Hk. destruct (Nat.eq_dec k n) as [->|Hne]; [assumption|apply IH; lia].
Qed.

(** Scattering along an injection, written as a sum. *)
Lemma csum_scatter (s : nat -> nat) n v k : (k < n)%nat ->
  (forall k', (k' < n)%nat -> s k' = s k -> k' = k) ->
  csum (fun i => cdelta (s i) (s k) * v i) n = v k.
Proof.
  intros Hk Hinj. rewrite (csum_single _ n k Hk).
  - rewrite cdelta_refl. ring.
  - intros i Hi Hne. rewrite cdelta_neq; [ring|]. intros E. apply Hne, Hinj; assumption.
Qed.

Lemma csum_scatter_none (s : nat -> nat) n v j :
  (forall k, (k < n)%nat -> s k <> j) -> csum (fun i => cdelta (s i) j * v i) n = 0.
Proof.
  intros H. apply csum_zero_ext. intros i Hi. rewrite cdelta_neq by (apply H; assumption). ring.
Qed.

(** Padding a spectrum, in terms of slots. *)
Lemma pad1_up n N v j : (n <= N)%nat -> (j < N)%nat ->
  pad1 n N v j = csum (fun k => cdelta (slot N (freq n k)) j * v k) n.
Proof.
  intros HN Hj. unfold pad1.
  destruct (pad_ft_1d_spec (RtoC 0) n N v) as [p [-> Hp]].
  destruct (Hp j Hj) as [Hin Hout].
  destruct (preimage_dec (fun k => slot N (freq n k)) n j) as [[k [Hk E]]|Hno].
  - cbv beta in E. subst j. rewrite (csum_scatter (fun k => slot N (freq n k))); [|assumption|].
    + apply (Hin k (freq n k)); [assumption|apply freq_is_freq; assumption|].
      apply slot_is_freq; assumption.
    + intros k' Hk' E'. apply (slot_inj n N); assumption.
  - rewrite (csum_scatter_none (fun k => slot N (freq n k))) by exact Hno.
    apply Hout. intros i f Hi Hf1 Hf2. apply (Hno i Hi).
    assert (f = freq n i) by (eapply is_freq_unique; [exact Hf1|apply freq_is_freq; assumption]).
    subst f. apply (is_freq_inj N _ j (freq n i)); [apply slot_lt; lia|assumption| |assumption].
    apply slot_is_freq; assumption.
Qed.

(** Truncating a spectrum. *)
Lemma pad1_down n N v k : (n <= N)%nat -> (k < n)%nat -> pad1 N n v k = v (slot N (freq n k)).
Proof.
  intros HN Hk. unfold pad1.
  destruct (pad_ft_1d_spec (RtoC 0) N n v) as [p [-> Hp]].
  destruct (Hp k Hk) as [Hin _].
  apply (Hin _ (freq n k)); [apply slot_lt; lia|apply slot_is_freq; assumption|apply freq_is_freq; assumption].
Qed.

Lemma pad_sample_sum n step offset v j : (0 < n)%nat -> (0 < step)%nat -> (j < n * step)%nat ->
  pad_sample_axis (RtoC 0) n step offset v j =
  csum (fun k => cdelta (sample_pos n step offset k) j * v k) n.
Proof.
  intros Hn Hs Hj. destruct (preimage_dec (sample_pos n step offset) n j) as [[k [Hk E]]|Hno].
  - rewrite <- E. rewrite pad_sample_axis_at by assumption.
    rewrite (csum_scatter (sample_pos n step offset)); [reflexivity|assumption|].
    intros k' Hk' E'. apply (sample_pos_inj n step offset); assumption.
  - rewrite (csum_scatter_none (sample_pos n step offset)) by exact Hno.
    apply pad_sample_axis_other; assumption.
Qed.

(** ** Maps given by matrices *)

Definition is_mat (n m : nat) (M : nat -> nat -> C) (F : (nat -> C) -> nat -> C) : Prop :=
  forall v j, (j < m)%nat -> F v j = csum (fun k => M j k * v k) n.

Lemma is_mat_ext n m M F v w j : is_mat n m M F -> (j < m)%nat ->
  (forall k, (k < n)%nat -> v k = w k) -> F v j = F w j.
Proof.
  intros H Hj E. rewrite !H by assumption. apply csum_ext; intros k Hk. rewrite E; auto.
Qed.

Lemma is_mat_comp n m p M M' F G : is_mat n m M F -> is_mat m p M' G ->
  is_mat n p (fun j k => csum (fun i => M' j i * M i k) m) (fun v => G (F v)).
Proof.
  intros HF HG v j Hj. rewrite HG by assumption.
  rewrite (csum_ext _ (fun i => csum (fun k => M' j i * M i k * v k) n)).
  2:{ intros i Hi. rewrite HF by assumption. rewrite <- csum_scal_l. apply csum_ext; intros; ring. }
  rewrite csum_swap. apply csum_ext; intros k Hk. apply csum_scal_r.
Qed.

Lemma is_mat_eq n m M M' F : is_mat n m M F ->
  (forall j k, (j < m)%nat -> (k < n)%nat -> M j k = M' j k) -> is_mat n m M' F.
Proof.
  intros H E v j Hj. rewrite H by assumption. apply csum_ext; intros k Hk. rewrite E; auto.
Qed.

Lemma is_mat_feq n m M F G : is_mat n m M F ->
  (forall v j, (j < m)%nat -> F v j = G v j) -> is_mat n m M G.
Proof. intros H E v j Hj. rewrite <- E by assumption. apply H; assumption. Qed.

Lemma is_mat_id n : is_mat n n cdelta (fun v => v).
Proof. intros v j Hj. symmetry. apply csum_delta_l; assumption. Qed.

Lemma is_mat_dft N : is_mat N N (fun k x => isqrt N * omega N (- (Z.of_nat k * Z.of_nat x))) (dft N).
Proof. intros v j Hj. unfold dft. rewrite <- csum_scal_l. apply csum_ext; intros; ring. Qed.

Lemma is_mat_idft N : is_mat N N (fun x k => isqrt N * omega N (Z.of_nat k * Z.of_nat x)) (idft N).
Proof. intros v j Hj. unfold idft. rewrite <- csum_scal_l. apply csum_ext; intros; ring. Qed.

(** ** The loop over the axes *)

Lemma nprod_nil_pos n m p k : (k < p * (m * n))%nat -> (0 < m * n)%nat.
Proof. nia. Qed.

Definition entry_n {A} (t : nat * nat * A) : nat := fst (fst t).
Definition entry_m {A} (t : nat * nat * A) : nat := snd (fst t).

(** [product_states] as a matrix: source index first. *)
Lemma convert_loop_mat (l : list (nat * nat * ((nat -> C) -> nat -> C))) (ms : list (nat * nat * (nat -> nat -> C))) :
  Forall2 (fun t s => fst t = fst s /\ is_mat (entry_n t) (entry_m t) (fun j k => snd s k j) (snd t)) l ms ->
  forall v p j, (j < nprod (map entry_m l))%nat ->
    convert_loop l v (p * nprod (map entry_m l) + j) =
    csum (fun k => product_states ms k j * v (p * nprod (map entry_n l) + k)%nat) (nprod (map entry_n l)).
Proof.
  induction 1 as [|[[n m] f] [[n' m'] s] l ms [E H] Hl IH]; intros v p j Hj.
  - simpl in *. assert (j = 0)%nat by lia. subst. rewrite Nat.mul_1_r.
    replace (p + 0)%nat with p by lia. ring.
  - simpl in E. inversion E; subst n' m'. clear E. unfold entry_n, entry_m in H; simpl in H.
    cbn [map nprod convert_loop product_states fst snd] in *. unfold entry_m at 1, entry_n at 1; simpl fst; simpl snd.
    unfold entry_m at 1 in Hj; simpl in Hj.
    change (fun t : nat * nat * ((nat -> C) -> nat -> C) => fst (fst t)) with (@entry_n ((nat -> C) -> nat -> C)).
    assert (En : map (fun t : nat * nat * (nat -> nat -> C) => fst (fst t)) ms = map entry_n l).
    { clear -Hl. induction Hl as [|t s l ms [E _] _ IHl]; simpl; [reflexivity|].
      rewrite IHl. f_equal. unfold entry_n. rewrite E. reflexivity. }
    assert (Em : map (fun t : nat * nat * (nat -> nat -> C) => snd (fst t)) ms = map entry_m l).
    { clear -Hl. induction Hl as [|t s l ms [E _] _ IHl]; simpl; [reflexivity|].
      rewrite IHl. f_equal. unfold entry_m. rewrite E. reflexivity. }
    rewrite En, Em.
    set (Ml := nprod (map entry_m l)) in *. set (Nl := nprod (map entry_n l)) in *.
    assert (HM : (0 < Ml)%nat) by nia.
    set (j1 := (j / Ml)%nat). set (j2 := (j mod Ml)%nat).
    assert (Hj12 : j = (j1 * Ml + j2)%nat) by (unfold j1, j2; rewrite (Nat.div_mod j Ml) at 1 by lia; lia).
    assert (Hj2 : (j2 < Ml)%nat) by (apply Nat.mod_upper_bound; lia).
    assert (Hj1 : (j1 < m)%nat) by (apply Nat.div_lt_upper_bound; nia).
    replace (p * (m * Ml) + j)%nat with ((p * m + j1) * Ml + j2)%nat by nia.
    rewrite IH by assumption.
    rewrite csum_mul, csum_swap.
    apply csum_ext; intros k2 Hk2.
    assert (HN : (0 < Nl)%nat) by lia.
    unfold apply_axis.
    assert (A1 : (((p * m + j1) * Nl + k2) / (m * Nl) = p)%nat).
    { symmetry. apply (Nat.div_unique _ _ _ (j1 * Nl + k2)); nia. }
    assert (A2 : (((p * m + j1) * Nl + k2) / Nl = p * m + j1)%nat).
    { symmetry. apply (Nat.div_unique _ _ _ k2); nia. }
    assert (A3 : (((p * m + j1) * Nl + k2) mod Nl = k2)%nat).
    { symmetry. apply (Nat.mod_unique _ _ (p * m + j1)); nia. }
    assert (A4 : ((p * m + j1) mod m = j1)%nat).
    { symmetry. apply (Nat.mod_unique _ _ p); nia. }
    rewrite A1, A2, A3, A4. rewrite (H _ j1) by assumption.
    rewrite <- csum_scal_l. apply csum_ext; intros k1 Hk1.
    assert (B1 : ((k1 * Nl + k2) / Nl = k1)%nat).
    { symmetry. apply (Nat.div_unique _ _ _ k2); nia. }
    assert (B2 : ((k1 * Nl + k2) mod Nl = k2)%nat).
    { symmetry. apply (Nat.mod_unique _ _ k1); nia. }
    rewrite B1, B2. replace (p * (n * Nl) + (k1 * Nl + k2))%nat with ((p * n + k1) * Nl + k2)%nat by ring.
    ring.
Qed.

Lemma convert_loop_is_mat l ms :
  Forall2 (fun t s => fst t = fst s /\ is_mat (entry_n t) (entry_m t) (fun j k => snd s k j) (snd t)) l ms ->
  is_mat (nprod (map entry_n l)) (nprod (map entry_m l)) (fun j k => product_states ms k j) (convert_loop l).
Proof.
  intros H v j Hj. generalize (convert_loop_mat l ms H v 0 j Hj). simpl. auto.
Qed.

(** Conjugates and transposes of products. *)
Definition flip_entry (t : nat * nat * (nat -> nat -> C)) : nat * nat * (nat -> nat -> C) :=
  (snd (fst t), fst (fst t), fun j k => Cconj (snd t k j)).

Lemma product_states_flip ms j k :
  product_states (map flip_entry ms) j k = Cconj (product_states ms k j).
Proof.
  revert j k. induction ms as [|[[n m] s] ms IH]; intros j k; simpl.
  - symmetry; apply Cconj_1.
  - rewrite IH, Cconj_mult. rewrite !map_map. reflexivity.
Qed.

(** ** The conversion methods as matrices *)

Lemma idft_sample N n (s : nat -> nat) F x :
  (forall k, (k < n)%nat -> (s k < N)%nat) ->
  is_mat n N (fun j k => cdelta (s k) j) F -> (x < N)%nat ->
  forall v, idft N (F v) x = csum (fun k => plane_wave N (Z.of_nat (s k)) x * v k) n.
Proof.
  intros Hs HF Hx v.
  rewrite (is_mat_comp n N N _ _ _ _ HF (is_mat_idft N) v x Hx).
  apply csum_ext; intros k Hk. f_equal. rewrite csum_delta_r by (apply Hs; assumption). reflexivity.
Qed.

Lemma plane_wave_cong N f g x : (0 < N)%nat -> Zcong (Z.of_nat N) f g ->
  plane_wave N f x = plane_wave N g x.
Proof.
  intros HN [q H]. unfold plane_wave. f_equal. apply omega_cong; [assumption|].
  exists (q * Z.of_nat x)%Z. rewrite H. ring.
Qed.

Lemma freq_cong n k : (k < n)%nat -> Zcong (Z.of_nat n) (freq n k) (Z.of_nat k).
Proof. intros H. destruct (freq_is_freq n k H). assumption. Qed.

(** Transformed bases: the state is the plane wave of a slot [tslot]. *)
Definition tslot (b : basis) (k : nat) : nat :=
  match b with
  | BFundT _ => k
  | BTrans n N => slot N (freq n k)
  | BEvenT n step offset => sample_pos n step offset k
  | _ => 0
  end.

Lemma tslot_lt b k : bwf b -> is_transformed b = true -> (k < bsize b)%nat -> (tslot b k < bfund b)%nat.
Proof.
  destruct b; simpl; intros Hw Ht Hk; try discriminate; [assumption|apply slot_lt; lia|].
  destruct Hw. apply sample_pos_lt; assumption.
Qed.

Lemma bstate_transformed b k x : bwf b -> is_transformed b = true -> (k < bsize b)%nat ->
  bstate b k x = plane_wave (bfund b) (Z.of_nat (tslot b k)) x.
Proof.
  destruct b; simpl; intros Hw Ht Hk; try discriminate; [| |reflexivity].
  - apply plane_wave_cong; [assumption|apply freq_cong; assumption].
  - apply plane_wave_cong; [lia|apply Zcong_sym, slot_cong; lia].
Qed.

Lemma as_transformed_mat b : bwf b -> is_transformed b = true ->
  is_mat (bsize b) (bfund b) (fun j k => cdelta (tslot b k) j) (as_transformed b).
Proof.
  destruct b; simpl; intros Hw Ht; try discriminate; intros v j Hj; simpl in *.
  - symmetry. apply csum_delta_l'; assumption.
  - apply pad1_up; [lia|assumption].
  - destruct Hw. apply pad_sample_sum; assumption.
Qed.

Lemma from_as_transformed_mat b : bwf b -> is_transformed b = true ->
  is_mat (bfund b) (bsize b) (fun k j => cdelta (tslot b k) j) (from_as_transformed b).
Proof.
  intros Hw Ht v k Hk. rewrite csum_delta_l by (apply tslot_lt; assumption).
  destruct b; simpl in *; try discriminate; [reflexivity|apply pad1_down; lia|].
  destruct Hw. apply truncate_sample_axis_spec; assumption.
Qed.

Lemma plane_wave_conj N f x : Cconj (plane_wave N f x) = isqrt N * omega N (- (f * Z.of_nat x)).
Proof. unfold plane_wave. rewrite Cconj_mult, isqrt_conj, omega_conj. reflexivity. Qed.

Lemma plane_wave_sym N j k : plane_wave N (Z.of_nat j) k = plane_wave N (Z.of_nat k) j.
Proof. unfold plane_wave. f_equal. f_equal. lia. Qed.

Lemma transformed_into_mat b : bwf b -> is_transformed b = true ->
  is_mat (bsize b) (bfund b) (fun x k => bstate b k x) (fun v => idft (bfund b) (as_transformed b v)).
Proof.
  intros Hw Ht v x Hx.
  rewrite (idft_sample (bfund b) (bsize b) (tslot b) (as_transformed b));
    [|intros; apply tslot_lt; assumption|apply as_transformed_mat; assumption|assumption].
  apply csum_ext; intros k Hk. rewrite bstate_transformed by assumption. reflexivity.
Qed.

Lemma transformed_from_mat b : bwf b -> is_transformed b = true ->
  is_mat (bfund b) (bsize b) (fun k x => Cconj (bstate b k x)) (fun v => from_as_transformed b (dft (bfund b) v)).
Proof.
  intros Hw Ht. eapply is_mat_eq; [eapply is_mat_comp; [apply is_mat_dft|apply from_as_transformed_mat; assumption]|].
  intros k x Hk Hx. cbv beta.
  rewrite (csum_delta_l (fun i => isqrt (bfund b) * omega (bfund b) (- (Z.of_nat i * Z.of_nat x))))
    by (apply tslot_lt; assumption).
  rewrite bstate_transformed by assumption. rewrite plane_wave_conj. reflexivity.
Qed.

Lemma map_entry {A B} (f : A -> nat * nat * B) (g h : A -> nat) l :
  (forall c, fst (fst (f c)) = g c) -> (forall c, snd (fst (f c)) = h c) ->
  map entry_n (map f l) = map g l /\ map entry_m (map f l) = map h l.
Proof.
  intros H1 H2. induction l as [|c l [IH1 IH2]]; simpl; [split; reflexivity|].
  unfold entry_n at 1, entry_m at 1. rewrite H1, H2, IH1, IH2. split; reflexivity.
Qed.

Lemma into_fundamental_mat b : bwf b ->
  is_mat (bsize b) (bfund b) (fun x k => bstate b k x) (into_fundamental b).
Proof.
  induction b as [n|n N|n|n N|n s o|n s o|n vecs inner IH|l IH] using basis_ind'; intros Hw.
  - intros v x Hx. simpl. symmetry. apply csum_delta_l'; assumption.
  - intros v x Hx. simpl. apply pad1_up; [simpl in Hw; lia|assumption].
  - exact (transformed_into_mat (BFundT n) Hw eq_refl).
  - exact (transformed_into_mat (BTrans n N) Hw eq_refl).
  - intros v x Hx. simpl in *. destruct Hw. apply pad_sample_sum; assumption.
  - exact (transformed_into_mat (BEvenT n s o) Hw eq_refl).
  - destruct Hw as [Hn Hw].
    eapply is_mat_eq; [eapply (is_mat_comp n (bsize inner) (bfund inner) (fun j k => vecs k j) _ (into_state_basis n vecs)); [|apply IH; assumption]|].
    + intros v j Hj. unfold into_state_basis. apply csum_ext; intros; ring.
    + intros x k Hx Hk. simpl. apply csum_ext; intros; ring.
  - apply bwf_tuple in Hw. simpl.
    destruct (map_entry (fun c => (bsize c, bfund c, into_fundamental c)) bsize bfund l) as [E1 E2]; [reflexivity..|].
    rewrite <- E1, <- E2. apply convert_loop_is_mat.
    clear E1 E2. induction IH as [|c l Hc _ IHl]; simpl; constructor; inversion Hw; subst; auto.
Qed.

Lemma from_fundamental_mat b : bwf b ->
  is_mat (bfund b) (bsize b) (fun k x => Cconj (bstate b k x)) (from_fundamental b).
Proof.
  induction b as [n|n N|n|n N|n s o|n s o|n vecs inner IH|l IH] using basis_ind'; intros Hw.
  - intros v x Hx. simpl. rewrite (csum_ext _ (fun k => cdelta x k * v k)) by (intros; rewrite Cconj_cdelta; reflexivity).
    symmetry. apply csum_delta_l; assumption.
  - intros v k Hk. simpl in *. rewrite (csum_ext _ (fun x => cdelta (slot N (freq n k)) x * v x)) by (intros; rewrite Cconj_cdelta; reflexivity).
    rewrite csum_delta_l by (apply slot_lt; lia). apply pad1_down; lia.
  - exact (transformed_from_mat (BFundT n) Hw eq_refl).
  - exact (transformed_from_mat (BTrans n N) Hw eq_refl).
  - intros v k Hk. simpl in *. destruct Hw.
    rewrite (csum_ext _ (fun x => cdelta (sample_pos n s o k) x * v x)) by (intros; rewrite Cconj_cdelta; reflexivity).
    rewrite csum_delta_l by (apply sample_pos_lt; assumption). apply truncate_sample_axis_spec; assumption.
  - exact (transformed_from_mat (BEvenT n s o) Hw eq_refl).
  - destruct Hw as [Hn Hw].
    eapply is_mat_eq; [eapply (is_mat_comp (bfund inner) (bsize inner) n _ (fun k j => Cconj (vecs k j)) _ (from_state_basis (bsize inner) vecs)); [apply IH; assumption|]|].
    + intros v j Hj. reflexivity.
    + intros k x Hk Hx. simpl. rewrite Cconj_csum. apply csum_ext; intros. rewrite Cconj_mult. reflexivity.
  - apply bwf_tuple in Hw.
    destruct (map_entry (fun c => (bfund c, bsize c, from_fundamental c)) bfund bsize l) as [E1 E2]; [reflexivity..|].
    simpl. eapply is_mat_eq; [rewrite <- E1, <- E2; apply (convert_loop_is_mat _ (map flip_entry (map (fun c => (bsize c, bfund c, bstate c)) l)))|].
    + clear E1 E2. induction IH as [|c l Hc _ IHl]; simpl; constructor; inversion Hw; subst; auto.
    + intros k x Hk Hx. cbv beta. apply product_states_flip.
Qed.

(** ** Overlaps of product states *)

Lemma csum_div_mod (f : nat -> nat -> C) n m :
  csum (fun x => f (x / m)%nat (x mod m)%nat) (n * m) = csum (fun i => csum (fun j => f i j) m) n.
Proof.
  rewrite csum_mul. apply csum_ext; intros i Hi. apply csum_ext; intros j Hj.
  replace ((i * m + j) / m)%nat with i by (apply (Nat.div_unique _ _ _ j); lia).
  replace ((i * m + j) mod m)%nat with j by (apply (Nat.mod_unique _ _ i); lia).
  reflexivity.
Qed.

Lemma csum_prod (f g : nat -> C) n m :
  csum (fun i => csum (fun j => f i * g j) m) n = csum f n * csum g m.
Proof.
  rewrite <- csum_scal_r. apply csum_ext; intros i Hi. apply csum_scal_l.
Qed.

(** Axis by axis overlap matrices, source states first. *)
Fixpoint overlap_entries (ms ms' : list (nat * nat * (nat -> nat -> C)))
  : list (nat * nat * (nat -> nat -> C)) :=
  match ms, ms' with
  | (n, N, s) :: ms, (n', _, s') :: ms' =>
      (n, n', fun k j => csum (fun x => Cconj (s' j x) * s k x) N) :: overlap_entries ms ms'
  | _, _ => []
  end.

Lemma product_overlap ms ms' :
  map entry_m ms = map entry_m ms' ->
  forall j k,
  csum (fun x => Cconj (product_states ms' j x) * product_states ms k x) (nprod (map entry_m ms)) =
  product_states (overlap_entries ms ms') k j.
Proof.
  revert ms'. induction ms as [|[[n N] s] ms IH]; intros [|[[n' N'] s'] ms'] E j k; try discriminate.
  - simpl. rewrite Cconj_1. ring.
  - simpl in E. injection E as E1 E2. cbn in E1. subst N'.
    specialize (IH ms' E2).
    cbn [map nprod product_states overlap_entries]. unfold entry_m at 1; simpl fst; simpl snd.
    assert (L : forall ms ms', map entry_m ms = map entry_m ms' ->
       map (fun t : nat * nat * (nat -> nat -> C) => fst (fst t)) (overlap_entries ms ms') = map entry_n ms /\
       map (fun t : nat * nat * (nat -> nat -> C) => snd (fst t)) (overlap_entries ms ms') = map entry_n ms').
    { clear. induction ms as [|[[n N] s] ms IH]; intros [|[[n' N'] s'] ms'] E; try discriminate; [split; reflexivity|].
      simpl in E. injection E as _ E2. destruct (IH ms' E2) as [E3 E4].
      simpl. rewrite E3, E4. split; reflexivity. }
    destruct (L ms ms' E2) as [-> ->].
    change (fun t : nat * nat * (nat -> nat -> C) => snd (fst t)) with (@entry_m (nat -> nat -> C)).
    change (fun t : nat * nat * (nat -> nat -> C) => fst (fst t)) with (@entry_n (nat -> nat -> C)).
    rewrite <- E2. set (Nl := nprod (map entry_m ms)) in *.
    set (j1 := (j / nprod (map entry_n ms'))%nat). set (j2 := (j mod nprod (map entry_n ms'))%nat).
    set (k1 := (k / nprod (map entry_n ms))%nat). set (k2 := (k mod nprod (map entry_n ms))%nat).
    pose (g := fun x1 x2 =>
       (Cconj (s' j1 x1) * s k1 x1) * (Cconj (product_states ms' j2 x2) * product_states ms k2 x2)).
    rewrite (csum_ext _ (fun x => g (x / Nl)%nat (x mod Nl)%nat)).
    2:{ intros x Hx. unfold g. rewrite Cconj_mult. ring. }
    rewrite csum_div_mod. unfold g.
    rewrite (csum_prod (fun x1 => Cconj (s' j1 x1) * s k1 x1)). rewrite IH. reflexivity.
Qed.

(** ** convert_vector *)

(** The local loop of [convert] as a function of its own. *)
Fixpoint convert_axes (same : basis -> basis -> bool) (la lb : list basis)
  : option (list (nat * nat * ((nat -> C) -> nat -> C))) :=
  match la, lb with
  | [], [] => Some []
  | a :: la, b :: lb =>
      match convert same a b, convert_axes same la lb with
      | Some f, Some l => Some ((bsize a, bsize b, f) :: l)
      | _, _ => None
      end
  | _, _ => None
  end.

Lemma convert_tuple same la lb :
  convert same (BTuple la) (BTuple lb) =
  if (nprod (map bfund la) =? nprod (map bfund lb))%nat then
    match convert_axes same la lb with
    | Some l => Some (convert_loop l)
    | None => None
    end
  else None.
Proof.
  cbn [convert bfund].
  destruct (nprod (map bfund la) =? nprod (map bfund lb))%nat; [|reflexivity].
  match goal with |- match ?x with _ => _ end = match ?y with _ => _ end => assert (E : x = y); [|rewrite E; reflexivity] end.
  revert lb. induction la as [|a la IH]; intros [|b lb]; try reflexivity.
  cbn [convert_axes]. rewrite IH. reflexivity.
Qed.

Lemma convert_cases same a b :
  (exists la lb, a = BTuple la /\ b = BTuple lb) \/
  ((forall l l', a = BTuple l -> b <> BTuple l') /\ convert same a b = if (bfund a =? bfund b)%nat then Some (convert_generic same a b) else None).
Proof.
  destruct a as [| | | | | | |la]; try (right; split; [discriminate|reflexivity]).
  destruct b as [| | | | | | |lb]; try (right; split; [discriminate|reflexivity]).
  left. exists la, lb. split; reflexivity.
Qed.

Lemma convert_some_fund same a b F : convert same a b = Some F -> bfund a = bfund b.
Proof.
  destruct (convert_cases same a b) as [[la [lb [-> ->]]]|[_ ->]].
  - rewrite convert_tuple. simpl. destruct (Nat.eqb_spec (nprod (map bfund la)) (nprod (map bfund lb))); [auto|discriminate].
  - destruct (Nat.eqb_spec (bfund a) (bfund b)); [auto|discriminate].
Qed.

Lemma into_transformed_leaf b v : is_transformed b = true -> into_transformed b v = as_transformed b v.
Proof. destruct b; simpl; intros H; try discriminate; reflexivity. Qed.

Lemma from_transformed_leaf b v : is_transformed b = true -> from_transformed b v = from_as_transformed b v.
Proof. destruct b; simpl; intros H; try discriminate; reflexivity. Qed.

Lemma from_fundamental_leaf b v : is_transformed b = true ->
  from_fundamental b v = from_as_transformed b (dft (bfund b) v).
Proof. destruct b; simpl; intros H; try discriminate; reflexivity. Qed.

Lemma into_fundamental_leaf b v : is_transformed b = true ->
  into_fundamental b v = idft (bfund b) (as_transformed b v).
Proof. destruct b; simpl; intros H; try discriminate; reflexivity. Qed.

(** The momentum route gives what the position route gives. *)
Lemma transformed_route a b v j : bwf a -> bwf b -> is_transformed a = true -> is_transformed b = true ->
  bfund a = bfund b -> (j < bsize b)%nat ->
  from_transformed b (into_transformed a v) j = from_fundamental b (into_fundamental a v) j.
Proof.
  intros Ha Hb Ta Tb E Hj.
  rewrite from_transformed_leaf, into_transformed_leaf, from_fundamental_leaf, into_fundamental_leaf by assumption.
  rewrite E. symmetry. eapply is_mat_ext; [apply from_as_transformed_mat; assumption|assumption|].
  intros k Hk. apply dft_idft. assumption.
Qed.

Lemma fundamental_route_mat a b : bwf a -> bwf b -> bfund a = bfund b ->
  is_mat (bsize a) (bsize b) (overlap b a) (fun v => from_fundamental b (into_fundamental a v)).
Proof.
  intros Ha Hb E. eapply is_mat_eq.
  - apply (is_mat_comp (bsize a) (bfund a) (bsize b) (fun x k => bstate a k x) (fun k x => Cconj (bstate b k x))).
    + apply into_fundamental_mat; assumption.
    + rewrite E. apply from_fundamental_mat; assumption.
  - intros j k Hj Hk. reflexivity.
Qed.

Lemma convert_generic_mat same a b : identity_test same -> bwf a -> bwf b -> bfund a = bfund b ->
  (same a b = true -> orthonormal a) ->
  is_mat (bsize a) (bsize b) (overlap b a) (convert_generic same a b).
Proof.
  intros Hs Ha Hb E Ho. unfold convert_generic.
  destruct (same a b) eqn:S.
  - assert (a = b) by (apply Hs; assumption). subst b.
    eapply is_mat_eq; [apply is_mat_id|]. intros j k Hj Hk. symmetry. apply Ho; auto.
  - destruct (is_transformed a && is_transformed b) eqn:T.
    + apply andb_prop in T. destruct T as [Ta Tb].
      eapply is_mat_feq; [apply fundamental_route_mat; assumption|].
      intros v j Hj. symmetry. apply transformed_route; assumption.
    + apply fundamental_route_mat; assumption.
Qed.

(** Sub-bases of a basis reached through stacks: where the identity shortcut can
    fire. *)
Fixpoint axes_of (b : basis) : list basis :=
  match b with BTuple l => flat_map axes_of l | _ => [b] end.

Lemma overlap_tuple la lb : map bfund la = map bfund lb ->
  forall j k,
  overlap (BTuple lb) (BTuple la) j k =
  product_states (overlap_entries (map (fun c => (bsize c, bfund c, bstate c)) la)
                                  (map (fun c => (bsize c, bfund c, bstate c)) lb)) k j.
Proof.
  intros E j k. rewrite <- product_overlap.
  - unfold overlap. cbn [bstate bfund].
    destruct (map_entry (fun c => (bsize c, bfund c, bstate c)) bsize bfund la) as [_ ->]; reflexivity.
  - destruct (map_entry (fun c => (bsize c, bfund c, bstate c)) bsize bfund la) as [_ ->]; [reflexivity..|].
    destruct (map_entry (fun c => (bsize c, bfund c, bstate c)) bsize bfund lb) as [_ ->]; [reflexivity..|].
    exact E.
Qed.


Lemma convert_axes_mat same la :
  Forall (fun a => forall b F, bwf a -> bwf b ->
     (forall c, In c (axes_of a) -> same c c = true -> orthonormal c) ->
     convert same a b = Some F -> is_mat (bsize a) (bsize b) (overlap b a) F) la ->
  forall lb l, Forall bwf la -> Forall bwf lb ->
    (forall c, In c (flat_map axes_of la) -> same c c = true -> orthonormal c) ->
    convert_axes same la lb = Some l ->
    map entry_n l = map bsize la /\ map entry_m l = map bsize lb /\ map bfund la = map bfund lb /\
    Forall2 (fun t s => fst t = fst s /\ is_mat (entry_n t) (entry_m t) (fun j k => snd s k j) (snd t)) l
      (overlap_entries (map (fun c => (bsize c, bfund c, bstate c)) la)
                       (map (fun c => (bsize c, bfund c, bstate c)) lb)).
Proof.
  induction 1 as [|a la Ha _ IH]; intros [|b lb] l Hla Hlb Ho E; try discriminate.
  - simpl in E. inversion E; subst. simpl. repeat split; constructor.
  - cbn [convert_axes] in E. destruct (convert same a b) as [F|] eqn:EF; [|discriminate].
    destruct (convert_axes same la lb) as [l'|] eqn:El; [|discriminate].
    inversion E; subst l. inversion Hla; subst. inversion Hlb; subst.
    destruct (IH lb l') as [A1 [A2 [A3 A4]]]; try assumption; [ | ].
    { intros c Hc. apply Ho. simpl. apply in_or_app. right; assumption. }
    assert (M := Ha b F H1 H3). assert (Hf := convert_some_fund _ _ _ _ EF).
    repeat split.
    + simpl. rewrite A1. reflexivity.
    + simpl. rewrite A2. reflexivity.
    + simpl. rewrite Hf, A3. reflexivity.
    + simpl. constructor; [|assumption]. split; [reflexivity|]. unfold entry_n, entry_m; simpl.
      apply M; [|exact EF]. intros c Hc. apply Ho. simpl. apply in_or_app. left; assumption.
Qed.

Lemma convert_mat same : identity_test same ->
  forall a b F, bwf a -> bwf b -> (forall c, In c (axes_of a) -> same c c = true -> orthonormal c) ->
  convert same a b = Some F -> is_mat (bsize a) (bsize b) (overlap b a) F.
Proof.
  intros Hs a.
  assert (G : forall a b F, bwf a -> bwf b -> (same a b = true -> orthonormal a) ->
     convert same a b = (if (bfund a =? bfund b)%nat then Some (convert_generic same a b) else None) ->
     convert same a b = Some F -> is_mat (bsize a) (bsize b) (overlap b a) F).
  { clear a. intros a b F Ha Hb Ho C HF. assert (E := convert_some_fund _ _ _ _ HF).
    rewrite C, E, Nat.eqb_refl in HF. inversion HF; subst F. apply convert_generic_mat; auto. }
  induction a as [n|n N|n|n N|n s o|n s o|n vecs inner IH|la IH] using basis_ind'; intros b F Ha Hb Ho HF;
    try (match type of HF with convert _ ?a _ = _ =>
         destruct (convert_cases same a b) as [[? [? [? ?]]]|[Hn C]]; [discriminate|];
         apply G; auto; intros S; apply Ho; [left; reflexivity|]; rewrite <- (Hs _ _ S) in S; exact S end).
  destruct (convert_cases same (BTuple la) b) as [[la' [lb [E1 ->]]]|[Hn C]].
  - inversion E1; subst la'. assert (E := convert_some_fund _ _ _ _ HF).
    rewrite convert_tuple in HF. simpl in E. rewrite E, Nat.eqb_refl in HF.
    destruct (convert_axes same la lb) as [l|] eqn:El; [|discriminate].
    inversion HF; subst F.
    apply bwf_tuple in Ha. apply bwf_tuple in Hb.
    destruct (convert_axes_mat same la IH lb l Ha Hb Ho El) as [A1 [A2 [A3 A4]]].
    simpl. rewrite <- A1, <- A2. eapply is_mat_eq; [apply (convert_loop_is_mat _ _ A4)|].
    intros j k Hj Hk. symmetry. apply overlap_tuple. assumption.
  - apply G; auto. intros S. exfalso. apply (Hn la la eq_refl). symmetry. apply Hs. assumption.
Qed.
