(** Consequences of the matrix form of convert_vector. *)
From Coq Require Import Reals Psatz FinFun.
From Verif Require Import ZLib Csum DFT NumPy Interp Spec InterpProofs Index IndexProofs Basis SpecBasis BasisProofs.
Local Open Scope R_scope.
Local Open Scope C_scope.

Implicit Types u v w : nat -> C.

(** ** Orthonormality *)

Lemma plane_wave_orth N s t : (s < N)%nat -> (t < N)%nat ->
  csum (fun x => Cconj (plane_wave N (Z.of_nat s) x) * plane_wave N (Z.of_nat t) x) N = cdelta s t.
Proof.
  intros Hs Ht.
  rewrite (csum_ext _ (fun x => isqrt N * isqrt N * omega N ((Z.of_nat t - Z.of_nat s) * Z.of_nat x))).
  2:{ intros x Hx. rewrite plane_wave_conj. unfold plane_wave.
      transitivity (isqrt N * isqrt N * (omega N (- (Z.of_nat s * Z.of_nat x)) * omega N (Z.of_nat t * Z.of_nat x))); [ring|].
      rewrite <- omega_add. do 2 f_equal. lia. }
  rewrite csum_scal_l, omega_orth by assumption.
  transitivity (isqrt N * isqrt N * RtoC (INR N) * cdelta t s); [ring|].
  rewrite isqrt_sqr by lia. rewrite cdelta_sym. ring.
Qed.

Lemma cdelta_orth N s t : (s < N)%nat -> (t < N)%nat ->
  csum (fun x => Cconj (cdelta s x) * cdelta t x) N = cdelta s t.
Proof.
  intros Hs Ht. rewrite (csum_ext _ (fun x => cdelta s x * cdelta t x)) by (intros; rewrite Cconj_cdelta; reflexivity).
  rewrite csum_delta_l by assumption. apply cdelta_sym.
Qed.

Lemma cdelta_inj (s : nat -> nat) j k : (s j = s k -> j = k) -> cdelta (s j) (s k) = cdelta j k.
Proof.
  intros H. destruct (Nat.eq_dec j k) as [->|Hne]; [rewrite !cdelta_refl; reflexivity|].
  rewrite !cdelta_neq; auto.
Qed.

Lemma tslot_inj b j k : bwf b -> is_transformed b = true -> (j < bsize b)%nat -> (k < bsize b)%nat ->
  tslot b j = tslot b k -> j = k.
Proof.
  destruct b; simpl; intros Hw Ht Hj Hk E; try discriminate; [assumption| |].
  - eapply slot_inj; [| | |exact E]; lia.
  - destruct Hw. eapply sample_pos_inj; [| | | |exact E]; assumption.
Qed.

Lemma orthonormal_transformed b : bwf b -> is_transformed b = true -> orthonormal b.
Proof.
  intros Hw Ht j k Hj Hk. unfold overlap.
  rewrite (csum_ext _ (fun x => Cconj (plane_wave (bfund b) (Z.of_nat (tslot b j)) x) * plane_wave (bfund b) (Z.of_nat (tslot b k)) x))
    by (intros; rewrite !bstate_transformed by assumption; reflexivity).
  rewrite plane_wave_orth by (apply tslot_lt; assumption).
  apply cdelta_inj. apply tslot_inj; assumption.
Qed.

Lemma overlap_explicit n vecs inner n' vecs' inner' j k :
  overlap (BExpl n vecs inner) (BExpl n' vecs' inner') j k =
  csum (fun p => csum (fun q => Cconj (vecs j p) * vecs' k q * overlap inner inner' p q) (bsize inner')) (bsize inner).
Proof.
  unfold overlap. cbn [bstate bfund].
  rewrite (csum_ext _ (fun x => csum (fun p => csum (fun q =>
     Cconj (vecs j p) * vecs' k q * (Cconj (bstate inner p x) * bstate inner' q x)) (bsize inner')) (bsize inner))).
  2:{ intros x Hx. rewrite Cconj_csum, <- csum_scal_r. apply csum_ext; intros p Hp.
      rewrite <- csum_scal_l. apply csum_ext; intros q Hq. rewrite Cconj_mult. ring. }
  rewrite csum_swap. apply csum_ext; intros p Hp. rewrite csum_swap. apply csum_ext; intros q Hq.
  apply csum_scal_l.
Qed.

Lemma nprod_map_pos {A} (f : A -> nat) l : Forall (fun c => (0 < f c)%nat) l -> (0 < nprod (map f l))%nat.
Proof. intros H. apply nprod_pos. induction H; simpl; constructor; auto. Qed.

Lemma cdelta_div_mod n j k : (0 < n)%nat ->
  cdelta (j / n) (k / n) * cdelta (j mod n) (k mod n) = cdelta j k.
Proof.
  intros Hn. destruct (Nat.eq_dec j k) as [->|Hne]; [rewrite !cdelta_refl; ring|].
  rewrite (cdelta_neq j k) by assumption.
  destruct (Nat.eq_dec (j / n) (k / n)) as [E|E]; [|rewrite (cdelta_neq (j / n)) by assumption; ring].
  destruct (Nat.eq_dec (j mod n) (k mod n)) as [F|F]; [|rewrite (cdelta_neq (j mod n)) by assumption; ring].
  exfalso. apply Hne. rewrite (Nat.div_mod j n), (Nat.div_mod k n) by lia. congruence.
Qed.

Lemma overlap_entries_shape (la lb : list basis) : length la = length lb ->
  map (fun t : nat * nat * (nat -> nat -> C) => fst (fst t))
    (overlap_entries (map (fun c => (bsize c, bfund c, bstate c)) la) (map (fun c => (bsize c, bfund c, bstate c)) lb)) = map bsize la /\
  map (fun t : nat * nat * (nat -> nat -> C) => snd (fst t))
    (overlap_entries (map (fun c => (bsize c, bfund c, bstate c)) la) (map (fun c => (bsize c, bfund c, bstate c)) lb)) = map bsize lb.
Proof.
  revert lb. induction la as [|a la IH]; intros [|b lb] E; try discriminate; [split; reflexivity|].
  simpl in *. destruct (IH lb) as [-> ->]; [lia|]. split; reflexivity.
Qed.

(** Overlap of two stacks, one axis split off. *)
Lemma overlap_tuple_cons a la b lb j k : bfund a = bfund b -> map bfund la = map bfund lb ->
  overlap (BTuple (b :: lb)) (BTuple (a :: la)) j k =
  overlap b a (j / nprod (map bsize lb)) (k / nprod (map bsize la)) *
  overlap (BTuple lb) (BTuple la) (j mod nprod (map bsize lb)) (k mod nprod (map bsize la)).
Proof.
  intros E El.
  assert (L : length la = length lb) by (rewrite <- (map_length bfund la), El; apply map_length).
  rewrite !overlap_tuple; [|assumption|simpl; rewrite E, El; reflexivity].
  cbn [map overlap_entries product_states].
  destruct (overlap_entries_shape la lb L) as [-> ->]. reflexivity.
Qed.

Lemma overlap_tuple_nil j k : overlap (BTuple []) (BTuple []) j k = 1.
Proof. unfold overlap. simpl. rewrite Cconj_1. ring. Qed.

Lemma tuple_orthonormal l : Forall bwf l -> Forall orthonormal l -> orthonormal (BTuple l).
Proof.
  induction l as [|c l IH]; intros Hw Ho j k Hj Hk.
  - simpl in *. assert (j = 0)%nat by lia. assert (k = 0)%nat by lia. subst.
    rewrite overlap_tuple_nil. symmetry; apply cdelta_refl.
  - inversion Hw; subst. inversion Ho; subst.
    assert (Hp : (0 < nprod (map bsize l))%nat) by (apply (bsize_pos (BTuple l)), bwf_tuple; assumption).
    rewrite overlap_tuple_cons by reflexivity. cbn [bsize map nprod] in Hj, Hk.
    rewrite H3 by (apply Nat.div_lt_upper_bound; nia).
    rewrite IH; [apply cdelta_div_mod; assumption|assumption..| |];
      change (bsize (BTuple l)) with (nprod (map bsize l)); apply Nat.mod_upper_bound; lia.
Qed.

Lemma explicit_orthonormal_sound b : bwf b -> explicit_orthonormal b -> orthonormal b.
Proof.
  induction b as [n|n N|n|n N|n s o|n s o|n vecs inner IH|l IH] using basis_ind'; intros Hw Ho.
  - intros j k Hj Hk. apply cdelta_orth; assumption.
  - intros j k Hj Hk. simpl in *. unfold overlap. simpl. rewrite cdelta_orth by (apply slot_lt; lia).
    apply (cdelta_inj (fun k => slot N (freq n k))). apply slot_inj; lia.
  - apply orthonormal_transformed; auto.
  - apply orthonormal_transformed; auto.
  - intros j k Hj Hk. simpl in *. destruct Hw. unfold overlap. simpl.
    rewrite cdelta_orth by (apply sample_pos_lt; assumption).
    apply (cdelta_inj (sample_pos n s o)). apply sample_pos_inj; assumption.
  - apply orthonormal_transformed; auto.
  - destruct Hw as [Hn Hw]. destruct Ho as [Hv Ho]. specialize (IH Hw Ho).
    intros j k Hj Hk. rewrite overlap_explicit.
    rewrite (csum_ext _ (fun p => Cconj (vecs j p) * vecs k p)).
    + apply Hv; assumption.
    + intros p Hp. rewrite (csum_ext _ (fun q => (Cconj (vecs j p) * vecs k q) * cdelta p q)).
      * apply csum_delta_r; assumption.
      * intros q Hq. rewrite IH by assumption. reflexivity.
  - apply bwf_tuple in Hw. apply explicit_orthonormal_tuple in Ho.
    apply tuple_orthonormal; [assumption|].
    induction IH as [|c l Hc _ IHl]; constructor; inversion Hw; subst; inversion Ho; subst; auto.
Qed.

(** ** Completeness *)

Lemma bijection_complete (s : nat -> nat) n x y :
  (forall k, (k < n)%nat -> (s k < n)%nat) ->
  (forall j k, (j < n)%nat -> (k < n)%nat -> s j = s k -> j = k) ->
  (x < n)%nat ->
  csum (fun k => cdelta (s k) x * Cconj (cdelta (s k) y)) n = cdelta x y.
Proof.
  intros Hs Hi Hx.
  destruct (proj1 (bInjective_bSurjective Hs) Hi x Hx) as [k [Hk E]].
  rewrite (csum_single _ n k Hk).
  - rewrite E, cdelta_refl, Cconj_cdelta. ring.
  - intros i Hin Hne. rewrite cdelta_neq; [ring|]. intros E'. apply Hne, Hi; congruence.
Qed.

Lemma full_transformed_complete b : bwf b -> is_transformed b = true -> bsize b = bfund b -> complete b.
Proof.
  intros Hw Ht E x y Hx Hy.
  rewrite (csum_ext _ (fun k => (fun t => Cconj (plane_wave (bfund b) (Z.of_nat y) t) * plane_wave (bfund b) (Z.of_nat x) t) (tslot b k))).
  2:{ intros k Hk. rewrite !bstate_transformed by assumption.
      rewrite (plane_wave_sym _ (tslot b k) x), (plane_wave_sym _ (tslot b k) y). apply Cmult_comm. }
  rewrite (csum_inj _ (fun t => Cconj (plane_wave (bfund b) (Z.of_nat y) t) * plane_wave (bfund b) (Z.of_nat x) t) (bsize b) (bfund b) (tslot b)).
  - rewrite plane_wave_orth by assumption. apply cdelta_sym.
  - intros k Hk. apply tslot_lt; assumption.
  - intros j k Hj Hk. apply tslot_inj; assumption.
  - reflexivity.
  - intros t Hlt Hno. exfalso. rewrite <- E in Hlt.
    assert (B : bFun (bsize b) (tslot b)) by (intros k Hk; rewrite E; apply tslot_lt; assumption).
    destruct (proj1 (bInjective_bSurjective B) (fun j k Hj Hk => tslot_inj b j k Hw Ht Hj Hk) t Hlt) as [k [Hk E']].
    exact (Hno k Hk E').
Qed.

Lemma tuple_complete l : Forall bwf l -> Forall complete l -> complete (BTuple l).
Proof.
  induction l as [|c l IH]; intros Hw Ho x y Hx Hy.
  - simpl in *. assert (x = 0)%nat by lia. assert (y = 0)%nat by lia. subst.
    rewrite cdelta_refl, Cconj_1. ring.
  - inversion Hw; subst. inversion Ho; subst.
    assert (Hp : (0 < nprod (map bfund l))%nat) by (apply (bfund_pos (BTuple l)), bwf_tuple; assumption).
    cbn [bsize bfund map nprod bstate product_states] in *.
    assert (En : map (fun t : nat * nat * (nat -> nat -> C) => fst (fst t)) (map (fun c => (bsize c, bfund c, bstate c)) l) = map bsize l)
      by (rewrite map_map; reflexivity).
    assert (Em : map (fun t : nat * nat * (nat -> nat -> C) => snd (fst t)) (map (fun c => (bsize c, bfund c, bstate c)) l) = map bfund l)
      by (rewrite map_map; reflexivity).
    rewrite En, Em.
    set (Nl := nprod (map bfund l)) in *. set (nl := nprod (map bsize l)).
    pose (g := fun k1 k2 => (bstate c k1 (x / Nl) * Cconj (bstate c k1 (y / Nl))) *
       (bstate (BTuple l) k2 (x mod Nl) * Cconj (bstate (BTuple l) k2 (y mod Nl)))).
    rewrite (csum_ext _ (fun k => g (k / nl)%nat (k mod nl)%nat)).
    2:{ intros k Hk. unfold g. rewrite Cconj_mult. cbn [bstate]. ring. }
    rewrite csum_div_mod. unfold g.
    rewrite (csum_prod (fun k1 => bstate c k1 (x / Nl) * Cconj (bstate c k1 (y / Nl)))).
    rewrite H3 by (apply Nat.div_lt_upper_bound; nia).
    assert (IH' := IH H2 H4 (x mod Nl)%nat (y mod Nl)%nat). cbn [bsize] in IH'. fold nl in IH'.
    rewrite IH'; [apply cdelta_div_mod; assumption| |]; change (bfund (BTuple l)) with Nl; apply Nat.mod_upper_bound; lia.
Qed.

Lemma full_complete b : bwf b -> full b -> complete b.
Proof.
  induction b as [n|n N|n|n N|n s o|n s o|n vecs inner IH|l IH] using basis_ind'; intros Hw Hf.
  - intros x y Hx Hy. simpl in *. apply (bijection_complete (fun k => k)); auto.
  - intros x y Hx Hy. simpl in *. subst N. apply (bijection_complete (fun k => slot n (freq n k))); [| |assumption].
    + intros; apply slot_lt; lia.
    + intros; apply (slot_inj n n); auto.
  - apply full_transformed_complete; auto.
  - apply full_transformed_complete; auto.
  - intros x y Hx Hy. simpl in *. destruct Hw. assert (s = 1)%nat by nia. subst s.
    rewrite Nat.mul_1_r in Hx. apply (bijection_complete (sample_pos n 1 o)); [| |assumption].
    + intros. rewrite <- (Nat.mul_1_r n) at 2. apply sample_pos_lt; assumption.
    + intros; apply (sample_pos_inj n 1 o); assumption.
  - apply full_transformed_complete; auto.
  - destruct Hf.
  - apply bwf_tuple in Hw. apply full_tuple in Hf. apply tuple_complete; [assumption|].
    induction IH as [|c l Hc _ IHl]; constructor; inversion Hw; subst; inversion Hf; subst; auto.
Qed.

Lemma full_explicit_orthonormal b : full b -> explicit_orthonormal b.
Proof.
  induction b as [n|n N|n|n N|n s o|n s o|n vecs inner IH|l IH] using basis_ind'; intros Hf;
    try exact I; [destruct Hf|].
  apply full_tuple in Hf. apply explicit_orthonormal_tuple.
  induction IH; constructor; inversion Hf; subst; auto.
Qed.

(** ** Algebra of overlaps *)

Lemma overlap_conj a b j k : bfund a = bfund b -> Cconj (overlap b a j k) = overlap a b k j.
Proof.
  intros E. unfold overlap. rewrite Cconj_csum, E. apply csum_ext; intros x Hx.
  rewrite Cconj_mult, Cconj_conj. apply Cmult_comm.
Qed.

Lemma overlap_comp a b c i k : bfund a = bfund b -> complete b ->
  csum (fun j => overlap c b i j * overlap b a j k) (bsize b) = overlap c a i k.
Proof.
  intros E Hc. unfold overlap. rewrite E.
  rewrite (csum_ext _ (fun j => csum (fun x => csum (fun y =>
     Cconj (bstate c i x) * bstate a k y * (bstate b j x * Cconj (bstate b j y))) (bfund b)) (bfund b))).
  2:{ intros j Hj. rewrite <- csum_scal_r. apply csum_ext; intros x Hx.
      rewrite <- csum_scal_l. apply csum_ext; intros y Hy. ring. }
  rewrite csum_swap. apply csum_ext; intros x Hx.
  rewrite csum_swap.
  rewrite (csum_ext _ (fun y => Cconj (bstate c i x) * bstate a k y * cdelta x y)).
  2:{ intros y Hy. rewrite csum_scal_l. rewrite Hc by assumption. reflexivity. }
  apply (csum_delta_r (fun y => Cconj (bstate c i x) * bstate a k y)). assumption.
Qed.

(** Axes of an orthonormal basis are orthonormal. *)
Lemma axes_of_orthonormal b : bwf b -> explicit_orthonormal b ->
  forall c, In c (axes_of b) -> orthonormal c.
Proof.
  induction b as [n|n N|n|n N|n s o|n s o|n vecs inner IH|l IH] using basis_ind'; intros Hw Ho c Hc;
    try (destruct Hc as [<-|[]]; apply explicit_orthonormal_sound; assumption).
  apply bwf_tuple in Hw. apply explicit_orthonormal_tuple in Ho. simpl in Hc.
  induction IH as [|d l Hd _ IHl]; [destruct Hc|].
  simpl in Hc. inversion Hw; subst. inversion Ho; subst.
  apply in_app_or in Hc. destruct Hc; auto.
Qed.

Section Convert.
Variable same : basis -> basis -> bool.
Hypothesis Hsame : identity_test same.

Lemma convert_orthonormal a b F : bwf a -> bwf b -> explicit_orthonormal a ->
  convert same a b = Some F ->
  forall v j, (j < bsize b)%nat -> F v j = csum (fun k => overlap b a j k * v k) (bsize a).
Proof.
  intros Ha Hb Ho HF. apply (convert_mat same Hsame a b F Ha Hb); [|assumption].
  intros c Hc _. apply (axes_of_orthonormal a); assumption.
Qed.

Lemma convert_compose a b c F G H : bwf a -> bwf b -> bwf c ->
  explicit_orthonormal a -> explicit_orthonormal b -> complete b ->
  convert same a b = Some F -> convert same b c = Some G -> convert same a c = Some H ->
  forall v j, (j < bsize c)%nat -> G (F v) j = H v j.
Proof.
  intros Ha Hb Hc Oa Ob Cb HF HG HH v j Hj.
  assert (E := convert_some_fund _ _ _ _ HF).
  rewrite (is_mat_comp _ _ _ _ _ _ _ (convert_orthonormal a b F Ha Hb Oa HF) (convert_orthonormal b c G Hb Hc Ob HG) v j Hj).
  rewrite (convert_orthonormal a c H Ha Hc Oa HH v j Hj).
  apply csum_ext; intros k Hk. rewrite overlap_comp by assumption. reflexivity.
Qed.

Lemma convert_round_trip a b F G : bwf a -> bwf b -> explicit_orthonormal a -> explicit_orthonormal b -> complete b ->
  convert same a b = Some F -> convert same b a = Some G ->
  forall v j, (j < bsize a)%nat -> G (F v) j = v j.
Proof.
  intros Ha Hb Oa Ob Cb HF HG v j Hj.
  assert (E := convert_some_fund _ _ _ _ HF).
  rewrite (is_mat_comp _ _ _ _ _ _ _ (convert_orthonormal a b F Ha Hb Oa HF) (convert_orthonormal b a G Hb Ha Ob HG) v j Hj).
  rewrite (csum_ext _ (fun k => cdelta j k * v k)).
  - apply csum_delta_l; assumption.
  - intros k Hk. rewrite overlap_comp by assumption.
    rewrite explicit_orthonormal_sound by assumption. reflexivity.
Qed.

Lemma convert_inner a b F : bwf a -> bwf b -> explicit_orthonormal a -> complete b ->
  convert same a b = Some F ->
  forall u v, inner_product (bsize b) (F u) (F v) = inner_product (bsize a) u v.
Proof.
  intros Ha Hb Oa Cb HF u v. unfold inner_product.
  assert (E := convert_some_fund _ _ _ _ HF).
  assert (M := convert_orthonormal a b F Ha Hb Oa HF).
  rewrite (csum_ext _ (fun j => csum (fun p => csum (fun q =>
     Cconj (u p) * v q * (overlap a b p j * overlap b a j q)) (bsize a)) (bsize a))).
  2:{ intros j Hj. rewrite !M by assumption. rewrite Cconj_csum, <- csum_scal_r.
      apply csum_ext; intros p Hp. rewrite <- csum_scal_l. apply csum_ext; intros q Hq.
      rewrite Cconj_mult, overlap_conj by assumption. ring. }
  rewrite csum_swap. apply csum_ext; intros p Hp. rewrite csum_swap.
  rewrite (csum_ext _ (fun q => Cconj (u p) * v q * cdelta p q)).
  - apply (csum_delta_r (fun q => Cconj (u p) * v q)); assumption.
  - intros q Hq. rewrite csum_scal_l, overlap_comp by assumption.
    rewrite explicit_orthonormal_sound by assumption. reflexivity.
Qed.

Lemma convert_linear a b F : bwf a -> bwf b -> explicit_orthonormal a ->
  convert same a b = Some F ->
  forall (p q : C) u v j, (j < bsize b)%nat ->
    F (fun k => p * u k + q * v k) j = p * F u j + q * F v j.
Proof.
  intros Ha Hb Oa HF p q u v j Hj.
  assert (M := convert_orthonormal a b F Ha Hb Oa HF).
  rewrite !M by assumption. rewrite <- !csum_scal_l, <- csum_plus. apply csum_ext; intros; ring.
Qed.

End Convert.
