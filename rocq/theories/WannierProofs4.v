(** The blocks of overlaps and the whole file. *)
From Coq Require Import Reals Ascii String.
From Verif Require Import OperatorProofs2 ZLib Csum DFT NumPy Interp Index IndexProofs AxesProofs Spec Basis SpecBasis BasisProofs BasisProofs2
  BasisProofs3 BasisFacts Operator SpecOperator OperatorProofs IndexSum Reduce Wavepacket SpecWavepacket WavepacketProofs WavepacketProofs2
  Localize SpecLocalize Wannier SpecWannier WannierProofs WannierProofs2 WannierProofs3.
Local Open Scope R_scope.
Local Open Scope C_scope.

Lemma flat_map_over_map {A B D} (f : B -> list D) (s : A -> B) l : flat_map f (map s l) = flat_map (fun x => f (s x)) l.
Proof. induction l as [|a l IH]; [reflexivity|]. cbn [map flat_map]. rewrite IH. reflexivity. Qed.

Lemma all_some_Forall2 {A} (h : list (option A)) g : Forall2 (fun o r => o = Some r) h g -> all_some h = Some g.
Proof. induction 1 as [|o r h g -> _ IH]; [reflexivity|]. cbn [all_some]. rewrite IH. reflexivity. Qed.

Lemma all_some_rows {A} (f : nat -> nat -> option A) g w h :
  (forall n m, (n < h)%nat -> (m < w)%nat -> f n m = Some (g n m)) ->
  all_some (flat_map (fun n => map (f n) (seq 0 w)) (seq 0 h)) = Some (flat_map (fun n => map (g n) (seq 0 w)) (seq 0 h)).
Proof.
  intros H. apply all_some_Forall2.
  assert (Q : forall l, (forall n, In n l -> (n < h)%nat) ->
    Forall2 (fun o r => o = Some r) (flat_map (fun n => map (f n) (seq 0 w)) l) (flat_map (fun n => map (g n) (seq 0 w)) l)).
  { induction l as [|n l IH]; intros Hl; [constructor|]. cbn [flat_map].
    apply Forall2_app; [|apply IH; intros; apply Hl; right; assumption].
    assert (Hn := Hl n (or_introl eq_refl)).
    assert (Q2 : forall l2, (forall m, In m l2 -> (m < w)%nat) -> Forall2 (fun o r => o = Some r) (map (f n) l2) (map (g n) l2)).
    { induction l2 as [|m l2 IH2]; intros Hl2; [constructor|]. cbn [map]. constructor.
      - apply H; [assumption|apply Hl2; left; reflexivity].
      - apply IH2. intros; apply Hl2; right; assumption. }
    apply Q2. intros m Hm. apply in_seq in Hm. lia. }
  apply Q. intros n Hn. apply in_seq in Hn. lia.
Qed.

Lemma index_from_one ns k : (1 <= k <= Z.of_nat ns)%Z -> python_index ns (k - 1) = Some (Z.to_nat (k - 1)).
Proof.
  intros H. unfold python_index. rewrite (proj2 (Z.leb_le 0 (k - 1))) by lia.
  rewrite (proj2 (Z.ltb_lt (k - 1) (Z.of_nat ns))) by lia. reflexivity.
Qed.

Section block.
  Variables (bands : basis) (ns : nat) (saxes : list basis) (data : ndarray) (ignore : list nat).
  Let nb := bsize bands.
  Let ss := map bsize saxes.
  Hypothesis (Hb : (0 < nb)%nat) (Hn : (length saxes <= 3)%nat)
    (Hd : nprod (ashape data) = (nb * ns * nprod ss)%nat)
    (Hi : Forall (fun a => (a < 3)%nat) ignore).

  Lemma bloch_state b k : (b < nb)%nat -> (1 <= k <= Z.of_nat ns)%Z ->
    exists v, get_bloch_state_vector ns (nprod ss)
      (select_row {| ashape := [nb; (nprod (ashape data) / nb)%nat]; aflat := aflat data |} b) (k - 1) = Some v /\
      forall t, v t = band_state ns (nprod ss) data (Z.to_nat (k - 1)) b t.
  Proof.
    intros Hb' Hk. unfold get_bloch_state_vector. rewrite (index_from_one ns k Hk).
    assert (E : (nprod (ashape data) / nb = ns * nprod ss)%nat).
    { rewrite Hd. replace (nb * ns * nprod ss)%nat with (ns * nprod ss * nb)%nat by ring. apply Nat.div_mul. lia. }
    rewrite E. unfold reshape, select_row. cbn [ashape tl nprod aflat].
    replace (ns * nprod ss * 1)%nat with (ns * (nprod ss * 1))%nat by ring. rewrite Nat.eqb_refl.
    eexists. split; [reflexivity|]. intros t. unfold at2, array2, band_state, row. cbn [aflat ashape nth].
    f_equal. ring_simplify. nia.
  Qed.

  Lemma block_values k0 k1 g : length g = 3%nat -> (1 <= k0 <= Z.of_nat ns)%Z -> (1 <= k1 <= Z.of_nat ns)%Z ->
    exists values, build_mmn_file_block bands ns ss data (map Z.of_nat ignore) (k0 :: k1 :: g) = Some (k0 :: k1 :: g, values) /\
      length values = (nb * nb)%nat /\
      forall m n, (m < nb)%nat -> (n < nb)%nat -> nth (n * nb + m) values 0 =
        csum (fun i => band_state ns (nprod ss) data (Z.to_nat (k1 - 1)) n (ravel ss (shifted ss (kept_axes ignore g) (unravel ss i))) *
          Cconj (band_state ns (nprod ss) data (Z.to_nat (k0 - 1)) m i)) (nprod ss).
  Proof.
    intros Hg H0 H1. destruct g as [|o0 [|o1 [|o2 [|]]]]; try discriminate. clear Hg.
    unfold build_mmn_file_block. rewrite ignore_kept by exact Hi.
    unfold wavepacket_list_into_iter. fold nb.
    rewrite (proj2 (Nat.eqb_neq nb 0)) by lia.
    assert (M : (nprod (ashape data) mod nb =? 0)%nat = true).
    { apply Nat.eqb_eq. rewrite Hd. replace (nb * ns * nprod ss)%nat with (ns * nprod ss * nb)%nat by ring. apply Nat.mod_mul. lia. }
    rewrite M. set (a := {| ashape := [nb; (nprod (ashape data) / nb)%nat]; aflat := aflat data |}).
    set (g := [o0; o1; o2]). set (kept := kept_axes ignore g).
    pose (value := fun n m => csum (fun i => band_state ns (nprod ss) data (Z.to_nat (k1 - 1)) n (ravel ss (shifted ss kept (unravel ss i))) *
          Cconj (band_state ns (nprod ss) data (Z.to_nat (k0 - 1)) m i)) (nprod ss)).
    rewrite flat_map_over_map.
    match goal with |- context [all_some ?l] => assert (R : all_some l = Some (flat_map (fun n => map (value n) (seq 0 nb)) (seq 0 nb))) end.
    { etransitivity; [|apply (all_some_rows (fun n m =>
        match get_bloch_state_vector ns (nprod ss) (select_row a n) (k1 - 1), get_bloch_state_vector ns (nprod ss) (select_row a m) (k0 - 1) with
        | Some vn, Some vm =>
            match get_offset_bloch_state ss kept vn with
            | Some r => Some (csum (fun i => r i * Cconj (vm i)) (nprod ss))
            | None => None
            end
        | _, _ => None
        end) value)].
      - f_equal. apply flat_map_ext. intros n. rewrite map_map. reflexivity.
      - intros n m Hn' Hm. destruct (bloch_state n k1 Hn' H1) as [vn [En Vn]]. destruct (bloch_state m k0 Hm H0) as [vm [Em Vm]].
        fold a in En, Em. rewrite En, Em.
        destruct (offset_state ss kept vn) as [r [Er Vr]].
        + unfold ss. rewrite map_length. exact Hn.
        + unfold kept, kept_axes. rewrite map_length, seq_length. reflexivity.
        + rewrite Er. f_equal. unfold value. apply csum_ext. intros i Hi'. rewrite Vr, Vn, Vm by assumption. reflexivity. }
    rewrite R. eexists. split; [reflexivity|]. split; [apply rows_length|].
    intros m n Hm Hn'. rewrite (Nat.mul_comm n nb), nth_rows by assumption. reflexivity.
  Qed.
End block.

Lemma kept_nth ignore g a : (a < length g)%nat ->
  nth a (kept_axes ignore g) 0%Z = if existsb (Nat.eqb a) ignore then 0%Z else nth a g 0%Z.
Proof.
  intros H. unfold kept_axes. set (f := fun a => if existsb (Nat.eqb a) ignore then 0%Z else nth a g 0%Z).
  rewrite (nth_indep _ 0%Z (f 0%nat)) by (rewrite map_length, seq_length; assumption).
  rewrite (map_nth f), seq_nth by assumption. reflexivity.
Qed.

Lemma wave_axes_nth l : forall g, (length l <= length g)%nat ->
  (forall a b, nth_error l a = Some b -> wave_axis b (nth a g 0%Z)) -> wave_axes l g.
Proof.
  induction l as [|b l IH]; intros [|g1 g] Hl H; cbn [length] in Hl; try lia; [exact I|exact I|].
  split; [apply (H 0%nat b eq_refl)|]. apply IH; [lia|]. intros a c E. apply (H (S a) c E).
Qed.

Lemma kept_wave_axes ignore saxes g : momentum_or_ignored ignore saxes -> (length saxes <= length g)%nat ->
  wave_axes saxes (kept_axes ignore g).
Proof.
  intros H Hl. apply wave_axes_nth; [unfold kept_axes; rewrite map_length, seq_length; exact Hl|].
  intros a b E. assert (La : (a < length saxes)%nat) by (apply nth_error_Some; congruence).
  rewrite kept_nth by lia. destruct (H a La) as [I|[n En]].
  - right. rewrite (proj2 (existsb_exists (Nat.eqb a) ignore)); [reflexivity|]. exists a. split; [exact I|apply Nat.eqb_refl].
  - left. exists n. congruence.
Qed.

(** One block of the file. *)
Lemma mmn_block bands ns saxes data ignore e :
  (0 < bsize bands)%nat -> (length saxes <= 3)%nat -> Forall (fun a => (a < 3)%nat) ignore ->
  nprod (ashape data) = (bsize bands * ns * bsize (BTuple saxes))%nat ->
  Forall bwf saxes -> explicit_orthonormal (BTuple saxes) -> momentum_or_ignored ignore saxes -> neighbour ns e ->
  exists block, build_mmn_file_block bands ns (map bsize saxes) data (map Z.of_nat ignore) e = Some block /\
    overlap_block (bsize bands) saxes ns data ignore e block.
Proof.
  intros Hb Hn Hi Hd Hw Ho Hm [k0 [k1 [g [-> [Hg [H0 H1]]]]]].
  destruct (block_values bands ns saxes data ignore Hb Hn Hd Hi k0 k1 g Hg H0 H1) as [values [E [L V]]].
  eexists. split; [exact E|]. split; [reflexivity|]. split; [exact L|]. cbn [snd skipn nth].
  intros m n Hm' Hn'. rewrite V by assumption.
  unfold bloch_overlap. symmetry. apply (offset_overlap saxes); try assumption.
  apply kept_wave_axes; [assumption|lia].
Qed.

(** ** Properties of the overlaps *)
Lemma band_inner saxes (W : bwf (BTuple saxes)) (Ho : explicit_orthonormal (BTuple saxes)) u v :
  csum (fun x => Cconj (amplitude (BTuple saxes) u x) * amplitude (BTuple saxes) v x) (bfund (BTuple saxes)) =
  inner_product (bsize (BTuple saxes)) u v.
Proof.
  assert (O := explicit_orthonormal_sound _ W Ho). unfold inner_product.
  transitivity (csum (fun x => csum (fun i => csum (fun k => Cconj (u i) * v k *
     (Cconj (bstate (BTuple saxes) i x) * bstate (BTuple saxes) k x))
     (bsize (BTuple saxes))) (bsize (BTuple saxes))) (bfund (BTuple saxes))).
  - apply csum_ext. intros x Hx. unfold amplitude at 1. rewrite Cconj_csum, <- csum_scal_r.
    apply csum_ext. intros i Hi. unfold amplitude. rewrite <- !csum_scal_l. apply csum_ext. intros k Hk.
    rewrite Cconj_mult. ring.
  - rewrite csum_swap. apply csum_ext. intros i Hi. rewrite csum_swap.
    transitivity (csum (fun k => Cconj (u i) * v k * cdelta i k) (bsize (BTuple saxes))).
    + apply csum_ext. intros k Hk. rewrite csum_scal_l. f_equal. apply (O i k Hi Hk).
    + rewrite csum_delta_r by exact Hi. reflexivity.
Qed.

Lemma lattice_wave_zero F : forall g x, Forall (fun z => z = 0%Z) g -> lattice_wave F g x = 1.
Proof.
  induction F as [|n F IH]; intros [|g1 g] [|x1 x] H; cbn [lattice_wave]; try reflexivity.
  inversion H; subst. rewrite Z.mul_0_l, omega_0, IH by assumption. ring.
Qed.

Lemma overlap_same saxes ns data s m n : bwf (BTuple saxes) -> explicit_orthonormal (BTuple saxes) ->
  bloch_overlap saxes ns data [0%Z; 0%Z; 0%Z] s m s n =
  inner_product (bsize (BTuple saxes)) (band_state ns (bsize (BTuple saxes)) data s m) (band_state ns (bsize (BTuple saxes)) data s n).
Proof.
  intros W Ho. unfold bloch_overlap. rewrite <- (band_inner saxes W Ho). apply csum_ext. intros x _. f_equal.
  rewrite lattice_wave_zero by (cbn; repeat constructor). ring.
Qed.

Lemma overlap_reverse saxes ns data g s m t n :
  bloch_overlap saxes ns data (map Z.opp g) t n s m = Cconj (bloch_overlap saxes ns data g s m t n).
Proof.
  unfold bloch_overlap. rewrite Cconj_csum. apply csum_ext. intros x _.
  rewrite !Cconj_mult, lattice_wave_conj, Cconj_conj. ring.
Qed.

Lemma kept_opp ignore g : kept_axes ignore (map Z.opp g) = map Z.opp (kept_axes ignore g).
Proof.
  unfold kept_axes. rewrite map_length, map_map. apply map_ext_in. intros a Ha.
  destruct (existsb _ _); [reflexivity|]. change 0%Z with (- 0)%Z at 1. apply (map_nth Z.opp).
Qed.
Lemma kept_zero ignore : kept_axes ignore [0%Z; 0%Z; 0%Z] = [0%Z; 0%Z; 0%Z].
Proof. unfold kept_axes. cbn [length seq map nth]. destruct (existsb _ ignore), (existsb _ ignore), (existsb _ ignore); reflexivity. Qed.

(** ** The whole file *)
Lemma mmn_file bands ns saxes data ignore n_tot entries file :
  (0 < bsize bands)%nat -> (length saxes <= 3)%nat -> Forall (fun a => (a < 3)%nat) ignore ->
  nprod (ashape data) = (bsize bands * ns * bsize (BTuple saxes))%nat ->
  Forall bwf saxes -> explicit_orthonormal (BTuple saxes) -> momentum_or_ignored ignore saxes ->
  nnkp_file n_tot entries file -> Forall (neighbour ns) entries ->
  exists blocks, build_mmn_file bands ns (map bsize saxes) data (map Z.of_nat ignore) file = Some (bsize bands, ns, n_tot, blocks) /\
    Forall2 (overlap_block (bsize bands) saxes ns data ignore) entries blocks.
Proof.
  intros Hb Hn Hi Hd Hw Ho Hm Hf He. unfold build_mmn_file. rewrite (parse_nnkp n_tot entries file Hf).
  2:{ eapply Forall_impl; [|exact He]. intros e [k0 [k1 [g [-> [Hg _]]]]]. cbn. rewrite Hg. reflexivity. }
  assert (X : exists blocks, Forall2 (fun e block => build_mmn_file_block bands ns (map bsize saxes) data (map Z.of_nat ignore) e = Some block) entries blocks /\
    Forall2 (overlap_block (bsize bands) saxes ns data ignore) entries blocks).
  { clear Hf. induction He as [|e entries H _ [blocks [B1 B2]]]; [exists []; split; constructor|].
    destruct (mmn_block bands ns saxes data ignore e Hb Hn Hi Hd Hw Ho Hm H) as [block [E V]].
    exists (block :: blocks). split; constructor; assumption. }
  destruct X as [blocks [B1 B2]]. exists blocks. rewrite (all_some_map _ _ _ B1). split; [reflexivity|exact B2].
Qed.

(** ** Conversion before the overlaps *)

(** The states of [a] lie in the span of [b]. *)
Definition keeps (b a : basis) : Prop := forall k x, (k < bsize a)%nat -> (x < bfund a)%nat ->
  csum (fun j => bstate b j x * overlap b a j k) (bsize b) = bstate a k x.

Lemma keeps_complete b a : complete b -> bfund a = bfund b -> keeps b a.
Proof.
  intros Cb E k x Hk Hx.
  transitivity (csum (fun j => csum (fun y => bstate b j x * Cconj (bstate b j y) * bstate a k y) (bfund a)) (bsize b)).
  - apply csum_ext. intros j Hj. unfold overlap. rewrite <- csum_scal_l. apply csum_ext. intros y _. ring.
  - rewrite csum_swap. transitivity (csum (fun y => cdelta x y * bstate a k y) (bfund a)).
    + apply csum_ext. intros y Hy. rewrite csum_scal_r, Cb by lia. reflexivity.
    + apply csum_delta_l. assumption.
Qed.

Lemma keeps_refl b : orthonormal b -> keeps b b.
Proof.
  intros O k x Hk Hx. transitivity (csum (fun j => bstate b j x * cdelta j k) (bsize b)).
  - apply csum_ext. intros j Hj. f_equal. apply O; assumption.
  - apply (csum_delta_r' (fun j => bstate b j x)). assumption.
Qed.

Lemma bstate_tuple_cons b l j x : bstate (BTuple (b :: l)) j x =
  bstate b (j / nprod (map bsize l)) (x / nprod (map bfund l)) *
  bstate (BTuple l) (j mod nprod (map bsize l)) (x mod nprod (map bfund l)).
Proof. cbn [bstate map product_states]. rewrite !map_map. reflexivity. Qed.

Lemma keeps_tuple la lb : Forall2 (fun a b => bwf a /\ bfund a = bfund b /\ keeps b a) la lb -> keeps (BTuple lb) (BTuple la).
Proof.
  induction 1 as [|a b la lb [Wa [E K]] H IH]; intros k x Hk Hx.
  - cbn in Hk, Hx. assert (k = 0%nat) by lia. assert (x = 0%nat) by lia. subst. cbn [bsize map nprod csum].
    rewrite overlap_tuple_nil. cbn [bstate map product_states]. ring.
  - assert (El : map bfund la = map bfund lb) by (clear - H; induction H as [|? ? ? ? [_ [E _]]]; cbn; congruence).
    assert (Wl : bwf (BTuple la)) by (apply bwf_tuple; clear - H; induction H as [|? ? ? ? [W _]]; constructor; assumption).
    assert (P := bsize_pos _ Wl). assert (Q := bfund_pos _ Wl). cbn [bsize bfund] in P, Q.
    cbn [bsize bfund map nprod] in Hk, Hx.
    set (nl := nprod (map bsize lb)). set (Nl := nprod (map bfund la)) in *. set (kl := nprod (map bsize la)) in *.
    pose (g := fun j1 j2 => (bstate b j1 (x / Nl) * overlap b a j1 (k / kl)) *
       (bstate (BTuple lb) j2 (x mod Nl) * overlap (BTuple lb) (BTuple la) j2 (k mod kl))).
    change (bsize (BTuple (b :: lb))) with (bsize b * nl)%nat.
    rewrite (csum_ext _ (fun j => g (j / nl)%nat (j mod nl)%nat)).
    2:{ intros j Hj. unfold g. rewrite bstate_tuple_cons, overlap_tuple_cons by assumption.
        fold nl kl. rewrite <- El. fold Nl. ring. }
    rewrite csum_div_mod. unfold g.
    rewrite (csum_prod (fun j1 => bstate b j1 (x / Nl) * overlap b a j1 (k / kl))).
    rewrite K by (apply Nat.div_lt_upper_bound; nia).
    change nl with (bsize (BTuple lb)).
    rewrite IH; [|cbn [bsize]; apply Nat.mod_upper_bound; fold kl; lia|cbn [bfund]; apply Nat.mod_upper_bound; fold Nl; lia].
    rewrite bstate_tuple_cons. reflexivity.
Qed.

Lemma convert_keeps same a b F : identity_test same -> bwf a -> bwf b -> explicit_orthonormal a -> keeps b a ->
  convert same a b = Some F -> forall v x, (x < bfund b)%nat -> amplitude b (F v) x = amplitude a v x.
Proof.
  intros Hs Ha Hb Oa K HF v x Hx. assert (E := convert_some_fund _ _ _ _ HF). unfold amplitude.
  transitivity (csum (fun j => csum (fun k => v k * (bstate b j x * overlap b a j k)) (bsize a)) (bsize b)).
  - apply csum_ext. intros j Hj. rewrite (convert_orthonormal same Hs a b F Ha Hb Oa HF v j Hj), <- csum_scal_r.
    apply csum_ext. intros k _. ring.
  - rewrite csum_swap. apply csum_ext. intros k Hk. rewrite csum_scal_l, K by lia. reflexivity.
Qed.

Lemma converted_axes_nth ignore saxes a : nth_error (converted_axes ignore saxes) a =
  option_map (fun b => if existsb (Z.eqb (Z.of_nat a)) ignore then b else BFundT (bfund b)) (nth_error saxes a).
Proof.
  unfold converted_axes. rewrite nth_error_map.
  assert (G : forall s, nth_error (combine (seq s (length saxes)) saxes) a = option_map (fun b => ((s + a)%nat, b)) (nth_error saxes a)).
  { revert a. induction saxes as [|b l IH]; intros a s; [destruct a; reflexivity|].
    destruct a as [|a]; cbn [length seq combine nth_error option_map]; [rewrite Nat.add_0_r; reflexivity|].
    rewrite IH. destruct (nth_error l a); cbn [option_map]; [|reflexivity]. do 2 f_equal. lia. }
  rewrite G. destruct (nth_error saxes a); reflexivity.
Qed.

Lemma Forall2_nth_error {A B} (P : A -> B -> Prop) l l' : length l = length l' ->
  (forall a x y, nth_error l a = Some x -> nth_error l' a = Some y -> P x y) -> Forall2 P l l'.
Proof.
  revert l'. induction l as [|x l IH]; intros [|y l'] L H; try discriminate; constructor.
  - apply (H 0%nat); reflexivity.
  - apply IH; [cbn in L; lia|]. intros a u v Hu Hv. apply (H (S a) u v Hu Hv).
Qed.

Lemma member_z ignore a : existsb (Z.eqb (Z.of_nat a)) (map Z.of_nat ignore) = existsb (Nat.eqb a) ignore.
Proof.
  induction ignore as [|i l IH]; [reflexivity|]. cbn [map existsb]. rewrite IH. f_equal.
  destruct (Nat.eqb_spec a i) as [->|N]; [apply Z.eqb_refl|]. apply Z.eqb_neq. lia.
Qed.

Section written.
  Variables (same : basis -> basis -> bool) (bands : basis) (ns : nat) (saxes : list basis) (data : ndarray) (ignore : list nat).
  Hypothesis (Hsame : identity_test same) (Hw : Forall bwf saxes) (Ho : explicit_orthonormal (BTuple saxes)).
  Let caxes := converted_axes (map Z.of_nat ignore) saxes.

  Lemma caxes_length : length caxes = length saxes.
  Proof using. unfold caxes, converted_axes. rewrite map_length, combine_length, seq_length. lia. Qed.

  Lemma caxes_pairs (P : basis -> basis -> Prop) :
    (forall b, In b saxes -> P b b) -> (forall b, In b saxes -> P b (BFundT (bfund b))) -> Forall2 P saxes caxes.
  Proof using.
    intros H1 H2. apply Forall2_nth_error; [symmetry; apply caxes_length|]. intros a x y Hx Hy.
    unfold caxes in Hy. rewrite converted_axes_nth, Hx in Hy. cbn [option_map] in Hy. apply nth_error_In in Hx.
    destruct (existsb _ _); injection Hy as <-; auto.
  Qed.

  Lemma caxes_wf : Forall bwf caxes.
  Proof using Hw.
    assert (H := caxes_pairs (fun _ b => bwf b)). rewrite Forall_forall in Hw.
    assert (F : Forall2 (fun _ b : basis => bwf b) saxes caxes).
    { apply H; [apply Hw|]. intros b Hb. cbn [bwf]. apply bfund_pos, Hw, Hb. }
    clear - F. induction F; constructor; assumption.
  Qed.
  Lemma caxes_orthonormal : explicit_orthonormal (BTuple caxes).
  Proof using Ho.
    apply explicit_orthonormal_tuple. apply explicit_orthonormal_tuple in Ho. rewrite Forall_forall in Ho.
    assert (F : Forall2 (fun _ b : basis => explicit_orthonormal b) saxes caxes).
    { apply caxes_pairs; [apply Ho|]. intros b Hb. exact I. }
    clear - F. induction F; constructor; assumption.
  Qed.
  Lemma caxes_fund : map bfund caxes = map bfund saxes.
  Proof using.
    assert (F : Forall2 (fun a b => bfund b = bfund a) saxes caxes) by (apply caxes_pairs; reflexivity).
    clear - F. induction F; cbn; congruence.
  Qed.
  Lemma caxes_compatible : compatible (BTuple saxes) (BTuple caxes).
  Proof using.
    constructor; [cbn [bfund]; rewrite caxes_fund; reflexivity|].
    apply caxes_pairs; [intros; apply compatible_refl|].
    intros b _. destruct b; apply compatible_other; try reflexivity; intros ? ? [? ?]; discriminate.
  Qed.
  Lemma caxes_keeps : keeps (BTuple caxes) (BTuple saxes).
  Proof using Hw Ho.
    apply keeps_tuple. rewrite Forall_forall in Hw. apply explicit_orthonormal_tuple in Ho. rewrite Forall_forall in Ho.
    apply caxes_pairs; intros b Hb; (split; [apply Hw, Hb|]); split; try reflexivity.
    - apply keeps_refl, explicit_orthonormal_sound; auto.
    - apply keeps_complete; [|reflexivity]. apply full_complete; [cbn; apply bfund_pos, Hw, Hb|reflexivity].
  Qed.
  Lemma caxes_momentum : momentum_or_ignored ignore caxes.
  Proof using.
    intros a Ha. destruct (nth_error caxes a) as [c|] eqn:E; [|apply nth_error_None in E; lia].
    unfold caxes in E. rewrite converted_axes_nth, member_z in E.
    destruct (existsb (Nat.eqb a) ignore) eqn:X.
    - left. apply existsb_exists in X. destruct X as [i [Hi Ei]]. apply Nat.eqb_eq in Ei. subst. exact Hi.
    - right. destruct (nth_error saxes a) as [b|]; [|discriminate]. injection E as <-. eauto.
  Qed.

  Lemma written_overlaps n_tot entries file :
    (0 < bsize bands)%nat -> (length saxes <= 3)%nat -> Forall (fun a => (a < 3)%nat) ignore ->
    nprod (ashape data) = (bsize bands * ns * bsize (BTuple saxes))%nat ->
    nnkp_file n_tot entries file -> Forall (neighbour ns) entries ->
    exists blocks, write_mmn_file same bands ns saxes data (map Z.of_nat ignore) file = Some (bsize bands, ns, n_tot, blocks) /\
      Forall2 (overlap_block (bsize bands) saxes ns data ignore) entries blocks.
  Proof using Hsame Hw Ho.
    intros Hb Hn Hi Hd Hf He. unfold write_mmn_file. fold caxes.
    rewrite reshape_some by (rewrite Hd; cbn [nprod]; ring).
    destruct (proj2 (convert_some_iff same _ _) caxes_compatible) as [F HF]. rewrite HF.
    set (N := bsize (BTuple saxes)). set (N' := bsize (BTuple caxes)). set (d := {| ashape := _ |}).
    set (cdata := ravel_array _).
    destruct (mmn_file bands ns caxes cdata ignore n_tot entries file) as [blocks [E B]]; try assumption.
    - rewrite caxes_length. assumption.
    - unfold cdata. cbn [ravel_array array2 ashape nprod]. fold N'. ring.
    - apply caxes_wf.
    - apply caxes_orthonormal.
    - apply caxes_momentum.
    - exists blocks. split; [exact E|]. clear E.
      assert (A : forall s b x, (s < ns)%nat -> (b < bsize bands)%nat -> (x < bfund (BTuple saxes))%nat ->
        amplitude (BTuple caxes) (band_state ns N' cdata s b) x = amplitude (BTuple saxes) (band_state ns N data s b) x).
      { intros s b x Hs Hb' Hx.
        rewrite <- (convert_keeps same (BTuple saxes) (BTuple caxes) F Hsame); try assumption.
        - unfold amplitude. apply csum_ext. intros k Hk. f_equal. unfold band_state at 1, row, cdata. cbn [ravel_array aflat].
          fold N' in Hk |- *. rewrite array2_flat by nia. reflexivity.
        - apply bwf_tuple, Hw.
        - apply bwf_tuple, caxes_wf.
        - apply caxes_keeps.
        - cbn [bfund]. rewrite caxes_fund. exact Hx. }
      clear Hf. induction B as [|e block entries blocks [B1 [B2 B3]] _ IH]; [constructor|].
      destruct (Forall_inv He) as [k0 [k1 [g [Ee [Hg [H0 H1]]]]]]. constructor; [|apply IH, (Forall_inv_tail He)].
      split; [exact B1|]. split; [exact B2|]. intros m n Hm Hn'. rewrite B3 by assumption.
      unfold bloch_overlap. rewrite Ee. cbn [nth skipn]. cbn [bfund]. rewrite caxes_fund. apply csum_ext. intros x Hx.
      change (nprod (map bfund saxes)) with (bfund (BTuple saxes)) in Hx. fold N N'.
      rewrite !A by (assumption || lia). reflexivity.
  Qed.
End written.
