(** Lists of wavepackets (C63). *)
From Coq Require Import Reals Psatz.
From Verif Require Import ZLib Csum DFT NumPy Interp Index IndexProofs AxesProofs Spec InterpProofs Basis SpecBasis BasisProofs Operator
  SpecOperator OperatorProofs Reduce ReduceProofs IndexSum Wavepacket SpecWavepacket Localize SpecLocalize LocalizeProofs3 LocalizeFacts2.
Local Open Scope nat_scope.

Section Lists.
  Context (bands : basis) (n : nat) (data : ndarray) (Hb : 0 < bsize bands) (Hd : nprod (ashape data) = bsize bands * n).

  Lemma rows_div : nprod (ashape data) / bsize bands = n.
  Proof. rewrite Hd, Nat.mul_comm. apply Nat.div_mul. lia. Qed.
  Lemma rows_mod : (nprod (ashape data) mod bsize bands =? 0) = true.
  Proof. rewrite Hd, Nat.mul_comm, Nat.mod_mul by lia. reflexivity. Qed.
  Lemma bands_nz : (bsize bands =? 0) = false.
  Proof. apply Nat.eqb_neq. lia. Qed.

  Lemma get_wavepacket_spec idx :
    match get_wavepacket bands data idx with
    | Some w => ashape w = [n] /\
        ((0 <= idx < Z.of_nat (bsize bands))%Z /\ (forall k, aflat w k = row n (aflat data) (Z.to_nat idx) k) \/
         (- Z.of_nat (bsize bands) <= idx < 0)%Z /\ (forall k, aflat w k = row n (aflat data) (Z.to_nat (idx + Z.of_nat (bsize bands))) k))
    | None => (idx < - Z.of_nat (bsize bands) \/ Z.of_nat (bsize bands) <= idx)%Z
    end.
  Proof.
    unfold get_wavepacket. rewrite bands_nz, rows_mod, rows_div. unfold python_index.
    destruct (Z.leb_spec 0 idx); destruct (Z.ltb_spec idx (Z.of_nat (bsize bands))); cbn [andb].
    - split; [reflexivity|]. left. split; [lia|]. intros k. unfold select_row, row. cbn [ashape aflat tl nprod]. rewrite Nat.mul_1_r. reflexivity.
    - destruct (Z.leb_spec (- Z.of_nat (bsize bands)) idx); destruct (Z.ltb_spec idx 0); cbn [andb]; try lia.
    - destruct (Z.leb_spec (- Z.of_nat (bsize bands)) idx); destruct (Z.ltb_spec idx 0); cbn [andb]; try lia.
      split; [reflexivity|]. right. split; [lia|]. intros k. unfold select_row, row. cbn [ashape aflat tl nprod]. rewrite Nat.mul_1_r. reflexivity.
    - destruct (Z.leb_spec (- Z.of_nat (bsize bands)) idx); destruct (Z.ltb_spec idx 0); cbn [andb]; try lia.
  Qed.

  Lemma into_iter_spec : exists l, wavepacket_list_into_iter bands data = Some l /\ length l = bsize bands /\
    forall b w, nth_error l b = Some w -> ashape w = [n] /\ forall k, aflat w k = row n (aflat data) b k.
  Proof.
    unfold wavepacket_list_into_iter. rewrite bands_nz, rows_mod, rows_div. eexists. split; [reflexivity|].
    split; [rewrite map_length, seq_length; reflexivity|]. intros b w Hw.
    rewrite nth_error_map in Hw. destruct (nth_error (seq 0 (bsize bands)) b) as [i|] eqn:E; [|discriminate].
    cbn [option_map] in Hw. injection Hw as <-.
    assert (Hlt : b < length (seq 0 (bsize bands))) by (apply nth_error_Some; rewrite E; discriminate).
    rewrite seq_length in Hlt.
    assert (i = b). { apply (nth_error_nth _ _ 0) in E. rewrite seq_nth in E by exact Hlt. lia. } subst i.
    split; [reflexivity|]. intros k. unfold select_row, row. cbn [ashape aflat tl nprod]. rewrite Nat.mul_1_r. reflexivity.
  Qed.

  (** Splitting into wavepackets and collecting the list again. *)
  Lemma iter_round_trip : exists l out, wavepacket_list_into_iter bands data = Some l /\
    as_wavepacket_list (AList l) = Some (bsize bands, out) /\ ashape out = [bsize bands * n] /\
    forall t, t < bsize bands * n -> aflat out t = aflat data t.
  Proof.
    destruct into_iter_spec as [l [E [L V]]]. exists l.
    assert (C : forall a l', l = a :: l' -> forallb (fun b => same_shape (ashape b) (ashape a)) l = true).
    { intros a l' El. apply forallb_forall. intros b Hin. destruct (In_nth_error l b Hin) as [i Hi]. destruct (V i b Hi) as [Sb _].
      assert (Ha : nth_error l 0 = Some a) by (rewrite El; reflexivity). destruct (V 0 a Ha) as [Sa _].
      unfold same_shape. rewrite Sb, Sa. destruct (list_eq_dec Nat.eq_dec [n] [n]) as [|N]; [reflexivity|congruence]. }
    destruct l as [|a l']; [cbn in L; lia|]. cbn [as_wavepacket_list]. specialize (C a l' eq_refl). rewrite C.
    eexists. split; [exact E|]. destruct (V 0 a eq_refl) as [Sa _]. rewrite Sa, L. cbn [nprod]. rewrite Nat.mul_1_r.
    split; [reflexivity|]. split; [reflexivity|]. intros t Ht. cbn [aflat].
    assert (Hn : n <> 0) by nia.
    assert (Hq : t / n < bsize bands) by (apply Nat.div_lt_upper_bound; lia).
    destruct (nth_error (a :: l') (t / n)) as [w|] eqn:Ew.
    - rewrite (nth_error_nth _ _ a Ew). destruct (V _ _ Ew) as [_ Vw]. rewrite Vw. unfold row. f_equal.
      rewrite (Nat.div_mod t n Hn) at 3. lia.
    - exfalso. apply nth_error_None in Ew. lia.
  Qed.
End Lists.

(** A one-shot iterator loses its first element. *)
Lemma iterator_drops a l : as_wavepacket_list (AnIterator (a :: l)) =
  match l with [] => Some (0, {| ashape := [0]; aflat := fun _ => RtoC 0%R |}) | _ => as_wavepacket_list (AList l) end.
Proof. destruct l; reflexivity. Qed.

Lemma divisible_spec old : forall new, divisible old new = true <->
  length old = length new /\ forall ax, ax < length old ->
    0 < nth ax new 0 /\ exists p, 0 < p /\ nth ax old 0 = p * nth ax new 0.
Proof.
  induction old as [|a old IH]; intros [|b new]; cbn [divisible length].
  - split; [intros _; split; [reflexivity|intros; lia]|reflexivity].
  - split; [discriminate|]. intros [H _]. discriminate.
  - split; [discriminate|]. intros [H _]. discriminate.
  - rewrite !andb_true_iff, !negb_true_iff, !Nat.eqb_neq, Nat.eqb_eq, IH. split.
    + intros [[[H1 H2] H3] [H4 H5]]. split; [lia|]. intros [|ax] Hax; cbn [nth]; [|apply H5; lia].
      split; [lia|]. exists (a / b). split; lia.
    + intros [H1 H2]. destruct (H2 0 ltac:(lia)) as [H3 [p [H4 H5]]]. cbn [nth] in H3, H5.
      assert (E : a / b = p) by (rewrite H5; apply Nat.div_mul; lia).
      split; [rewrite E; split; [split; lia|lia]|]. split; [lia|]. intros ax Hax. apply (H2 (S ax)). lia.
Qed.

Lemma freq_multiple n p i : 0 < n -> 0 < p -> i < n -> freq (p * n) (i * p) = (Z.of_nat p * freq n i)%Z.
Proof.
  intros Hn Hp Hi. unfold freq. rewrite !Nat2Z.inj_mul.
  assert (0 < Z.of_nat p)%Z by lia. assert (Z.of_nat i < Z.of_nat n)%Z by lia.
  destruct (Z.leb_spec (Z.of_nat i * Z.of_nat p) ((Z.of_nat p * Z.of_nat n - 1) / 2)) as [A|A];
  destruct (Z.leb_spec (Z.of_nat i) ((Z.of_nat n - 1) / 2)) as [B|B]; try ring; exfalso.
  - assert (2 * (Z.of_nat i * Z.of_nat p) <= Z.of_nat p * Z.of_nat n - 1)%Z by (Z.div_mod_to_equations; lia).
    assert (Z.of_nat n <= 2 * Z.of_nat i)%Z by (Z.div_mod_to_equations; lia). nia.
  - assert (Z.of_nat p * Z.of_nat n <= 2 * (Z.of_nat i * Z.of_nat p))%Z by (Z.div_mod_to_equations; lia).
    assert (2 * Z.of_nat i <= Z.of_nat n - 1)%Z by (Z.div_mod_to_equations; lia). nia.
Qed.

(** The samples kept have the same fractions on both grids. *)
Lemma fractions_subsample old : forall new i, divisible old new = true -> in_shape i new ->
  fractions old (map2 (fun x p => x * p) i (map2 Nat.div old new)) = fractions new i.
Proof.
  induction old as [|a old IH]; intros [|b new] i Hdv Hi; cbn [divisible] in Hdv; try discriminate.
  - inversion Hi. reflexivity.
  - inversion Hi as [|x ? i' ? Hx Hi']; subst. rewrite !andb_true_iff, !negb_true_iff, !Nat.eqb_neq, Nat.eqb_eq in Hdv.
    destruct Hdv as [[[H1 H2] H3] H4]. cbn [map2 fractions]. rewrite IH by assumption. f_equal.
    set (p := a / b) in *. rewrite <- H3. rewrite freq_multiple by lia. rewrite mult_IZR, mult_INR, <- INR_IZR_INZ.
    field. split; apply not_0_INR; lia.
Qed.
Lemma subsample_in old : forall new i, divisible old new = true -> in_shape i new ->
  in_shape (map2 (fun x p => x * p) i (map2 Nat.div old new)) old.
Proof.
  induction old as [|a old IH]; intros [|b new] i Hdv Hi; cbn [divisible] in Hdv; try discriminate.
  - inversion Hi. constructor.
  - inversion Hi as [|x ? i' ? Hx Hi']; subst. rewrite !andb_true_iff, !negb_true_iff, !Nat.eqb_neq, Nat.eqb_eq in Hdv.
    destruct Hdv as [[[H1 H2] H3] H4]. cbn [map2]. constructor; [|apply IH; assumption]. nia.
Qed.

Lemma to_shape_spec old new n data : nprod (ashape data) = nprod old * n -> divisible old new = true ->
  exists out, convert_wavepacket_to_shape old new n data = Some out /\ ashape out = [nprod new; n] /\
    forall i, in_shape i new -> exists j, in_shape j old /\ fractions old j = fractions new i /\
      forall k, k < n -> row n (aflat out) (ravel new i) k = row n (aflat data) (ravel old j) k.
Proof.
  intros Hd Hdv. unfold convert_wavepacket_to_shape. rewrite Hdv, reshape_some by (rewrite Hd; cbn [nprod]; lia).
  eexists. split; [reflexivity|]. split; [reflexivity|]. intros i Hi.
  exists (map2 (fun x p => x * p) i (map2 Nat.div old new)). split; [apply subsample_in; assumption|].
  split; [apply fractions_subsample; assumption|]. intros k Hk. unfold row at 1. rewrite array2_flat by exact Hk.
  rewrite unravel_ravel by exact Hi. reflexivity.
Qed.

(** Distinct samples have distinct fractions, so the sample [j] above is the only one. *)
Lemma fractions_inj ls : forall s s', in_shape s ls -> in_shape s' ls -> fractions ls s = fractions ls s' -> s = s'.
Proof.
  induction ls as [|n ls IH]; intros s s' Hs Hs' E; inversion Hs as [|i ? t ? Hi Ht]; inversion Hs' as [|i' ? t' ? Hi' Ht']; subst; [reflexivity|].
  cbn [fractions] in E. injection E as E1 E2. f_equal; [|apply IH; assumption].
  assert (Hn : INR n <> 0%R) by (apply not_0_INR; lia).
  assert (Ef : freq n i = freq n i').
  { apply eq_IZR. apply (Rmult_eq_reg_r (/ INR n)%R); [exact E1|]. apply Rinv_neq_0_compat. exact Hn. }
  apply (is_freq_inj n i i' (freq n i)); [exact Hi|exact Hi'|apply freq_is_freq; exact Hi|rewrite Ef; apply freq_is_freq; exact Hi'].
Qed.

Lemma to_shape_raises old new n data :
  (length old <> length new \/ exists ax, ax < length old /\ forall p, nth ax old 0 <> p * nth ax new 0) ->
  convert_wavepacket_to_shape old new n data = None.
Proof.
  intros H. unfold convert_wavepacket_to_shape. destruct (divisible old new) eqn:E; [|reflexivity]. exfalso.
  apply divisible_spec in E. destruct E as [E1 E2]. destruct H as [H|[ax [Ha Hp]]]; [auto|].
  destruct (E2 ax Ha) as [_ [p [_ Ep]]]. exact (Hp p Ep).
Qed.

(** The result is labelled with a position-type list basis, whose fractions are not those of the
    samples. *)
Lemma to_shape_label_refuted same : identity_test same ->
  exists out fr, convert_wavepacket_to_shape [6] [3] 1 (ones [6]) = Some out /\
    sample_fractions same (map BFund [3]) = Some fr /\
    fr 0 1 <> nth 0 (fractions [3] [1]) 0%R.
Proof.
  intros Hs. destruct (sample_fractions_position_refuted same Hs) as [fr [E H]].
  eexists. exists fr. split; [reflexivity|]. split; [exact E|].
  cbn [fractions nth]. replace (INR 3) with 3%R by (cbn; lra). exact H.
Qed.
