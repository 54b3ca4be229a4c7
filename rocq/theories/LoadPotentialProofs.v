(** Potentials read from files (C127). *)
From Coq Require Import Reals Lia.
From Verif Require Import ZLib Csum DFT NumPy Index IndexProofs Basis Operator Hamiltonian VolumeBasis LoadPotential SpecLoadPotential.
Local Open Scope nat_scope.

Lemma every_some {A} (l : list (option A)) : forall r, every l = Some r <-> l = map Some r.
Proof.
  induction l as [|[x|] l IH]; intros [|y r]; cbn; try (split; intros; discriminate).
  - split; reflexivity.
  - destruct (every l); split; intros; discriminate.
  - destruct (every l) as [r'|] eqn:E; split; intros H; try discriminate.
    + injection H as -> ->. f_equal. apply IH. reflexivity.
    + injection H as -> H. apply IH in H. injection H as ->. reflexivity.
    + injection H as -> H. apply IH in H. discriminate.
Qed.

Lemma concat_nth (m : nat) (ll : list (list R)) (i r : nat) : (forall l, In l ll -> length l = m) -> i < length ll -> r < m ->
  nth (i * m + r) (concat ll) 0%R = nth r (nth i ll []) 0%R.
Proof.
  revert i. induction ll as [|l ll IH]; intros i H Hi Hr; cbn in Hi; [lia|]. assert (L := H l (or_introl eq_refl)). cbn [concat].
  destruct i as [|i]; [rewrite app_nth1 by lia; reflexivity|].
  rewrite app_nth2 by (cbn; lia). replace (S i * m + r - length l) with (i * m + r) by (cbn; lia). cbn [nth]. apply IH; [intros; apply H; right; assumption|lia|exact Hr].
Qed.
Lemma concat_size (m : nat) (ll : list (list R)) : (forall l, In l ll -> length l = m) -> length (concat ll) = length ll * m.
Proof.
  induction ll as [|l ll IH]; intros H; [reflexivity|]. cbn [concat length Nat.mul]. rewrite app_length, (H l (or_introl eq_refl)), IH; [reflexivity|]. intros; apply H; right; assumption.
Qed.

(** What [np.array] gives for a list. *)
Lemma np_list l s d : np_array (JList l) = Some (s, d) ->
  (l = [] /\ s = [0] /\ d = []) \/
  exists s' ds, l <> [] /\ s = length l :: s' /\ d = concat ds /\ length ds = length l /\ forall i j, nth_error l i = Some j -> np_array j = Some (s', nth i ds []).
Proof.
  cbn [np_array]. destruct (every (map np_array l)) as [r|] eqn:E; [|discriminate]. apply every_some in E.
  destruct r as [|(s', d') rest].
  - destruct l; [|discriminate]. intros [= <- <-]. left. auto.
  - destruct (forallb _ rest) eqn:F; [|discriminate]. intros [= <- <-]. right. exists s', (d' :: map snd rest).
    assert (Ll : length l = S (length rest)) by (apply (f_equal (@length _)) in E; rewrite !map_length in E; exact E).
    split; [intros ->; discriminate|]. split; [reflexivity|]. split; [reflexivity|]. split; [cbn; rewrite map_length; lia|].
    intros i j Hj. assert (K : nth_error (map np_array l) i = Some (np_array j)) by (apply map_nth_error; exact Hj). rewrite E in K.
    assert (Hi : i < length ((s', d') :: rest)) by (cbn; rewrite <- Ll; apply nth_error_Some; rewrite Hj; discriminate).
    rewrite nth_error_map in K. destruct (nth_error ((s', d') :: rest) i) as [(t, u)|] eqn:N; [|discriminate]. cbn in K. injection K as <-. f_equal.
    destruct i as [|i]; [injection N as <- <-; reflexivity|]. cbn in N. assert (In' := nth_error_In _ _ N).
    rewrite forallb_forall in F. specialize (F _ In'). cbn [fst] in F. destruct (list_eq_dec Nat.eq_dec t s') as [->|]; [|discriminate]. f_equal.
    cbn [nth]. symmetry. apply nth_error_nth. rewrite nth_error_map, N. reflexivity.
Qed.
Lemma np_shape s : forall j d, np_array j = Some (s, d) -> rectangular s j /\ length d = nprod s.
Proof.
  induction s as [|n s IH]; intros [x|l] d H.
  - injection H as <-. split; [exact I|reflexivity].
  - apply np_list in H as [(_ & H & _)|(s' & ds & _ & H & _)]; discriminate.
  - discriminate.
  - apply np_list in H as [(-> & [= -> ->] & ->)|(s' & ds & Ne & [= -> <-] & -> & Ld & V)].
    + split; [|reflexivity]. split; [reflexivity|]. split; [reflexivity|intros x []].
    + split.
      * split; [reflexivity|]. split; [intros Z; destruct l; [contradiction|discriminate]|]. intros x Hx. apply In_nth_error in Hx as [i Hi]. exact (proj1 (IH _ _ (V i x Hi))).
      * rewrite (concat_size (nprod s)); [rewrite Ld; reflexivity|]. intros b Hb. apply (In_nth _ _ []) in Hb as [i [Hi <-]]. rewrite Ld in Hi.
        destruct (nth_error l i) as [j|] eqn:N; [|apply nth_error_None in N; lia]. exact (proj2 (IH _ _ (V i j N))).
Qed.
Lemma np_number s : forall j d idx, np_array j = Some (s, d) -> in_shape idx s -> number_at j idx = Some (nth (ravel s idx) d 0%R).
Proof.
  induction s as [|n s IH]; intros [x|l] d idx H Hx.
  - injection H as <-. inversion Hx; subst. reflexivity.
  - apply np_list in H as [(_ & H & _)|(s' & ds & _ & H & _)]; discriminate.
  - discriminate.
  - inversion Hx as [|i n' idx' s'' Hi Hs]; subst. apply np_list in H as [(-> & [= -> ->] & ->)|(s' & ds & Ne & [= -> <-] & -> & Ld & V)]; [lia|].
    cbn [number_at ravel]. destruct (nth_error l i) as [j|] eqn:N; [|apply nth_error_None in N; lia]. assert (Vj := V i j N). rewrite (IH _ _ _ Vj Hs). f_equal.
    symmetry. apply concat_nth; [|lia|apply ravel_lt; exact Hs].
    intros b Hb. apply (In_nth _ _ []) in Hb as [k [Hk <-]]. rewrite Ld in Hk. destruct (nth_error l k) as [j'|] eqn:N'; [|apply nth_error_None in N'; lia]. exact (proj2 (np_shape _ _ _ (V k j' N'))).
Qed.
Lemma np_total s : forall j, rectangular s j -> exists d, np_array j = Some (s, d).
Proof.
  induction s as [|n s IH]; intros [x|l] H; try contradiction.
  - exists [x]. reflexivity.
  - destruct H as (L & Z & H). cbn [np_array].
    assert (Q : exists ds, map np_array l = map Some ds /\ (forall p, In p ds -> fst p = s) /\ length ds = length l).
    { clear L Z. induction l as [|j l IHl]; [exists []; split; [reflexivity|split; [intros p []|reflexivity]]|].
      destruct (IH j (H j (or_introl eq_refl))) as [d D]. destruct IHl as (ds & A & B & Cc); [intros; apply H; right; assumption|]. exists ((s, d) :: ds). cbn [map]. rewrite D, A.
      split; [reflexivity|]. split; [intros p [<-|Hp]; [reflexivity|apply B; exact Hp]|cbn; rewrite Cc; reflexivity]. }
    destruct Q as (ds & A & B & Cc). rewrite (proj2 (every_some _ ds) A). destruct ds as [|(s', d') ds].
    + exists []. destruct l; [|discriminate]. cbn in L. subst n. rewrite (Z eq_refl). reflexivity.
    + assert (s' = s) by (exact (B (s', d') (or_introl eq_refl))). subst s'.
      replace (forallb _ ds) with true; [eexists; rewrite L; reflexivity|]. symmetry. apply forallb_forall. intros p Hp. rewrite (B p (or_intror Hp)). destruct (list_eq_dec Nat.eq_dec s s); [reflexivity|contradiction].
Qed.
Lemma rectangular_unique s : forall t j, rectangular s j -> rectangular t j -> s = t.
Proof.
  intros t j A B. destruct (np_total s j A) as [d D]. destruct (np_total t j B) as [e E]. rewrite D in E. injection E as -> _. reflexivity.
Qed.

Lemma grid_some d0 d1 d2 points n0 n1 n2 more : rectangular (n0 :: n1 :: n2 :: more) points ->
  exists data, load_potential_grid_json d0 d1 d2 points =
      Some ([{| la_basis := BFund n0; la_delta := d0 |}; {| la_basis := BFund n1; la_delta := d1 |}; {| la_basis := BFund n2; la_delta := d2 |}], data) /\
    ashape data = n0 :: n1 :: n2 :: more /\
    forall idx, in_shape idx (ashape data) -> option_map RtoC (number_at points idx) = Some (aflat data (ravel (ashape data) idx)).
Proof.
  intros Hr. destruct (np_total _ _ Hr) as [d D]. unfold load_potential_grid_json. rewrite D. eexists. split; [reflexivity|]. split; [reflexivity|]. cbn [ashape aflat].
  intros idx Hi. rewrite (np_number _ _ _ _ D Hi). reflexivity.
Qed.
Lemma grid_none d0 d1 d2 points : (forall shape, rectangular shape points -> length shape < 3) <-> load_potential_grid_json d0 d1 d2 points = None.
Proof.
  unfold load_potential_grid_json. split.
  - intros H. destruct (np_array points) as [(s, d)|] eqn:E; [|reflexivity]. apply np_shape in E as [E _]. specialize (H s E). destruct s as [|n0 [|n1 [|n2 s]]]; cbn in H; try lia; reflexivity.
  - intros H s Hs. destruct (np_total s points Hs) as [d D]. rewrite D in H. destruct s as [|n0 [|n1 [|n2 s]]]; cbn; try lia. discriminate.
Qed.
Lemma uneven_some d0 d1 z points n0 n1 more : rectangular (n0 :: n1 :: more) points ->
  exists data, load_uneven_potential_json d0 d1 z points =
      Some ([{| la_basis := BFund n0; la_delta := d0 |}; {| la_basis := BFund n1; la_delta := d1 |}], z, data) /\
    ashape data = n0 :: n1 :: more /\
    forall idx, in_shape idx (ashape data) -> option_map RtoC (number_at points idx) = Some (aflat data (ravel (ashape data) idx)).
Proof.
  intros Hr. destruct (np_total _ _ Hr) as [d D]. unfold load_uneven_potential_json. rewrite D. eexists. split; [reflexivity|]. split; [reflexivity|]. cbn [ashape aflat].
  intros idx Hi. rewrite (np_number _ _ _ _ D Hi). reflexivity.
Qed.
Lemma uneven_none d0 d1 z points : (forall shape, rectangular shape points -> length shape < 2) <-> load_uneven_potential_json d0 d1 z points = None.
Proof.
  unfold load_uneven_potential_json. split.
  - intros H. destruct (np_array points) as [(s, d)|] eqn:E; [|reflexivity]. apply np_shape in E as [E _]. specialize (H s E). destruct s as [|n0 [|n1 s]]; cbn in H; try lia; reflexivity.
  - intros H s Hs. destruct (np_total s points Hs) as [d D]. rewrite D in H. destruct s as [|n0 [|n1 s]]; cbn; try lia. discriminate.
Qed.

Definition two_heights : json := JList [JList [JList [JNumber 1; JNumber 2]]; JList [JList [JNumber 3; JNumber 5]]].
Lemma two_heights_rectangular : rectangular [2; 1; 2] two_heights.
Proof. cbn. repeat split; try discriminate; intros x H; repeat (destruct H as [<-|H]; [cbn; repeat split; try discriminate; intros y Hy; repeat (destruct Hy as [<-|Hy]; [cbn; repeat split; try discriminate; intros w Hw; repeat (destruct Hw as [<-|Hw]; [exact I|]); contradiction|]); contradiction|]); contradiction. Qed.
Lemma heights_refuted : ~ (forall d0 d1 z points axes z' data, load_uneven_potential_json d0 d1 z points = Some (axes, z', data) ->
  nprod (map (fun a => bsize (la_basis a)) axes) * length z' = nprod (ashape data)).
Proof.
  intros H. destruct (uneven_some [1; 0]%R [0; 1]%R [0]%R two_heights 2 1 [2] two_heights_rectangular) as (data & E & S' & _). specialize (H _ _ _ _ _ _ _ E). rewrite S' in H. cbn in H. lia.
Qed.
