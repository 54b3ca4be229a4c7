(** Truncation and temperature correction of noise operators; kernels between
    bases of different sizes. *)
From Coq Require Import Reals Lra Lia Psatz FinFun.
From Verif Require Import ZLib Csum DFT NumPy Interp Index Spec IndexProofs Basis SpecBasis
  BasisProofs BasisProofs3 Operator SpecOperator OperatorProofs OperatorProofs2 Kernel SpecKernel KernelProofs KernelProofs2
  KernelProofs3 KernelProofs4.
Local Open Scope R_scope.
Local Open Scope C_scope.

(** With as many operators as points the kernel is the diagonal form of [k]. *)
Lemma stacked_fft_full ap b shape k : bsize b = nprod shape -> nprod (ashape k) = nprod shape ->
  Forall (fun n => (0 < n)%nat) shape ->
  exists o D K, get_periodic_noise_operators_isotropic_stacked_fft ap b shape shape k None = Some o /\
    noise_count o = nprod shape /\
    get_diagonal_kernel_from_diagonal_operators o = Some D /\
    as_diagonal_kernel_from_isotropic_stacked shape k = Some K /\
    forall t, (t < nprod shape * nprod shape)%nat -> aflat D t = aflat K t.
Proof.
  intros Hb Hk Hpos.
  destruct (stacked_fft_rebuild ap b shape shape k Hb Hk eq_refl) as [o [D [Ho [Hw [Hc [HD [HS HE]]]]]]]; [|assumption|].
  { intros ax Hax. assert (0 < nth ax shape 0)%nat by (rewrite Forall_forall in Hpos; apply Hpos, nth_In; assumption).
    split; [assumption|]. apply Nat.mod_same. lia. }
  assert (Hnp := nprod_pos shape Hpos).
  destruct (diagonal_from_isotropic_stacked shape k Hnp Hk) as [K [HK [_ HKE]]].
  exists o, D, K. split; [exact Ho|]. split; [exact Hc|]. split; [exact HD|]. split; [exact HK|].
  intros t Ht. destruct (pair_split _ _ t Ht) as [i [j [Hi [Hj ->]]]].
  rewrite <- (ravel_unravel shape i Hi), <- (ravel_unravel shape j Hj).
  assert (Ii := unravel_in_shape shape i Hi). assert (Ij := unravel_in_shape shape j Hj).
  set (x := unravel shape i) in *. set (y := unravel shape j) in *.
  assert (Hd := displacement_list_spec shape x y Hpos (in_shape_length _ _ Ii) (in_shape_length _ _ Ij)).
  set (d := displacement_list shape x y) in *. assert (Hdi := displacement_in_shape _ _ _ _ Hd).
  etransitivity; [apply (HE x y d d Ii Ij Hd Hdi)|symmetry; apply (HKE x y d Ii Ij Hd)].
  assert (G : forall sh d m, in_shape d sh -> (forall ax, (ax < length sh)%nat -> nth (m + ax) shape 0%nat = nth ax sh 0%nat) ->
    same_slots (fun ax => Some (nth ax shape 0%nat)) m sh d d).
  { induction sh as [|n sh IH]; intros d' m Hd' Hn; inversion Hd'; subst; cbn [same_slots]; [exact I|]. split.
    - unfold same_slot. specialize (Hn 0%nat ltac:(cbn; lia)). rewrite Nat.add_0_r in Hn. cbn [nth] in Hn. rewrite Hn.
      exists (freq n x0). split; apply freq_is_freq; assumption.
    - apply IH; [assumption|]. intros ax Hax. specialize (Hn (S ax) ltac:(cbn; lia)).
      replace (S m + ax)%nat with (m + S ax)%nat by lia. exact Hn. }
  apply G; [assumption|]. reflexivity.
Qed.

(** ** Truncation *)

Lemma python_indices_lt n l r : python_indices n l = Some r -> Forall (fun i => (i < n)%nat) r /\ length r = length l.
Proof.
  revert r; induction l as [|z l IH]; intros r H; cbn [python_indices] in H.
  - injection H as <-. split; [constructor|reflexivity].
  - destruct (python_index n z) as [i|] eqn:E; [|discriminate]. destruct (python_indices n l) as [r'|]; [|discriminate].
    injection H as <-. destruct (IH r' eq_refl) as [H1 H2]. split; [|cbn; lia]. constructor; [|assumption].
    revert E. unfold python_index. repeat match goal with |- context [if ?c then _ else _] => destruct c eqn:? end;
      intros E; try discriminate; injection E as <-; lia.
Qed.

Lemma python_indices_nat n l : Forall (fun i => (i < n)%nat) l -> python_indices n (map Z.of_nat l) = Some l.
Proof.
  induction 1 as [|i l Hi H IH]; cbn [map python_indices]; [reflexivity|]. rewrite IH.
  assert (python_index n (Z.of_nat i) = Some i) as ->; [|reflexivity].
  unfold python_index. repeat match goal with |- context [if ?c then _ else _] => destruct c eqn:? end;
    try (f_equal; lia); exfalso; lia.
Qed.

Section Truncate.
Variable key : C -> R.
Variable argsort : (nat -> R) -> nat -> nat -> nat.
Hypothesis Hsort : is_argsort argsort.
Variable o : noise_operators.
Variable m : nat.
Let n := noise_count o.
Hypothesis Hn : (0 < n)%nat.
Hypothesis Hd : nprod (ashape (ldata (nops o))) = (n * m)%nat.
Hypothesis He : ashape (neig o) = [n].
Let K a := key (eigenvalue o a).
Let rank t := argsort K n (n - 1 - t)%nat.

Lemma rank_lt t : (t < n)%nat -> (rank t < n)%nat.
Proof. intros H. apply (Hsort K n). lia. Qed.

Lemma rank_inj s t : (s < n)%nat -> (t < n)%nat -> rank s = rank t -> s = t.
Proof. intros H1 H2 E. apply (Hsort K n) in E; lia. Qed.

Lemma rank_sorted s t : (s <= t < n)%nat -> (K (rank t) <= K (rank s))%R.
Proof. intros H. apply (Hsort K n). lia. Qed.

Lemma rank_surj a : (a < n)%nat -> exists t, (t < n)%nat /\ rank t = a.
Proof.
  intros Ha. assert (B : bFun n rank) by (intros t Ht; apply rank_lt; assumption).
  assert (S : bSurjective n rank).
  { apply bInjective_bSurjective; [exact B|]. intros s t Hs Ht. apply rank_inj; assumption. }
  apply (S a Ha).
Qed.

Lemma truncate_picks truncation sel : python_indices n truncation = Some sel ->
  exists t, truncate_operators key argsort o truncation = Some t /\ picks o t (map rank sel) m.
Proof.
  intros Hs. unfold truncate_operators. rewrite He.
  change (bsize (lbasis (nops o))) with n. rewrite (reshape_rows_some _ n m Hn Hd), Hs.
  change (fun a => key (aflat (neig o) a)) with K.
  change (map (fun t => argsort K n (n - 1 - t)%nat) sel) with (map rank sel).
  destruct (python_indices_lt _ _ _ Hs) as [HF _].
  assert (forallb (fun a => (a <? n)%nat) (map rank sel) = true) as ->.
  { apply forallb_forall. intros a Ha. apply in_map_iff in Ha. destruct Ha as [t [<- Ht]].
    apply Nat.ltb_lt. apply rank_lt. rewrite Forall_forall in HF. apply HF. assumption. }
  eexists. split; [reflexivity|]. unfold picks, noise_count. cbn [nops neig lbasis lrow lcol bsize ashape ldata array2 nprod nth].
  do 5 (split; [try reflexivity; try lia|]). intros j Hj. split; [reflexivity|]. intros x Hx.
  etransitivity; [apply (array2_flat (length (map rank sel)) m); assumption|]. unfold at2. reflexivity.
Qed.

(** Keeping positions 0, ..., c - 1. *)
Lemma truncate_largest c : (c <= n)%nat ->
  exists t kept, truncate_operators key argsort o (map Z.of_nat (seq 0 c)) = Some t /\
    length kept = c /\ NoDup kept /\ (forall a, In a kept -> (a < n)%nat) /\ picks o t kept m /\
    (forall i j, (i <= j < c)%nat -> (key (eigenvalue t j) <= key (eigenvalue t i))%R) /\
    (forall a j, (a < n)%nat -> ~ In a kept -> (j < c)%nat -> (key (eigenvalue o a) <= key (eigenvalue t j))%R).
Proof.
  intros Hc. destruct (truncate_picks (map Z.of_nat (seq 0 c)) (seq 0 c)) as [t [Ht Hp]].
  { apply python_indices_nat. apply Forall_forall. intros i Hi. apply in_seq in Hi. lia. }
  exists t, (map rank (seq 0 c)). split; [exact Ht|]. rewrite map_length, seq_length. split; [reflexivity|].
  split. { apply NoDup_nth with (d := 0%nat). rewrite map_length, seq_length. intros i j Hi Hj.
    rewrite !nth_map_seq' by assumption. apply rank_inj; lia. }
  split. { intros a Ha. apply in_map_iff in Ha. destruct Ha as [i [<- Hi]]. apply in_seq in Hi. apply rank_lt. lia. }
  split; [exact Hp|]. destruct Hp as [_ [_ [_ [_ [_ Hv]]]]]. rewrite map_length, seq_length in Hv.
  assert (Hev : forall j, (j < c)%nat -> eigenvalue t j = eigenvalue o (rank j)).
  { intros j Hj. destruct (Hv j Hj) as [-> _]. rewrite nth_map_seq' by assumption. reflexivity. }
  split.
  - intros i j Hij. rewrite !Hev by lia. apply rank_sorted. lia.
  - intros a j Ha Hna Hj. rewrite Hev by assumption. destruct (rank_surj a Ha) as [s [Hs <-]].
    apply rank_sorted. split; [|assumption]. destruct (Nat.le_gt_cases j s); [assumption|]. exfalso. apply Hna.
    apply in_map. apply in_seq. lia.
Qed.

Lemma truncate_raises truncation : python_indices n truncation = None ->
  truncate_operators key argsort o truncation = None.
Proof.
  intros H. unfold truncate_operators. rewrite He. rewrite H. destruct (reshape_rows _ _); reflexivity.
Qed.

(** Keeping everything only reorders. *)
Lemma truncate_all_sum t (f : C -> (nat -> C) -> C) : truncate_operators key argsort o (map Z.of_nat (seq 0 n)) = Some t ->
  (forall l u v, (forall x, (x < m)%nat -> u x = v x) -> f l u = f l v) ->
  csum (fun a => f (eigenvalue t a) (fun x => aflat (ldata (nops t)) (a * m + x)%nat)) n =
  csum (fun a => f (eigenvalue o a) (fun x => aflat (ldata (nops o)) (a * m + x)%nat)) n.
Proof.
  intros Ht Hf. destruct (truncate_picks (map Z.of_nat (seq 0 n)) (seq 0 n)) as [t' [Ht' Hp]].
  { apply python_indices_nat. apply Forall_forall. intros i Hi. apply in_seq in Hi. lia. }
  rewrite Ht in Ht'. injection Ht' as <-. destruct Hp as [_ [_ [_ [_ [_ Hv]]]]]. rewrite map_length, seq_length in Hv.
  apply (csum_inj _ _ n n rank).
  - apply rank_lt.
  - intros i j Hi Hj. apply rank_inj; assumption.
  - intros i Hi. destruct (Hv i Hi) as [E1 E2]. rewrite nth_map_seq' in E1, E2 by assumption. rewrite E1. apply Hf.
    intros x Hx. symmetry. apply E2. assumption.
  - intros j Hj Hno. exfalso. destruct (rank_surj j Hj) as [s [Hs Es]]. apply (Hno s Hs Es).
Qed.
End Truncate.

(** Keeping all operators returns the kernel. *)
Lemma truncate_kernel_all argsort eigh b0 b1 n K : is_argsort argsort -> (0 < n)%nat ->
  bsize b0 = n -> bsize b1 = n -> nprod (ashape K) = (n * n * n * n)%nat ->
  (forall A, mat_eq (n * n) A (fun p q => entry4 n n n K (p mod n) (p / n) (q / n) (q mod n)) ->
     eigendecomposition (n * n) A (eigh (n * n)%nat A)) ->
  exists F, truncate_noise_kernel argsort eigh b0 b1 K (map Z.of_nat (seq 0 (n * n))) = Some F /\
    ashape F = [(n * n * n * n)%nat] /\ forall t, (t < n * n * n * n)%nat -> aflat F t = aflat K t.
Proof.
  intros Hsort Hn H0 H1 E He.
  destruct (eigenvalue_rebuild eigh b0 b1 n K H0 H1 E He) as [o [F [Ho [Hw [Hc [HF [HS HV]]]]]]].
  unfold truncate_noise_kernel. rewrite Ho.
  assert (Hr : lrow (nops o) = b0 /\ lcol (nops o) = b1).
  { revert Ho. unfold get_periodic_noise_operators_eigenvalue. destruct (kernel_matrix b0 b1 K); [|discriminate].
    destruct (eigh _ _). intros X. injection X as <-. split; reflexivity. }
  destruct Hr as [Hr1 Hr2]. assert (Hw' := Hw). destruct Hw' as [Hw1 Hw2].
  assert (Hsz : nprod (ashape (ldata (nops o))) = (noise_count o * (n * n))%nat).
  { unfold list_wf in Hw1. unfold noise_count. rewrite Hw1, Hr1, Hr2, H0, H1. ring. }
  unfold truncate_noise_operator_list.
  destruct (truncate_picks fst argsort Hsort o (n * n) ltac:(nia) Hsz Hw2 (map Z.of_nat (seq 0 (n * n))) (seq 0 (n * n))) as [t [Ht Hp]].
  { apply python_indices_nat. apply Forall_forall. intros i Hi. apply in_seq in Hi. lia. }
  rewrite Ht. assert (Hp' := Hp). destruct Hp as [P1 [P2 [P3 [P4 [P5 P6]]]]].
  rewrite map_length, seq_length in P1, P2, P5.
  assert (Wt : noise_wf t).
  { split; [|rewrite P2, P1; reflexivity]. unfold list_wf. change (bsize (lbasis (nops t))) with (noise_count t).
    rewrite P1, P3, P4, P5, Hr1, Hr2, H0, H1. ring. }
  destruct (full_kernel_spec t Wt) as [G [HG [SG VG]]]. rewrite P3, P4, Hr1, Hr2, H0, H1 in SG, VG.
  exists G. split; [exact HG|]. split; [exact SG|]. intros q Hq. rewrite <- HV by assumption.
  destruct (pair_split (n * n * n) n q) as [t' [l [Ht' [Hl ->]]]]; [assumption|].
  destruct (pair_split (n * n) n t') as [t'' [k [Ht'' [Hk ->]]]]; [assumption|].
  destruct (pair_split n n t'') as [i [j [Hi [Hj ->]]]]; [assumption|].
  fold (entry4 n n n F i j k l) (entry4 n n n G i j k l).
  destruct (full_kernel_spec o Hw) as [F' [HF' [_ VF]]]. rewrite HF in HF'. injection HF' as <-.
  rewrite Hr1, Hr2, H0, H1 in VF. rewrite VG, VF by assumption.
  unfold kernel_of. rewrite P1, Hc.
  assert (A := truncate_all_sum fst argsort Hsort o (n * n) ltac:(nia) Hsz Hw2 t
    (fun lam u => lam * Cconj (u (j * n + i)%nat) * u (k * n + l)%nat)). rewrite Hc in A.
  specialize (A Ht). etransitivity; [|etransitivity; [apply A|]].
  - apply csum_ext. intros a Ha. unfold list_entry. rewrite P3, P4, Hr1, Hr2, H0, H1.
    replace ((a * n + j) * n + i)%nat with (a * (n * n) + (j * n + i))%nat by ring.
    replace ((a * n + k) * n + l)%nat with (a * (n * n) + (k * n + l))%nat by ring. reflexivity.
  - intros lam u v Huv. rewrite !Huv by (apply pair_lt; assumption). reflexivity.
  - apply csum_ext. intros a Ha. unfold list_entry. rewrite Hr1, Hr2, H0, H1.
    replace ((a * n + j) * n + i)%nat with (a * (n * n) + (j * n + i))%nat by ring.
    replace ((a * n + k) * n + l)%nat with (a * (n * n) + (k * n + l))%nat by ring. reflexivity.
Qed.

(** The diagonal version never returns a kernel of the right size. *)
Lemma truncate_diagonal_kernel_size argsort eigh b0 b1 n K truncation D : (1 < n)%nat ->
  bsize b0 = n -> bsize b1 = n ->
  truncate_diagonal_noise_kernel argsort eigh b0 b1 K truncation = Some D -> nprod (ashape D) = 1%nat.
Proof.
  intros Hn H0 H1. unfold truncate_diagonal_noise_kernel, get_periodic_noise_operators_diagonal_eigenvalue.
  destruct (reshape_rows K (bsize b0)) as [a|]; [|discriminate].
  destruct (nth 1 (ashape a) 0 =? bsize b0)%nat; [|discriminate].
  destruct (eigh (bsize b0) (at2 a)) as [lam V].
  unfold truncate_diagonal_noise_operator_list, truncate_operators. cbn [nops neig ldata lbasis lrow lcol bsize ashape].
  rewrite H0. rewrite (reshape_rows_some _ n n) by (cbn [ravel_array ashape array2 nprod]; lia).
  destruct (python_indices n truncation) as [sel|]; [|discriminate].
  destruct (forallb _ _); [|discriminate].
  set (args := map _ sel). unfold get_diagonal_kernel_from_operators, as_diagonal_noise_operators_from_full, operator_list_as_diagonal.
  cbn [nops neig ldata lbasis lrow lcol ashape nth]. rewrite H0.
  set (c := length args). clearbody args. unfold reshape_auto. cbn [ashape array2 nprod].
  destruct (Nat.eqb_spec (n * (n * 1)) 0) as [Hz|_]; [nia|].
  destruct (Nat.eqb_spec (c * (n * 1) mod (n * (n * 1))) 0) as [Hm|Hm]; [|discriminate]. cbn [nth].
  assert (Hq : exists q, (c = q * n)%nat).
  { exists (c * (n * 1) / (n * (n * 1)))%nat. pose proof (Nat.div_mod (c * (n * 1)) (n * (n * 1)) ltac:(nia)) as Hdm. nia. }
  destruct Hq as [q Hq].
  assert (E : (c * (n * 1) / (n * (n * 1)) = q)%nat).
  { symmetry. apply (Nat.div_unique _ _ q 0); nia. }
  rewrite E. unfold get_diagonal_kernel_from_diagonal_operators. cbn [nops neig lbasis ldata bsize ashape].
  change (bsize (BFund c)) with c. unfold reshape_rows. cbn [ravel_array array2 ashape nprod].
  destruct (Nat.eqb_spec c 0) as [Hc|Hc]; [discriminate|].
  cbn [nth]. destruct (Nat.eqb_spec ((q * (n * 1) * 1) mod c) 0) as [_|Hne]; [|discriminate].
  rewrite einsum_dim_same. cbn [nth ashape]. intros X. injection X as <-. cbn [ravel_array array2 ashape nprod].
  replace (q * (n * 1) * 1 / c)%nat with 1%nat; [lia|]. apply (Nat.div_unique _ _ 1 0); nia.
Qed.

(** ** Temperature correction *)

Lemma combine_list_converted same f x y b : identity_test same -> list_wf x -> lrow x = b -> lcol x = b ->
  list_wf y -> compatible (lrow y) b -> compatible (lcol y) b ->
  lbasis y = lbasis x -> ashape (ldata x) = [(bsize (lbasis x) * (bsize b * bsize b))%nat] ->
  exists F p, convert_matrix same (lrow y) b (lcol y) b = Some F /\
    combine_list_list f same x y = Some p /\ list_wf p /\ lbasis p = lbasis x /\ lrow p = b /\ lcol p = b /\
    forall m i j, (m < bsize (lbasis x))%nat -> (i < bsize b)%nat -> (j < bsize b)%nat ->
      list_entry p m i j = f (list_entry x m i j) (F (list_entry y m) i j).
Proof.
  intros Hs Wx Rx Cx Wy Ry Cy El Es. unfold combine_list_list. rewrite Rx, Cx.
  destruct (convert_list_spec same y b b Wy Ry Cy) as [F [c [HF [Hc [Wc [C1 [C2 [C3 [Cs C4]]]]]]]]].
  rewrite Hc. exists F.
  destruct (broadcast_same f (ldata x) (ldata c)) as [d [Hd [Ds Df]]].
  { rewrite Es, Cs, El. reflexivity. }
  rewrite Hd. eexists. split; [exact HF|]. split; [reflexivity|]. cbn [ldata lbasis lrow lcol]. split.
  { unfold list_wf. cbn [ldata lbasis lrow lcol]. rewrite Ds, Es. cbn [nprod]. lia. }
  split; [reflexivity|]. split; [reflexivity|]. split; [reflexivity|].
  intros m i j Hm Hi Hj. unfold list_entry at 1. cbn [lrow lcol ldata].
  assert (Hr : ((m * bsize b + i) * bsize b + j < bsize (lbasis x) * (bsize b * bsize b) * 1)%nat).
  { assert ((m * bsize b + i + 1) <= bsize (lbasis x) * bsize b)%nat by nia. nia. }
  rewrite Df by (rewrite Es; exact Hr). rewrite <- C4 by assumption.
  unfold list_entry. rewrite Rx, Cx, C2, C3. reflexivity.
Qed.

Lemma scale_list_spec c L : list_wf L -> list_wf (scale_operator_list c L) /\
  forall m i j, list_entry (scale_operator_list c L) m i j = list_entry L m i j * c.
Proof. intros H. split; [exact H|reflexivity]. Qed.

Lemma temperature_spec same b h o kt : identity_test same -> bwf b -> explicit_orthonormal b -> kt <> 0%R ->
  op_wf h -> orow h = b -> ocol h = b ->
  list_wf (nops o) -> compatible (lrow (nops o)) b -> compatible (lcol (nops o)) b ->
  exists F p, convert_matrix same (lrow (nops o)) b (lcol (nops o)) b = Some F /\
    get_temperature_corrected_noise_operators same h o kt = Some p /\ list_wf (nops p) /\
    neig p = neig o /\ lbasis (nops p) = lbasis (nops o) /\ lrow (nops p) = b /\ lcol (nops p) = b /\
    forall a i j, (a < noise_count o)%nat -> (i < bsize b)%nat -> (j < bsize b)%nat ->
      let L := F (list_entry (nops o) a) in
      list_entry (nops p) a i j = L i j - (matmul (bsize b) (op_entry h) L i j - matmul (bsize b) L (op_entry h) i j)
                                          * RtoC (/ (4 * kt)).
Proof.
  intros Hs Hw Ho Hkt Wh Rh Ch Wo Ro Co. unfold get_temperature_corrected_noise_operators.
  destruct (commutator_list_spec same Hs b Hw Ho h (nops o) Wh Rh Ch Wo Ro Co) as [F [c [HF [Hc [Wc [C1 [C2 [C3 [Cs C4]]]]]]]]].
  rewrite Hc. set (s := scale_operator_list _ c).
  destruct (scale_list_spec (RtoC (-1 / (4 * kt))) c Wc) as [Ws Es]. fold s in Ws, Es.
  destruct (combine_list_converted same Cplus s (nops o) b Hs Ws C2 C3 Wo Ro Co) as [F' [p [HF' [Hp [Wp [P1 [P2 [P3 P4]]]]]]]].
  { cbn [s scale_operator_list lbasis]. congruence. }
  { cbn [s scale_operator_list ldata ashape lbasis]. rewrite Cs, C1. reflexivity. }
  rewrite HF in HF'. injection HF' as <-. unfold add_list_list. rewrite Hp.
  exists F. eexists. split; [exact HF|]. split; [reflexivity|]. cbn [nops neig].
  split; [exact Wp|]. split; [reflexivity|]. split; [rewrite P1; exact C1|]. split; [exact P2|]. split; [exact P3|].
  intros a i j Ha Hi Hj. cbv zeta. rewrite P4; [|cbn [s scale_operator_list lbasis]; rewrite C1; exact Ha|assumption|assumption].
  rewrite Es, C4 by assumption.
  assert (-1 / (4 * kt) = - (/ (4 * kt)))%R as -> by (field; assumption). rewrite RtoC_opp. ring.
Qed.

Lemma temperature_diagonal_spec same b h o kt : identity_test same -> bwf b -> explicit_orthonormal b -> kt <> 0%R ->
  op_wf h -> compatible (orow h) b -> compatible (ocol h) b ->
  diag_list_wf (nops o) -> lrow (nops o) = b -> lcol (nops o) = b ->
  exists G p, convert_matrix same (orow h) b (ocol h) b = Some G /\
    get_temperature_corrected_diagonal_noise_operators same h o kt = Some p /\ list_wf (nops p) /\
    neig p = neig o /\ lbasis (nops p) = lbasis (nops o) /\ lrow (nops p) = b /\ lcol (nops p) = b /\
    forall a i j, (a < noise_count o)%nat -> (i < bsize b)%nat -> (j < bsize b)%nat ->
      let L := diag_entry (nops o) a in
      list_entry (nops p) a i j = (if Nat.eqb i j then L i else 0)
        - (G (op_entry h) i j * L j - L i * G (op_entry h) i j) * RtoC (/ (4 * kt)).
Proof.
  intros Hs Hw Ho Hkt Wh Rh Ch Wo Ro Co. unfold get_temperature_corrected_diagonal_noise_operators. rewrite Ro, Co.
  destruct (convert_operator_spec same h b b Wh Rh Ch) as [G [h' [HG [Hh' [Wh' [R' [C' E']]]]]]]. rewrite Hh'.
  destruct (commutator_diagonal_list_spec same Hs b Hw Ho h' (nops o) Wh' R' C' Wo Ro Co) as [c [Hc [Wc [C1 [C2 [C3 [Cs C4]]]]]]].
  destruct (diagonal_as_full_spec (nops o) Wo) as [f [Hf [Wf [F1 [F2 [F3 F4]]]]]].
  { rewrite Ro. apply bsize_pos. assumption. }
  rewrite Hc, Hf. set (s := scale_operator_list _ c).
  destruct (scale_list_spec (RtoC (-1 / (4 * kt))) c Wc) as [Ws Es]. fold s in Ws, Es.
  rewrite Ro in F2. rewrite Co in F3.
  destruct (combine_list_spec same Hs b Hw Ho Cplus s f Ws C2 C3 Wf F2 F3) as [p [Hp [Wp [P1 [P2 [P3 [_ P4]]]]]]].
  { cbn [s scale_operator_list lbasis]. congruence. }
  { cbn [s scale_operator_list ldata ashape lbasis]. rewrite Cs, C1. reflexivity. }
  unfold add_list_list. rewrite Hp. exists G. eexists. split; [exact HG|]. split; [reflexivity|]. cbn [nops neig].
  split; [exact Wp|]. split; [reflexivity|]. split; [rewrite P1; exact C1|]. split; [exact P2|]. split; [exact P3|].
  intros a i j Ha Hi Hj. cbv zeta. rewrite P4; [|cbn [s scale_operator_list lbasis]; rewrite C1; exact Ha|assumption|assumption].
  rewrite Es, C4, F4 by (rewrite ?Ro; assumption). unfold matmul, diagonal_matrix.
  rewrite (csum_ext _ (fun k => (op_entry h' i k * diag_entry (nops o) a k) * cdelta k j)) by (intros; ring).
  rewrite (csum_delta_r' (fun k => op_entry h' i k * diag_entry (nops o) a k)) by assumption.
  rewrite (csum_ext _ (fun k => cdelta i k * (diag_entry (nops o) a i * op_entry h' k j))) by (intros; ring).
  rewrite (csum_delta_l (fun k => diag_entry (nops o) a i * op_entry h' k j)) by assumption.
  rewrite E' by assumption.
  assert (-1 / (4 * kt) = - (/ (4 * kt)))%R as -> by (field; assumption). rewrite RtoC_opp. ring.
Qed.

(** ** Operators between bases of different sizes *)

Definition rect_sigma (p : nat) : nat := (p mod 2 * 3 + p / 2)%nat.
Definition rect_kernel : ndarray :=
  {| ashape := [36%nat]; aflat := fun t =>
       if (t / 6 =? rect_sigma (t mod 6))%nat then RtoC (INR (t mod 6 + 1)) else RtoC 0 |}.
Definition rect_eigh : nat -> (nat -> nat -> C) -> eigh_result :=
  fun _ _ => ((fun k => INR (k + 1)), (fun i k => cdelta i k)).

Definition rect_operators : noise_operators :=
  {| nops := {| lbasis := BFund 6; lrow := BFund 2; lcol := BFund 3;
                ldata := ravel_array (array2 6 6 (fun a t => Cconj (cdelta t a))) |};
     neig := {| ashape := [6%nat]; aflat := fun a => RtoC (INR (a + 1)) |} |}.

Lemma rect_matrix : exists m, kernel_matrix (BFund 2) (BFund 3) rect_kernel = Some m /\
  forall i j, (i < 6)%nat -> (j < 6)%nat -> at2 m i j = cdelta i j * RtoC (INR (i + 1)).
Proof.
  eexists. split; [reflexivity|]. intros i j Hi Hj.
  destruct i as [|[|[|[|[|[|i]]]]]]; try lia; destruct j as [|[|[|[|[|[|j]]]]]]; try lia;
    unfold at2, swapaxes01, array4, at4, rect_kernel, rect_sigma, cdelta; cbn [ashape nth aflat];
    match goal with |- (if ?c then RtoC (INR ?x) else _) = (if ?d then _ else _) * _ =>
      let c' := eval vm_compute in c in change c with c'; let x' := eval vm_compute in x in change x with x';
      let d' := eval vm_compute in d in change d with d' end; cbn [Nat.add]; cbv iota; ring.
Qed.

Lemma rectangular_not_rebuilt : exists m o F,
  kernel_matrix (BFund 2) (BFund 3) rect_kernel = Some m /\
  eigendecomposition 6 (at2 m) (rect_eigh 6%nat (at2 m)) /\
  get_periodic_noise_operators_eigenvalue rect_eigh (BFund 2) (BFund 3) rect_kernel = Some o /\
  get_full_kernel_from_operators o = Some F /\ ashape F = ashape rect_kernel /\
  aflat F 8 <> aflat rect_kernel 8.
Proof.
  destruct rect_matrix as [m [Hm HM]].
  assert (Ho : get_periodic_noise_operators_eigenvalue rect_eigh (BFund 2) (BFund 3) rect_kernel = Some rect_operators).
  { unfold get_periodic_noise_operators_eigenvalue. rewrite Hm. reflexivity. }
  assert (Hw : noise_wf rect_operators) by (split; reflexivity).
  destruct (full_kernel_spec rect_operators Hw) as [F [HF [HS HE]]].
  exists m, rect_operators, F. split; [exact Hm|]. split.
  { intros i j Hi Hj. rewrite HM by assumption. unfold rect_eigh; cbn [fst snd]. symmetry.
    rewrite (csum_ext _ (fun k => cdelta i k * (RtoC (INR (k + 1)) * Cconj (cdelta j k)))) by (intros; ring).
    rewrite (csum_delta_l (fun k => RtoC (INR (k + 1)) * Cconj (cdelta j k))) by assumption.
    unfold cdelta. rewrite (Nat.eqb_sym j i). destruct (Nat.eqb i j); unfold Cconj, Cmult, RtoC; cbn [fst snd]; f_equal; ring. }
  split; [exact Ho|]. split; [exact HF|]. split; [exact HS|].
  assert (E0 : aflat F 8 = 0).
  { transitivity (kernel_of rect_operators 0 1 0 2); [apply (HE 0 1 0 2)%nat; cbn; lia|].
    unfold kernel_of. apply csum_zero_ext. intros a Ha.
    assert (L : forall i j, (i < 2)%nat -> (j < 3)%nat -> list_entry (nops rect_operators) a i j = Cconj (cdelta (i * 3 + j) a)).
    { intros i j Hi Hj. unfold list_entry. cbn [rect_operators nops lrow lcol bsize ldata ravel_array aflat].
      replace ((a * 2 + i) * 3 + j)%nat with (a * 6 + (i * 3 + j))%nat by ring.
      apply (array2_flat 6 6 (fun a t => Cconj (cdelta t a)) a). lia. }
    rewrite !L by lia. rewrite Cconj_conj. unfold cdelta. cbn [Nat.mul Nat.add].
    destruct (Nat.eqb_spec 3 a) as [<-|H3]; [|ring].
    cbn [Nat.eqb]. unfold Cconj, Cmult, RtoC; cbn [fst snd]; f_equal; ring. }
  rewrite E0. unfold rect_kernel. cbn [aflat].
  match goal with |- _ <> (if ?c then RtoC (INR ?x) else _) =>
      let c' := eval vm_compute in c in change c with c'; let x' := eval vm_compute in x in change x with x' end.
  cbv iota. intros E. apply RtoC_inj in E. cbn in E. lra.
Qed.
