(** The path of smallest potential. *)
From Coq Require Import Reals Lra Lia Psatz List.
From Verif Require Import ZLib Csum DFT NumPy Index Basis Operator Spec SpecBasis SpecReal SpecReduce SpecWavepacket SpecPaths Lattice Hamiltonian Paths VolumeBasis SpecVolumeBasis
  Plots SpecPlots PlotsProofs4 BasisProofs LocalizeProofs4 PathPlots SpecPathPlots PathPlotsProofs.
Import ListNotations.
Local Open Scope R_scope.

Lemma argmin_spec f n : (0 < n)%nat -> (np_argmin f n < n)%nat /\ forall i, (i < n)%nat -> fst (f (np_argmin f n)) <= fst (f i).
Proof.
  induction n as [|n IH]; [lia|]. intros _. cbn [np_argmin]. destruct n as [|n].
  - cbn [np_argmin]. unfold complex_less. destruct (Rlt_dec _ _) as [H|_]; [lra|]. destruct (Req_EM_T _ _) as [_|H]; [|contradiction].
    destruct (Rlt_dec _ _) as [H|_]; [lra|]. split; [lia|]. intros i Hi. replace i with 0%nat by lia. lra.
  - destruct (IH ltac:(lia)) as [B M]. set (best := np_argmin f (S n)) in *. unfold complex_less.
    assert (G : fst (f (S n)) <= fst (f best) -> forall i, (i < S (S n))%nat -> fst (f (S n)) <= fst (f i)).
    { intros H i Hi. destruct (Nat.eq_dec i (S n)) as [->|]; [lra|]. specialize (M i ltac:(lia)). lra. }
    assert (G' : fst (f best) <= fst (f (S n)) -> forall i, (i < S (S n))%nat -> fst (f best) <= fst (f i)).
    { intros H i Hi. destruct (Nat.eq_dec i (S n)) as [->|]; [lra|]. apply M. lia. }
    destruct (Rlt_dec _ _) as [H|H]; [split; [lia|apply G; lra]|]. destruct (Req_EM_T _ _) as [H'|H'].
    + destruct (Rlt_dec _ _); (split; [lia|]); [apply G|apply G']; lra.
    + split; [lia|apply G'; lra].
Qed.

Lemma insert_length a i l : length (insert_at a i l) = S (length l).
Proof. unfold insert_at. rewrite app_length. cbn [length]. rewrite firstn_length, skipn_length. lia. Qed.
Lemma nth_firstn_lt (l : list nat) : forall a b, (b < a)%nat -> nth b (firstn a l) 0%nat = nth b l 0%nat.
Proof. induction l as [|x l IH]; intros [|a] [|b] H; try lia; cbn; try reflexivity. apply IH. lia. Qed.
Lemma nth_skipn_add (l : list nat) : forall a b, nth b (skipn a l) 0%nat = nth (a + b) l 0%nat.
Proof. induction l as [|x l IH]; intros [|a] b; cbn; try reflexivity; [destruct b; reflexivity|apply IH]. Qed.
Lemma insert_nth a i l b : (a <= length l)%nat -> nth b (insert_at a i l) 0%nat = if (b <? a)%nat then nth b l 0%nat else if (b =? a)%nat then i else nth (b - 1) l 0%nat.
Proof.
  intros Ha. unfold insert_at. assert (L : length (firstn a l) = a) by (rewrite firstn_length; lia). destruct (b <? a)%nat eqn:E.
  - apply Nat.ltb_lt in E. rewrite app_nth1 by lia. apply nth_firstn_lt. exact E.
  - apply Nat.ltb_ge in E. rewrite app_nth2 by lia. rewrite L. destruct (b =? a)%nat eqn:E'.
    + apply Nat.eqb_eq in E'. subst b. rewrite Nat.sub_diag. reflexivity.
    + apply Nat.eqb_neq in E'. destruct (b - a)%nat as [|d] eqn:Ed; [lia|]. cbn [nth]. rewrite nth_skipn_add. f_equal. lia.
Qed.
Lemma without_length a l : (a < length l)%nat -> S (length (without a l)) = length l.
Proof. intros H. unfold without. rewrite app_length, firstn_length, skipn_length. lia. Qed.
Lemma without_nth a l b : (a < length l)%nat -> nth b (without a l) 0%nat = nth (if (b <? a)%nat then b else S b) l 0%nat.
Proof.
  intros Ha. unfold without. assert (L : length (firstn a l) = a) by (rewrite firstn_length; lia). destruct (b <? a)%nat eqn:E.
  - apply Nat.ltb_lt in E. rewrite app_nth1 by lia. apply nth_firstn_lt. exact E.
  - apply Nat.ltb_ge in E. rewrite app_nth2 by lia. rewrite L, nth_skipn_add. f_equal. lia.
Qed.

Lemma minimum_path shape data path axis : (2 <= length shape)%nat -> Forall (fun n => (0 < n)%nat) shape ->
  forall a, (a < length shape)%nat -> Zcong (Z.of_nat (length shape)) axis (Z.of_nat a) ->
  exists full, get_minimum_path shape data path axis = Some full /\
    (forall b j, (b < a)%nat -> full b j = path b j) /\ (forall b j, (a < b)%nat -> full b j = path (b - 1)%nat j) /\
    (forall j, (0 <= full a j < Z.of_nat (nth a shape 0%nat))%Z) /\
    forall j here other i, repeat_of shape (fun b => full b j) here -> (i < nth a shape 0)%nat -> moved_along a i here other ->
      fst (data (ravel shape here)) <= fst (data (ravel shape other)).
Proof.
  intros Hl Fp a Ha [k Hk]. unfold get_minimum_path.
  assert (Ea : Z.to_nat (axis mod Z.of_nat (length shape)) = a).
  { subst axis. rewrite Z.mod_add by lia. rewrite Z.mod_small by lia. apply Nat2Z.id. }
  rewrite Ea. replace (length shape <? 2)%nat with false by (symmetry; apply Nat.ltb_ge; lia).
  pose proof (ProbConvertProofs.nprod_pos shape Fp). replace (nprod shape =? 0)%nat with false by (symmetry; apply Nat.eqb_neq; lia). cbn [orb].
  assert (Na : (0 < nth a shape 0)%nat) by (rewrite Forall_forall in Fp; apply Fp, nth_In, Ha).
  assert (Fr : Forall (fun n => (0 < n)%nat) (without a shape)).
  { apply Forall_forall. intros x Hx. rewrite Forall_forall in Fp. apply Fp. unfold without in Hx. apply in_app_or in Hx.
    rewrite <- (firstn_skipn a shape). apply in_or_app. destruct Hx as [Hx|Hx]; [left; exact Hx|right].
    clear - Hx. revert shape Hx. induction a as [|a IH]; intros [|y shape] Hx; cbn in Hx |- *; try contradiction; [right; exact Hx|]. apply IH. exact Hx. }
  pose proof (without_length a shape Ha) as Lw.
  set (w j := wrapped_index (without a shape) (fun c => path c j)).
  set (low j := np_argmin (fun i => data (ravel shape (insert_at a i (w j)))) (nth a shape 0%nat)).
  assert (LW : forall j, length (w j) = length (without a shape)) by (intros j; unfold w, wrapped_index; rewrite map_length, seq_length; reflexivity).
  eexists. split; [reflexivity|]. split; [|split; [|split]].
  - intros b j Hb. cbn beta. replace (b <? a)%nat with true by (symmetry; apply Nat.ltb_lt; exact Hb). reflexivity.
  - intros b j Hb. cbn beta. replace (b <? a)%nat with false by (symmetry; apply Nat.ltb_ge; lia). replace (b =? a)%nat with false by (symmetry; apply Nat.eqb_neq; lia). reflexivity.
  - intros j. cbn beta. replace (a <? a)%nat with false by (symmetry; apply Nat.ltb_ge; lia). rewrite Nat.eqb_refl.
    pose proof (proj1 (argmin_spec (fun i => data (ravel shape (insert_at a i (w j)))) (nth a shape 0%nat) Na)). unfold w in *. lia.
  - intros j here other i Rh Hi [Lo [Mi Mo]].
    destruct (argmin_spec (fun i => data (ravel shape (insert_at a i (w j)))) (nth a shape 0%nat) Na) as [B M]. fold (low j) in B, M.
    destruct (wrapped_repeat (without a shape) (fun c => path c j) Fr) as [Iw Cw]. fold (w j) in Iw, Cw. destruct (in_shape_to _ _ Iw) as [_ Bw].
    assert (I1 : here = insert_at a (low j) (w j)).
    { apply (repeat_unique _ _ _ _ Rh). split.
      - apply in_shape_from; [rewrite insert_length, LW; exact Lw|]. intros b Hb. rewrite insert_nth by (rewrite LW; lia).
        destruct (b <? a)%nat eqn:E; [|destruct (b =? a)%nat eqn:E'].
        + specialize (Bw b ltac:(apply Nat.ltb_lt in E; lia)). rewrite without_nth, E in Bw by exact Ha. exact Bw.
        + apply Nat.eqb_eq in E'. subst b. exact B.
        + apply Nat.ltb_ge in E. apply Nat.eqb_neq in E'. specialize (Bw (b - 1)%nat ltac:(lia)). rewrite without_nth in Bw by exact Ha.
          replace (b - 1 <? a)%nat with false in Bw by (symmetry; apply Nat.ltb_ge; lia). replace (S (b - 1)) with b in Bw by lia. exact Bw.
      - intros b Hb. rewrite insert_nth by (rewrite LW; lia). destruct (b <? a)%nat eqn:E; [|destruct (b =? a)%nat eqn:E'].
        + specialize (Cw b ltac:(apply Nat.ltb_lt in E; lia)). rewrite without_nth, E in Cw by exact Ha. exact Cw.
        + exists 0%Z. unfold low, w. lia.
        + apply Nat.ltb_ge in E. apply Nat.eqb_neq in E'. specialize (Cw (b - 1)%nat ltac:(lia)). rewrite without_nth in Cw by exact Ha.
          replace (b - 1 <? a)%nat with false in Cw by (symmetry; apply Nat.ltb_ge; lia). replace (S (b - 1)) with b in Cw by lia. exact Cw. }
    assert (I2 : other = insert_at a i (w j)).
    { apply (nth_ext _ _ 0%nat 0%nat); [rewrite Lo, I1, !insert_length; reflexivity|]. intros b Hb. rewrite insert_nth by (rewrite LW; lia).
      destruct (Nat.eq_dec b a) as [->|N].
      - rewrite Mi. replace (a <? a)%nat with false by (symmetry; apply Nat.ltb_ge; lia). rewrite Nat.eqb_refl. reflexivity.
      - rewrite Mo by exact N. rewrite I1, insert_nth by (rewrite LW; lia). replace (b =? a)%nat with false by (symmetry; apply Nat.eqb_neq; exact N). reflexivity. }
    rewrite I1, I2. apply M. exact Hi.
Qed.

(** ** Drawn along the path *)

Lemma minimum_line same axes data n path axis : identity_test same -> in_space (length axes) axes ->
  (2 <= length axes)%nat -> map la_basis axes = map BFund (fundamental_shape axes) -> Forall (fun k => (0 < k)%nat) (fundamental_shape axes) -> (0 < n)%nat ->
  let F := fundamental_shape axes in
  forall a, (a < length axes)%nat -> Zcong (Z.of_nat (length axes)) axis (Z.of_nat a) ->
  exists line full, plot_potential_minimum_along_path same axes data n path axis = Some line /\ length line = n /\
    (forall b j, (b < a)%nat -> full b j = path b j) /\ (forall b j, (a < b)%nat -> full b j = path (b - 1)%nat j) /\
    drawn_at axes n full false (line_x line) /\
    forall j here, (j < n)%nat -> repeat_of F (fun b => full b j) here ->
      line_y line j = fst (data (ravel F here)) /\
      forall i other, (i < nth a F 0)%nat -> moved_along a i here other -> line_y line j <= fst (data (ravel F other)).
Proof.
  intros Hs Hd Hl Hb Fp Hn F a Ha Hk. unfold plot_potential_minimum_along_path.
  assert (LF : length F = length axes) by (unfold F, fundamental_shape; rewrite map_length; reflexivity).
  assert (Es : map (fun a => bsize (la_basis a)) axes = F).
  { rewrite <- (map_map la_basis bsize), Hb, map_map. apply map_id. }
  rewrite Es. destruct (minimum_path F data path axis ltac:(lia) Fp a ltac:(lia) ltac:(rewrite LF; exact Hk)) as (full & E & B1 & B2 & _ & M). rewrite E.
  assert (Hw : bwf (stacked axes)).
  { unfold stacked. rewrite Hb. apply bwf_tuple. apply Forall_forall. intros x Hx. apply in_map_iff in Hx. destruct Hx as (k & <- & Hk').
    rewrite Forall_forall in Fp. exact (Fp k Hk'). }
  assert (He : explicit_orthonormal (stacked axes)).
  { unfold stacked. rewrite Hb. clear. induction (fundamental_shape axes) as [|k l IH]; [exact I|]. split; [exact I|exact IH]. }
  destruct (potential_line same axes Hs Hd Hw He n full false PReal data Hn) as (line & El & Ll & Y & _ & X).
  exists line, full. split; [exact El|]. split; [exact Ll|]. split; [exact B1|]. split; [exact B2|]. split; [exact X|].
  intros j here Hj Rh. assert (V : line_y line j = fst (data (ravel F here))).
  { specialize (Y j here Hj Rh). cbn [shows] in Y. rewrite Y. f_equal. unfold stacked. rewrite Hb. apply amplitude_position. apply Rh. }
  split; [exact V|]. intros i other Hi Mo. rewrite V. exact (M j here other i Rh Hi Mo).
Qed.

(** ** Cases *)

Definition two_by_one (b : basis) : list length_axis := [{| la_basis := b; la_delta := [1; 0] |}; {| la_basis := BFund 1; la_delta := [0; 1] |}].

Lemma two_by_one_case : identity_test (fun _ _ => false) /\ in_space 2 (two_by_one (BFundT 2)) /\ bwf (stacked (two_by_one (BFundT 2))) /\
  explicit_orthonormal (stacked (two_by_one (BFundT 2))) /\ fundamental_shape (two_by_one (BFundT 2)) = [2%nat; 1%nat] /\
  repeat_of [2%nat; 1%nat] (fun a => if (a =? 0)%nat then 5%Z else (-2)%Z) [1%nat; 0%nat] /\
  map la_basis (two_by_one (BFund 2)) = map BFund (fundamental_shape (two_by_one (BFund 2))) /\
  moved_along 0 0 [1%nat; 0%nat] [0%nat; 0%nat].
Proof.
  split; [intros a b H; discriminate|]. split; [repeat constructor|]. split; [cbn; lia|]. split; [cbn; auto|]. split; [reflexivity|]. split.
  - split; [repeat constructor|]. intros [|[|a]] Ha; cbn in Ha |- *; [exists 2%Z; reflexivity|exists (-2)%Z; reflexivity|lia].
  - split; [reflexivity|]. split; [reflexivity|]. split; [reflexivity|]. intros [|[|b]] Hb; [contradiction|reflexivity|reflexivity].
Qed.

(** In momentum the smallest coefficient is taken, which is not where the potential is smallest. *)
Lemma momentum_minimum : exists (data : nat -> C) line,
  let axes := two_by_one (BFundT 2) in
  plot_potential_minimum_along_path (fun _ _ => false) axes data 1 (fun _ _ => 0%Z) 0 = Some line /\
  fst (amplitude (stacked axes) data (ravel [2%nat; 1%nat] [0%nat; 0%nat])) < line_y line 0.
Proof.
  set (data := fun k : nat => if (k =? 0)%nat then RtoC (sqrt 2) else RtoC (- sqrt 2)). exists data.
  destruct two_by_one_case as (H1 & H2 & H3 & H4 & HF & _). set (axes := two_by_one (BFundT 2)) in *.
  pose proof (sqrt_lt_R0 2 ltac:(lra)) as Q.
  assert (E : exists full, get_minimum_path (map (fun a => bsize (la_basis a)) axes) data (fun _ _ => 0%Z) 0 = Some full /\ full 0%nat 0%nat = 1%Z /\ full 1%nat 0%nat = 0%Z).
  { eexists. split; [reflexivity|]. split; [|reflexivity]. cbn beta. change (0 <? Z.to_nat (0 mod Z.of_nat (length (map (fun a => bsize (la_basis a)) axes))))%nat with false.
    change (0 =? Z.to_nat (0 mod Z.of_nat (length (map (fun a => bsize (la_basis a)) axes))))%nat with true. cbv iota.
    match goal with |- context [np_argmin ?f ?n] => destruct (argmin_spec f n ltac:(cbn; lia)) as [B M]; set (p := np_argmin f n) in * end.
    specialize (M 1%nat ltac:(cbn; lia)). change (p < 2)%nat in B. destruct p as [|[|p]]; [|reflexivity|lia]. exfalso. cbn -[sqrt] in M. lra. }
  destruct E as (full & E & F0 & F1).
  destruct (potential_line (fun _ _ => false) axes H1 H2 H3 H4 1 full false PReal data ltac:(lia)) as (line & El & _ & Y & _).
  exists line. cbv zeta. split; [unfold plot_potential_minimum_along_path; rewrite E; exact El|].
  rewrite HF in Y. specialize (Y 0%nat [1%nat; 0%nat] ltac:(lia)). cbn [shows] in Y. rewrite Y; clear Y.
  2:{ split; [repeat constructor|]. intros [|[|a]] Ha; cbn in Ha |- *; [rewrite F0; exists 0%Z; reflexivity|rewrite F1; exists 0%Z; reflexivity|lia]. }
  assert (A : forall x, (x < 2)%nat -> amplitude (stacked axes) data (ravel [2%nat; 1%nat] [x; 0%nat]) =
     Cplus (Cmult (RtoC (sqrt 2)) (SpecBasis.plane_wave 2 0 x)) (Cmult (RtoC (- sqrt 2)) (SpecBasis.plane_wave 2 (-1) x))).
  { intros x Hx. unfold amplitude. change (bsize (stacked axes)) with 2%nat. cbn [csum].
    change (data 0%nat) with (RtoC (sqrt 2)). change (data 1%nat) with (RtoC (- sqrt 2)).
    assert (D : cdelta 0 0 = RtoC 1) by apply cdelta_refl.
    destruct x as [|[|x]]; [| |lia].
    - change (bstate (stacked axes) 0 (ravel [2%nat; 1%nat] [0%nat; 0%nat])) with (Cmult (SpecBasis.plane_wave 2 0 0) (Cmult (cdelta 0 0) (RtoC 1))).
      change (bstate (stacked axes) 1 (ravel [2%nat; 1%nat] [0%nat; 0%nat])) with (Cmult (SpecBasis.plane_wave 2 (-1) 0) (Cmult (cdelta 0 0) (RtoC 1))).
      rewrite D. ring.
    - change (bstate (stacked axes) 0 (ravel [2%nat; 1%nat] [1%nat; 0%nat])) with (Cmult (SpecBasis.plane_wave 2 0 1) (Cmult (cdelta 0 0) (RtoC 1))).
      change (bstate (stacked axes) 1 (ravel [2%nat; 1%nat] [1%nat; 0%nat])) with (Cmult (SpecBasis.plane_wave 2 (-1) 1) (Cmult (cdelta 0 0) (RtoC 1))).
      rewrite D. ring. }
  rewrite !A by lia. unfold SpecBasis.plane_wave, isqrt.
  assert (O0 : forall k x, (k * Z.of_nat x = 0)%Z -> omega 2 (k * Z.of_nat x) = RtoC 1) by (intros k x ->; apply omega_0).
  rewrite !(O0 0%Z) by lia. rewrite (O0 (-1)%Z 0%nat) by lia. change (-1 * Z.of_nat 1)%Z with (-1)%Z.
  assert (O1 : omega 2 (-1) = RtoC (-1)).
  { unfold omega. cbn [INR]. replace (2 * PI * -1 / (1 + 1))%R with (- PI)%R by field. unfold cis. rewrite cos_neg, sin_neg, cos_PI, sin_PI. unfold RtoC. f_equal. ring. }
  rewrite O1. cbn -[sqrt]. replace (1 + 1) with 2 by ring. pose proof (Rinv_r (sqrt 2) ltac:(lra)) as K. nra.
Qed.
