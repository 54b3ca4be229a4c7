(** Lists of probability vectors, examples (C111). *)
From Coq Require Import Reals Psatz.
From Verif Require Import ZLib Csum DFT NumPy Index IndexProofs Basis SpecBasis BasisProofs BasisProofs2 BasisFacts SpecReal Operator
  SpecWavepacket VolumeBasis SpecVolumeBasis VolumeBasisProofs ProbConvert SpecProbConvert ProbConvertProofs.
Local Open Scope R_scope.
Local Open Scope C_scope.

Lemma list_rows same n b0 p b1 total r : (0 < bsize b1)%nat ->
  convert_probability_vector_list_to_basis same n b0 total p b1 = Some r ->
  total = (n * bsize b0)%nat /\
  forall i, (i < n)%nat -> exists q, convert_probability_vector_to_basis same b0 (fun k => p (i * bsize b0 + k)%nat) b1 = Some q /\
    forall j, (j < bsize b1)%nat -> r (i * bsize b1 + j)%nat = q j.
Proof.
  intros Hb. unfold convert_probability_vector_list_to_basis, convert_probability_vector_to_basis.
  destruct (Nat.eqb_spec total (n * bsize b0)) as [E|]; [|discriminate]. destruct (convert same b0 b1) as [F|] eqn:EF; [|discriminate].
  intros H. injection H as <-. split; [exact E|]. intros i Hi. eexists. split; [reflexivity|]. intros j Hj.
  rewrite Nat.div_add_l, (Nat.div_small j), Nat.add_0_r by lia.
  rewrite Nat.add_comm, Nat.mod_add, Nat.mod_small by lia. reflexivity.
Qed.
Lemma list_exists same n b0 p b1 total :
  (exists r, convert_probability_vector_list_to_basis same n b0 total p b1 = Some r) <->
  total = (n * bsize b0)%nat /\ exists q, convert_probability_vector_to_basis same b0 p b1 = Some q.
Proof.
  unfold convert_probability_vector_list_to_basis, convert_probability_vector_to_basis.
  destruct (Nat.eqb_spec total (n * bsize b0)) as [E|E]; destruct (convert same b0 b1) as [F|]; split.
  all: try (intros [r H]; discriminate). all: try (intros [H [q Q]]; try discriminate; contradiction).
  - intros _. split; [exact E|]. eexists. reflexivity.
  - intros _. eexists. reflexivity.
Qed.

(** ** get_probability_along_axis *)
Lemma list_insert_length {A} k (x : A) l : length (list_insert k x l) = S (length l).
Proof. revert l. induction k as [|k IH]; intros [|y l]; cbn; try reflexivity. rewrite IH. reflexivity. Qed.
Lemma sorted_length l : length (sorted_nat l) = length l.
Proof.
  unfold sorted_nat. induction l as [|x l IH]; [reflexivity|]. cbn [fold_right length]. rewrite <- IH.
  generalize (fold_right sort_insert [] l). intros m. clear. induction m as [|y m IH]; [reflexivity|]. cbn. destruct (x <=? y)%nat; cbn; [reflexivity|]. rewrite IH. reflexivity.
Qed.
Lemma slice_length idx axes : length (slice_ignoring_axes idx axes) = (length idx + length axes)%nat.
Proof.
  unfold slice_ignoring_axes. rewrite <- (sorted_length axes). rewrite <- (map_length Some idx). generalize (map Some idx : list (option nat)). 
  induction (sorted_nat axes) as [|a l IH]; intros m; cbn [fold_left length]; [lia|]. rewrite IH, list_insert_length. lia.
Qed.
Lemma index_shape_long shape : forall sl, (length shape < length sl)%nat -> index_shape shape sl = None.
Proof.
  induction shape as [|n shape IH]; intros [|[i|] sl] H; cbn [index_shape length] in *; try lia; try reflexivity.
  - destruct (i <? n)%nat; [|reflexivity]. apply IH. lia.
  - rewrite IH by lia. reflexivity.
Qed.

(** More than two indices into the two-dimensional data. *)
Lemma along_raises shape0 n1 p axes idx : (2 <= length axes + length idx)%nat -> get_probability_along_axis shape0 n1 p axes (Some idx) = None.
Proof.
  intros H. unfold get_probability_along_axis. rewrite index_shape_long; [reflexivity|]. rewrite slice_length, app_length. cbn. lia.
Qed.
Lemma along_default shape0 n1 p axes : get_probability_along_axis shape0 n1 p axes None = get_probability_along_axis shape0 n1 p axes (Some (repeat 0%nat (length shape0 - 2))).
Proof. reflexivity. Qed.
Lemma along_default_raises shape0 n1 p axes : axes <> [] -> (3 <= length shape0)%nat \/ (2 <= length axes)%nat ->
  get_probability_along_axis shape0 n1 p axes None = None.
Proof.
  intros N H. rewrite along_default. apply along_raises. rewrite repeat_length. destruct axes; [contradiction|]. cbn in *. lia.
Qed.

Lemma filter_one a n : forall s, (s <= a < s + n)%nat -> filter (fun i => existsb (Nat.eqb i) [a]) (seq s n) = [a].
Proof.
  induction n as [|n IH]; intros s H; [lia|]. cbn [seq filter existsb]. rewrite orb_false_r.
  destruct (Nat.eqb_spec s a) as [->|N].
  - f_equal. clear. assert (G : forall m s, (a < s)%nat -> filter (fun i => existsb (Nat.eqb i) [a]) (seq s m) = []).
    { induction m as [|m IH]; intros s Hs; [reflexivity|]. cbn [seq filter existsb]. rewrite orb_false_r.
      destruct (Nat.eqb_spec s a); [lia|]. apply IH. lia. }
    apply G. lia.
  - apply IH. lia.
Qed.

Lemma along_one shape0 n1 p a : (a < length shape0)%nat -> (length shape0 <= 2)%nat -> Forall (fun n => (0 < n)%nat) shape0 -> (0 < n1)%nat ->
  let na := nth a shape0 0%nat in
  exists r, get_probability_along_axis shape0 n1 p [a] None = Some ([na; n1], ([na; (nprod shape0 * n1 / na)%nat], r)) /\
    forall t, (t < nprod shape0 * n1)%nat -> r t = p t.
Proof.
  intros Ha Hl Hp Hn na. unfold get_probability_along_axis. set (nd := length shape0) in *.
  replace (nd - 2)%nat with 0%nat by lia. cbn [repeat]. rewrite filter_one by lia. cbn [map]. fold na.
  assert (SO : sorted_nat ([a] ++ [nd]) = [a; nd]).
  { cbn. destruct (Nat.leb_spec a nd); [reflexivity|lia]. }
  assert (SL : slice_ignoring_axes [] ([a] ++ [nd]) = [None; None]).
  { unfold slice_ignoring_axes. rewrite SO. cbn [map fold_left]. destruct nd as [|m]; [lia|]. destruct a; cbn; destruct m; reflexivity. }
  assert (PM : get_position_in_sorted ([a] ++ [nd]) = [0; 1]%nat).
  { unfold get_position_in_sorted, argsort at 2. cbn. destruct (Nat.leb_spec a nd); [reflexivity|lia]. }
  unfold get_data_in_axes. rewrite SL, PM. cbn [index_shape length Nat.eqb map nth]. cbn [nprod]. rewrite !Nat.mul_1_r.
  assert (P0 : (0 < na)%nat) by (exact (proj1 (Forall_forall _ _) Hp na (nth_In _ _ Ha))).
  assert (DV : (nprod shape0 * n1) mod na = 0%nat).
  { apply Nat.mod_divide; [lia|]. apply Nat.divide_mul_l. unfold na. clear -Ha. revert Ha. unfold nd. clear nd. revert a.
    induction shape0 as [|n shape IH]; intros a Ha; cbn in Ha; [lia|]. destruct a as [|a]; cbn [nth nprod].
    - apply Nat.divide_factor_l.
    - apply Nat.divide_mul_r, IH. lia. }
  rewrite DV, (proj2 (Nat.ltb_lt 0 na) P0). cbn [andb Nat.eqb app].
  eexists. split; [reflexivity|]. intros t Ht. unfold transpose. cbn -[ravel unravel nprod]. cbn [unravel nprod ravel nth]. f_equal.
  rewrite !Nat.mul_1_r, !Nat.div_1_r. 
  assert (D := Nat.div_mod t n1 ltac:(lia)). lia.
Qed.

(** ** Examples *)
Definition ex_two_waves : list length_axis := [{| la_basis := BFundT 2; la_delta := [1%R] |}].
Definition ex_points : list length_axis :=
  [{| la_basis := BTrunc 2 3; la_delta := [1; 0]%R |}; {| la_basis := BEven 2 2 1; la_delta := [1; 2]%R |}].
Lemma ex_points_ok : in_space 2 ex_points /\ bwf (stacked ex_points) /\ Forall point_axis ex_points.
Proof. split; [repeat constructor|]. split; [cbn; repeat split; lia|]. repeat constructor. Qed.
Lemma ex_waves_ok : in_space 1 ex_two_waves /\ bwf (stacked ex_two_waves) /\ Forall wave_axis ex_two_waves /\ explicit_orthonormal (stacked ex_two_waves).
Proof. split; [repeat constructor|]. split; [cbn; repeat split; lia|]. split; [repeat constructor|]. cbn. auto. Qed.

Lemma waves_refuted same : identity_test same ->
  (let p := fun _ : nat => (/ 2)%R in
   rsum p 2 = 1%R /\ exists P r, convert_probability_vector_to_position_basis same ex_two_waves p = Some (P, r) /\
     csum r 2 = RtoC (sqrt 2 / 2)) /\
  (let p := fun k : nat => INR k in
   rsum p 2 = 1%R /\ exists P r, convert_probability_vector_to_position_basis same ex_two_waves p = Some (P, r) /\
     r 1%nat = RtoC (- / sqrt 2)).
Proof.
  intros Hs. destruct ex_waves_ok as [Hd [Hw [Hp He]]]. split; cbv zeta.
  - split; [cbn; lra|]. destruct (waves_total same 1 ex_two_waves (fun _ => (/ 2)%R) Hs Hd Hw Hp) as [P [r [E T]]].
    exists P, r. split; [exact E|]. change (nprod (fundamental_shape ex_two_waves)) with 2%nat in T. rewrite T. f_equal.
  - split; [cbn; lra|]. destruct (position_form same 1 ex_two_waves INR Hs Hd Hw He) as [P [M [r [s [E [_ [_ [_ [V _]]]]]]]]].
    exists P, r. split; [exact E|]. rewrite V by (cbn; lia). unfold amplitude. change (bsize (stacked ex_two_waves)) with 2%nat.
    rewrite !csum_S. cbn [csum].
    assert (O2 : omega 2 (-1) = RtoC (-1)).
    { unfold omega. cbn [INR]. replace (2 * PI * -1 / (1 + 1))%R with (- PI)%R by field. unfold cis. rewrite cos_neg, sin_neg, cos_PI, sin_PI. unfold RtoC. f_equal. ring. }
    assert (S1 : bstate (stacked ex_two_waves) 1 1 = isqrt 2 * RtoC (-1)).
    { transitivity (plane_wave 2 (-1) 1 * 1); [reflexivity|]. unfold plane_wave. change (-1 * Z.of_nat 1)%Z with (-1)%Z. rewrite O2. ring. }
    rewrite S1. unfold isqrt. change (INR 0) with 0%R. change (INR 1) with 1%R. change (INR 2) with (1 + 1)%R.
    replace (1 + 1)%R with 2%R by ring. rewrite <- !RtoC_mult. replace (1 * (/ sqrt 2 * -1))%R with (- / sqrt 2)%R by ring. ring.
Qed.
