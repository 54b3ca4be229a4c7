(** Lengths of paths, and the periodic averages of pairs of points. *)
From Coq Require Import Reals Lra Lia Psatz.
From Verif Require TrajectoryProofs.
From Verif Require Import ZLib Csum DFT NumPy Index Spec IndexProofs Basis Lattice SpecReal LatticeProofs SpecHamiltonian
  Brillouin DynamicsProofs OverlapProofs3 Observables ObservablesProofs3 Paths SpecPaths PathsProofs PathsProofs2.
Local Open Scope R_scope.

Lemma int_part_unique x z : IZR z <= x < IZR z + 1 -> Int_part x = z.
Proof.
  intros [H1 H2]. destruct (base_Int_part x) as [A B].
  assert (IZR (Int_part x) < IZR (z + 1)) by (rewrite plus_IZR; lra). assert (IZR z < IZR (Int_part x + 1)) by (rewrite plus_IZR; lra).
  apply lt_IZR in H. apply lt_IZR in H0. lia.
Qed.
Lemma truncate_IZR z : truncate (IZR z) = z.
Proof.
  unfold truncate. destruct (Rlt_dec (IZR z) 0).
  - rewrite <- opp_IZR, (int_part_unique _ (- z)) by lra. lia.
  - apply int_part_unique. lra.
Qed.

Lemma wrapped_step shape path a j : (0 < nth a shape 0)%nat ->
  let n := Z.of_nat (nth a shape 0%nat) in let s := calculate_distances_along_path shape path true a j in
  (- n <= 2 * s < n)%Z /\ exists k : Z, s = (path a j - path a (S j) + k * n)%Z.
Proof.
  intros Hn n s. assert (P : 0 < INR (nth a shape 0%nat)) by (apply (lt_INR 0); exact Hn).
  destruct (wrap_distance_spec (IZR (path a j - path a (S j))) _ 0 P) as [B (z & Z)].
  assert (E : wrap_distance (IZR (path a j - path a (S j))) (INR (nth a shape 0%nat)) 0 = IZR (path a j - path a (S j) + z * n)).
  { rewrite Z, plus_IZR, mult_IZR. unfold n. rewrite <- INR_IZR_INZ. reflexivity. }
  assert (Es : s = (path a j - path a (S j) + z * n)%Z) by (unfold s, calculate_distances_along_path; rewrite E; apply truncate_IZR).
  split; [|exists z; exact Es]. rewrite E, <- Es in B. rewrite INR_IZR_INZ in B. fold n in B.
  split; [apply le_IZR|apply lt_IZR]; rewrite ?opp_IZR, mult_IZR; lra.
Qed.
Lemma wrapped_unique n x k k' : (- n <= 2 * (x + k * n) < n)%Z -> (- n <= 2 * (x + k' * n) < n)%Z -> (x + k * n = x + k' * n)%Z.
Proof. intros H H'. assert (k = k') by nia. subst. reflexivity. Qed.

Lemma wrapped_periodic shape (path path' : nat -> nat -> Z) (m : nat -> nat -> Z) a j : (0 < nth a shape 0)%nat ->
  (forall i, path' a i = path a i + m a i * Z.of_nat (nth a shape 0%nat))%Z ->
  calculate_distances_along_path shape path' true a j = calculate_distances_along_path shape path true a j.
Proof.
  intros Hn H. destruct (wrapped_step shape path a j Hn) as [B (k & K)]. destruct (wrapped_step shape path' a j Hn) as [B' (k' & K')].
  rewrite !H in K'.
  assert (K'' : calculate_distances_along_path shape path' true a j = (path a j - path a (S j) + (k' + m a j - m a (S j)) * Z.of_nat (nth a shape 0%nat))%Z) by (rewrite K'; ring).
  rewrite K''. rewrite K'' in B'. rewrite K. rewrite K in B. apply wrapped_unique; assumption.
Qed.
Lemma wrapped_small shape path a j : (0 < nth a shape 0)%nat ->
  (- Z.of_nat (nth a shape 0%nat) <= 2 * (path a j - path a (S j)) < Z.of_nat (nth a shape 0%nat))%Z ->
  calculate_distances_along_path shape path true a j = (path a j - path a (S j))%Z.
Proof.
  intros Hn H. destruct (wrapped_step shape path a j Hn) as [B (k & K)]. rewrite K. rewrite K in B.
  replace (path a j - path a (S j))%Z with (path a j - path a (S j) + 0 * Z.of_nat (nth a shape 0%nat))%Z at 2 by ring.
  apply wrapped_unique; [exact B|]. rewrite Z.mul_0_l, Z.add_0_r. exact H.
Qed.

Lemma norm_step fshape delta (s : nat -> Z) :
  norm (length fshape) (fun c => rsum (fun a => dx_stacked fshape delta a c * IZR (s a)) (length fshape)) =
  distance (length fshape) (lattice_point fshape delta s) (fun _ => 0).
Proof.
  unfold norm, distance. f_equal. apply rsum_ext. intros c Hc. rewrite Rminus_0_r.
  replace (rsum (fun a => dx_stacked fshape delta a c * IZR (s a)) (length fshape)) with (lattice_point fshape delta s c); [ring|].
  apply rsum_ext. intros a Ha. unfold dx_stacked, Rdiv. ring.
Qed.
Lemma lattice_sub fshape delta (u v : nat -> Z) c : lattice_point fshape delta (fun a => u a - v a)%Z c = lattice_point fshape delta u c - lattice_point fshape delta v c.
Proof. unfold lattice_point. rewrite <- TrajectoryProofs.rsum_sub. apply rsum_ext. intros a Ha. rewrite minus_IZR. unfold Rdiv. ring. Qed.

Lemma map_seq_nth {A} (f : nat -> A) n i d : (i < n)%nat -> nth i (map f (seq 0 n)) d = f i.
Proof. intros H. rewrite (nth_indep _ d (f 0%nat)) by (rewrite map_length, seq_length; exact H). rewrite map_nth, seq_nth by exact H. reflexivity. Qed.

(** ** Lengths along a path *)
Lemma cumulative_length shape fshape delta n path wrap :
  length (calculate_cumulative_x_distances_along_path shape fshape delta n path wrap) = Nat.max n 1.
Proof. unfold calculate_cumulative_x_distances_along_path. rewrite map_length, seq_length. lia. Qed.

Lemma cumulative_plain shape fshape delta n path i : (i < Nat.max n 1)%nat ->
  nth i (calculate_cumulative_x_distances_along_path shape fshape delta n path false) 0 =
  rsum (fun j => distance (length fshape) (lattice_point fshape delta (fun a => path a j)) (lattice_point fshape delta (fun a => path a (S j)))) i.
Proof.
  intros Hi. unfold calculate_cumulative_x_distances_along_path. rewrite map_seq_nth by lia. apply rsum_ext. intros j Hj.
  rewrite norm_step. unfold distance. f_equal. apply rsum_ext. intros c Hc. unfold calculate_distances_along_path.
  rewrite (lattice_sub fshape delta (fun a => path a j) (fun a => path a (S j))). ring.
Qed.

(** [images] are shifts of the points by whole repeats. *)
Lemma cumulative_wrapped shape delta n path i : Forall (fun m => (0 < m)%nat) shape -> (i < Nat.max n 1)%nat ->
  exists (s : nat -> nat -> Z),
    (forall a j, (a < length shape)%nat -> (- Z.of_nat (nth a shape 0%nat) <= 2 * s a j < Z.of_nat (nth a shape 0%nat))%Z /\
       exists k : Z, s a j = (path a j - path a (S j) + k * Z.of_nat (nth a shape 0%nat))%Z) /\
    nth i (calculate_cumulative_x_distances_along_path shape shape delta n path true) 0 =
    rsum (fun j => distance (length shape) (lattice_point shape delta (fun a => s a j)) (fun _ => 0)) i.
Proof.
  intros Hp Hi. exists (calculate_distances_along_path shape path true). split.
  - intros a j Ha. apply wrapped_step. rewrite Forall_forall in Hp. apply Hp, nth_In, Ha.
  - unfold calculate_cumulative_x_distances_along_path. rewrite map_seq_nth by lia. apply rsum_ext. intros j Hj. apply norm_step.
Qed.

Lemma cumulative_periodic shape fshape delta n path path' m : Forall (fun m => (0 < m)%nat) shape -> length fshape = length shape ->
  (forall a i, (a < length shape)%nat -> path' a i = path a i + m a i * Z.of_nat (nth a shape 0%nat))%Z ->
  calculate_cumulative_x_distances_along_path shape fshape delta n path' true = calculate_cumulative_x_distances_along_path shape fshape delta n path true.
Proof.
  intros Hp L H. unfold calculate_cumulative_x_distances_along_path. apply map_ext_in. intros i Hi. apply rsum_ext. intros j Hj.
  unfold norm. f_equal. apply rsum_ext. intros c Hc.
  assert (E : rsum (fun a => dx_stacked fshape delta a c * IZR (calculate_distances_along_path shape path' true a j)) (length fshape) =
    rsum (fun a => dx_stacked fshape delta a c * IZR (calculate_distances_along_path shape path true a j)) (length fshape)).
  { apply rsum_ext. intros a Ha. rewrite L in Ha. rewrite (wrapped_periodic shape path path' m a j); [reflexivity| |intros; apply H, Ha].
    rewrite Forall_forall in Hp. apply Hp, nth_In, Ha. }
  rewrite E. reflexivity.
Qed.

Lemma cumulative_small shape fshape delta n path : Forall (fun m => (0 < m)%nat) shape -> length fshape = length shape ->
  (forall a j, (a < length shape)%nat -> (S j < n)%nat -> (- Z.of_nat (nth a shape 0%nat) <= 2 * (path a j - path a (S j)) < Z.of_nat (nth a shape 0%nat))%Z) ->
  calculate_cumulative_x_distances_along_path shape fshape delta n path true = calculate_cumulative_x_distances_along_path shape fshape delta n path false.
Proof.
  intros Hp L H. unfold calculate_cumulative_x_distances_along_path. apply map_ext_in. intros i Hi. apply in_seq in Hi. apply rsum_ext. intros j Hj.
  unfold norm. f_equal. apply rsum_ext. intros c Hc.
  assert (E : rsum (fun a => dx_stacked fshape delta a c * IZR (calculate_distances_along_path shape path true a j)) (length fshape) =
    rsum (fun a => dx_stacked fshape delta a c * IZR (calculate_distances_along_path shape path false a j)) (length fshape)).
  { apply rsum_ext. intros a Ha. rewrite L in Ha. rewrite wrapped_small; [reflexivity| |apply H; [exact Ha|lia]].
    rewrite Forall_forall in Hp. apply Hp, nth_In, Ha. }
  rewrite E. reflexivity.
Qed.

(** On a lattice with orthogonal vectors no image of a step is shorter than the wrapped one. *)
Lemma orthogonal_length shape delta (s : nat -> Z) : (forall a b, (a < length shape)%nat -> (b < length shape)%nat -> a <> b -> dot (length shape) (delta a) (delta b) = 0) ->
  rsum (fun c => (lattice_point shape delta s c - 0) ^ 2) (length shape) =
  rsum (fun a => (IZR (s a) / INR (nth a shape 0%nat)) ^ 2 * dot (length shape) (delta a) (delta a)) (length shape).
Proof.
  intros Oo. set (nd := length shape) in *. set (k := fun a => IZR (s a) / INR (nth a shape 0%nat)).
  transitivity (dot nd (fun c => rsum (fun a => k a * delta a c) nd) (fun c => rsum (fun a => k a * delta a c) nd)).
  { apply rsum_ext. intros c Hc. unfold lattice_point. fold nd. rewrite Rminus_0_r. unfold k. ring. }
  rewrite dot_sum. apply rsum_ext. intros a Ha. rewrite dot_sym, dot_sum.
  rewrite (rsum_split_at _ nd a Ha).
  rewrite (rsum_ext (fun j => if Nat.eqb a j then 0 else _) (fun _ => 0)).
  - rewrite rsum_const0. fold (k a). ring.
  - intros j Hj. destruct (Nat.eqb_spec a j) as [E|E]; [reflexivity|]. rewrite Oo by assumption. ring.
Qed.
Lemma image_longer n s t k : (0 < n)%Z -> (- n <= 2 * s < n)%Z -> (t = s + k * n)%Z -> (s * s <= t * t)%Z.
Proof.
  intros Hn Hs ->. assert (0 <= (k * n) * (2 * s + k * n))%Z; [|nia]. destruct (Z.eq_dec k 0) as [->|]; [lia|].
  assert (k <= -1 \/ 1 <= k)%Z as [K|K] by lia.
  - assert (k * n <= - n)%Z by nia. apply Z.mul_nonpos_nonpos; lia.
  - assert (n <= k * n)%Z by nia. apply Z.mul_nonneg_nonneg; lia.
Qed.
Lemma step_shortest shape delta path j (t : nat -> Z) : Forall (fun m => (0 < m)%nat) shape ->
  (forall a b, (a < length shape)%nat -> (b < length shape)%nat -> a <> b -> dot (length shape) (delta a) (delta b) = 0) ->
  (forall a, (a < length shape)%nat -> exists k : Z, t a = (path a j - path a (S j) + k * Z.of_nat (nth a shape 0%nat))%Z) ->
  distance (length shape) (lattice_point shape delta (fun a => calculate_distances_along_path shape path true a j)) (fun _ => 0) <=
  distance (length shape) (lattice_point shape delta t) (fun _ => 0).
Proof.
  intros Hp Oo Ht. unfold distance. apply sqrt_le_1_alt. rewrite !orthogonal_length by exact Oo. apply rsum_le. intros a Ha.
  assert (Pa : (0 < nth a shape 0)%nat) by (rewrite Forall_forall in Hp; apply Hp, nth_In, Ha).
  apply Rmult_le_compat_r; [apply rsum_nonneg; intros; apply Rle_0_sqr|].
  destruct (wrapped_step shape path a j Pa) as [B (k & K)]. destruct (Ht a Ha) as (k' & K').
  assert (L : (calculate_distances_along_path shape path true a j * calculate_distances_along_path shape path true a j <= t a * t a)%Z).
  { apply (image_longer (Z.of_nat (nth a shape 0%nat)) _ _ (k' - k)); [lia|exact B|]. rewrite K', K. ring. }
  apply IZR_le in L. rewrite !mult_IZR in L. unfold Rdiv. rewrite !Rpow_mult_distr.
  apply Rmult_le_compat_r; [apply pow2_ge_0|]. lra.
Qed.

(** The triangle inequality. *)
Lemma distance_triangle nd p q r : distance nd p r <= distance nd p q + distance nd q r.
Proof.
  unfold distance. set (u := fun c => p c - q c). set (v := fun c => q c - r c).
  assert (Au : rsum (fun c => (p c - q c) ^ 2) nd = rsum (fun c => u c * u c) nd) by (apply rsum_ext; intros; unfold u; ring).
  assert (Av : rsum (fun c => (q c - r c) ^ 2) nd = rsum (fun c => v c * v c) nd) by (apply rsum_ext; intros; unfold v; ring).
  assert (Aw : rsum (fun c => (p c - r c) ^ 2) nd = rsum (fun c => u c * u c) nd + 2 * rsum (fun c => u c * v c) nd + rsum (fun c => v c * v c) nd).
  { rewrite <- LatticeProofs.rsum_scal_l, <- !LatticeProofs.rsum_plus. apply rsum_ext. intros; unfold u, v; ring. }
  rewrite Au, Av, Aw. pose proof (cauchy_real u v nd) as Cs.
  assert (Pu : 0 <= rsum (fun c => u c * u c) nd) by (apply rsum_nonneg; intros; apply Rle_0_sqr).
  assert (Pv : 0 <= rsum (fun c => v c * v c) nd) by (apply rsum_nonneg; intros; apply Rle_0_sqr).
  set (x := rsum (fun c => u c * u c) nd) in *. set (y := rsum (fun c => v c * v c) nd) in *. set (z := rsum (fun c => u c * v c) nd) in *.
  pose proof (sqrt_pos x). pose proof (sqrt_pos y). pose proof (sqrt_sqrt x Pu). pose proof (sqrt_sqrt y Pv).
  assert (Z : z <= sqrt x * sqrt y).
  { apply Rsqr_incr_0_var; [unfold Rsqr; replace (sqrt x * sqrt y * (sqrt x * sqrt y)) with (x * y) by (rewrite <- H1 at 1; rewrite <- H2 at 1; ring); exact Cs|].
    apply Rmult_le_pos; assumption. }
  rewrite <- (sqrt_square (sqrt x + sqrt y)) by lra. apply sqrt_le_1_alt. nra.
Qed.
Lemma distance_nonneg nd p q : 0 <= distance nd p q.
Proof. apply sqrt_pos. Qed.
Lemma distance_self nd p : distance nd p p = 0.
Proof. unfold distance. rewrite (rsum_ext _ (fun _ => 0)) by (intros; ring). rewrite rsum_const0. apply sqrt_0. Qed.

Lemma path_triangle nd (p : nat -> nat -> R) i k : distance nd (p i) (p (i + k)%nat) <=
  rsum (fun j => distance nd (p j) (p (S j))) (i + k) - rsum (fun j => distance nd (p j) (p (S j))) i.
Proof.
  induction k as [|k IH].
  - rewrite Nat.add_0_r, distance_self. lra.
  - rewrite Nat.add_succ_r, rsum_S. pose proof (distance_triangle nd (p i) (p (i + k)%nat) (p (S (i + k)))). lra.
Qed.

Lemma coordinates_length nd n coordinates : length (calculate_cumulative_distances_along_path nd n coordinates) = Nat.max n 1.
Proof. unfold calculate_cumulative_distances_along_path. rewrite map_length, seq_length. lia. Qed.
Lemma cumulative_coordinates nd n coordinates i : (i < Nat.max n 1)%nat ->
  nth i (calculate_cumulative_distances_along_path nd n coordinates) 0 =
  rsum (fun j => distance nd (fun c => coordinates c j) (fun c => coordinates c (S j))) i.
Proof.
  intros Hi. unfold calculate_cumulative_distances_along_path. rewrite map_seq_nth by lia. apply rsum_ext. intros j Hj. unfold norm, distance.
  f_equal. apply rsum_ext. intros. ring.
Qed.

Lemma k_length shape inv n path wrap : length (calculate_cumulative_k_distances_along_path shape inv n path wrap) = S (length shape).
Proof. unfold calculate_cumulative_k_distances_along_path. rewrite map_length, seq_length. reflexivity. Qed.
Lemma k_single shape inv path wrap n i : (n <= 1)%nat -> (i <= length shape)%nat -> nth i (calculate_cumulative_k_distances_along_path shape inv n path wrap) 0 = 0.
Proof.
  intros Hn Hi. unfold calculate_cumulative_k_distances_along_path. rewrite map_seq_nth by lia. replace (n - 1)%nat with 0%nat by lia.
  rewrite (rsum_ext _ (fun _ => 0)); [apply rsum_const0|]. intros j Hj. unfold norm. cbn. apply sqrt_0.
Qed.

(** ** The largest entry *)
Lemma argmax_spec f n : (0 < n)%nat -> (argmax f n < n)%nat /\ (forall x, (x < n)%nat -> f x <= f (argmax f n)) /\ (forall x, (x < argmax f n)%nat -> f x < f (argmax f n)).
Proof.
  induction n as [|n IH]; [lia|]. intros _. cbn [argmax]. destruct (Nat.eq_dec n 0) as [->|Hn].
  - cbn. destruct (Rlt_dec (f 0%nat) (f 0%nat)); [lra|]. repeat split; [lia| |intros; lia]. intros x Hx. replace x with 0%nat by lia. lra.
  - destruct (IH ltac:(lia)) as (A & B & C). destruct (Rlt_dec (f (argmax f n)) (f n)).
    + repeat split; [lia| |].
      * intros x Hx. destruct (Nat.eq_dec x n) as [->|]; [lra|]. specialize (B x ltac:(lia)). lra.
      * intros x Hx. specialize (B x Hx). lra.
    + repeat split; [lia| |exact C]. intros x Hx. destruct (Nat.eq_dec x n) as [->|]; [lra|]. apply B. lia.
Qed.

(** ** Periodic averages *)
Lemma rint_IZR z : rint (IZR z) = z.
Proof.
  unfold rint. rewrite (int_part_unique (IZR z) z) by lra. destruct (Rlt_dec (IZR z - IZR z) (1 / 2)); [reflexivity|lra].
Qed.

Lemma mean_direction a b : ((cos a + cos b) / 2, (sin a + sin b) / 2) = Cmult (RtoC (cos ((a - b) / 2))) (cis ((a + b) / 2)).
Proof.
  rewrite form1, form3. unfold Cmult, RtoC, cis. cbn [fst snd]. f_equal; field.
Qed.

Lemma average_spec a b : - PI < (a - b) / 2 < PI -> 
  (0 <= cos ((a - b) / 2) -> exists k : Z, match get_average_angles a b with Some t => t | None => (a + b) / 2 end = (a + b) / 2 + IZR k * (2 * PI)) /\
  (cos ((a - b) / 2) < - (2 / 10 ^ 8) -> exists k : Z, match get_average_angles a b with Some t => t | None => (a + b) / 2 end = (a + b) / 2 + PI + IZR k * (2 * PI)).
Proof.
  intros Hr. set (m := (a + b) / 2). set (h := (a - b) / 2) in *.
  pose proof (mean_direction a b) as M. fold m h in M.
  assert (Ex : (cos a + cos b) / 2 = cos h * cos m) by (apply (f_equal fst) in M; cbn in M; lra).
  assert (Ey : (sin a + sin b) / 2 = cos h * sin m) by (apply (f_equal snd) in M; cbn in M; lra).
  assert (Some_case : 0 < Rabs (cos h) -> match get_average_angles a b with Some t => t = np_angle (cos h * cos m, cos h * sin m) | None => Rabs (cos h) <= 2 / 10 ^ 8 end).
  { intros P. unfold get_average_angles. rewrite Ex, Ey.
    destruct (Rle_dec (Rabs (cos h * cos m)) (/ 10 ^ 8)) as [H1|]; [|reflexivity].
    destruct (Rle_dec (Rabs (cos h * sin m)) (/ 10 ^ 8)) as [H2|]; [|reflexivity].
    rewrite Rabs_mult in H1, H2. pose proof (sin2_cos2 m) as Sc. unfold Rsqr in Sc. rewrite <- (Rabs_pos_eq (sin m * sin m)) in Sc by apply Rle_0_sqr. rewrite <- (Rabs_pos_eq (cos m * cos m)) in Sc by apply Rle_0_sqr.
    rewrite !Rabs_mult in Sc. pose proof (Rabs_pos (sin m)). pose proof (Rabs_pos (cos m)). pose proof (Rabs_pos (cos h)).
    set (s := Rabs (sin m)) in *. set (c := Rabs (cos m)) in *. set (q := Rabs (cos h)) in *.
    assert (1 <= s + c) by nra. replace (2 / 10 ^ 8) with (/ 10 ^ 8 + / 10 ^ 8) by field. nra. }
  split.
  - intros [P|Z0].
    + rewrite Rabs_pos_eq in Some_case by lra. specialize (Some_case P). destruct (get_average_angles a b) as [t|].
      * subst t. apply (angle_unique _ m (cos h)); [|exact P]. unfold Cmult, RtoC, cis. cbn [fst snd]. f_equal; ring.
      * exists 0%Z. ring.
    + exists 0%Z. unfold get_average_angles. rewrite Ex, Ey, <- Z0, !Rmult_0_l, Rabs_R0.
      assert (0 < / 10 ^ 8) by (apply Rinv_0_lt_compat; lra).
      destruct (Rle_dec 0 (/ 10 ^ 8)); [|lra]. ring.
  - intros P. assert (0 < 2 / 10 ^ 8) by lra. rewrite Rabs_left in Some_case by lra. specialize (Some_case ltac:(lra)).
    destruct (get_average_angles a b) as [t|]; [|lra]. subst t.
    apply (angle_unique _ (m + PI) (- cos h)); [|lra]. unfold Cmult, RtoC, cis. cbn [fst snd]. rewrite neg_cos, neg_sin. f_equal; ring.
Qed.

Lemma sin_chord t : 0 <= t <= 1 -> t / 2 <= sin (t * (PI / 2)).
Proof.
  intros [H0 H1]. pose proof PI_4. pose proof PI_RGT_0.
  destruct (Rle_dec t (1 / 2)).
  - assert (T : 0 <= t * (PI / 2) <= 1) by nra.
    destruct (sin_bound (t * (PI / 2)) 0) as [L _]; [lra|nra|]. unfold sin_approx, sum_f_R0, sin_term in L. cbn in L.
    pose proof PI2_3_2. unfold PI2 in *. set (x := t * (PI / 2)) in *. assert (t <= x) by (unfold x; nra).
    assert (x - x ^ 3 / 6 <= sin x) by (clear -L; unfold pow; lra). assert (x ^ 3 <= x) by (cbn; nra). nra.
  - assert (sin (PI / 6) <= sin (t * (PI / 2))); [|rewrite sin_PI6 in *; lra].
    apply sin_incr_1; nra.
Qed.

Lemma twice_average_spec n x y : (0 < n)%nat -> (Z.of_nat n <= 10 ^ 7)%Z -> (0 <= x < Z.of_nat n)%Z -> (0 <= y < Z.of_nat n)%Z ->
  twice_average n x y = if (2 * Z.abs (x - y) <=? Z.of_nat n)%Z then ((x + y) mod (2 * Z.of_nat n))%Z else ((x + y + Z.of_nat n) mod (2 * Z.of_nat n))%Z.
Proof.
  intros Hn Hb Hx Hy. assert (Np : 0 < INR n) by (apply (lt_INR 0); exact Hn). pose proof PI_RGT_0 as Pp. rewrite INR_IZR_INZ in Np.
  set (N := Z.of_nat n) in *. unfold twice_average. rewrite INR_IZR_INZ. fold N.
  set (a := 2 * PI * IZR x / IZR N). set (b := 2 * PI * IZR y / IZR N).
  assert (Eh : (a - b) / 2 = PI * (IZR (x - y) / IZR N)) by (unfold a, b; rewrite minus_IZR; field; lra).
  assert (Em : (a + b) / 2 * IZR N / PI = IZR (x + y)) by (unfold a, b; rewrite plus_IZR; field; split; lra).
  assert (Hd : (- N < x - y < N)%Z) by lia.
  assert (Hq : -1 < IZR (x - y) / IZR N < 1).
  { destruct Hd as [D1 D2]. apply IZR_lt in D1, D2. rewrite opp_IZR in D1. split; apply (Rmult_lt_reg_r (IZR N)); try exact Np; unfold Rdiv; rewrite Rmult_assoc, Rinv_l by lra; lra. }
  assert (Hr : - PI < (a - b) / 2 < PI) by (rewrite Eh; nra).
  destruct (average_spec a b Hr) as [P1 P2].
  assert (Fin : forall (t : R) (z k : Z), t * IZR N / PI = IZR z + IZR k * (2 * IZR N) -> (rint (t * IZR N / PI) mod (2 * N) = z mod (2 * N))%Z).
  { intros t z k E. rewrite E. replace (IZR z + IZR k * (2 * IZR N)) with (IZR (z + k * (2 * N))) by (rewrite plus_IZR, !mult_IZR; ring).
    rewrite rint_IZR. apply Z_mod_plus_full. }
  destruct (Z.leb_spec (2 * Z.abs (x - y)) N) as [L|L].
  - destruct P1 as (k & K).
    { rewrite Eh. assert (- (1 / 2) <= IZR (x - y) / IZR N <= 1 / 2).
      { assert (- N <= 2 * (x - y) <= N)%Z as [D1 D2] by lia. apply IZR_le in D1, D2. rewrite opp_IZR, mult_IZR in D1. rewrite mult_IZR in D2.
        split; apply (Rmult_le_reg_r (IZR N)); try exact Np; unfold Rdiv; rewrite ?Rmult_assoc, ?Rinv_l by lra; lra. }
      apply cos_ge_0; nra. }
    rewrite K. apply (Fin _ _ k). rewrite <- Em. field. lra.
  - destruct P2 as (k & K).
    { rewrite Eh. assert (C : cos (PI * (IZR (x - y) / IZR N)) = cos (PI * (IZR (Z.abs (x - y)) / IZR N))).
      { destruct (Z.abs_eq_or_opp (x - y)) as [->| ->]; [reflexivity|]. rewrite opp_IZR, <- cos_neg. f_equal. unfold Rdiv. ring. }
      rewrite C. set (d := Z.abs (x - y)) in *. assert (d < N)%Z by lia.
      set (t := IZR (2 * d - N) / IZR N).
      assert (Ht : 1 / 10 ^ 7 <= t <= 1).
      { assert (1 <= 2 * d - N <= N)%Z as [D1 D2] by lia. apply IZR_le in D1, D2. change (10 ^ 7)%Z with 10000000%Z in Hb. apply IZR_le in Hb.
        assert (I : IZR N * / IZR N = 1) by (apply Rinv_r; lra). assert (0 < / IZR N) by (apply Rinv_0_lt_compat; exact Np).
        unfold t, Rdiv. split; [|nra]. rewrite Rmult_1_l. apply Rle_trans with (/ IZR N); [apply Rinv_le_contravar; [exact Np|]|nra].
        replace (10 ^ 7) with 10000000 by ring. exact Hb. }
      replace (PI * (IZR d / IZR N)) with (PI / 2 + t * (PI / 2)) by (unfold t; rewrite minus_IZR, mult_IZR; field; lra).
      rewrite cos_plus, cos_PI2, sin_PI2, Rmult_0_l, Rmult_1_l, Rminus_0_l.
      assert (0 <= 1 / 10 ^ 7) by lra. pose proof (sin_chord t ltac:(lra)). lra. }
    rewrite K. apply (Fin _ _ k). rewrite plus_IZR, <- Em. field. lra.
Qed.

(** The average is the middle of the shorter way round. *)
Lemma twice_average_middle n x y : (0 < n)%nat -> (Z.of_nat n <= 10 ^ 7)%Z -> (0 <= x < Z.of_nat n)%Z -> (0 <= y < Z.of_nat n)%Z ->
  (0 <= twice_average n x y < 2 * Z.of_nat n)%Z /\
  exists w : Z, (2 * Z.abs w <= Z.of_nat n)%Z /\ (exists k, y = x + w + k * Z.of_nat n)%Z /\ (exists k, twice_average n x y = 2 * x + w + k * (2 * Z.of_nat n))%Z /\
    (exists k, twice_average n x y = 2 * y - w + k * (2 * Z.of_nat n))%Z.
Proof.
  intros Hn Hb Hx Hy. rewrite (twice_average_spec n x y Hn Hb Hx Hy). set (N := Z.of_nat n) in *. assert (0 < 2 * N)%Z by lia.
  assert (M : forall z, (z mod (2 * N) = z + - (z / (2 * N)) * (2 * N))%Z) by (intros z; pose proof (Z.div_mod z (2 * N) ltac:(lia)); lia).
  destruct (Z.leb_spec (2 * Z.abs (x - y)) N) as [L|L].
  - split; [apply Z.mod_pos_bound; lia|]. exists (y - x)%Z. split; [lia|]. split; [exists 0%Z; lia|].
    split; exists (- ((x + y) / (2 * N)))%Z; rewrite M; ring.
  - split; [apply Z.mod_pos_bound; lia|]. destruct (Z_lt_le_dec x y) as [Q|Q].
    + exists (y - x - N)%Z. split; [lia|]. split; [exists 1%Z; lia|]. split; rewrite M; [exists (1 - (x + y + N) / (2 * N))%Z|exists (- ((x + y + N) / (2 * N)))%Z]; ring.
    + exists (y - x + N)%Z. split; [lia|]. split; [exists (-1)%Z; lia|]. split; rewrite M; [exists (- ((x + y + N) / (2 * N)))%Z|exists (1 - (x + y + N) / (2 * N))%Z]; ring.
Qed.
