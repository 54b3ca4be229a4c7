(** Lines and meshes of plots. *)
From Coq Require Import Reals Lra Lia Psatz.
From Verif Require Import ZLib Csum DFT NumPy Index Spec IndexProofs AxesProofs Basis Lattice SpecReal LatticeProofs SpecHamiltonian SpecReduce StateList SpecStateList
  Hamiltonian Operator StateListProofs2 Brillouin Observables ObservablesProofs3 Paths SpecPaths PathsProofs PathsProofs2 PathsFacts Wavepacket VolumeBasis SpecVolumeBasis
  Plots SpecPlots PlotsProofs.
Local Open Scope R_scope.
Local Notation zero := (fun _ : nat => 0%R).

(** ** Measures and lines *)
Lemma measured_shows m (D : nat -> C) i : shows m (D i) (measured_vector m D i).
Proof.
  destruct m; try reflexivity. unfold shows, measured_vector. destruct (unwrap_congruent (fun i => np_angle (D i)) i) as (k & ->).
  rewrite cis_shift. apply angle_spec.
Qed.
Lemma measured_close (D : nat -> C) i : Rabs (measured_vector PAngle D (S i) - measured_vector PAngle D i) <= PI.
Proof. apply unwrap_close. Qed.

Lemma nth_points {A} (g : nat -> A) n i d l : (i < n)%nat -> nth i (map g (seq 0 n) ++ l) d = g i.
Proof.
  intros Hi. rewrite app_nth1 by (rewrite map_length, seq_length; exact Hi). rewrite (nth_indep _ d (g 0%nat)) by (rewrite map_length, seq_length; exact Hi).
  rewrite (map_nth g), seq_nth by exact Hi. reflexivity.
Qed.

Lemma line_spec n D co m st : (2 <= n)%nat -> (forall i, (S i < n)%nat -> co (S i) - co i = st) ->
  exists line, plot_data_1d n D co m true = Some line /\ length line = S n /\ (forall i, (i < n)%nat -> line_x line i = co i) /\
    (forall i, (i < n)%nat -> shows m (D i) (line_y line i)) /\ (forall i, (i < n)%nat -> line_x line (S i) - line_x line i = st) /\
    line_y line n = line_y line 0 /\ (m = PAngle -> forall i, (S i < n)%nat -> Rabs (line_y line (S i) - line_y line i) <= PI).
Proof.
  intros Hn Hs. unfold plot_data_1d. cbv zeta. replace (n <? 2)%nat with false by (symmetry; apply Nat.ltb_ge; exact Hn).
  set (g := fun i => (co i, measured_vector m D i)). set (e := (co (n - 1)%nat + (co 1%nat - co 0%nat), measured_vector m D 0%nat)).
  assert (P : forall i d, (i < n)%nat -> nth i (map g (seq 0 n) ++ [e]) d = g i) by (intros; apply nth_points; assumption).
  assert (Q : forall d, nth n (map g (seq 0 n) ++ [e]) d = e).
  { intros d. rewrite app_nth2; rewrite map_length, seq_length; [|lia]. rewrite Nat.sub_diag. reflexivity. }
  eexists. split; [reflexivity|]. split; [rewrite app_length, map_length, seq_length; cbn; lia|]. unfold line_x, line_y.
  split; [intros i Hi; rewrite P by exact Hi; reflexivity|]. split; [intros i Hi; rewrite P by exact Hi; apply measured_shows|]. split; [|split].
  - intros i Hi. destruct (Nat.eq_dec (S i) n) as [E|E].
    + rewrite E, Q, P by lia. cbn [fst e g]. replace (n - 1)%nat with i by lia. rewrite <- (Hs 0%nat) by lia. ring.
    + rewrite !P by lia. apply Hs. lia.
  - rewrite Q, P by lia. reflexivity.
  - intros -> i Hi. rewrite !P by lia. apply measured_close.
Qed.

(** ** Limits *)
Lemma np_max_spec f n : (0 < n)%nat -> (forall i, (i < n)%nat -> f i <= np_max f n) /\ exists i, (i < n)%nat /\ f i = np_max f n.
Proof.
  induction n as [|[|n] IH]; intros Hn; [lia| |].
  - cbn. rewrite Rmax_left by lra. split; [intros i Hi; replace i with 0%nat by lia; lra|exists 0%nat; split; [lia|reflexivity]].
  - destruct (IH ltac:(lia)) as (A & (i & Hi & E)). cbn [np_max] in *. set (M := Rmax _ (f n)) in *.
    pose proof (Rmax_l M (f (S n))). pose proof (Rmax_r M (f (S n))). split.
    + intros j Hj. destruct (Nat.eq_dec j (S n)) as [->|]; [assumption|]. specialize (A j ltac:(lia)). lra.
    + unfold Rmax in *. destruct (Rle_dec M (f (S n))); [exists (S n); split; [lia|reflexivity]|exists i; split; [lia|exact E]].
Qed.
Lemma np_min_spec f n : (0 < n)%nat -> (forall i, (i < n)%nat -> np_min f n <= f i) /\ exists i, (i < n)%nat /\ f i = np_min f n.
Proof.
  induction n as [|[|n] IH]; intros Hn; [lia| |].
  - cbn. rewrite Rmin_left by lra. split; [intros i Hi; replace i with 0%nat by lia; lra|exists 0%nat; split; [lia|reflexivity]].
  - destruct (IH ltac:(lia)) as (A & (i & Hi & E)). cbn [np_min] in *. set (M := Rmin _ (f n)) in *.
    pose proof (Rmin_l M (f (S n))). pose proof (Rmin_r M (f (S n))). split.
    + intros j Hj. destruct (Nat.eq_dec j (S n)) as [->|]; [assumption|]. specialize (A j ltac:(lia)). lra.
    + unfold Rmin in *. destruct (Rle_dec M (f (S n))); [exists i; split; [lia|exact E]|exists (S n); split; [lia|reflexivity]].
Qed.

Lemma grid_place n0 n1 i j : (i < n0)%nat -> (j < n1)%nat -> (i * n1 + j < n0 * n1)%nat /\ ((i * n1 + j) / n1 = i)%nat /\ ((i * n1 + j) mod n1 = j)%nat.
Proof.
  intros Hi Hj. split; [nia|]. split.
  - rewrite Nat.div_add_l, Nat.div_small by lia. lia.
  - rewrite Nat.add_comm, Nat.mod_add, Nat.mod_small by lia. reflexivity.
Qed.
Lemma place_grid n0 n1 t : (t < n0 * n1)%nat -> (t / n1 < n0)%nat /\ (t mod n1 < n1)%nat.
Proof.
  intros Ht. assert (n1 <> 0%nat) by nia. split; [apply Nat.div_lt_upper_bound; lia|apply Nat.mod_upper_bound; assumption].
Qed.

Lemma limits_spec m n0 n1 (D : nat -> nat -> C) : (0 < n0 * n1)%nat ->
  limits_fit m n0 n1 (measured_matrix m D) (get_lim (None, None) m (n0 * n1) (fun t => measured_matrix m D (t / n1)%nat (t mod n1)%nat)).
Proof.
  intros Hn. set (F := fun t => measured_matrix m D (t / n1)%nat (t mod n1)%nat).
  destruct (np_max_spec F _ Hn) as (A & (t & Ht & E)). destruct (np_min_spec F _ Hn) as (B & (u & Hu & V)).
  assert (FF : forall i j, (i < n0)%nat -> (j < n1)%nat -> exists s, (s < n0 * n1)%nat /\ F s = measured_matrix m D i j).
  { intros i j Hi Hj. destruct (grid_place n0 n1 i j Hi Hj) as (P & Q & R). exists (i * n1 + j)%nat. split; [exact P|]. unfold F. rewrite Q, R. reflexivity. }
  destruct (place_grid _ _ _ Ht) as (T0 & T1). destruct (place_grid _ _ _ Hu) as (U0 & U1).
  assert (Sd : snd (get_lim (None, None) m (n0 * n1) F) = np_max F (n0 * n1)) by (destruct m; reflexivity).
  unfold limits_fit. rewrite Sd. split; [|split; [|split]].
  - intros i j Hi Hj. destruct (FF i j Hi Hj) as (s & Hs & Es). specialize (A s Hs). specialize (B s Hs). rewrite Es in A, B. split; [|exact A].
    destruct m; try exact B. cbn. apply Cmod_ge_0.
  - exists (t / n1)%nat, (t mod n1)%nat. split; [exact T0|]. split; [exact T1|]. exact E.
  - intros ->. reflexivity.
  - intros Nm. exists (u / n1)%nat, (u mod n1)%nat. split; [exact U0|]. split; [exact U1|]. destruct m; try exact V. congruence.
Qed.

(** ** Grids *)
Section Grid.
  Variables (shape axs : list nat) (vec : nat -> nat -> R) (w : nat -> nat -> R).
  Let nd := length shape.
  Hypothesis Hg : good_axes nd axs.

  Definition grid_point (full : list nat) (c : nat) : R := rsum (fun a => w a (nth a full 0%nat) * vec a c) nd.

  Lemma grid_difference idx full full' out out' : at_axes nd axs out idx full -> at_axes nd axs out' idx full' ->
    forall c, grid_point full c - grid_point full' c =
      rsum (fun j => (w (nth j axs 0%nat) (nth j out 0%nat) - w (nth j axs 0%nat) (nth j out' 0%nat)) * vec (nth j axs 0%nat) c) (length axs).
  Proof using Hg.
    intros (L & A & B) (L' & A' & B') c. destruct Hg as [N F]. unfold grid_point.
    transitivity (rsum (fun a => (w a (nth a full 0%nat) - w a (nth a full' 0%nat)) * vec a c) nd).
    { assert (G : forall n, rsum (fun a => w a (nth a full 0%nat) * vec a c) n - rsum (fun a => w a (nth a full' 0%nat) * vec a c) n =
        rsum (fun a => (w a (nth a full 0%nat) - w a (nth a full' 0%nat)) * vec a c) n).
      { induction n as [|n IH]; cbn [rsum]; [ring|]. rewrite <- IH. ring. }
      apply G. }
    rewrite (rsum_support _ nd axs N F).
    - apply rsum_ext. intros j Hj. rewrite (A j Hj), (A' j Hj). reflexivity.
    - intros a Ha Na. replace (nth a full 0%nat) with (nth a full' 0%nat); [ring|].
      assert (M : map (fun k => nth k full' 0%nat) (other_axes nd axs) = map (fun k => nth k full 0%nat) (other_axes nd axs)) by congruence.
      assert (Ia : In a (other_axes nd axs)).
      { unfold other_axes. apply filter_In. split; [apply in_seq; lia|]. destruct (existsb (Nat.eqb a) axs) eqn:E; [|reflexivity]. exfalso. apply Na.
        apply memb_In. exact E. }
      revert M Ia. generalize (other_axes nd axs). intros l. induction l as [|k l IH]; cbn [map]; intros M [].
      + subst k. injection M as M _. exact M.
      + apply IH; [injection M as _ M; exact M|assumption].
  Qed.
End Grid.

Lemma x_coordinates shape delta axs idx es : Forall (fun n => (0 < n)%nat) shape -> good_axes (length shape) axs ->
  in_shape idx (remaining 0%nat axs shape) -> projected_axes (length shape) delta [] axs = Some es ->
  exists f, get_x_coordinates_in_axes shape shape delta axs (Some idx) = Some (length axs, f) /\
    forall full out, in_shape full shape -> at_axes (length shape) axs out idx full -> length out = length axs -> forall r, (r < length axs)%nat ->
      f r out = np_dot (length shape) (nth r es zero) (grid_point shape delta (fun a i => IZR (Z.of_nat i) / INR (nth a shape 0%nat)) full).
Proof.
  intros Hp Hg Hi E. destruct (slice_full shape axs Hp Hg idx Hi) as (Li & _).
  pose proof (axes_spec _ _ _ _ E) as I. pose proof (inv_length _ _ _ _ I) as L.
  assert (P : (0 < nprod shape)%nat) by (clear -Hp; induction Hp; cbn; nia).
  destruct (get_x_coordinates_in_axes shape shape delta axs (Some idx)) as [[rows f]|] eqn:G.
  2:{ exfalso. unfold get_x_coordinates_in_axes in G. rewrite E in G. rewrite Nat.mod_mul in G by lia.
      replace (nprod shape =? 0)%nat with false in G by (symmetry; apply Nat.eqb_neq; lia). discriminate. }
  destruct (coordinates_spec shape delta axs Hp (proj1 Hg) (proj2 Hg) idx rows f Li G) as (-> & Q). exists f. split; [reflexivity|].
  intros full out Hf Ha Ho r Hr. specialize (Q full out Hf Ha Ho). unfold project_x_points_along_axes in Q. rewrite E in Q. injection Q as Q.
  assert (T : nth r (map (fun r => f r out) (seq 0 (length axs))) 0 = nth r (map (fun e => np_dot (length shape) e (at_point shape delta full)) es) 0) by (rewrite <- Q; reflexivity).
  rewrite (nth_indep _ 0 (f 0%nat out)) in T by (rewrite map_length, seq_length; exact Hr).
  rewrite (map_nth (fun r => f r out)), seq_nth in T by exact Hr. cbn [Nat.add] in T. rewrite T.
  rewrite (nth_indep _ 0 (np_dot (length shape) zero (at_point shape delta full))) by (rewrite map_length, L; exact Hr).
  rewrite (map_nth (fun e => np_dot (length shape) e (at_point shape delta full))). reflexivity.
Qed.

Lemma k_coordinates shape inv axs idx es : Forall (fun n => (0 < n)%nat) shape -> good_axes (length shape) axs ->
  in_shape idx (remaining 0%nat axs shape) -> projected_axes (length shape) (fun a c => INR (nth a shape 0%nat) * dk_stacked inv a c) [] axs = Some es ->
  exists f, get_k_coordinates_in_axes shape inv axs idx = Some (length axs, f) /\
    forall full out, in_shape full shape -> at_axes (length shape) axs out idx full -> length out = length axs -> forall r, (r < length axs)%nat ->
      f r out = np_dot (length shape) (nth r es zero) (grid_point shape (fun a c => INR (nth a shape 0%nat) * dk_stacked inv a c)
        (fun a i => IZR (nk_points (nth a shape 0%nat) i) / INR (nth a shape 0%nat)) full).
Proof.
  intros Hp Hg Hi E. pose proof (inv_length _ _ _ _ (axes_spec _ _ _ _ E)) as L.
  assert (P : (0 < nprod shape)%nat) by (clear -Hp; induction Hp; cbn; nia).
  unfold get_k_coordinates_in_axes. rewrite E. replace (nprod shape =? 0)%nat with false by (symmetry; apply Nat.eqb_neq; lia).
  rewrite L. eexists. split; [reflexivity|]. intros full out Hf (A & B & D) Ho r Hr. cbv beta.
  rewrite (get_data_in_axes_spec _ (length shape) axs idx out full (proj1 Hg) (proj2 Hg) A Ho B D).
  apply dot_ext; [reflexivity|]. intros c Hc. unfold fundamental_stacked_k_points, tensordot00, grid_point. apply rsum_ext. intros a Ha.
  unfold stacked_nk_points, meshgrid_ravel, flatten. rewrite unravel_ravel by exact Hf.
  assert (Np : (0 < nth a shape 0)%nat) by (rewrite Forall_forall in Hp; apply Hp, nth_In; exact Ha). apply lt_0_INR in Np. field. lra.
Qed.
