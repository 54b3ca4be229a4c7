(** Lines and meshes of plots: the points and the values. *)
From Coq Require Import Reals Lra Lia Psatz.
From Verif Require InterpProofs.
From Verif Require Import ZLib Csum DFT NumPy Index Spec IndexProofs AxesProofs Basis Lattice SpecReal LatticeProofs SpecHamiltonian SpecReduce StateList SpecStateList
  Hamiltonian Operator StateListProofs2 Brillouin Observables ObservablesProofs3 Paths SpecPaths PathsProofs PathsProofs2 PathsFacts Wavepacket VolumeBasis SpecVolumeBasis
  Plots SpecPlots PlotsProofs PlotsProofs2.
Local Open Scope R_scope.
Local Notation zero := (fun _ : nat => 0%R).

Lemma ascending_lt n i : (i < n)%nat -> (ascending n i < n)%nat.
Proof. intros Hi. unfold ascending. pose proof (Z.mod_pos_bound (Z.of_nat i - Z.of_nat (n / 2)) (Z.of_nat n) ltac:(lia)). lia. Qed.
Lemma ascending_point n i : (i < n)%nat -> nk_points n (ascending n i) = (Z.of_nat i - Z.of_nat (n / 2))%Z.
Proof.
  intros Hi. pose proof (nk_points_freq n (ascending n i) (ascending_lt n i Hi)) as F.
  refine (InterpProofs.is_freq_unique n (ascending n i) _ _ F _). split.
  - unfold ascending. rewrite Z2Nat.id by (apply Z.mod_pos_bound; lia).
    pose proof (Z.div_mod (Z.of_nat i - Z.of_nat (n / 2)) (Z.of_nat n) ltac:(lia)) as D.
    set (q := ((Z.of_nat i - Z.of_nat (n / 2)) / Z.of_nat n)%Z) in *. set (r := ((Z.of_nat i - Z.of_nat (n / 2)) mod Z.of_nat n)%Z) in *.
    exists q. lia.
  - rewrite Nat2Z.inj_div. pose proof (Z.div_mod (Z.of_nat n) 2 ltac:(lia)). pose proof (Z.mod_pos_bound (Z.of_nat n) 2 ltac:(lia)).
    pose proof (Z.div_mod (Z.of_nat n - 1) 2 ltac:(lia)). pose proof (Z.mod_pos_bound (Z.of_nat n - 1) 2 ltac:(lia)).
    change (Z.of_nat 2) with 2%Z. lia.
Qed.

Section Plot.
  Variables (shape : list nat) (vec : nat -> nat -> R) (w : nat -> nat -> R) (ord : nat -> nat -> nat).
  Let nd := length shape.
  Local Notation size a := (nth a shape 0%nat).
  Local Notation point := (grid_point shape vec w).
  Hypothesis Hp : Forall (fun n => (0 < n)%nat) shape.
  Hypothesis Ho : forall a i, (a < nd)%nat -> (i < size a)%nat -> (ord a i < size a)%nat.
  Hypothesis Hw : forall a i, (a < nd)%nat -> (S i < size a)%nat -> w a (ord a (S i)) - w a (ord a i) = / INR (size a).

  Definition reads (axs idx : list nat) (es : list (nat -> R)) (f : nat -> list nat -> R) : Prop :=
    forall full out, in_shape full shape -> at_axes nd axs out idx full -> length out = length axs -> forall r, (r < length axs)%nat ->
      f r out = np_dot nd (nth r es zero) (point full).

  Lemma generic_line a idx es f (D : nat -> C) m : (a < nd)%nat -> (2 <= size a)%nat -> in_shape idx (remaining 0%nat [a] shape) ->
    projected_axes nd vec [] [a] = Some es -> reads [a] idx es f ->
    exists line, plot_data_1d (size a) (fun i => get_data_in_axes (fun full => D (ravel shape full)) [a] idx [ord a i]) (fun i => f 0%nat [ord a i]) m true = Some line /\
      length line = S (size a) /\
      (forall i full, (i < size a)%nat -> at_axes nd [a] [ord a i] idx full ->
         line_x line i = along nd (vec a) (point full) /\ shows m (D (ravel shape full)) (line_y line i)) /\
      (forall i, (i < size a)%nat -> line_x line (S i) - line_x line i = sqrt (rsum (fun c => vec a c ^ 2) nd) / INR (size a)) /\
      line_y line (size a) = line_y line 0 /\
      (m = PAngle -> forall i, (S i < size a)%nat -> Rabs (line_y line (S i) - line_y line i) <= PI).
  Proof using Hp Ho Hw.
    intros Ha Hn Hi E Rd. assert (Hg : good_axes nd [a]) by (split; [constructor; [intros []|constructor]|constructor; [exact Ha|constructor]]).
    destruct (slice_full shape [a] Hp Hg idx Hi) as (_ & Ex & Rg).
    assert (Fi : forall i full, (i < size a)%nat -> at_axes nd [a] [ord a i] idx full -> in_shape full shape).
    { intros i full Hli At. apply (Rg [ord a i] full); [|exact At]. constructor; [apply Ho; assumption|constructor]. }
    assert (Co : forall i full, (i < size a)%nat -> at_axes nd [a] [ord a i] idx full -> f 0%nat [ord a i] = along nd (vec a) (point full)).
    { intros i full Hli At. rewrite (Rd full [ord a i] (Fi i full Hli At) At eq_refl 0%nat ltac:(cbn; lia)). apply (projected_one nd vec a es E). }
    assert (Nz : norm nd (vec a) <> 0).
    { intros Z. unfold projected_axes in E. destruct (a <? nd)%nat; [|discriminate]. cbn [subtract_projections fold_left] in E.
      destruct (Req_EM_T (norm nd (vec a)) 0); [discriminate|contradiction]. }
    pose proof (norm_nonneg nd (vec a)) as Nn.
    assert (St : forall i, (S i < size a)%nat -> f 0%nat [ord a (S i)] - f 0%nat [ord a i] = norm nd (vec a) / INR (size a)).
    { intros i Hsi. destruct (Ex [ord a i] eq_refl) as (u & Au). destruct (Ex [ord a (S i)] eq_refl) as (v & Av).
      rewrite (Co i u ltac:(lia) Au), (Co (S i) v ltac:(lia) Av).
      pose proof (grid_difference shape [a] vec w Hg idx v u _ _ Av Au) as Df. unfold along. rewrite <- norm_sqrt.
      assert (Dt : rsum (fun c => vec a c * point v c) nd - rsum (fun c => vec a c * point u c) nd = / INR (size a) * (norm nd (vec a) * norm nd (vec a))).
      { change (dot nd (vec a) (point v) - dot nd (vec a) (point u) = / INR (size a) * (norm nd (vec a) * norm nd (vec a))).
        rewrite <- dot_sub, norm_square, <- dot_scale. apply dot_ext; [reflexivity|]. intros c Hc. cbv beta. rewrite Df. cbn [length rsum nth].
        rewrite Hw by (assumption || lia). ring. }
      transitivity ((rsum (fun c => vec a c * point v c) nd - rsum (fun c => vec a c * point u c) nd) / norm nd (vec a)); [unfold Rdiv; ring|].
      rewrite Dt. field. split; [apply not_0_INR; lia|exact Nz]. }
    destruct (line_spec (size a) (fun i => get_data_in_axes (fun full => D (ravel shape full)) [a] idx [ord a i]) (fun i => f 0%nat [ord a i]) m _ Hn St)
      as (line & El & Ll & Lx & Ly & Ls & Le & La).
    exists line. split; [exact El|]. split; [exact Ll|]. split; [|split; [intros i Hli; rewrite <- norm_sqrt; exact (Ls i Hli)|split; assumption]].
    intros i full Hli At. split; [rewrite Lx by exact Hli; exact (Co i full Hli At)|]. specialize (Ly i Hli). cbv beta in Ly.
    destruct At as (A1 & A2 & A3). rewrite (get_data_in_axes_spec _ nd [a] idx [ord a i] full (proj1 Hg) (proj2 Hg) A1 eq_refl A2 A3) in Ly. exact Ly.
  Qed.

  Lemma generic_mesh a b idx es f (D : nat -> C) m : (a < nd)%nat -> (b < nd)%nat -> a <> b -> in_shape idx (remaining 0%nat [a; b] shape) ->
    projected_axes nd vec [] [a; b] = Some es -> reads [a; b] idx es f ->
    exists me, plot_data_2d (size a) (size b) (fun i j => get_data_in_axes (fun full => D (ravel shape full)) [a; b] idx [ord a i; ord b j])
        (fun r i j => f r [ord a i; ord b j]) m = Some me /\
      (forall i j full, (i < size a)%nat -> (j < size b)%nat -> at_axes nd [a; b] [ord a i; ord b j] idx full -> shows m (D (ravel shape full)) (mesh_value me i j)) /\
      (forall i j i' j' full full', (i < size a)%nat -> (j < size b)%nat -> (i' < size a)%nat -> (j' < size b)%nat ->
         at_axes nd [a; b] [ord a i; ord b j] idx full -> at_axes nd [a; b] [ord a i'; ord b j'] idx full' ->
         sqrt ((fst (mesh_at me i j) - fst (mesh_at me i' j')) ^ 2 + (snd (mesh_at me i j) - snd (mesh_at me i' j')) ^ 2) = distance nd (point full) (point full')) /\
      (forall i j, (S i < size a)%nat -> (j < size b)%nat ->
         fst (mesh_at me (S i) j) - fst (mesh_at me i j) = sqrt (rsum (fun c => vec a c ^ 2) nd) / INR (size a) /\ snd (mesh_at me (S i) j) = snd (mesh_at me i j)) /\
      (forall i j, (i < size a)%nat -> (S j < size b)%nat -> snd (mesh_at me i j) < snd (mesh_at me i (S j))) /\
      limits_fit m (size a) (size b) (mesh_value me) (mesh_lim me) /\
      (m = PAngle -> forall i j, Rabs (mesh_value me i (S j) - mesh_value me i j) <= PI).
  Proof using Hp Ho Hw.
    intros Ha Hb Nab Hi E Rd.
    assert (Hg : good_axes nd [a; b]).
    { split; [constructor; [intros [->|[]]; congruence|constructor; [intros []|constructor]]|constructor; [exact Ha|constructor; [exact Hb|constructor]]]. }
    destruct (slice_full shape [a; b] Hp Hg idx Hi) as (_ & Ex & Rg).
    assert (Fi : forall i j full, (i < size a)%nat -> (j < size b)%nat -> at_axes nd [a; b] [ord a i; ord b j] idx full -> in_shape full shape).
    { intros i j full Hli Hlj At. apply (Rg [ord a i; ord b j] full); [|exact At].
      constructor; [apply Ho; assumption|constructor; [apply Ho; assumption|constructor]]. }
    assert (Co : forall r i j full, (r < 2)%nat -> (i < size a)%nat -> (j < size b)%nat -> at_axes nd [a; b] [ord a i; ord b j] idx full ->
      f r [ord a i; ord b j] = np_dot nd (nth r es zero) (point full)).
    { intros r i j full Hr Hli Hlj At. exact (Rd full _ (Fi i j full Hli Hlj At) At eq_refl r Hr). }
    assert (Pa : (0 < size a)%nat) by (rewrite Forall_forall in Hp; apply Hp, nth_In; exact Ha).
    assert (Pb : (0 < size b)%nat) by (rewrite Forall_forall in Hp; apply Hp, nth_In; exact Hb).
    destruct (projected_two nd vec a b es E) as (T1 & T2 & T3).
    unfold plot_data_2d. cbv zeta. replace (size a * size b =? 0)%nat with false by (symmetry; apply Nat.eqb_neq; nia).
    eexists. split; [reflexivity|]. cbn [mesh_at mesh_value mesh_lim fst snd].
    split; [|split; [|split; [|split; [|split]]]].
    - intros i j full Hli Hlj (A1 & A2 & A3).
      pose proof (measured_shows m (fun j => get_data_in_axes (fun full => D (ravel shape full)) [a; b] idx [ord a i; ord b j]) j) as Q. cbv beta in Q.
      rewrite (get_data_in_axes_spec _ nd [a; b] idx [ord a i; ord b j] full (proj1 Hg) (proj2 Hg) A1 eq_refl A2 A3) in Q. exact Q.
    - intros i j i' j' u v Hli Hlj Hli' Hlj' Au Av. rewrite !(Co _ i j u) by (assumption || lia). rewrite !(Co _ i' j' v) by (assumption || lia).
      apply T1. pose proof (grid_difference shape [a; b] vec w Hg idx u v _ _ Au Av) as Df. cbn [length rsum nth] in Df.
      exists (w a (ord a i) - w a (ord a i')), (w b (ord b j) - w b (ord b j')). intros c Hc. rewrite Df. ring.
    - intros i j Hsi Hlj. destruct (Ex [ord a i; ord b j] eq_refl) as (u & Au). destruct (Ex [ord a (S i); ord b j] eq_refl) as (v & Av).
      rewrite !(Co _ i j u) by (assumption || lia). rewrite !(Co _ (S i) j v) by (assumption || lia).
      pose proof (grid_difference shape [a; b] vec w Hg idx v u _ _ Av Au) as Df. cbn [length rsum nth] in Df.
      destruct (T2 (point v) (point u) (/ INR (size a))) as (Q1 & Q2).
      { intros c Hc. rewrite Df, Hw by assumption. ring. }
      split; [rewrite Q1; unfold Rdiv; ring|exact Q2].
    - intros i j Hli Hsj. destruct (Ex [ord a i; ord b j] eq_refl) as (u & Au). destruct (Ex [ord a i; ord b (S j)] eq_refl) as (v & Av).
      rewrite !(Co _ i j u) by (assumption || lia). rewrite !(Co _ i (S j) v) by (assumption || lia).
      pose proof (grid_difference shape [a; b] vec w Hg idx v u _ _ Av Au) as Df. cbn [length rsum nth] in Df.
      apply (T3 _ _ (/ INR (size b))); [apply Rinv_0_lt_compat, lt_0_INR; exact Pb|].
      intros c Hc. rewrite Df, Hw by assumption. ring.
    - apply (limits_spec m (size a) (size b) (fun i j => get_data_in_axes (fun full => D (ravel shape full)) [a; b] idx [ord a i; ord b j])). nia.
    - intros -> i j. apply (measured_close (fun j => get_data_in_axes (fun full => D (ravel shape full)) [a; b] idx [ord a i; ord b j])).
  Qed.
End Plot.
