(** Lines and meshes of plots in momentum, default slices and errors. *)
From Coq Require Import Reals Lra Lia Psatz.
From Verif Require Import ZLib Csum DFT NumPy Index Spec IndexProofs AxesProofs Basis SpecBasis BasisProofs BasisProofs2 BasisProofs3 Lattice SpecReal LatticeProofs SpecHamiltonian SpecReduce StateList SpecStateList
  Hamiltonian Operator StateListProofs2 Brillouin Observables ObservablesProofs3 Paths SpecPaths PathsProofs PathsProofs2 PathsProofs3 PathsFacts Wavepacket SpecWavepacket VolumeBasis SpecVolumeBasis
  VolumeBasisProofs WaveListsProofs Plots SpecPlots PlotsProofs PlotsProofs2 PlotsProofs3 PlotsProofs4.
Local Open Scope R_scope.
Local Notation zero := (fun _ : nat => 0%R).

Lemma norm_scale nd k v : 0 < k -> sqrt (rsum (fun c => (k * v c) ^ 2) nd) = k * sqrt (rsum (fun c => v c ^ 2) nd).
Proof.
  intros Hk. replace (rsum (fun c => (k * v c) ^ 2) nd) with (k ^ 2 * rsum (fun c => v c ^ 2) nd).
  2:{ rewrite <- LatticeProofs.rsum_scal_l. apply rsum_ext. intros c _. ring. }
  rewrite sqrt_mult_alt by nra. rewrite sqrt_pow2 by lra. reflexivity.
Qed.

Section Momentum.
  Variables (same : basis -> basis -> bool) (axes : list length_axis) (inv : nat -> nat -> R).
  Let nd := length axes.
  Let F := fundamental_shape axes.
  Hypothesis Hs : identity_test same.
  Hypothesis Hd : in_space nd axes.
  Hypothesis Hw : bwf (stacked axes).
  Hypothesis He : explicit_orthonormal (stacked axes).
  Hypothesis Hv : is_inverse nd (lattice_of axes) inv.

  Local Notation L := (shape_length axes).
  Local Notation pos := (shape_positive axes Hw).
  Local Notation kvec := (fun a c => INR (nth a F 0%nat) * dk_stacked inv a c).

  Lemma momentum_form : exists M H, stacked_basis_as_fundamental_momentum_basis axes = Some M /\ convert same (stacked axes) (stacked M) = Some H /\
    forall v j, (j < nprod F)%nat -> H v j = momentum_amplitude axes inv v j.
  Proof using Hs Hd Hw He Hv.
    destruct (waves same nd axes inv Hs Hd Hw He Hv) as (P & M & G & H & EP & EM & EG & EH & V & W & _). exists M, H. split; [exact EM|]. split; [exact EH|].
    intros v j Hj. rewrite W by exact Hj. unfold momentum_amplitude, inner_product, lattice_wave. apply csum_ext. intros x Hx. rewrite V by exact Hx. reflexivity.
  Qed.

  Lemma size_pos a : (a < nd)%nat -> 0 < INR (nth a F 0%nat).
  Proof using Hw. intros Ha. apply lt_0_INR. pose proof pos as Q. rewrite Forall_forall in Q. apply Q, nth_In. rewrite L. exact Ha. Qed.
  Lemma two_pi : 0 < 2 * PI.
  Proof. pose proof PI_RGT_0. lra. Qed.
  Lemma kvec_nonzero a : (a < nd)%nat -> nonzero nd (kvec a).
  Proof using Hw Hv.
    intros Ha. destruct (proj2 (inverse_nonzero _ _ _ a Hv Ha)) as (c & Hc & Nz). exists c. split; [exact Hc|]. unfold dk_stacked.
    pose proof (size_pos a Ha). pose proof two_pi. apply Rmult_integral_contrapositive. split; [lra|]. apply Rmult_integral_contrapositive. split; [lra|exact Nz].
  Qed.
  Lemma kvec_independent a b : (a < nd)%nat -> (b < nd)%nat -> a <> b -> independent nd (kvec a) (kvec b).
  Proof using Hw Hv.
    intros Ha Hb N. split; [exact (kvec_nonzero a Ha)|]. intros k. destruct (proj2 (inverse_independent _ _ _ a b Hv Ha Hb N)) as (_ & Ind).
    pose proof (size_pos a Ha) as Pa. pose proof (size_pos b Hb) as Pb. pose proof two_pi as P2.
    destruct (Ind (k * INR (nth a F 0%nat) / INR (nth b F 0%nat))) as (c & Hc & Nc). exists c. split; [exact Hc|]. intros E. apply Nc. unfold dk_stacked in E.
    apply (Rmult_eq_reg_l (INR (nth b F 0%nat) * (2 * PI))); [|nra].
    transitivity (k * (INR (nth a F 0%nat) * (2 * PI * inv c a))); [rewrite <- E; ring|]. field. lra.
  Qed.
  Lemma kstep a i : (a < length F)%nat -> (S i < nth a F 0)%nat ->
    IZR (nk_points (nth a F 0%nat) (ascending (nth a F 0%nat) (S i))) / INR (nth a F 0%nat) - IZR (nk_points (nth a F 0%nat) (ascending (nth a F 0%nat) i)) / INR (nth a F 0%nat) =
    / INR (nth a F 0%nat).
  Proof.
    intros Ha Hi. rewrite !ascending_point by lia. rewrite !minus_IZR, Nat2Z.inj_succ, succ_IZR. unfold Rdiv. ring.
  Qed.

  Lemma plot_line_k data a idx m : (a < nd)%nat -> (2 <= nth a F 0)%nat -> in_shape idx (remaining 0%nat [a] F) ->
    exists line, plot_data_1d_k same axes inv data a (Some idx) m = Some line /\ length line = S (nth a F 0%nat) /\
      (forall i full, (i < nth a F 0)%nat -> at_axes nd [a] [ascending (nth a F 0%nat) i] idx full ->
         line_x line i = along nd (dk_stacked inv a) (fun c => fundamental_stacked_k_points F inv c (ravel F full)) /\
         shows m (momentum_amplitude axes inv data (ravel F full)) (line_y line i)) /\
      (forall i, (i < nth a F 0)%nat -> line_x line (S i) - line_x line i = sqrt (rsum (fun c => dk_stacked inv a c ^ 2) nd)) /\
      line_y line (nth a F 0%nat) = line_y line 0 /\
      (m = PAngle -> forall i, (S i < nth a F 0)%nat -> Rabs (line_y line (S i) - line_y line i) <= PI).
  Proof using Hs Hd Hw He Hv.
    intros Ha Hn Hi. destruct momentum_form as (M & H & EM & EH & V). pose proof L as Le. fold F nd in Le.
    unfold plot_data_1d_k. fold F. cbv zeta. rewrite EM, EH, (vectors_fit_true axes Hd).
    pose proof (slice_fits_in_shape F [a] pos (one_axis axes a Ha) idx Hi) as Sf. rewrite Sf. cbn [andb].
    destruct (projected_one_some (length F) kvec a) as (es & Es); [rewrite Le; exact Ha|rewrite Le; exact (kvec_nonzero a Ha)|].
    destruct (k_coordinates F inv [a] idx es pos (one_axis axes a Ha) Hi Es) as (f & Ef & Rf). rewrite Ef.
    destruct (generic_line F kvec (fun a i => IZR (nk_points (nth a F 0%nat) i) / INR (nth a F 0%nat)) (fun a i => ascending (nth a F 0%nat) i) pos
      ltac:(intros; apply ascending_lt; assumption) kstep a idx es f (H data) m ltac:(rewrite Le; exact Ha) Hn Hi Es Rf) as (line & E1 & E2 & E3 & E4 & E5 & E6).
    rewrite Le in E3, E4. exists line. split; [exact E1|]. split; [exact E2|]. split; [|split; [|split; [exact E5|exact E6]]].
    - intros i full Hli At. destruct (E3 i full Hli At) as (X & Y).
      assert (Hf : in_shape full F).
      { destruct (slice_full F [a] pos (one_axis axes a Ha) idx Hi) as (_ & _ & Rg). apply (Rg [ascending (nth a F 0%nat) i]); [|rewrite Le; exact At].
        constructor; [apply ascending_lt; exact Hli|constructor]. }
      split; [|rewrite V in Y; [exact Y|apply ravel_lt; exact Hf]]. rewrite X. rewrite (along_scale nd (INR (nth a F 0%nat)) (dk_stacked inv a)) by exact (size_pos a Ha).
      apply along_ext. intros c Hc. symmetry. apply momentum_grid; [exact pos|exact Hf].
    - intros i Hli. rewrite (E4 i Hli), norm_scale by exact (size_pos a Ha). pose proof (size_pos a Ha). field. lra.
  Qed.

  Lemma plot_mesh_k data a b idx m : (a < nd)%nat -> (b < nd)%nat -> a <> b -> in_shape idx (remaining 0%nat [a; b] F) ->
    let point (full : list nat) c := fundamental_stacked_k_points F inv c (ravel F full) in
    let place i j full := at_axes nd [a; b] [ascending (nth a F 0%nat) i; ascending (nth b F 0%nat) j] idx full in
    exists me, plot_data_2d_k same axes inv data a b (Some idx) m = Some me /\
      (forall i j full, (i < nth a F 0)%nat -> (j < nth b F 0)%nat -> place i j full -> shows m (momentum_amplitude axes inv data (ravel F full)) (mesh_value me i j)) /\
      (forall i j i' j' full full', (i < nth a F 0)%nat -> (j < nth b F 0)%nat -> (i' < nth a F 0)%nat -> (j' < nth b F 0)%nat ->
         place i j full -> place i' j' full' ->
         sqrt ((fst (mesh_at me i j) - fst (mesh_at me i' j')) ^ 2 + (snd (mesh_at me i j) - snd (mesh_at me i' j')) ^ 2) = distance nd (point full) (point full')) /\
      (forall i j, (S i < nth a F 0)%nat -> (j < nth b F 0)%nat ->
         fst (mesh_at me (S i) j) - fst (mesh_at me i j) = sqrt (rsum (fun c => dk_stacked inv a c ^ 2) nd) /\ snd (mesh_at me (S i) j) = snd (mesh_at me i j)) /\
      (forall i j, (i < nth a F 0)%nat -> (S j < nth b F 0)%nat -> snd (mesh_at me i j) < snd (mesh_at me i (S j))) /\
      limits_fit m (nth a F 0%nat) (nth b F 0%nat) (mesh_value me) (mesh_lim me) /\
      (m = PAngle -> forall i j, Rabs (mesh_value me i (S j) - mesh_value me i j) <= PI).
  Proof using Hs Hd Hw He Hv.
    intros Ha Hb Nab Hi point place. destruct momentum_form as (M & H & EM & EH & V). pose proof L as Le. fold F nd in Le.
    unfold plot_data_2d_k. fold F. cbv zeta. rewrite EM, EH, (vectors_fit_true axes Hd).
    pose proof (slice_fits_in_shape F [a; b] pos (two_axes axes a b Ha Hb Nab) idx Hi) as Sf. rewrite Sf. cbn [andb].
    destruct (projected_two_some (length F) kvec a b) as (es & Es); [rewrite Le; exact Ha|rewrite Le; exact Hb|rewrite Le; exact (kvec_independent a b Ha Hb Nab)|].
    destruct (k_coordinates F inv [a; b] idx es pos (two_axes axes a b Ha Hb Nab) Hi Es) as (f & Ef & Rf). rewrite Ef.
    destruct (generic_mesh F kvec (fun a i => IZR (nk_points (nth a F 0%nat) i) / INR (nth a F 0%nat)) (fun a i => ascending (nth a F 0%nat) i) pos
      ltac:(intros; apply ascending_lt; assumption) kstep a b idx es f (H data) m ltac:(rewrite Le; exact Ha) ltac:(rewrite Le; exact Hb) Nab Hi Es Rf)
      as (me & E1 & E2 & E3 & E4 & E5 & E6 & E7).
    rewrite Le in E2, E3, E4. exists me. split; [exact E1|].
    assert (Hf : forall i j full, (i < nth a F 0)%nat -> (j < nth b F 0)%nat -> place i j full -> in_shape full F).
    { intros i j full Hli Hlj At. destruct (slice_full F [a; b] pos (two_axes axes a b Ha Hb Nab) idx Hi) as (_ & _ & Rg).
      apply (Rg [ascending (nth a F 0%nat) i; ascending (nth b F 0%nat) j]); [|rewrite Le; exact At].
      constructor; [apply ascending_lt; exact Hli|constructor; [apply ascending_lt; exact Hlj|constructor]]. }
    split; [|split; [|split; [|split; [exact E5|split; [exact E6|exact E7]]]]].
    - intros i j full Hli Hlj At. pose proof (E2 i j full Hli Hlj At) as Y. rewrite V in Y; [exact Y|]. apply ravel_lt. exact (Hf i j full Hli Hlj At).
    - intros i j i' j' u v Hli Hlj Hli' Hlj' Au Av. rewrite (E3 i j i' j' u v) by assumption.
      apply distance_ext; intros c Hc; symmetry; apply momentum_grid; try exact pos; eauto.
    - intros i j Hsi Hlj. destruct (E4 i j Hsi Hlj) as (X & Y). split; [|exact Y]. rewrite X, norm_scale by exact (size_pos a Ha).
      pose proof (size_pos a Ha). field. lra.
  Qed.
End Momentum.

(** ** Defaults and errors *)
Section Defaults.
  Variables (same : basis -> basis -> bool) (axes : list length_axis).
  Let nd := length axes.
  Let F := fundamental_shape axes.
  Hypothesis Hs : identity_test same.
  Hypothesis Hd : in_space nd axes.
  Hypothesis Hw : bwf (stacked axes).
  Hypothesis He : explicit_orthonormal (stacked axes).
  Local Notation pos := (shape_positive axes Hw).

  Lemma shape_total : (0 < nprod F)%nat.
  Proof using Hw. pose proof pos as P. fold F in P. clear -P. induction P; cbn; nia. Qed.

  Lemma max_slice (D : nat -> C) axs : good_axes (length F) axs -> exists full, in_shape full F /\
    get_max_idx F D axs = Some (remaining 0%nat axs full) /\ in_shape (remaining 0%nat axs full) (remaining 0%nat axs F) /\
    forall other, in_shape other F -> Cmod (D (ravel F other)) <= Cmod (D (ravel F full)).
  Proof using Hw.
    intros (N & Fo). destruct (max_idx_spec F D axs N Fo shape_total) as (idx & full & E & Hf & Mx & _ & (A & B & Cc)). exists full. split; [exact Hf|].
    assert (Er : idx = remaining 0%nat axs full) by (unfold remaining; rewrite A, Cc; reflexivity). rewrite <- Er. split; [exact E|]. split; [|exact Mx].
    rewrite Er. unfold remaining. rewrite A.
    assert (K : forall k, In k (other_axes (length F) axs) -> (nth k full 0 < nth k F 0)%nat).
    { intros k Hk. unfold other_axes in Hk. apply filter_In in Hk. destruct Hk as (Ik & _). apply in_seq in Ik. apply IndexProofs.in_shape_nth; [exact Hf|lia]. }
    revert K. generalize (other_axes (length F) axs). intros l K. induction l as [|k l IH]; cbn [map]; constructor.
    - apply K. left. reflexivity.
    - apply IH. intros k' Hk'. apply K. right. exact Hk'.
  Qed.

  Lemma default_x data : exists D : list nat -> list nat,
    (forall axs, good_axes nd axs -> in_shape (D axs) F /\ in_shape (remaining 0%nat axs (D axs)) (remaining 0%nat axs F) /\
       forall other, in_shape other F -> Cmod (amplitude (stacked axes) data (ravel F other)) <= Cmod (amplitude (stacked axes) data (ravel F (D axs)))) /\
    (forall a m, (a < nd)%nat -> plot_data_1d_x same axes data a None m = plot_data_1d_x same axes data a (Some (remaining 0%nat [a] (D [a]))) m) /\
    (forall a m p, (a < nd)%nat -> plot_data_1d_n same axes data a None m p = plot_data_1d_n same axes data a (Some (remaining 0%nat [a] (D [a]))) m p) /\
    (forall a b m, (a < nd)%nat -> (b < nd)%nat -> a <> b -> plot_data_2d_x same axes data a b None m = plot_data_2d_x same axes data a b (Some (remaining 0%nat [a; b] (D [a; b]))) m).
  Proof using Hs Hd Hw He.
    destruct (position_form same axes Hs Hd Hw He) as (P & G & EP & SP & EG & V).
    exists (fun _ => unravel F (argmax (fun x => Cmod (G data x)) (nprod F))).
    set (full := unravel F _).
    assert (Mx : forall axs, get_max_idx F (G data) axs = Some (remaining 0%nat axs full)).
    { intros axs. unfold get_max_idx. pose proof shape_total. replace (nprod F =? 0)%nat with false by (symmetry; apply Nat.eqb_neq; lia). cbv zeta. fold full.
      unfold remaining. destruct (argmax_spec (fun x => Cmod (G data x)) (nprod F) shape_total) as (A & _).
      assert (Lf : length full = length F) by exact (in_shape_length _ _ (unravel_in_shape F _ A)). rewrite Lf. reflexivity. }
    split; [|split; [|split]].
    - intros axs Hg. destruct (max_slice (G data) axs ltac:(unfold F; rewrite (shape_length axes); exact Hg)) as (u & Hu & Eu & Ru & Mu).
      destruct (argmax_spec (fun x => Cmod (G data x)) (nprod F) shape_total) as (A & B & _).
      split; [apply unravel_in_shape; exact A|]. split; [rewrite Mx in Eu; injection Eu as ->; exact Ru|].
      intros other Ho. rewrite <- !V by (apply ravel_lt; first [exact Ho|apply unravel_in_shape; exact A]). unfold full. rewrite (ravel_unravel F _ A). apply B, ravel_lt, Ho.
    - intros a m Ha. unfold plot_data_1d_x. fold F. cbv zeta. rewrite EP, EG. rewrite Mx. reflexivity.
    - intros a m p Ha. unfold plot_data_1d_n. fold F. cbv zeta. rewrite <- SP, EG. rewrite Mx. reflexivity.
    - intros a b m Ha Hb Nab. unfold plot_data_2d_x. fold F. cbv zeta. rewrite EP, EG. rewrite Mx. reflexivity.
  Qed.

  Lemma default_k inv data : is_inverse nd (lattice_of axes) inv -> exists full, in_shape full F /\
    (forall axs, good_axes nd axs -> in_shape (remaining 0%nat axs full) (remaining 0%nat axs F)) /\
    (forall other, in_shape other F -> Cmod (momentum_amplitude axes inv data (ravel F other)) <= Cmod (momentum_amplitude axes inv data (ravel F full))) /\
    (forall a b m, (a < nd)%nat -> (b < nd)%nat -> a <> b -> plot_data_2d_k same axes inv data a b None m = plot_data_2d_k same axes inv data a b (Some (remaining 0%nat [a; b] full)) m).
  Proof using Hs Hd Hw He.
    intros Hv. destruct (momentum_form same axes inv Hs Hd Hw He Hv) as (M & H & EM & EH & V).
    set (full := unravel F (argmax (fun x => Cmod (H data x)) (nprod F))).
    destruct (argmax_spec (fun x => Cmod (H data x)) (nprod F) shape_total) as (A & B & _).
    assert (Mx : forall axs, get_max_idx F (H data) axs = Some (remaining 0%nat axs full)).
    { intros axs. unfold get_max_idx. pose proof shape_total. replace (nprod F =? 0)%nat with false by (symmetry; apply Nat.eqb_neq; lia). cbv zeta. fold full.
      unfold remaining. assert (Lf : length full = length F) by exact (in_shape_length _ _ (unravel_in_shape F _ A)). rewrite Lf. reflexivity. }
    exists full. split; [apply unravel_in_shape; exact A|]. split; [|split].
    - intros axs Hg. destruct (max_slice (H data) axs ltac:(unfold F; rewrite (shape_length axes); exact Hg)) as (u & Hu & Eu & Ru & Mu). rewrite Mx in Eu. injection Eu as ->. exact Ru.
    - intros other Ho. rewrite <- !V by (apply ravel_lt; first [exact Ho|apply unravel_in_shape; exact A]). unfold full. rewrite (ravel_unravel F _ A). apply B, ravel_lt, Ho.
    - intros a b m Ha Hb Nab. unfold plot_data_2d_k. fold F. cbv zeta. rewrite EM, EH. rewrite Mx. reflexivity.
  Qed.

  Lemma plot_line_n data a idx m (periodic : bool) : (a < nd)%nat -> in_shape idx (remaining 0%nat [a] F) -> (periodic = true -> (2 <= nth a F 0)%nat) ->
    exists line, plot_data_1d_n same axes data a (Some idx) m periodic = Some line /\ length line = (nth a F 0 + if periodic then 1 else 0)%nat /\
      (forall i, (i < length line)%nat -> line_x line i = INR i) /\
      (forall i full, (i < nth a F 0)%nat -> at_axes nd [a] [i] idx full -> shows m (amplitude (stacked axes) data (ravel F full)) (line_y line i)) /\
      (periodic = true -> line_y line (nth a F 0%nat) = line_y line 0).
  Proof using Hs Hd Hw He.
    intros Ha Hi Hn. destruct (position_form same axes Hs Hd Hw He) as (P & G & EP & SP & EG & V).
    pose proof (shape_length axes) as Le. fold F nd in Le.
    unfold plot_data_1d_n. fold F. cbv zeta. rewrite <- SP, EG.
    pose proof (slice_fits_in_shape F [a] pos (one_axis axes a Ha) idx Hi) as Sf. rewrite Sf. fold nd. rewrite (proj2 (Nat.ltb_lt a nd) Ha). cbn [andb].
    set (D := fun i => get_data_in_axes (fun full => G data (ravel F full)) [a] idx [i]).
    assert (Y : forall i full, (i < nth a F 0)%nat -> at_axes nd [a] [i] idx full -> shows m (amplitude (stacked axes) data (ravel F full)) (measured_vector m D i)).
    { intros i full Hli At. pose proof (measured_shows m D i) as Q. unfold D in Q at 1.
      assert (Hg := one_axis axes a Ha). fold F in Hg. rewrite Le in Hg.
      pose proof At as (A1 & A2 & A3). rewrite (get_data_in_axes_spec _ nd [a] idx [i] full (proj1 Hg) (proj2 Hg) A1 eq_refl A2 A3) in Q.
      rewrite V in Q; [exact Q|]. apply ravel_lt. destruct (slice_full F [a] pos (one_axis axes a Ha) idx Hi) as (_ & _ & Rg).
      apply (Rg [i]); [|rewrite Le; exact At]. constructor; [exact Hli|constructor]. }
    destruct periodic.
    - destruct (line_spec (nth a F 0%nat) D INR m 1 (Hn eq_refl) ltac:(intros i _; rewrite S_INR; ring)) as (line & El & Ll & Lx & Ly & Ls & Lz & La).
      exists line. split; [exact El|]. split; [rewrite Ll; lia|]. split; [|split; [|intros _; exact Lz]].
      + intros i Hli. rewrite Ll in Hli. destruct (Nat.eq_dec i (nth a F 0%nat)) as [->|].
        * pose proof (Hn eq_refl). specialize (Ls (nth a F 0 - 1)%nat ltac:(lia)). replace (S (nth a F 0%nat - 1)) with (nth a F 0%nat) in Ls by lia.
          rewrite (Lx (nth a F 0 - 1)%nat) in Ls by lia. rewrite minus_INR in Ls by lia. cbn [INR] in Ls. lra.
        * apply Lx. lia.
      + unfold plot_data_1d in El. cbv zeta in El. destruct (nth a F 0 <? 2)%nat; [discriminate|]. injection El as <-. intros i full Hli At. unfold line_y.
        rewrite (nth_points (fun i => (INR i, measured_vector m D i))) by exact Hli. apply Y; assumption.
    - eexists. split; [reflexivity|]. rewrite map_length, seq_length. split; [lia|]. split; [|split; [|discriminate]].
      + intros i Hli. unfold line_x. rewrite (nth_indep _ _ (INR 0, measured_vector m D 0%nat)) by (rewrite map_length, seq_length; exact Hli).
        rewrite (map_nth (fun i => (INR i, measured_vector m D i))), seq_nth by exact Hli. reflexivity.
      + intros i full Hli At. unfold line_y. rewrite (nth_indep _ _ (INR 0, measured_vector m D 0%nat)) by (rewrite map_length, seq_length; exact Hli).
        rewrite (map_nth (fun i => (INR i, measured_vector m D i))), seq_nth by exact Hli. apply Y; assumption.
  Qed.

  (** One point along the axis, or an index out of range. *)
  Lemma plots_raise inv data a idx m : (a < nd)%nat -> (nth a F 0 < 2)%nat ->
    plot_data_1d_x same axes data a idx m = None /\ plot_data_1d_k same axes inv data a idx m = None /\ plot_data_1d_n same axes data a idx m true = None.
  Proof.
    intros Ha Hn. assert (Pn : forall D co, plot_data_1d (nth a F 0%nat) D co m true = None).
    { intros D co. unfold plot_data_1d. cbv zeta. rewrite (proj2 (Nat.ltb_lt _ _) Hn). reflexivity. }
    unfold plot_data_1d_x, plot_data_1d_k, plot_data_1d_n. fold F. cbv zeta. split; [|split].
    - destruct (stacked_basis_as_fundamental_position_basis axes); [|reflexivity]. destruct (convert same _ _) as [G|]; [|reflexivity].
      destruct (match idx with Some i => Some i | None => _ end); [|reflexivity]. destruct (_ && _)%bool; [|reflexivity].
      destruct (get_x_coordinates_in_axes _ _ _ _ _) as [[r f]|]; [apply Pn|reflexivity].
    - destruct (stacked_basis_as_fundamental_momentum_basis axes); [|reflexivity]. destruct (convert same _ _) as [G|]; [|reflexivity].
      destruct (match idx with Some i => Some i | None => _ end); [|reflexivity]. destruct (_ && _)%bool; [|reflexivity].
      destruct (get_k_coordinates_in_axes _ _ _ _) as [[r f]|]; [apply Pn|reflexivity].
    - destruct (convert same _ _) as [G|]; [|reflexivity].
      destruct (match idx with Some i => Some i | None => _ end); [|reflexivity]. destruct (_ && _)%bool; [apply Pn|reflexivity].
  Qed.
  Lemma plots_bad_index inv data a idx m p : (a < nd)%nat -> ~ in_shape idx (remaining 0%nat [a] F) ->
    plot_data_1d_x same axes data a (Some idx) m = None /\ plot_data_1d_k same axes inv data a (Some idx) m = None /\ plot_data_1d_n same axes data a (Some idx) m p = None.
  Proof using Hw.
    intros Ha Hn. assert (Sf : slice_fits F [a] idx = false).
    { destruct (slice_fits F [a] idx) eqn:E; [|reflexivity]. exfalso. apply Hn. exact (proj1 (slice_fits_iff F [a] pos (one_axis axes a Ha) idx) E). }
    unfold plot_data_1d_x, plot_data_1d_k, plot_data_1d_n. fold F. cbv zeta. rewrite Sf. rewrite andb_false_r. cbn [andb]. split; [|split].
    - destruct (stacked_basis_as_fundamental_position_basis axes); [|reflexivity]. destruct (convert same _ _) as [G|]; reflexivity.
    - destruct (stacked_basis_as_fundamental_momentum_basis axes); [|reflexivity]. destruct (convert same _ _) as [G|]; reflexivity.
    - destruct (convert same _ _) as [G|]; reflexivity.
  Qed.
  Lemma meshes_bad_index inv data a b idx m : (a < nd)%nat -> (b < nd)%nat -> a <> b -> ~ in_shape idx (remaining 0%nat [a; b] F) ->
    plot_data_2d_x same axes data a b (Some idx) m = None /\ plot_data_2d_k same axes inv data a b (Some idx) m = None.
  Proof using Hw.
    intros Ha Hb Nab Hn. assert (Sf : slice_fits F [a; b] idx = false).
    { destruct (slice_fits F [a; b] idx) eqn:E; [|reflexivity]. exfalso. apply Hn. exact (proj1 (slice_fits_iff F [a; b] pos (two_axes axes a b Ha Hb Nab) idx) E). }
    unfold plot_data_2d_x, plot_data_2d_k. fold F. cbv zeta. rewrite Sf. rewrite andb_false_r. split.
    - destruct (stacked_basis_as_fundamental_position_basis axes); [|reflexivity]. destruct (convert same _ _) as [G|]; reflexivity.
    - destruct (stacked_basis_as_fundamental_momentum_basis axes); [|reflexivity]. destruct (convert same _ _) as [G|]; reflexivity.
  Qed.
End Defaults.
