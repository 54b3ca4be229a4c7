(** Lines and meshes of plots: the plots of states. *)
From Coq Require Import Reals Lra Lia Psatz.
From Verif Require Import ZLib Csum DFT NumPy Index Spec IndexProofs AxesProofs Basis SpecBasis BasisProofs BasisProofs2 BasisProofs3 Lattice SpecReal LatticeProofs SpecHamiltonian SpecReduce StateList SpecStateList
  Hamiltonian Operator StateListProofs2 Brillouin Observables ObservablesProofs3 Paths SpecPaths PathsProofs PathsProofs2 PathsFacts Wavepacket SpecWavepacket VolumeBasis SpecVolumeBasis
  VolumeBasisProofs WaveListsProofs Plots SpecPlots PlotsProofs PlotsProofs2 PlotsProofs3.
Local Open Scope R_scope.
Local Notation zero := (fun _ : nat => 0%R).

Lemma along_scale nd k v p : 0 < k -> along nd (fun c => k * v c) p = along nd v p.
Proof.
  intros Hk. unfold along.
  replace (rsum (fun c => (k * v c) ^ 2) nd) with (k ^ 2 * rsum (fun c => v c ^ 2) nd).
  2:{ rewrite <- LatticeProofs.rsum_scal_l. apply rsum_ext. intros c _. ring. }
  rewrite sqrt_mult_alt by nra. rewrite sqrt_pow2 by lra.
  replace (rsum (fun c => k * v c * p c) nd) with (k * rsum (fun c => v c * p c) nd).
  2:{ rewrite <- LatticeProofs.rsum_scal_l. apply rsum_ext. intros c _. ring. }
  destruct (Req_dec (sqrt (rsum (fun c => v c ^ 2) nd)) 0) as [Z|Z].
  - rewrite Z, Rmult_0_r. unfold Rdiv. rewrite Rinv_0. ring.
  - field. split; [exact Z|lra].
Qed.
Lemma along_ext nd v p q : (forall c, (c < nd)%nat -> p c = q c) -> along nd v p = along nd v q.
Proof. intros H. unfold along. f_equal. apply rsum_ext. intros c Hc. rewrite H by exact Hc. reflexivity. Qed.
Lemma distance_ext nd p q p' q' : (forall c, (c < nd)%nat -> p c = p' c) -> (forall c, (c < nd)%nat -> q c = q' c) -> distance nd p q = distance nd p' q'.
Proof. intros H H'. unfold distance. f_equal. apply rsum_ext. intros c Hc. rewrite H, H' by exact Hc. reflexivity. Qed.

Lemma momentum_grid shape inv full c : Forall (fun n => (0 < n)%nat) shape -> in_shape full shape ->
  fundamental_stacked_k_points shape inv c (ravel shape full) =
  grid_point shape (fun a c => INR (nth a shape 0%nat) * dk_stacked inv a c) (fun a i => IZR (nk_points (nth a shape 0%nat) i) / INR (nth a shape 0%nat)) full c.
Proof.
  intros Hp Hf. unfold fundamental_stacked_k_points, tensordot00, grid_point. apply rsum_ext. intros a Ha.
  unfold stacked_nk_points, meshgrid_ravel, flatten. rewrite unravel_ravel by exact Hf.
  assert (Np : (0 < nth a shape 0)%nat) by (rewrite Forall_forall in Hp; apply Hp, nth_In; exact Ha). apply lt_0_INR in Np. field. lra.
Qed.

Lemma inverse_nonzero nd delta inv a : is_inverse nd delta inv -> (a < nd)%nat -> nonzero nd (delta a) /\ nonzero nd (fun c => inv c a).
Proof.
  intros (L & Rr) Ha. assert (Z : forall f, (forall c, (c < nd)%nat -> f c = 0) -> rsum f nd = 0).
  { intros f H. transitivity (rsum (fun _ => 0) nd); [apply rsum_ext; exact H|]. clear. induction nd; cbn; lra. }
  specialize (L a a Ha Ha). unfold rdelta in L. rewrite Nat.eqb_refl in L.
  assert (D : forall f : nat -> R, (exists c, (c < nd)%nat /\ f c <> 0) \/ (forall c, (c < nd)%nat -> f c = 0)).
  { intros f. clear. induction nd as [|n IH]; [right; intros; lia|]. destruct IH as [(c & Hc & N)|H]; [left; exists c; split; [lia|exact N]|].
    destruct (Req_dec (f n) 0) as [E|N]; [|left; exists n; split; [lia|exact N]]. right. intros c Hc. destruct (Nat.eq_dec c n) as [->|]; [exact E|apply H; lia]. }
  split.
  - destruct (D (delta a)) as [H|H]; [exact H|]. rewrite Z in L; [lra|]. intros c Hc. rewrite H by exact Hc. ring.
  - destruct (D (fun c => inv c a)) as [H|H]; [exact H|]. rewrite Z in L; [lra|]. intros c Hc. rewrite H by exact Hc. ring.
Qed.
Lemma separated nd (u v t : nat -> R) : rsum (fun c => u c * t c) nd = 0 -> rsum (fun c => v c * t c) nd <> 0 -> nonzero nd u -> independent nd u v.
Proof.
  intros U V N. split; [exact N|]. intros k.
  assert (D : forall f : nat -> R, (exists c, (c < nd)%nat /\ f c <> 0) \/ (forall c, (c < nd)%nat -> f c = 0)).
  { intros f. clear. induction nd as [|n IH]; [right; intros; lia|]. destruct IH as [(c & Hc & N)|H]; [left; exists c; split; [lia|exact N]|].
    destruct (Req_dec (f n) 0) as [E|N]; [|left; exists n; split; [lia|exact N]]. right. intros c Hc. destruct (Nat.eq_dec c n) as [->|]; [exact E|apply H; lia]. }
  destruct (D (fun c => v c - k * u c)) as [(c & Hc & Nc)|H]; [exists c; split; [exact Hc|lra]|]. exfalso. apply V.
  transitivity (rsum (fun c => k * (u c * t c)) nd).
  - apply rsum_ext. intros c Hc. specialize (H c Hc). cbv beta in H. replace (v c) with (k * u c) by lra. ring.
  - rewrite LatticeProofs.rsum_scal_l, U. ring.
Qed.
Lemma inverse_independent nd delta inv a b : is_inverse nd delta inv -> (a < nd)%nat -> (b < nd)%nat -> a <> b ->
  independent nd (delta a) (delta b) /\ independent nd (fun c => inv c a) (fun c => inv c b).
Proof.
  intros I Ha Hb N. destruct (inverse_nonzero nd delta inv a I Ha) as (Na & Na'). destruct I as (L & _).
  assert (Lab : rsum (fun c => delta a c * inv c b) nd = 0) by (rewrite L by assumption; unfold rdelta; destruct (Nat.eqb_spec a b); [contradiction|reflexivity]).
  assert (Lba : rsum (fun c => delta b c * inv c a) nd = 0) by (rewrite L by assumption; unfold rdelta; destruct (Nat.eqb_spec b a); [congruence|reflexivity]).
  assert (Lbb : rsum (fun c => delta b c * inv c b) nd = 1) by (rewrite L by assumption; unfold rdelta; rewrite Nat.eqb_refl; reflexivity).
  split.
  - apply (separated nd _ _ (fun c => inv c b)); [exact Lab|rewrite Lbb; lra|exact Na].
  - apply (separated nd _ _ (fun c => delta b c)); [| |exact Na'].
    + rewrite <- Lba. apply rsum_ext. intros. ring.
    + replace (rsum (fun c => inv c b * delta b c) nd) with 1; [lra|]. rewrite <- Lbb. apply rsum_ext. intros. ring.
Qed.

Section Plots.
  Variables (same : basis -> basis -> bool) (axes : list length_axis).
  Let nd := length axes.
  Let F := fundamental_shape axes.
  Hypothesis Hs : identity_test same.
  Hypothesis Hd : in_space nd axes.
  Hypothesis Hw : bwf (stacked axes).
  Hypothesis He : explicit_orthonormal (stacked axes).

  Lemma shape_length : length F = nd.
  Proof. unfold F, fundamental_shape. apply map_length. Qed.
  Lemma shape_positive : Forall (fun n => (0 < n)%nat) F.
  Proof using Hw.
    unfold F. rewrite <- shape_bases. apply Forall_forall. intros n Hn. apply in_map_iff in Hn. destruct Hn as [b [<- Hb]].
    apply (bfund_pos b). exact (proj1 (Forall_forall _ _) (proj1 (bwf_tuple _) Hw) b Hb).
  Qed.
  Lemma vectors_fit_true : vectors_fit axes = true.
  Proof using Hd.
    unfold vectors_fit. apply forallb_forall. intros x Hx. apply Nat.eqb_eq. exact (proj1 (Forall_forall _ _) Hd x Hx).
  Qed.
  Lemma position_form : exists P G, stacked_basis_as_fundamental_position_basis axes = Some P /\ stacked P = stacked_basis_as_fundamental_basis axes /\
    convert same (stacked axes) (stacked P) = Some G /\ forall v x, (x < nprod F)%nat -> G v x = amplitude (stacked axes) v x.
  Proof using Hs Hd Hw He.
    destruct (potential_position same nd axes (fun _ => RtoC 0) Hs Hd Hw He) as [P [G [EP [SP [EG [_ V]]]]]]. exists P, G. auto.
  Qed.
  Lemma one_axis a : (a < nd)%nat -> good_axes (length F) [a].
  Proof. intros Ha. rewrite shape_length. split; [constructor; [intros []|constructor]|constructor; [exact Ha|constructor]]. Qed.
  Lemma two_axes a b : (a < nd)%nat -> (b < nd)%nat -> a <> b -> good_axes (length F) [a; b].
  Proof. intros Ha Hb N. rewrite shape_length. split; [constructor; [intros [->|[]]; congruence|constructor; [intros []|constructor]]|constructor; [exact Ha|constructor; [exact Hb|constructor]]]. Qed.

  Lemma plot_line_x data a idx m : (a < nd)%nat -> (exists c, (c < nd)%nat /\ lattice_of axes a c <> 0) -> (2 <= nth a F 0)%nat -> in_shape idx (remaining 0%nat [a] F) ->
    exists line, plot_data_1d_x same axes data a (Some idx) m = Some line /\ length line = S (nth a F 0%nat) /\
      (forall i full, (i < nth a F 0)%nat -> at_axes nd [a] [i] idx full ->
         line_x line i = along nd (lattice_of axes a) (lattice_point F (lattice_of axes) (fun b => Z.of_nat (nth b full 0%nat))) /\
         shows m (amplitude (stacked axes) data (ravel F full)) (line_y line i)) /\
      (forall i, (i < nth a F 0)%nat -> line_x line (S i) - line_x line i = sqrt (rsum (fun c => lattice_of axes a c ^ 2) nd) / INR (nth a F 0%nat)) /\
      line_y line (nth a F 0%nat) = line_y line 0 /\
      (m = PAngle -> forall i, (S i < nth a F 0)%nat -> Rabs (line_y line (S i) - line_y line i) <= PI).
  Proof using Hs Hd Hw He.
    intros Ha Nz Hn Hi. destruct position_form as (P & G & EP & _ & EG & V). pose proof shape_length as L.
    unfold plot_data_1d_x. fold F. cbv zeta. rewrite EP, EG, vectors_fit_true.
    pose proof (slice_fits_in_shape F [a] shape_positive (one_axis a Ha) idx Hi) as Sf. rewrite Sf. cbn [andb].
    change (axis_vectors axes) with (lattice_of axes).
    destruct (projected_one_some (length F) (lattice_of axes) a) as (es & Es); [rewrite L; exact Ha|rewrite L; exact Nz|].
    destruct (x_coordinates F (lattice_of axes) [a] idx es shape_positive (one_axis a Ha) Hi Es) as (f & Ef & Rf). rewrite Ef.
    destruct (generic_line F (lattice_of axes) (fun a i => IZR (Z.of_nat i) / INR (nth a F 0%nat)) (fun _ i => i) shape_positive ltac:(intros; assumption)
      ltac:(intros b i Hb Hbi; cbv beta; rewrite Nat2Z.inj_succ, succ_IZR; unfold Rdiv; ring) a idx es f (G data) m ltac:(rewrite L; exact Ha) Hn Hi Es Rf)
      as (line & E1 & E2 & E3 & E4 & E5 & E6).
    rewrite L in E3, E4. exists line. split; [exact E1|]. split; [exact E2|]. split; [|split; [exact E4|split; [exact E5|exact E6]]].
    intros i full Hli At. destruct (E3 i full Hli At) as (X & Y). split; [exact X|]. rewrite V in Y; [exact Y|].
    apply ravel_lt. destruct (slice_full F [a] shape_positive (one_axis a Ha) idx Hi) as (_ & _ & Rg). apply (Rg [i]); [|rewrite L; exact At].
    constructor; [exact Hli|constructor].
  Qed.

  Lemma plot_mesh_x inv data a b idx m : is_inverse nd (lattice_of axes) inv -> (a < nd)%nat -> (b < nd)%nat -> a <> b -> in_shape idx (remaining 0%nat [a; b] F) ->
    let point (full : list nat) := lattice_point F (lattice_of axes) (fun b => Z.of_nat (nth b full 0%nat)) in
    exists me, plot_data_2d_x same axes data a b (Some idx) m = Some me /\
      (forall i j full, (i < nth a F 0)%nat -> (j < nth b F 0)%nat -> at_axes nd [a; b] [i; j] idx full ->
         shows m (amplitude (stacked axes) data (ravel F full)) (mesh_value me i j)) /\
      (forall i j i' j' full full', (i < nth a F 0)%nat -> (j < nth b F 0)%nat -> (i' < nth a F 0)%nat -> (j' < nth b F 0)%nat ->
         at_axes nd [a; b] [i; j] idx full -> at_axes nd [a; b] [i'; j'] idx full' ->
         sqrt ((fst (mesh_at me i j) - fst (mesh_at me i' j')) ^ 2 + (snd (mesh_at me i j) - snd (mesh_at me i' j')) ^ 2) = distance nd (point full) (point full')) /\
      (forall i j, (S i < nth a F 0)%nat -> (j < nth b F 0)%nat ->
         fst (mesh_at me (S i) j) - fst (mesh_at me i j) = sqrt (rsum (fun c => lattice_of axes a c ^ 2) nd) / INR (nth a F 0%nat) /\ snd (mesh_at me (S i) j) = snd (mesh_at me i j)) /\
      (forall i j, (i < nth a F 0)%nat -> (S j < nth b F 0)%nat -> snd (mesh_at me i j) < snd (mesh_at me i (S j))) /\
      limits_fit m (nth a F 0%nat) (nth b F 0%nat) (mesh_value me) (mesh_lim me) /\
      (m = PAngle -> forall i j, Rabs (mesh_value me i (S j) - mesh_value me i j) <= PI).
  Proof using Hs Hd Hw He.
    intros Iv Ha Hb Nab Hi point. destruct position_form as (P & G & EP & _ & EG & V). pose proof shape_length as L.
    unfold plot_data_2d_x. fold F. cbv zeta. rewrite EP, EG, vectors_fit_true.
    pose proof (slice_fits_in_shape F [a; b] shape_positive (two_axes a b Ha Hb Nab) idx Hi) as Sf. rewrite Sf. cbn [andb].
    change (axis_vectors axes) with (lattice_of axes).
    destruct (projected_two_some (length F) (lattice_of axes) a b) as (es & Es); [rewrite L; exact Ha|rewrite L; exact Hb|rewrite L; exact (proj1 (inverse_independent _ _ _ a b Iv Ha Hb Nab))|].
    destruct (x_coordinates F (lattice_of axes) [a; b] idx es shape_positive (two_axes a b Ha Hb Nab) Hi Es) as (f & Ef & Rf). rewrite Ef.
    destruct (generic_mesh F (lattice_of axes) (fun a i => IZR (Z.of_nat i) / INR (nth a F 0%nat)) (fun _ i => i) shape_positive ltac:(intros; assumption)
      ltac:(intros c i Hc Hci; cbv beta; rewrite Nat2Z.inj_succ, succ_IZR; unfold Rdiv; ring) a b idx es f (G data) m ltac:(rewrite L; exact Ha) ltac:(rewrite L; exact Hb) Nab Hi Es Rf)
      as (me & E1 & E2 & E3 & E4 & E5 & E6 & E7).
    rewrite L in E2, E3, E4. exists me. split; [exact E1|]. split; [|split; [exact E3|split; [exact E4|split; [exact E5|split; [exact E6|exact E7]]]]].
    intros i j full Hli Hlj At. pose proof (E2 i j full Hli Hlj At) as Y. rewrite V in Y; [exact Y|].
    apply ravel_lt. destruct (slice_full F [a; b] shape_positive (two_axes a b Ha Hb Nab) idx Hi) as (_ & _ & Rg). apply (Rg [i; j]); [|rewrite L; exact At].
    constructor; [exact Hli|constructor; [exact Hlj|constructor]].
  Qed.
End Plots.
