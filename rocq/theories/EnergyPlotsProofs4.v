(** Samples and meshes of the energies of a band (C125). *)
From Coq Require Import Reals Psatz.
From Verif Require Import ZLib Csum DFT NumPy Index IndexProofs AxesProofs Spec Basis SpecBasis BasisProofs BasisProofs2 BasisProofs3 BasisFacts IndexSum Lattice SpecReal Operator
  OperatorProofs OperatorProofs2 Wavepacket SpecWavepacket WavepacketProofs WavepacketProofs2 Hamiltonian SpecHamiltonian HamiltonianProofs LatticeProofs Paths SpecPaths SpecReduce SpecStateList StateList VolumeBasis SpecVolumeBasis
  VolumeBasisProofs WaveLists SpecWaveLists WaveListsProofs WaveListsFacts Plots SpecPlots PlotsProofs PlotsProofs2 PlotsProofs3 PlotsProofs4 PlotsProofs5 Localize Dynamics EffectiveMass SpecEffectiveMass EffectiveMassProofs
  StackedPlots StackedPlotsProofs EnergyPlots SpecEnergyPlots EnergyPlotsProofs EnergyPlotsProofs2 EnergyPlotsProofs3.
Local Open Scope R_scope.

Section Mesh.
  Variables (same : basis -> basis -> bool) (axes : list length_axis) (ls : list nat) (inv inv' : nat -> nat -> R) (ev : ndarray).
  Let nd := length axes.
  Hypothesis Hs : identity_test same.
  Hypothesis Hd : in_space nd axes.
  Hypothesis Hl : length ls = nd.
  Hypothesis Hp : Forall (fun n => (0 < n)%nat) ls.
  Hypothesis Hi : is_inverse nd (lattice_of axes) inv.
  Hypothesis Hi' : is_inverse nd (fun a c => lattice_of axes a c * INR (nth a ls 0%nat)) inv'.
  Hypothesis Hev : nprod (ashape ev) = nprod ls.
  Variables (a b : nat) (m : plot_measure).
  Hypothesis Ha : (a < nd)%nat.
  Hypothesis Hb : (b < nd)%nat.
  Hypothesis Hab : a <> b.
  Notation place := (fun idx i j full => in_shape full ls /\ at_axes nd [a; b] [ascending (nth a ls 0%nat) i; ascending (nth b ls 0%nat) j] idx full).

  Lemma energy_mesh idx : in_shape idx (remaining 0%nat [a; b] ls) ->
    exists me, plot_wavepacket_eigenvalues_2d_k same ls axes inv' ev a b (Some idx) m = Some me /\
      (forall i j full, (i < nth a ls 0)%nat -> (j < nth b ls 0)%nat -> place idx i j full -> shows m (aflat ev (ravel ls full)) (mesh_value me i j)) /\
      (forall i j i' j' full full', (i < nth a ls 0)%nat -> (j < nth b ls 0)%nat -> (i' < nth a ls 0)%nat -> (j' < nth b ls 0)%nat ->
         place idx i j full -> place idx i' j' full' ->
         sqrt ((fst (mesh_at me i j) - fst (mesh_at me i' j')) ^ 2 + (snd (mesh_at me i j) - snd (mesh_at me i' j')) ^ 2) =
         distance nd (sample_vector ls inv full) (sample_vector ls inv full')) /\
      (forall i j, (S i < nth a ls 0)%nat -> (j < nth b ls 0)%nat ->
         fst (mesh_at me (S i) j) - fst (mesh_at me i j) = sqrt (rsum (fun c => (2 * PI * inv c a) ^ 2) nd) / INR (nth a ls 0%nat) /\ snd (mesh_at me (S i) j) = snd (mesh_at me i j)) /\
      (forall i j, (i < nth a ls 0)%nat -> (S j < nth b ls 0)%nat -> snd (mesh_at me i j) < snd (mesh_at me i (S j))) /\
      limits_fit m (nth a ls 0%nat) (nth b ls 0%nat) (mesh_value me) (mesh_lim me).
  Proof using All.
    intros Ix. destruct (sample_ok axes ls Hd Hl Hp) as (B & EB & St & Lb & Sb & Fb & Wb & Ob & La). fold nd in Lb, Sb, La.
    assert (Ib := sample_inverse axes ls inv' Hi' B La). fold nd in Ib.
    assert (OM := own_momentum same axes ls inv inv' Hs Hd Hl Hi Hi' B St Lb Sb Fb Wb Ob Ib (aflat ev)).
    assert (Sb' : in_space (length B) B) by (rewrite Lb; exact Sb). assert (Ib' : is_inverse (length B) (lattice_of B) inv') by (rewrite Lb; exact Ib).
    destruct (plot_mesh_k same B inv' Hs Sb' Wb Ob Ib' (aflat ev) a b idx m) as (me & M1 & M2 & M3 & M4 & M5 & M6 & _);
      [rewrite Lb; exact Ha|rewrite Lb; exact Hb|exact Hab|rewrite Fb; exact Ix|]. rewrite Fb, Lb in *.
    assert (Na := n_pos axes ls Hl Hp a Ha).
    exists me. unfold plot_wavepacket_eigenvalues_2d_k. rewrite EB, Hev, Nat.eqb_refl. split; [exact M1|]. split; [|split; [|split; [|split; [exact M5|exact M6]]]].
    - intros i j full Hii Hjj (If & At). rewrite <- (OM (ravel ls full)) by (apply ravel_lt; exact If). apply M2; assumption.
    - intros i j i' j' full full' H1 H2 H3 H4 (If & At) (If' & At'). rewrite (M3 i j i' j' full full' H1 H2 H3 H4 At At').
      apply distance_ext; intros c Hc; apply (sample_point axes ls inv inv' Hl Hp Hi Hi'); assumption.
    - intros i j H1 H2. destruct (M4 i j H1 H2) as (X & Y). split; [|exact Y]. rewrite X.
      transitivity (sqrt (rsum (fun c => (INR (nth a ls 0%nat) * dk_stacked inv' a c) ^ 2) nd) / INR (nth a ls 0%nat)).
      + rewrite norm_scale by exact Na. field. lra.
      + f_equal. f_equal. apply rsum_ext. intros c Hc. rewrite <- (sample_step axes ls inv inv' Hl Hp Hi Hi' a Ha c Hc). reflexivity.
  Qed.

  Lemma energy_mesh_default : exists top, in_shape top ls /\ (forall other, in_shape other ls -> Cmod (aflat ev (ravel ls other)) <= Cmod (aflat ev (ravel ls top))) /\
    in_shape (remaining 0%nat [a; b] top) (remaining 0%nat [a; b] ls) /\
    plot_wavepacket_eigenvalues_2d_k same ls axes inv' ev a b None m = plot_wavepacket_eigenvalues_2d_k same ls axes inv' ev a b (Some (remaining 0%nat [a; b] top)) m.
  Proof using All.
    destruct (sample_ok axes ls Hd Hl Hp) as (B & EB & St & Lb & Sb & Fb & Wb & Ob & La). fold nd in Lb, Sb, La.
    assert (Ib := sample_inverse axes ls inv' Hi' B La). fold nd in Ib.
    assert (OM := own_momentum same axes ls inv inv' Hs Hd Hl Hi Hi' B St Lb Sb Fb Wb Ob Ib (aflat ev)).
    assert (Sb' : in_space (length B) B) by (rewrite Lb; exact Sb). assert (Ib' : is_inverse (length B) (lattice_of B) inv') by (rewrite Lb; exact Ib).
    destruct (default_k same B Hs Sb' Wb Ob inv' (aflat ev) Ib') as (top & T1 & T2 & T3 & T4). rewrite Fb, Lb in *.
    exists top. split; [exact T1|]. split; [intros other Hot; rewrite <- (OM (ravel ls other)), <- (OM (ravel ls top)) by (apply ravel_lt; assumption); apply T3; exact Hot|].
    split.
    - apply T2. split; [constructor; [intros [<-|[]]; apply Hab; reflexivity|constructor; [intros []|constructor]]|constructor; [exact Ha|constructor; [exact Hb|constructor]]].
    - unfold plot_wavepacket_eigenvalues_2d_k. rewrite EB, Hev, Nat.eqb_refl. apply T4; assumption.
  Qed.
End Mesh.

(** ** Samples *)
Section Samples.
  Variables (axes : list length_axis) (ls : list nat) (inv inv' : nat -> nat -> R).
  Let nd := length axes.
  Hypothesis Hd : in_space nd axes.
  Hypothesis Hl : length ls = nd.
  Hypothesis Hp : Forall (fun n => (0 < n)%nat) ls.
  Hypothesis Hi : is_inverse nd (lattice_of axes) inv.
  Hypothesis Hi' : is_inverse nd (fun a c => lattice_of axes a c * INR (nth a ls 0%nat)) inv'.
  Variables (a b : nat).
  Hypothesis Ha : (a < nd)%nat.
  Hypothesis Hb : (b < nd)%nat.

  Lemma samples_from L points sl : sliced_points 2 ls (fun t => get_wavepacket_fundamental_sample_frequencies ls inv' (nth (t / nprod ls) [a; b] 0%nat) (t mod nprod ls)) (None :: sl) = Some points ->
    length points = length L -> (forall full, In full L -> in_shape full ls) ->
    (forall j c, (j < length L)%nat -> (c < 2)%nat -> nth j points (fun _ => 0) c =
       get_wavepacket_fundamental_sample_frequencies ls inv' (nth ((c * nprod ls + ravel ls (nth j L [])) / nprod ls) [a; b] 0%nat) ((c * nprod ls + ravel ls (nth j L [])) mod nprod ls)) ->
    map (fun p => (p 0%nat, p 1%nat)) points = map (fun full => (sample_vector ls inv full a, sample_vector ls inv full b)) L.
  Proof using Hl Hp Hi Hi' Ha Hb.
    intros _ Le In' P. apply (nth_ext _ _ (0, 0) (0, 0)); [rewrite !map_length; exact Le|]. intros j Hj. rewrite map_length in Hj.
    rewrite (map_nth (fun p : nat -> R => (p 0%nat, p 1%nat)) points (fun _ => 0) j : nth j (map _ points) (0, 0) = _).
    rewrite (nth_indep _ (0, 0) ((fun full => (sample_vector ls inv full a, sample_vector ls inv full b)) [])) by (rewrite map_length; lia). rewrite (map_nth (fun full => (sample_vector ls inv full a, sample_vector ls inv full b))).
    assert (HL : (j < length L)%nat) by lia. assert (If := In' _ (nth_In L [] HL)). assert (Rl := ravel_lt ls _ If).
    rewrite (P j 0%nat HL), (P j 1%nat HL) by lia.
    rewrite Nat.mul_0_l, Nat.mul_1_l, Nat.add_0_l. rewrite Nat.div_small, Nat.mod_small by exact Rl.
    replace ((nprod ls + ravel ls (nth j L [])) / nprod ls)%nat with 1%nat by (apply (Nat.div_unique _ _ 1 (ravel ls (nth j L []))); lia).
    replace ((nprod ls + ravel ls (nth j L [])) mod nprod ls)%nat with (ravel ls (nth j L [])) by (apply (Nat.mod_unique _ _ 1); lia).
    cbn [nth]. unfold get_wavepacket_fundamental_sample_frequencies. rewrite !(sample_point axes ls inv inv' Hl Hp Hi Hi') by assumption. reflexivity.
  Qed.

  Lemma guard_true : ((fst (a, b) <? length ls) && (snd (a, b) <? length ls) && (0 <? nprod ls))%nat = true.
  Proof using Hl Hp Ha Hb.
    cbn [fst snd]. assert (T := total_pos ls Hp). rewrite !andb_true_iff, !Nat.ltb_lt, Hl. auto.
  Qed.

  Lemma samples_plane idx : a <> b -> in_shape idx (remaining 0%nat [a; b] ls) ->
    exists L, NoDup L /\ (forall full, In full L <-> in_shape full ls /\ remaining 0%nat [a; b] full = idx) /\
      plot_wavepacket_sample_frequencies ls inv' (a, b) (Some idx) = Some (map (fun full => (sample_vector ls inv full a, sample_vector ls inv full b)) L).
  Proof using Hl Hp Hi Hi' Ha Hb.
    intros Nab Ix. assert (G : good_axes (length ls) [a; b]) by (rewrite Hl; split; [constructor; [intros [<-|[]]; apply Nab; reflexivity|constructor; [intros []|constructor]]|constructor; [exact Ha|constructor; [exact Hb|constructor]]]).
    destruct G as (G1 & G2).
    set (picked := fun t => get_wavepacket_fundamental_sample_frequencies ls inv' (nth (t / nprod ls) [a; b] 0%nat) (t mod nprod ls)).
    destruct (plane_points ls [a; b] idx G1 G2 Ix 2%nat picked ltac:(lia) Hp) as (L & points & P1 & P2 & P3 & P4 & P5).
    destruct (plane_slice ls [a; b] idx G1 G2 Ix) as (f0 & _ & _ & Es & _). rewrite Es in P1.
    exists L. split; [exact P3|]. split.
    { intros full. rewrite P4. unfold remaining. split; intros (A & B); (split; [exact A|]); pose proof (in_shape_length _ _ A) as Lf; rewrite Lf in *; exact B. }
    unfold plot_wavepacket_sample_frequencies. rewrite guard_true. cbn [fst snd]. fold picked. rewrite P1. f_equal.
    apply (samples_from L points _ P1 P2); [intros full Hf; apply P4; exact Hf|exact P5].
  Qed.

  Lemma matches_all n full : length full = n -> matches (repeat None n) full.
  Proof. intros <-. induction full as [|x l IH]; [constructor|]. cbn [length repeat]. constructor; [left; reflexivity|exact IH]. Qed.
  Lemma all_ok l : slice_ok l (repeat None (length l)) = true.
  Proof. induction l as [|x l IH]; [reflexivity|exact IH]. Qed.

  Lemma samples_default : a <> b ->
    exists L, NoDup L /\ (forall full, In full L <-> in_shape full ls) /\
      plot_wavepacket_sample_frequencies ls inv' (a, b) None = Some (map (fun full => (sample_vector ls inv full a, sample_vector ls inv full b)) L).
  Proof using Hl Hp Hi Hi' Ha Hb.
    intros Nab. set (picked := fun t => get_wavepacket_fundamental_sample_frequencies ls inv' (nth (t / nprod ls) [a; b] 0%nat) (t mod nprod ls)).
    destruct (sliced_rows 2 ls picked (repeat None (length ls)) ltac:(lia) Hp ltac:(apply repeat_length) (all_ok ls)) as (L & points & P1 & P2 & P3 & P4 & P5).
    exists L. split; [exact P3|]. split.
    { intros full. rewrite P4. split; [tauto|]. intros A. split; [exact A|]. apply matches_all, in_shape_length, A. }
    unfold plot_wavepacket_sample_frequencies. rewrite guard_true. cbn [fst snd]. fold picked. change (repeat 0%nat (2 - 2)) with (@nil nat).
    assert (E : sliced_points 2 ls picked (None :: slice_ignoring_axes [] [a; b]) = sliced_points 2 ls picked (None :: repeat None (length ls))).
    { assert (Sl : slice_ignoring_axes [] [a; b] = [None; None]).
      { unfold slice_ignoring_axes. assert (Ls : length (sorted_nat [a; b]) = 2%nat) by (rewrite (Permutation.Permutation_length (sorted_nat_perm [a; b])); reflexivity).
        destruct (sorted_nat [a; b]) as [|x [|y [|z l]]]; try discriminate. cbn [map fold_left]. destruct x as [|x]; destruct y as [|[|y]]; reflexivity. }
      rewrite Sl. unfold sliced_points. cbn [length]. rewrite repeat_length.
      assert (K : (2 <= length ls)%nat) by lia. destruct (length ls) as [|[|n]] eqn:En; [lia|lia|].
      replace (S (S (S n)) - 3)%nat with n by lia. replace (S (S (S n)) - S (S (S n)))%nat with 0%nat by lia. cbn [repeat app]. rewrite app_nil_r. reflexivity. }
    rewrite E, P1. f_equal. apply (samples_from L points _ P1 P2); [intros full Hf; apply P4; exact Hf|exact P5].
  Qed.
End Samples.
