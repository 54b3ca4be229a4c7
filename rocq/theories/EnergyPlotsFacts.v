(** Plots of the energies of bands, in terms of the vocabulary of [SpecEnergyPlots], and examples (C125). *)
From Coq Require Import Reals Psatz.
From Coquelicot Require Import Coquelicot.
From Verif Require Import ZLib Csum DFT NumPy Index IndexProofs Basis SpecBasis Lattice SpecReal Operator Wavepacket Hamiltonian LatticeProofs Paths SpecPaths SpecReduce SpecStateList StateList VolumeBasis SpecVolumeBasis VolumeBasisFacts
  WaveLists SpecWaveLists Plots SpecPlots PlotsProofs4 Localize Dynamics EffectiveMass SpecEffectiveMass EffectiveMassProofs EffectiveMassFacts2 EnergyPlots SpecEnergyPlots EnergyPlotsProofs EnergyPlotsProofs2 EnergyPlotsProofs3
  EnergyPlotsProofs4 EnergyPlotsProofs5.
Local Open Scope R_scope.

Lemma fact_k same axes ls inv inv' nb data ev : identity_test same -> sampled axes ls inv inv' -> has_bands axes nb (nprod ls) data ev -> (0 < nb)%nat ->
  forall bands a m, Forall (fun b => (b < nb)%nat) (drawn_bands nb bands) -> (a < length axes)%nat -> (2 <= nth a ls 0)%nat ->
  exists lines, plot_wavepacket_eigenvalues_1d_k same nb (map BFundT ls) axes inv' data ev a bands m = Some lines /\
    Forall2 (fun b line => line_through_largest ls a (ascending (nth a ls 0%nat)) (fun full => band_value (nprod ls) (aflat ev) b (ravel ls full))
      (fun full => along (length axes) (fun c => 2 * PI * inv c a) (sample_vector ls inv full)) (sqrt (rsum (fun c => (2 * PI * inv c a) ^ 2) (length axes)) / INR (nth a ls 0%nat)) m line)
      (drawn_bands nb bands) lines.
Proof. intros Hs (A & B & Cc & D & F) (G & H & I & J) Hnb bands a m. apply lines_k; assumption. Qed.

Lemma fact_x same axes ls inv inv' nb data ev : identity_test same -> sampled axes ls inv inv' -> has_bands axes nb (nprod ls) data ev -> (0 < nb)%nat ->
  forall bands a m, Forall (fun b => (b < nb)%nat) (drawn_bands nb bands) -> (a < length axes)%nat -> (2 <= nth a ls 0)%nat ->
  exists lines, plot_wavepacket_eigenvalues_1d_x same nb (map BFundT ls) axes data ev a bands m = Some lines /\
    Forall2 (fun b line => line_through_largest ls a (fun i => i) (at_site axes ls inv (band_value (nprod ls) (aflat ev) b))
      (fun full => along (length axes) (lattice_of axes a) (site axes full)) (sqrt (rsum (fun c => lattice_of axes a c ^ 2) (length axes))) m line)
      (drawn_bands nb bands) lines.
Proof. intros Hs (A & B & Cc & D & F) (G & H & I & J) Hnb bands a m. apply (lines_x same axes ls inv inv'); assumption. Qed.

Lemma fact_mesh same axes ls inv inv' (ev : ndarray) : identity_test same -> sampled axes ls inv inv' -> nprod (ashape ev) = nprod ls ->
  forall a b m, (a < length axes)%nat -> (b < length axes)%nat -> a <> b ->
  (forall idx, in_shape idx (remaining 0%nat [a; b] ls) ->
    let place i j full := in_shape full ls /\ at_axes (length axes) [a; b] [ascending (nth a ls 0%nat) i; ascending (nth b ls 0%nat) j] idx full in
    exists me, plot_wavepacket_eigenvalues_2d_k same ls axes inv' ev a b (Some idx) m = Some me /\
      (forall i j full, (i < nth a ls 0)%nat -> (j < nth b ls 0)%nat -> place i j full -> shows m (aflat ev (ravel ls full)) (mesh_value me i j)) /\
      (forall i j i' j' full full', (i < nth a ls 0)%nat -> (j < nth b ls 0)%nat -> (i' < nth a ls 0)%nat -> (j' < nth b ls 0)%nat ->
         place i j full -> place i' j' full' ->
         sqrt ((fst (mesh_at me i j) - fst (mesh_at me i' j')) ^ 2 + (snd (mesh_at me i j) - snd (mesh_at me i' j')) ^ 2) =
         distance (length axes) (sample_vector ls inv full) (sample_vector ls inv full')) /\
      (forall i j, (S i < nth a ls 0)%nat -> (j < nth b ls 0)%nat ->
         fst (mesh_at me (S i) j) - fst (mesh_at me i j) = sqrt (rsum (fun c => (2 * PI * inv c a) ^ 2) (length axes)) / INR (nth a ls 0%nat) /\ snd (mesh_at me (S i) j) = snd (mesh_at me i j)) /\
      (forall i j, (i < nth a ls 0)%nat -> (S j < nth b ls 0)%nat -> snd (mesh_at me i j) < snd (mesh_at me i (S j))) /\
      limits_fit m (nth a ls 0%nat) (nth b ls 0%nat) (mesh_value me) (mesh_lim me)) /\
  exists top, in_shape top ls /\ (forall other, in_shape other ls -> Cmod (aflat ev (ravel ls other)) <= Cmod (aflat ev (ravel ls top))) /\
    in_shape (remaining 0%nat [a; b] top) (remaining 0%nat [a; b] ls) /\
    plot_wavepacket_eigenvalues_2d_k same ls axes inv' ev a b None m = plot_wavepacket_eigenvalues_2d_k same ls axes inv' ev a b (Some (remaining 0%nat [a; b] top)) m.
Proof.
  intros Hs (A & B & Cc & D & F) He a b m Ha Hb Hab. split.
  - intros idx Ix. cbv zeta. apply (energy_mesh same axes ls inv inv' ev); assumption.
  - apply (energy_mesh_default same axes ls inv inv' ev); assumption.
Qed.

Lemma fact_samples axes ls inv inv' : sampled axes ls inv inv' -> forall a b, (a < length axes)%nat -> (b < length axes)%nat -> a <> b ->
  (forall idx, in_shape idx (remaining 0%nat [a; b] ls) ->
     exists L, NoDup L /\ (forall full, In full L <-> in_shape full ls /\ remaining 0%nat [a; b] full = idx) /\
       plot_wavepacket_sample_frequencies ls inv' (a, b) (Some idx) = Some (map (fun full => (sample_vector ls inv full a, sample_vector ls inv full b)) L)) /\
  (exists L, NoDup L /\ (forall full, In full L <-> in_shape full ls) /\
     plot_wavepacket_sample_frequencies ls inv' (a, b) None = Some (map (fun full => (sample_vector ls inv full a, sample_vector ls inv full b)) L)).
Proof.
  intros (A & B & Cc & D & F) a b Ha Hb Hab. split.
  - intros idx Ix. apply (samples_plane axes ls inv inv'); assumption.
  - apply (samples_default axes ls inv inv'); assumption.
Qed.

Definition cube3 : list length_axis := [{| la_basis := BFundT 1; la_delta := [1; 0; 0] |}; {| la_basis := BFundT 1; la_delta := [0; 1; 0] |}; {| la_basis := BFundT 1; la_delta := [0; 0; 1] |}].
Definition cube3_inverse (c a : nat) : R := rdelta c a.
Definition cube3_sample_inverse (c a : nat) : R := if (c =? 2)%nat then rdelta c a / 2 else rdelta c a.
Lemma cube3_sampled : sampled cube3 [1; 1; 2]%nat cube3_inverse cube3_sample_inverse.
Proof.
  split; [repeat constructor|]. split; [reflexivity|]. split; [repeat constructor|].
  split; split; intros a b Ha Hb; cbn in Ha, Hb; destruct a as [|[|[|a]]]; try lia; destruct b as [|[|[|b]]]; try lia; cbn; unfold rdelta; cbn; lra.
Qed.
Lemma default_plane_refuted : ~ (forall axes ls inv inv' a b, sampled axes ls inv inv' -> (a < length axes)%nat -> (b < length axes)%nat -> a <> b ->
  plot_wavepacket_sample_frequencies ls inv' (a, b) None = plot_wavepacket_sample_frequencies ls inv' (a, b) (Some (map (fun _ => 0%nat) (remaining 0%nat [a; b] ls)))).
Proof.
  intros H. specialize (H _ _ _ _ 0%nat 1%nat cube3_sampled ltac:(cbn; lia) ltac:(cbn; lia) ltac:(lia)).
  destruct (fact_samples _ _ _ _ cube3_sampled 0%nat 1%nat ltac:(cbn; lia) ltac:(cbn; lia) ltac:(lia)) as (P & L & L1 & L2 & L3).
  destruct (P [0%nat]) as (L' & L1' & L2' & L3'); [repeat constructor|]. rewrite L3 in H. change (map (fun _ => 0%nat) (remaining 0%nat [0%nat; 1%nat] [1; 1; 2]%nat)) with [0%nat] in H. rewrite L3' in H.
  injection H as H. apply (f_equal (@length _)) in H. rewrite !map_length in H.
  assert (A : (2 <= length L)%nat).
  { assert (Q : incl [[0; 0; 0]; [0; 0; 1]]%nat L) by (intros x [<-|[<-|[]]]; apply L2; repeat constructor).
    apply NoDup_incl_length in Q; [exact Q|]. constructor; [intros [E|[]]; discriminate|constructor; [intros []|constructor]]. }
  assert (B : (length L' <= 1)%nat).
  { assert (Q : incl L' [[0; 0; 0]]%nat).
    { intros x Hx. apply L2' in Hx as (X & Y). left. inversion X as [|x0 n0 l0 s0 X0 X']; subst. inversion X' as [|x1 n1 l1 s1 X1 X'']; subst. inversion X'' as [|x2 n2 l2 s2 X2 X3]; subst. inversion X3; subst.
      cbn in Y. injection Y as ->. replace x0 with 0%nat by lia. replace x1 with 0%nat by lia. reflexivity. }
    apply (NoDup_incl_length L1') in Q. exact Q. }
  lia.
Qed.

Lemma fact_components same hbar axes ls inv inv' nb data ev : identity_test same -> sampled axes ls inv inv' -> has_bands axes nb (nprod ls) data ev ->
  forall bands a m (free : option R), Forall (fun b => (b < nb)%nat) (drawn_bands nb bands) -> (a < length axes)%nat -> (2 <= nth a ls 0)%nat ->
  (forall mass, free = Some mass -> mass <> 0) ->
  exists line, plot_wavepacket_transformed_energy_1d same hbar nb (map BFundT ls) axes data ev free (Z.of_nat a) bands m =
      Some (line, option_map (fun mass => map (fun b => (INR b, sqrt (INR (nprod ls)) * (hbar ^ 2 * (2 * INR b + 1) / (mass * norm (length axes) (lattice_of axes a) ^ 2)))) (drawn_bands nb bands)) free) /\
    length line = length (drawn_bands nb bands) /\
    (forall i, (i < length (drawn_bands nb bands))%nat -> let b := nth i (drawn_bands nb bands) 0%nat in
       line_x line i = INR b /\ shows m (at_site axes ls inv (band_value (nprod ls) (aflat ev) b) (next_site (length axes) a)) (line_y line i)).
Proof.
  intros Hs (A & B & Cc & D & F) (G & H & I & J) bands a m free H1 H2 H3 H4.
  destruct (component_line same hbar axes ls inv inv' nb data ev Hs A B Cc D F G H I J bands a m free H1 H2 H3 H4) as (line & L1 & L2 & L3). exists line. split; [exact L1|]. split; [exact L2|].
  intros i Hi. rewrite <- B. exact (L3 i Hi).
Qed.

Lemma fact_raise same hbar nb ls axes inv' data ev free a bands m : length ls = length axes -> (a < length axes)%nat ->
  (~ Forall (fun b => (b < nb)%nat) (drawn_bands nb bands) ->
     plot_wavepacket_eigenvalues_1d_k same nb (map BFundT ls) axes inv' data ev a bands m = None /\
     plot_wavepacket_eigenvalues_1d_x same nb (map BFundT ls) axes data ev a bands m = None /\
     plot_wavepacket_transformed_energy_1d same hbar nb (map BFundT ls) axes data ev free (Z.of_nat a) bands m = None) /\
  ((nth a ls 0 < 2)%nat -> plot_wavepacket_transformed_energy_1d same hbar nb (map BFundT ls) axes data ev free (Z.of_nat a) bands m = None).
Proof.
  intros Hl Ha. split.
  - intros N. destruct (lines_raise same nb ls axes inv' data ev a bands m N) as (A & B). split; [exact A|]. split; [exact B|].
    unfold plot_wavepacket_transformed_energy_1d. rewrite (chosen_none nb bands N). destruct (convert_wavepacket_with_eigenvalues_to_basis _ _ _ _ _ _ _ _) as [(d, e)|]; reflexivity.
  - intros N. apply component_raise; assumption.
Qed.

(** The height of the line of a free particle, from the integral of its band over the first zone. *)
Lemma fact_integral hbar mass delta b ns : 0 < delta -> 0 < mass -> (0 < ns)%nat ->
  exists I, is_RInt (fun k => hbar ^ 2 / (2 * mass) * free_band delta b k * cos (k * delta)) (- (PI / delta)) (PI / delta) I /\
    is_RInt (fun k => hbar ^ 2 / (2 * mass) * free_band delta b k * sin (k * delta)) (- (PI / delta)) (PI / delta) 0 /\
    sqrt (INR ns) * (hbar ^ 2 * (2 * INR b + 1) / (mass * delta ^ 2)) = sqrt (INR ns) * (delta / (2 * PI) * Rabs I).
Proof.
  intros Hd Hm Hn. assert (P := PI_RGT_0). exists (hbar ^ 2 / (2 * mass) * ((if Nat.even b then -1 else 1) * (4 * PI * (2 * INR b + 1) / delta ^ 3))). split; [|split].
  - assert (Q := is_RInt_scal _ _ _ (hbar ^ 2 / (2 * mass)) _ (free_even_cos delta b Hd)). eapply is_RInt_ext; [|exact Q]. intros x _. unfold scal. cbn. unfold mult. cbn. ring.
  - assert (Q := is_RInt_scal _ _ _ (hbar ^ 2 / (2 * mass)) _ (free_odd_sin delta b Hd)). unfold scal in Q. cbn in Q. unfold mult in Q. cbn in Q. rewrite Rmult_0_r in Q. eapply is_RInt_ext; [|exact Q]. intros x _. cbn. ring.
  - assert (B := pos_INR b). assert (H2 := pow2_ge_0 hbar). rewrite !Rabs_mult. replace (Rabs (if Nat.even b then -1 else 1)) with 1 by (destruct (Nat.even b); [rewrite Rabs_left by lra; lra|rewrite Rabs_pos_eq; lra]).
    rewrite (Rabs_pos_eq (hbar ^ 2 / (2 * mass))), (Rabs_pos_eq (4 * PI * (2 * INR b + 1) / delta ^ 3)).
    + field. lra.
    + apply Rle_mult_inv_pos; [apply Rmult_le_pos; lra|apply pow_lt; exact Hd].
    + apply Rle_mult_inv_pos; [exact H2|lra].
Qed.

Lemma fact_free same hbar la n inv inv' nb data ev mass : identity_test same -> hbar <> 0 -> 0 < mass -> (2 <= n)%nat -> sampled [la] [n] inv inv' -> has_bands [la] nb n data ev ->
  let delta := norm 1 (lattice_of [la] 0) in
  (forall b s, (b < nb)%nat -> (s < n)%nat -> aflat ev (b * n + s)%nat = RtoC (hbar ^ 2 / (2 * mass) * free_band delta b (sample_momentum delta n s))) ->
  forall bands, Forall (fun b => (b < nb)%nat) (drawn_bands nb bands) ->
  exists line free, plot_wavepacket_transformed_energy_1d same hbar nb [BFundT n] [la] data ev (Some mass) 0 bands PAbs = Some (line, Some free) /\
    length line = length (drawn_bands nb bands) /\ length free = length (drawn_bands nb bands) /\
    forall i, (i < length (drawn_bands nb bands))%nat -> line_x line i = line_x free i /\
      (Nat.Even n -> line_y free i = line_y line i * (sin (PI / INR n) / (PI / INR n)) ^ 2) /\
      line_y line i * (1 - (PI / INR n) ^ 2 / 3) <= line_y free i /\ line_y free i * cos (PI / INR n) <= line_y line i.
Proof.
  intros Hs Hh Hm Hn (A & B & Cc & D & F) (G & H & I & J) delta HE bands Hb. apply (free_lines same hbar la n inv inv'); assumption.
Qed.

(** ** Examples *)
Definition skew_sample_inverse (c a : nat) : R := nth a (nth c [[1 / 3; 0]; [- 1 / 6; 1 / 4]] []) 0.
Lemma skew_sampled : sampled ex_skew [3; 2]%nat ex_skew_inverse skew_sample_inverse.
Proof.
  destruct ex_skew_ok as (A & B & Cc & D). split; [exact A|]. split; [reflexivity|]. split; [repeat constructor|]. split; [exact D|].
  split; intros a b Ha Hb; cbn in Ha, Hb; destruct a as [|[|a]]; try lia; destruct b as [|[|b]]; try lia; cbn; field.
Qed.
Lemma skew_bands : has_bands ex_skew 2 (nprod [3; 2]%nat) {| ashape := [12; 4]%nat; aflat := fun i => RtoC (INR i) |} {| ashape := [2; 6]%nat; aflat := fun i => RtoC (INR i) |}.
Proof. destruct ex_skew_ok as (A & B & Cc & D). split; [exact B|]. split; [exact Cc|]. split; reflexivity. Qed.

Definition chain1 : length_axis := {| la_basis := BFundT 1; la_delta := [2] |}.
Lemma chain1_sampled : sampled [chain1] [4%nat] (fun _ _ => / 2) (fun _ _ => / 8).
Proof.
  split; [repeat constructor|]. split; [reflexivity|]. split; [repeat constructor|].
  split; split; intros a b Ha Hb; cbn in Ha, Hb; destruct a; try lia; destruct b; try lia; cbn; unfold rdelta; cbn; field.
Qed.
Definition chain1_energies (mass : R) : ndarray :=
  {| ashape := [2; 4]%nat; aflat := fun i => RtoC (1 ^ 2 / (2 * mass) * free_band (norm 1 (lattice_of [chain1] 0)) (i / 4) (sample_momentum (norm 1 (lattice_of [chain1] 0)) 4 (i mod 4))) |}.
Lemma chain1_bands mass : has_bands [chain1] 2 4 {| ashape := [8; 1]%nat; aflat := fun _ => RtoC 1 |} (chain1_energies mass) /\
  forall b s, (b < 2)%nat -> (s < 4)%nat -> aflat (chain1_energies mass) (b * 4 + s)%nat =
    RtoC (1 ^ 2 / (2 * mass) * free_band (norm 1 (lattice_of [chain1] 0)) b (sample_momentum (norm 1 (lattice_of [chain1] 0)) 4 s)).
Proof.
  split.
  - split; [cbn; repeat split; lia|]. split; [cbn; repeat split|]. split; reflexivity.
  - intros b s Hb Hs. unfold chain1_energies. cbn [aflat]. replace ((b * 4 + s) / 4)%nat with b by (apply (Nat.div_unique _ _ b s); lia).
    replace ((b * 4 + s) mod 4)%nat with s by (apply (Nat.mod_unique _ _ b); lia). reflexivity.
Qed.
