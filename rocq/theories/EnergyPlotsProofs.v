(** Plots of the energies of bands (C125). *)
From Coq Require Import Reals Psatz.
From Verif Require Import ZLib Csum DFT NumPy Index IndexProofs AxesProofs Spec Basis SpecBasis BasisProofs BasisProofs2 BasisProofs3 BasisFacts IndexSum Lattice SpecReal Operator
  OperatorProofs Wavepacket SpecWavepacket WavepacketProofs Hamiltonian SpecHamiltonian HamiltonianProofs LatticeProofs Paths SpecPaths SpecReduce SpecStateList VolumeBasis SpecVolumeBasis
  VolumeBasisProofs WaveLists SpecWaveLists WaveListsProofs WaveListsFacts Plots SpecPlots PlotsProofs PlotsProofs2 PlotsProofs3 PlotsProofs4 PlotsProofs5 EffectiveMass EffectiveMassProofs EnergyPlots SpecEnergyPlots.
Local Open Scope R_scope.

Lemma band_lines_ok {A} (f : nat -> option A) (P : nat -> A -> Prop) bands : (forall b, In b bands -> exists l, f b = Some l /\ P b l) ->
  exists lines, band_lines f bands = Some lines /\ Forall2 P bands lines.
Proof.
  induction bands as [|b bands IH]; intros H; [exists []; split; [reflexivity|constructor]|].
  destruct (H b (or_introl eq_refl)) as (l & E & Q). destruct (IH (fun b' Hb => H b' (or_intror Hb))) as (lines & E' & Q').
  exists (l :: lines). cbn [band_lines]. rewrite E, E'. split; [reflexivity|constructor; assumption].
Qed.
Lemma band_lines_none {A} (f : nat -> option A) bands b : In b bands -> f b = None -> band_lines f bands = None.
Proof.
  induction bands as [|b' bands IH]; intros H E; [destruct H|]. cbn [band_lines]. destruct H as [->|H]; [rewrite E; reflexivity|].
  rewrite (IH H E). destruct (f b'); reflexivity.
Qed.
Lemma chosen_some nb bands : Forall (fun b => (b < nb)%nat) (drawn_bands nb bands) -> chosen_bands nb bands = Some (drawn_bands nb bands).
Proof.
  destruct bands as [l|]; unfold chosen_bands, drawn_bands; [|reflexivity]. intros H. replace (forallb (fun b => b <? nb)%nat l) with true; [reflexivity|]. symmetry. apply forallb_forall. intros x Hx.
  rewrite Forall_forall in H. apply Nat.ltb_lt, H, Hx.
Qed.
Lemma chosen_none nb bands : ~ Forall (fun b => (b < nb)%nat) (drawn_bands nb bands) -> chosen_bands nb bands = None.
Proof.
  destruct bands as [l|]; unfold chosen_bands, drawn_bands; intros H.
  - destruct (forallb (fun b => b <? nb)%nat l) eqn:E; [|reflexivity]. exfalso. apply H. apply Forall_forall. intros x Hx. rewrite forallb_forall in E. apply Nat.ltb_lt, E, Hx.
  - exfalso. apply H. apply Forall_forall. intros x Hx. apply in_seq in Hx. lia.
Qed.

(** ** Inverses *)
Lemma left_right nd (D L W : nat -> nat -> R) :
  (forall a b, (a < nd)%nat -> (b < nd)%nat -> rsum (fun c => L a c * D c b) nd = rdelta a b) ->
  (forall a b, (a < nd)%nat -> (b < nd)%nat -> rsum (fun c => D a c * W c b) nd = rdelta a b) ->
  forall c a, (c < nd)%nat -> (a < nd)%nat -> L c a = W c a.
Proof.
  intros HL HW c a Hc Ha.
  transitivity (rsum (fun b => L c b * rsum (fun d => D b d * W d a) nd) nd).
  { rewrite (rsum_ext _ (fun b => rdelta a b * L c b)).
    - symmetry. apply (rsum_delta' (fun b => L c b)). exact Ha.
    - intros b Hb. rewrite HW by assumption. unfold rdelta. rewrite Nat.eqb_sym. ring. }
  transitivity (rsum (fun d => rsum (fun b => L c b * D b d) nd * W d a) nd).
  { transitivity (rsum (fun b => rsum (fun d => L c b * D b d * W d a) nd) nd).
    - apply rsum_ext. intros b Hb. rewrite <- rsum_scal_l. apply rsum_ext. intros d Hd. ring.
    - rewrite rsum_swap. apply rsum_ext. intros d Hd. rewrite rsum_scal_r. reflexivity. }
  rewrite (rsum_ext _ (fun d => rdelta c d * W d a)); [apply (rsum_delta' (fun d => W d a)); exact Hc|].
  intros d Hd. rewrite HL by assumption. reflexivity.
Qed.
Lemma scaled_inverse nd (D inv inv' : nat -> nat -> R) (n : nat -> R) : is_inverse nd D inv -> (forall a, (a < nd)%nat -> n a <> 0) ->
  is_inverse nd (fun a c => D a c * n a) inv' -> forall c a, (c < nd)%nat -> (a < nd)%nat -> inv' c a * n a = inv c a.
Proof.
  intros [_ I2] Hn [J1 _] c a Hc Ha. symmetry. apply (left_right nd D inv (fun c a => inv' c a * n a) I2); [|exact Hc|exact Ha].
  intros x y Hx Hy. specialize (J1 x y Hx Hy).
  transitivity (rsum (fun c => D x c * n x * inv' c y) nd * (n y / n x)).
  - rewrite <- rsum_scal_r. apply rsum_ext. intros d Hd. field. apply Hn, Hx.
  - rewrite J1. unfold rdelta. destruct (Nat.eqb_spec x y) as [->|]; [field; apply Hn, Hy|ring].
Qed.

(** ** Samples *)
Section Sample.
  Variables (same : basis -> basis -> bool) (axes : list length_axis) (ls : list nat) (inv inv' : nat -> nat -> R).
  Let nd := length axes.
  Hypothesis Hs : identity_test same.
  Hypothesis Hd : in_space nd axes.
  Hypothesis Hl : length ls = nd.
  Hypothesis Hp : Forall (fun n => (0 < n)%nat) ls.
  Hypothesis Hi : is_inverse nd (lattice_of axes) inv.
  Hypothesis Hi' : is_inverse nd (fun a c => lattice_of axes a c * INR (nth a ls 0%nat)) inv'.

  Lemma n_pos a : (a < nd)%nat -> 0 < INR (nth a ls 0%nat).
  Proof using Hl Hp. intros Ha. apply lt_0_INR. rewrite Forall_forall in Hp. apply Hp, nth_In. rewrite Hl. exact Ha. Qed.
  Lemma total_pos : (0 < nprod ls)%nat.
  Proof using Hp. clear -Hp. induction Hp; cbn; nia. Qed.

  Lemma sample_ok : exists B, get_fundamental_sample_basis axes ls = Some B /\ stacked B = BTuple (map BFundT ls) /\ length B = nd /\ in_space nd B /\
    fundamental_shape B = ls /\ bwf (stacked B) /\ explicit_orthonormal (stacked B) /\
    forall a c, (a < nd)%nat -> lattice_of B a c = lattice_of axes a c * INR (nth a ls 0%nat).
  Proof using Hd Hl Hp.
    destruct (fundamental_forms nd axes Hd) as [P [M [EP [EM [LP [LM _]]]]]].
    assert (LL : length M = length axes) by (rewrite <- (map_length la_delta M), LM; apply map_length).
    assert (Hl0 : length ls = length M) by (rewrite LL; exact Hl).
    unfold get_fundamental_sample_basis. rewrite EM, sample_basis_some by exact Hl0. eexists. split; [reflexivity|].
    assert (St : stacked (map (fun p => momentum_axis_of (scaled (snd p) (la_delta (fst p))) (snd p)) (combine M ls)) = BTuple (map BFundT ls)).
    { unfold stacked. f_equal. rewrite map_map. cbn [la_basis momentum_axis_of]. clear -Hl0. revert ls Hl0. induction M as [|m M IH]; intros [|n l] H; cbn in H; try discriminate; [reflexivity|].
      cbn [combine map snd]. f_equal. apply IH. lia. }
    split; [exact St|]. split; [rewrite map_length, combine_length, Hl0, Nat.min_id, LL; reflexivity|]. split; [|split; [|split; [|split]]].
    - unfold in_space in *. assert (HM : Forall (fun a => length (la_delta a) = nd) M).
      { apply Forall_forall. intros x Hx. apply (in_map la_delta) in Hx. rewrite LM in Hx. apply in_map_iff in Hx. destruct Hx as (y & <- & Hy). rewrite Forall_forall in Hd. apply Hd, Hy. }
      apply Forall_forall. intros x Hx. apply in_map_iff in Hx. destruct Hx as ((m, n) & <- & Hmn). apply in_combine_l in Hmn. cbn [fst snd la_delta momentum_axis_of]. unfold scaled. rewrite map_length.
      rewrite Forall_forall in HM. apply HM, Hmn.
    - unfold fundamental_shape. rewrite map_map. cbn [la_basis momentum_axis_of bfund]. clear -Hl0. revert ls Hl0. induction M as [|m M IH]; intros [|n l] H; cbn in H; try discriminate; [reflexivity|].
      cbn [combine map snd]. f_equal. apply IH. lia.
    - rewrite St. clear -Hp. induction Hp as [|n l Hn Hl' IH]; [exact I|]. split; [exact Hn|exact (IH Hl')].
    - rewrite St. apply explicit_orthonormal_fundt.
    - intros a c Ha. rewrite sample_lattice by lia. rewrite (lattice_ext M axes a c LM). reflexivity.
  Qed.

  Lemma sample_inverse B : (forall a c, (a < nd)%nat -> lattice_of B a c = lattice_of axes a c * INR (nth a ls 0%nat)) -> is_inverse nd (lattice_of B) inv'.
  Proof using Hi'.
    intros E. destruct Hi' as [J1 J2]. split.
    - intros a b Ha Hb. rewrite <- (J1 a b Ha Hb). apply rsum_ext. intros c Hc. rewrite E by exact Ha. reflexivity.
    - intros a b Ha Hb. rewrite <- (J2 a b Ha Hb). apply rsum_ext. intros c Hc. rewrite E by exact Hc. reflexivity.
  Qed.

  Lemma inverse_scaled c a : (c < nd)%nat -> (a < nd)%nat -> inv' c a * INR (nth a ls 0%nat) = inv c a.
  Proof using Hi Hi' Hl Hp. apply (scaled_inverse nd (lattice_of axes) inv inv' (fun a => INR (nth a ls 0%nat)) Hi); [|exact Hi']. intros x Hx. pose proof (n_pos x Hx). lra. Qed.

  Lemma sample_point full c : in_shape full ls -> (c < nd)%nat -> fundamental_stacked_k_points ls inv' c (ravel ls full) = sample_vector ls inv full c.
  Proof using Hi Hi' Hl Hp.
    intros Hf Hc. rewrite momentum_grid by assumption. unfold grid_point, sample_vector. apply rsum_ext. intros a Ha. rewrite Hl in Ha.
    assert (Na := n_pos a Ha). unfold dk_stacked. rewrite <- (inverse_scaled c a Hc Ha). assert (Ia : (nth a full 0 < nth a ls 0)%nat) by (apply IndexProofs.in_shape_nth; [exact Hf|rewrite Hl; exact Ha]).
    rewrite (is_freq_unique _ _ _ _ (nk_points_freq _ _ Ia) (freq_is_freq _ _ Ia)). field. lra.
  Qed.
  Lemma sample_step a : (a < nd)%nat -> forall c, (c < nd)%nat -> dk_stacked inv a c = INR (nth a ls 0%nat) * dk_stacked inv' a c.
  Proof using Hi Hi' Hl Hp. intros Ha c Hc. unfold dk_stacked. rewrite <- (inverse_scaled c a Hc Ha). ring. Qed.

  (** Energies as amplitudes of momenta. *)
  Lemma own_momentum B : stacked B = BTuple (map BFundT ls) -> length B = nd -> in_space nd B -> fundamental_shape B = ls -> bwf (stacked B) -> explicit_orthonormal (stacked B) ->
    is_inverse nd (lattice_of B) inv' -> forall E j, (j < nprod ls)%nat -> momentum_amplitude B inv' E j = E j.
  Proof using Hs Hd Hl Hi Hi'.
    intros St Lb Sb Fb Wb Ob Ib E j Hj. rewrite <- Lb in *. destruct (momentum_form same B inv' Hs Sb Wb Ob Ib) as (M & H & EM & EH & V). rewrite <- V by (rewrite Fb; exact Hj).
    destruct (fundamental_forms (length B) B Sb) as [P' [M' [_ [EM' [_ [_ [_ [SM _]]]]]]]]. rewrite EM in EM'. injection EM' as <-.
    assert (E1 : stacked M = stacked B).
    { rewrite SM. unfold stacked_basis_as_fundamental_transformed_basis. rewrite Fb, St. reflexivity. }
    rewrite E1 in EH. assert (Sz : bsize (stacked B) = nprod ls) by (rewrite St; cbn [bsize]; rewrite WavepacketProofs2.map_bsize_FundT; reflexivity).
    rewrite (convert_orthonormal same Hs _ _ H Wb Wb Ob EH E j) by (rewrite Sz; exact Hj). rewrite Sz.
    rewrite (csum_ext _ (fun s' => Cmult (cdelta j s') (E s'))).
    - apply csum_delta_l. exact Hj.
    - intros s' Hs'. destruct (picks_self (stacked B) Wb Ob j) as [_ Pk]; [rewrite Sz; exact Hj|]. rewrite Pk by (rewrite Sz; exact Hs'). reflexivity.
  Qed.
End Sample.
