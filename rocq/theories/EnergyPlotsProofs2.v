(** Lines and meshes of the energies of bands (C125). *)
From Coq Require Import Reals Psatz.
From Verif Require Import ZLib Csum DFT NumPy Index IndexProofs AxesProofs Spec Basis SpecBasis BasisProofs BasisProofs2 BasisProofs3 BasisFacts IndexSum Lattice SpecReal Operator
  OperatorProofs Wavepacket SpecWavepacket WavepacketProofs Hamiltonian SpecHamiltonian HamiltonianProofs LatticeProofs Paths SpecPaths SpecReduce SpecStateList VolumeBasis SpecVolumeBasis
  VolumeBasisProofs WaveLists SpecWaveLists WaveListsProofs WaveListsFacts Plots SpecPlots PlotsProofs PlotsProofs2 PlotsProofs3 PlotsProofs4 PlotsProofs5 EffectiveMass EffectiveMassProofs
  EnergyPlots SpecEnergyPlots EnergyPlotsProofs PathPlotsProofs PathsProofs3 Brillouin.
Local Open Scope R_scope.

Section Lines.
  Variables (same : basis -> basis -> bool) (axes : list length_axis) (ls : list nat) (inv inv' : nat -> nat -> R).
  Let nd := length axes.
  Hypothesis Hs : identity_test same.
  Hypothesis Hd : in_space nd axes.
  Hypothesis Hl : length ls = nd.
  Hypothesis Hp : Forall (fun n => (0 < n)%nat) ls.
  Hypothesis Hi : is_inverse nd (lattice_of axes) inv.
  Hypothesis Hi' : is_inverse nd (fun a c => lattice_of axes a c * INR (nth a ls 0%nat)) inv'.

  Lemma full_in_shape top full a i : in_shape top ls -> (a < nd)%nat -> (i < nth a ls 0)%nat -> at_axes (length ls) [a] [i] (remaining 0%nat [a] top) full -> in_shape full ls.
  Proof using Hl.
    intros Ht Ha Hia (Lf & Af & Rf). pose proof (in_shape_length _ _ Ht) as Lt.
    apply PathPlotsProofs.in_shape_from; [exact Lf|]. intros k Hk. destruct (Nat.eq_dec k a) as [->|N].
    - specialize (Af 0%nat ltac:(cbn; lia)). cbn in Af. rewrite Af. exact Hia.
    - unfold remaining in Rf. rewrite Lt in Rf.
      assert (O : In k (other_axes (length ls) [a])).
      { unfold other_axes. apply filter_In. split; [apply in_seq; lia|]. cbn. replace (k =? a)%nat with false by (symmetry; apply Nat.eqb_neq; exact N). reflexivity. }
      assert (E : nth k full 0%nat = nth k top 0%nat).
      { clear -Rf O. induction (other_axes (length ls) [a]) as [|x l IH]; [destruct O|]. cbn in Rf. injection Rf as R1 R2. destruct O as [<-|O]; [exact R1|exact (IH R2 O)]. }
      rewrite E. apply IndexProofs.in_shape_nth; [exact Ht|exact Hk].
  Qed.

  Lemma energy_line_k B E a m : get_fundamental_sample_basis axes ls = Some B -> (a < nd)%nat -> (2 <= nth a ls 0)%nat ->
    exists line, plot_data_1d_k same B inv' E a None m = Some line /\
      line_through_largest ls a (ascending (nth a ls 0%nat)) (fun full => E (ravel ls full)) (fun full => along nd (fun c => 2 * PI * inv c a) (sample_vector ls inv full))
        (sqrt (rsum (fun c => (2 * PI * inv c a) ^ 2) nd) / INR (nth a ls 0%nat)) m line.
  Proof using Hs Hd Hl Hp Hi Hi'.
    intros EB Ha H2. destruct (sample_ok axes ls Hd Hl Hp) as (B' & EB' & St & Lb & Sb & Fb & Wb & Ob & La). rewrite EB in EB'. injection EB' as <-. fold nd in Lb, Sb, La.
    assert (Ib := sample_inverse axes ls inv' Hi' B La). fold nd in Ib.
    assert (OM := own_momentum same axes ls inv inv' Hs Hd Hl Hi Hi' B St Lb Sb Fb Wb Ob Ib E).
    assert (Sb' : in_space (length B) B) by (rewrite Lb; exact Sb). assert (Ib' : is_inverse (length B) (lattice_of B) inv') by (rewrite Lb; exact Ib).
    assert (Sz : bsize (stacked B) = nprod ls) by (rewrite St; cbn [bsize]; rewrite WavepacketProofs2.map_bsize_FundT; reflexivity).
    assert (Ga : good_axes (length (fundamental_shape B)) [a]) by (rewrite Fb, Hl; split; [constructor; [intros []|constructor]|constructor; [exact Ha|constructor]]).
    destruct (max_slice B Wb E [a] Ga) as (top & Ht & Em & Rs & Mx). rewrite Fb in *.
    assert (Dn : plot_data_1d_k same B inv' E a None m = plot_data_1d_k same B inv' E a (Some (remaining 0%nat [a] top)) m).
    { unfold plot_data_1d_k. rewrite Fb, Sz. replace (get_max_idx_of (nprod ls) ls E [a]) with (Some (remaining 0%nat [a] top)); [reflexivity|]. rewrite <- Em.
      unfold get_max_idx_of, get_max_idx. destruct (nprod ls =? 0)%nat eqn:Z; [reflexivity|]. apply Nat.eqb_neq in Z. cbv zeta.
      destruct (PathsProofs3.argmax_spec (fun x => Cmod (E x)) (nprod ls) ltac:(lia)) as (A & _). replace (argmax (fun x => Cmod (E x)) (nprod ls) <? nprod ls)%nat with true by (symmetry; apply Nat.ltb_lt; exact A). reflexivity. }
    rewrite Dn. destruct (plot_line_k same B inv' Hs Sb' Wb Ob Ib' E a (remaining 0%nat [a] top) m) as (line & L1 & L2 & L3 & L4 & L5 & L6);
      [rewrite Lb; exact Ha|rewrite Fb; exact H2|rewrite Fb; exact Rs|]. rewrite Fb, Lb in *. exists line. split; [exact L1|].
    assert (Na := n_pos axes ls Hl Hp a Ha).
    exists top. split; [exact Ht|]. split; [exact Mx|]. split; [exact L2|]. split; [|split; [|split; [exact L5|exact L6]]].
    - intros i full Hia At. assert (If := full_in_shape top full a _ Ht Ha (ascending_lt _ _ Hia) At). split; [exact If|]. rewrite Hl in At. destruct (L3 i full Hia At) as (X & Y).
      rewrite OM in Y by (apply ravel_lt; exact If). split; [|exact Y]. rewrite X.
      rewrite <- (along_scale nd (INR (nth a ls 0%nat)) (dk_stacked inv' a)) by exact Na.
      transitivity (along nd (fun c => INR (nth a ls 0%nat) * dk_stacked inv' a c) (sample_vector ls inv full)).
      + apply along_ext. intros c Hc. apply (sample_point axes ls inv inv' Hl Hp Hi Hi' full c If Hc).
      + unfold along. f_equal; [|f_equal]; apply rsum_ext; intros c Hc; rewrite <- (sample_step axes ls inv inv' Hl Hp Hi Hi' a Ha c Hc); reflexivity.
    - intros i Hia. rewrite (L4 i Hia).
      transitivity (sqrt (rsum (fun c => (INR (nth a ls 0%nat) * dk_stacked inv' a c) ^ 2) nd) / INR (nth a ls 0%nat)).
      + rewrite norm_scale by exact Na. field. lra.
      + f_equal. f_equal. apply rsum_ext. intros c Hc. rewrite <- (sample_step axes ls inv inv' Hl Hp Hi Hi' a Ha c Hc). reflexivity.
  Qed.


  Lemma site_lattice B full c : (forall a c, (a < nd)%nat -> lattice_of B a c = lattice_of axes a c * INR (nth a ls 0%nat)) ->
    lattice_point ls (lattice_of B) (fun b => Z.of_nat (nth b full 0%nat)) c = site axes full c.
  Proof using Hl Hp.
    intros La. unfold lattice_point, site. rewrite Hl. apply rsum_ext. intros a Ha. rewrite La by exact Ha. pose proof (n_pos axes ls Hl Hp a Ha).
    rewrite <- INR_IZR_INZ. field. lra.
  Qed.
  Lemma x_point_lattice (delta : nat -> nat -> R) full c : in_shape full ls ->
    fundamental_x_points ls delta (ravel ls full) c = lattice_point ls delta (fun b => Z.of_nat (nth b full 0%nat)) c.
  Proof using Hl Hp.
    intros Hf. unfold fundamental_x_points, lattice_point. apply rsum_ext. intros a Ha. rewrite Hl in Ha. pose proof (n_pos axes ls Hl Hp a Ha).
    unfold Brillouin.dx_stacked, stacked_nx_points, meshgrid_ravel, flatten. rewrite (unravel_ravel ls full Hf).
    assert (Ia : (nth a full 0 < nth a ls 0)%nat) by (apply IndexProofs.in_shape_nth; [exact Hf|rewrite Hl; exact Ha]).
    unfold nx_points. field. lra.
  Qed.

  Lemma site_amplitude B E full : get_fundamental_sample_basis axes ls = Some B -> in_shape full ls ->
    amplitude (stacked B) E (ravel ls full) = at_site axes ls inv E full.
  Proof using Hs Hd Hl Hp Hi Hi'.
    intros EB Hf. destruct (sample_ok axes ls Hd Hl Hp) as (B' & EB' & St & Lb & Sb & Fb & Wb & Ob & La). rewrite EB in EB'. injection EB' as <-. fold nd in Lb, Sb, La.
    assert (Ib := sample_inverse axes ls inv' Hi' B La). fold nd in Ib.
    assert (OM := own_momentum same axes ls inv inv' Hs Hd Hl Hi Hi' B St Lb Sb Fb Wb Ob Ib E).
    assert (Ib' : is_inverse (length B) (lattice_of B) inv') by (rewrite Lb; exact Ib).
    destruct (waves same nd B inv' Hs Sb Wb Ob Ib') as (P & M & G & H & EP & EM & EG & EH & V & W & R). rewrite Fb in *.
    assert (Hx := ravel_lt ls full Hf). rewrite <- V by exact Hx. rewrite R by exact Hx. unfold at_site. rewrite <- csum_scal_l. apply csum_ext. intros j Hj.
    assert (HM : H E j = E j).
    { rewrite <- (OM j Hj). unfold momentum_amplitude, inner_product, lattice_wave. rewrite W by exact Hj. rewrite Fb. unfold inner_product. apply csum_ext. intros x Hx'. rewrite V by exact Hx'. reflexivity. }
    rewrite HM. replace (k_dot_x ls (lattice_of B) inv' j (ravel ls full)) with (rsum (fun c => sample_vector ls inv (unravel ls j) c * site axes full c) (length axes)); [ring|].
    unfold k_dot_x. rewrite Hl. apply rsum_ext. intros c Hc.
    rewrite x_point_lattice, site_lattice by assumption. f_equal.
    rewrite <- (sample_point axes ls inv inv' Hl Hp Hi Hi' (unravel ls j) c (unravel_in_shape ls j Hj) Hc). rewrite ravel_unravel by exact Hj. reflexivity.
  Qed.

  Lemma energy_line_x B E a m : get_fundamental_sample_basis axes ls = Some B -> (a < nd)%nat -> (2 <= nth a ls 0)%nat ->
    exists line, plot_data_1d_x same B E a None m = Some line /\
      line_through_largest ls a (fun i => i) (at_site axes ls inv E) (fun full => along nd (lattice_of axes a) (site axes full))
        (sqrt (rsum (fun c => lattice_of axes a c ^ 2) nd)) m line.
  Proof using Hs Hd Hl Hp Hi Hi'.
    intros EB Ha H2. assert (SA := fun full => site_amplitude B E full EB).
    destruct (sample_ok axes ls Hd Hl Hp) as (B' & EB' & St & Lb & Sb & Fb & Wb & Ob & La). rewrite EB in EB'. injection EB' as <-. fold nd in Lb, Sb, La.
    assert (Sb' : in_space (length B) B) by (rewrite Lb; exact Sb).
    assert (Ga : good_axes nd [a]) by (split; [constructor; [intros []|constructor]|constructor; [exact Ha|constructor]]).
    destruct (default_x same B Hs Sb' Wb Ob E) as (D & D1 & D2 & _). rewrite Lb in D1, D2. rewrite Fb in D1.
    destruct (D1 [a] Ga) as (Ht & Rs & Mx). set (top := D [a]) in *. rewrite (D2 a m Ha). fold top.
    assert (Na := n_pos axes ls Hl Hp a Ha).
    destruct (plot_line_x same B Hs Sb' Wb Ob E a (remaining 0%nat [a] top) m) as (line & L1 & L2 & L3 & L4 & L5 & L6);
      [rewrite Lb; exact Ha| |rewrite Fb; exact H2|rewrite Fb; exact Rs|].
    { destruct (proj1 (inverse_nonzero nd _ inv a Hi Ha)) as (c & Hc & Nz). exists c. rewrite Lb. split; [exact Hc|]. rewrite La by exact Ha.
      apply Rmult_integral_contrapositive. split; [exact Nz|lra]. }
    rewrite Fb, Lb in *. exists line. split; [exact L1|].
    exists top. split; [exact Ht|]. split; [intros other Ho; rewrite <- !SA by assumption; apply Mx; exact Ho|]. split; [exact L2|]. split; [|split; [|split; [exact L5|exact L6]]].
    - intros i full Hia At. assert (If := full_in_shape top full a _ Ht Ha Hia At). split; [exact If|]. rewrite Hl in At. destruct (L3 i full Hia At) as (X & Y).
      rewrite SA in Y by exact If. split; [|exact Y]. rewrite X.
      rewrite <- (along_scale nd (INR (nth a ls 0%nat)) (lattice_of axes a)) by exact Na.
      transitivity (along nd (lattice_of B a) (site axes full)).
      + apply along_ext. intros c Hc. apply site_lattice; exact La.
      + unfold along. f_equal; [|f_equal]; apply rsum_ext; intros c Hc; rewrite La by exact Ha; ring.
    - intros i Hia. rewrite (L4 i Hia).
      rewrite (rsum_ext _ (fun c => (INR (nth a ls 0%nat) * lattice_of axes a c) ^ 2)) by (intros c Hc; rewrite La by exact Ha; ring).
      rewrite norm_scale by exact Na. field. lra.
  Qed.
End Lines.
