(** Cases of plots. *)
From Coq Require Import Reals Lra Lia Psatz.
From Verif Require Import ZLib Csum DFT NumPy Index Spec IndexProofs AxesProofs Basis SpecBasis BasisProofs BasisProofs2 BasisProofs3 Lattice SpecReal LatticeProofs SpecHamiltonian SpecReduce StateList SpecStateList
  Hamiltonian Operator StateListProofs2 Brillouin Observables ObservablesProofs3 Paths SpecPaths PathsProofs PathsProofs2 PathsProofs3 PathsFacts Wavepacket SpecWavepacket VolumeBasis SpecVolumeBasis
  VolumeBasisProofs VolumeBasisFacts WavepacketProofs2 WaveListsProofs LocalizeProofs4 Plots SpecPlots PlotsProofs PlotsProofs2 PlotsProofs3 PlotsProofs4 PlotsProofs5.
Local Open Scope R_scope.

Lemma skew_plots : identity_test (fun _ _ => false) /\ in_space (length ex_skew) ex_skew /\ bwf (stacked ex_skew) /\ explicit_orthonormal (stacked ex_skew) /\
  is_inverse (length ex_skew) (lattice_of ex_skew) ex_skew_inverse /\ fundamental_shape ex_skew = [3%nat; 2%nat] /\
  in_shape [1%nat] (remaining 0%nat [0%nat] (fundamental_shape ex_skew)) /\ at_axes 2 [0%nat] [2%nat] [1%nat] [2%nat; 1%nat] /\
  in_shape [] (remaining 0%nat [1%nat; 0%nat] (fundamental_shape ex_skew)) /\ at_axes 2 [1%nat; 0%nat] [1%nat; 2%nat] [] [2%nat; 1%nat].
Proof.
  destruct ex_skew_ok as (A & B & Cc & D). split; [intros b b' H; discriminate|]. split; [exact A|]. split; [exact B|]. split; [exact Cc|]. split; [exact D|].
  split; [reflexivity|]. split; [|split; [|split]].
  - apply Forall2_cons; [cbn; lia|apply Forall2_nil].
  - split; [reflexivity|]. split; [|reflexivity]. intros j Hj. cbn in Hj. destruct j; [reflexivity|lia].
  - apply Forall2_nil.
  - split; [reflexivity|]. split; [|reflexivity]. intros j Hj. cbn in Hj. destruct j as [|[|]]; [reflexivity|reflexivity|lia].
Qed.

(** ** The default line in momentum *)
Definition square_axes : list length_axis := [position_axis_of [1; 0] 2; position_axis_of [0; 1] 2].
Definition unit_matrix (a c : nat) : R := if Nat.eqb a c then 1 else 0.
Definition alternating (x : nat) : C := if Nat.even x then RtoC 1 else RtoC (-1).

Lemma square_ok : identity_test (fun _ _ => false) /\ in_space (length square_axes) square_axes /\ bwf (stacked square_axes) /\ explicit_orthonormal (stacked square_axes) /\
  is_inverse (length square_axes) (lattice_of square_axes) unit_matrix.
Proof.
  split; [intros b b' H; discriminate|]. split; [repeat constructor|]. split; [cbn; repeat split; lia|]. split; [cbn; repeat split|].
  split; intros a b Ha Hb; cbn in Ha, Hb; destruct a as [|[|a]]; try lia; destruct b as [|[|b]]; try lia; cbn; unfold rdelta; cbn; ring.
Qed.

Lemma alternating_mod x : Cmod (alternating x) = 1.
Proof. unfold alternating. destruct (Nat.even x); rewrite Cmod_R; [apply Rabs_R1|]. rewrite Rabs_left; lra. Qed.

Lemma zero_or_not (z : C) : z = RtoC 0 \/ z <> RtoC 0.
Proof.
  destruct (Req_dec (Cmod z) 0) as [E|E]; [left; exact (Cmod_eq_0 z E)|right; intros ->; apply E; apply Cmod_0].
Qed.

Lemma momentum_default : exists same axes inv data line, identity_test same /\ in_space (length axes) axes /\ bwf (stacked axes) /\ explicit_orthonormal (stacked axes) /\
  is_inverse (length axes) (lattice_of axes) inv /\
  plot_data_1d_k same axes inv data 0 None PAbs = Some line /\ length line = 3%nat /\ (forall i, (i < 3)%nat -> line_y line i = 0) /\
  exists j, (j < nprod (fundamental_shape axes))%nat /\ momentum_amplitude axes inv data j <> RtoC 0.
Proof.
  destruct square_ok as (Hs & Hd & Hw & He & Hv).
  assert (Ed : plot_data_1d_k (fun _ _ => false) square_axes unit_matrix alternating 0 None PAbs =
    plot_data_1d_k (fun _ _ => false) square_axes unit_matrix alternating 0 (Some [0%nat]) PAbs).
  { unfold plot_data_1d_k. cbv zeta. destruct (stacked_basis_as_fundamental_momentum_basis square_axes); [|reflexivity]. destruct (convert _ _ _); [|reflexivity].
    replace (get_max_idx_of (bsize (stacked square_axes)) (fundamental_shape square_axes) alternating [0%nat]) with (Some [0%nat]); [reflexivity|].
    unfold get_max_idx_of. cbv zeta. change (bsize (stacked square_axes)) with 4%nat. change (4 =? 0)%nat with false. cbv iota.
    destruct (argmax_spec (fun x => Cmod (alternating x)) 4 ltac:(lia)) as (A & _ & B).
    destruct (argmax (fun x => Cmod (alternating x)) 4) as [|k]; [reflexivity|]. specialize (B 0%nat ltac:(lia)). rewrite !alternating_mod in B. lra. }
  destruct (plot_line_k (fun _ _ => false) square_axes unit_matrix Hs Hd Hw He Hv alternating 0 [0%nat] PAbs ltac:(cbn; lia) ltac:(cbn; lia)
    ltac:(apply Forall2_cons; [cbn; lia|apply Forall2_nil])) as (line & E1 & E2 & E3 & _ & E5 & _).
  assert (Am : forall x, (x < 4)%nat -> amplitude (stacked square_axes) alternating x = alternating x).
  { intros x Hx. change (stacked square_axes) with (BTuple (map BFund [2%nat; 2%nat])). rewrite <- (ravel_unravel [2%nat; 2%nat] x Hx).
    apply amplitude_position. apply unravel_in_shape. exact Hx. }
  assert (Wv : forall i x, (i < 2)%nat -> (x < 2)%nat -> lattice_wave square_axes unit_matrix (2 * i) (2 * x + 1) = lattice_wave square_axes unit_matrix (2 * i) (2 * x)).
  { intros i x Hi Hx. unfold lattice_wave. change (fundamental_shape square_axes) with [2%nat; 2%nat].
    rewrite !(k_dot_x_turns [2%nat; 2%nat] (lattice_of square_axes) unit_matrix) by (first [exact Hv|cbn; lia]).
    replace (unravel [2%nat; 2%nat] (2 * i)) with [i; 0%nat] by (destruct i as [|[|]]; [reflexivity|reflexivity|lia]).
    replace (unravel [2%nat; 2%nat] (2 * x)) with [x; 0%nat] by (destruct x as [|[|]]; [reflexivity|reflexivity|lia]).
    replace (unravel [2%nat; 2%nat] (2 * x + 1)) with [x; 1%nat] by (destruct x as [|[|]]; [reflexivity|reflexivity|lia]).
    reflexivity. }
  assert (Z : forall i, (i < 2)%nat -> momentum_amplitude square_axes unit_matrix alternating (2 * i) = RtoC 0).
  { intros i Hi. unfold momentum_amplitude, inner_product. change (nprod (fundamental_shape square_axes)) with 4%nat. cbn [csum].
    rewrite !Am by lia. change 3%nat with (2 * 1 + 1)%nat at 1. change 2%nat with (2 * 1)%nat at 5. 
    pose proof (Wv i 0%nat Hi ltac:(lia)) as W0. pose proof (Wv i 1%nat Hi ltac:(lia)) as W1. cbn [Nat.mul Nat.add] in W0, W1 |- *. rewrite W0, W1.
    unfold alternating. cbn [Nat.even]. ring_simplify. 
    apply injective_projections; cbn; ring. }
  exists (fun _ _ => false), square_axes, unit_matrix, alternating, line. split; [exact Hs|]. split; [exact Hd|]. split; [exact Hw|]. split; [exact He|]. split; [exact Hv|].
  split; [rewrite Ed; exact E1|]. split; [exact E2|].
  assert (Y : forall i, (i < 2)%nat -> line_y line i = 0).
  { intros i Hi. destruct (E3 i [ascending 2 i; 0%nat] Hi) as (_ & Sh).
    - split; [reflexivity|]. split; [|reflexivity]. intros j Hj. cbn in Hj. destruct j; [reflexivity|lia].
    - cbn [shows] in Sh. rewrite Sh. change (ravel (fundamental_shape square_axes) [ascending 2 i; 0%nat]) with (ravel [2%nat; 2%nat] [ascending 2 i; 0%nat]).
      pose proof (ascending_lt 2 i Hi) as Lt. replace (ravel [2%nat; 2%nat] [ascending 2 i; 0%nat]) with (2 * ascending 2 i)%nat by (cbn; lia).
      rewrite Z by exact Lt. apply Cmod_0. }
  split.
  - intros i Hi. destruct i as [|[|[|]]]; [apply Y; lia|apply Y; lia| |lia]. transitivity (line_y line 0); [exact E5|apply Y; lia].
  - assert (Cs : (exists j, (j < 4)%nat /\ momentum_amplitude square_axes unit_matrix alternating j <> RtoC 0) \/
      (forall j, (j < 4)%nat -> momentum_amplitude square_axes unit_matrix alternating j = RtoC 0)).
    { assert (Gn : forall n, (exists j, (j < n)%nat /\ momentum_amplitude square_axes unit_matrix alternating j <> RtoC 0) \/
        (forall j, (j < n)%nat -> momentum_amplitude square_axes unit_matrix alternating j = RtoC 0)).
      { induction n as [|n IH]; [right; intros; lia|]. destruct IH as [(j & Hj & N)|H]; [left; exists j; split; [lia|exact N]|].
        destruct (zero_or_not (momentum_amplitude square_axes unit_matrix alternating n)) as [E|N]; [|left; exists n; split; [lia|exact N]].
        right. intros j Hj. destruct (Nat.eq_dec j n) as [->|]; [exact E|apply H; lia]. }
      apply Gn. }
    destruct Cs as [H|H]; [exact H|]. exfalso.
    destruct (waves (fun _ _ => false) _ square_axes unit_matrix Hs Hd Hw He Hv) as (P & M & G & H' & EP & EM & EG & EH & V & W & T).
    destruct (momentum_form (fun _ _ => false) square_axes unit_matrix Hs Hd Hw He Hv) as (M2 & H2 & EM2 & EH2 & V2).
    rewrite EM in EM2. injection EM2 as <-. rewrite EH in EH2. injection EH2 as <-.
    specialize (T alternating 0%nat ltac:(cbn; lia)). rewrite (V alternating 0%nat ltac:(cbn; lia)) in T. rewrite Am in T by lia.
    rewrite (csum_ext _ (fun _ => RtoC 0)) in T.
    + rewrite csum_zero in T. unfold alternating in T. cbn in T. apply RtoC_inj in T. lra.
    + intros j Hj. rewrite V2 by exact Hj. rewrite H by exact Hj. ring.
Qed.

(** ** The end of a line of phases *)
Definition ring_axes : list length_axis := [position_axis_of [1] 4].
Definition winding (x : nat) : C := cis (INR x * (PI / 2)).

Lemma ring_ok : identity_test (fun _ _ => false) /\ in_space (length ring_axes) ring_axes /\ bwf (stacked ring_axes) /\ explicit_orthonormal (stacked ring_axes) /\
  (exists c, (c < length ring_axes)%nat /\ lattice_of ring_axes 0 c <> 0).
Proof.
  split; [intros b b' H; discriminate|]. split; [repeat constructor|]. split; [cbn; repeat split; lia|]. split; [cbn; repeat split|].
  exists 0%nat. split; [cbn; lia|cbn; lra].
Qed.

Lemma phase_end : exists same axes data line, identity_test same /\ in_space (length axes) axes /\ bwf (stacked axes) /\ explicit_orthonormal (stacked axes) /\
  plot_data_1d_x same axes data 0 None PAngle = Some line /\ length line = 5%nat /\
  (forall i, (i < 3)%nat -> line_y line (S i) - line_y line i = PI / 2) /\ line_y line 4 - line_y line 3 = - (3 * (PI / 2)).
Proof.
  destruct ring_ok as (Hs & Hd & Hw & He & Nz). pose proof PI_RGT_0 as Pp.
  destruct (default_x (fun _ _ => false) ring_axes Hs Hd Hw He winding) as (D & Dg & Dx & _).
  destruct (plot_line_x (fun _ _ => false) ring_axes Hs Hd Hw He winding 0 [] PAngle ltac:(cbn; lia) Nz ltac:(cbn; lia) ltac:(apply Forall2_nil))
    as (line & E1 & E2 & E3 & _ & E5 & E6).
  exists (fun _ _ => false), ring_axes, winding, line. split; [exact Hs|]. split; [exact Hd|]. split; [exact Hw|]. split; [exact He|].
  assert (Er : remaining 0%nat [0%nat] (D [0%nat]) = []).
  { destruct (Dg [0%nat]) as (_ & Rg & _); [split; [constructor; [intros []|constructor]|constructor; [cbn; lia|constructor]]|].
    change (remaining 0%nat [0%nat] (fundamental_shape ring_axes)) with (@nil nat) in Rg. inversion Rg. reflexivity. }
  split; [rewrite Dx, Er by (cbn; lia); exact E1|]. split; [exact E2|].
  assert (Y : forall i, (i < 4)%nat -> exists k : Z, line_y line i = INR i * (PI / 2) + IZR k * (2 * PI)).
  { intros i Hi. destruct (E3 i [i] Hi) as (_ & Sh).
    - split; [reflexivity|]. split; [|reflexivity]. intros j Hj. cbn in Hj. destruct j; [reflexivity|lia].
    - cbn [shows] in Sh. change (stacked ring_axes) with (BTuple (map BFund [4%nat])) in Sh. change (fundamental_shape ring_axes) with [4%nat] in Sh.
      rewrite (amplitude_position [4%nat] winding [i] ltac:(apply Forall2_cons; [exact Hi|apply Forall2_nil])) in Sh.
      replace (ravel [4%nat] [i]) with i in Sh by (cbn; lia). unfold winding in Sh.
      assert (M1 : Cmod (cis (INR i * (PI / 2))) = 1).
      { unfold Cmod, cis. cbn [fst snd]. rewrite <- sqrt_1. f_equal. pose proof (sin2_cos2 (INR i * (PI / 2))) as Q. unfold Rsqr in Q. nra. }
      rewrite M1 in Sh. assert (Sh' : cis (line_y line i) = cis (INR i * (PI / 2))) by (rewrite Sh; ring).
      destruct (cis_eq_turns _ _ Sh') as (k & ->). exists k. reflexivity. }
  assert (St : forall i, (i < 3)%nat -> line_y line (S i) - line_y line i = PI / 2).
  { intros i Hi. destruct (Y i ltac:(lia)) as (k & K). destruct (Y (S i) ltac:(lia)) as (k' & K'). specialize (E6 eq_refl i ltac:(cbn; lia)).
    rewrite S_INR in K'. assert (Q : line_y line (S i) - line_y line i = PI / 2 + IZR (k' - k) * (2 * PI)) by (rewrite K, K', minus_IZR; ring).
    rewrite Q in E6 |- *. assert (Z0 : (k' - k = 0)%Z).
    { assert (B : - PI <= PI / 2 + IZR (k' - k) * (2 * PI) <= PI) by (split; unfold Rabs in E6; destruct (Rcase_abs _); lra).
      set (z := (k' - k)%Z) in *. clearbody z. destruct B as (B1 & B2).
      assert (U : IZR z < 1) by nra. assert (V : -1 < IZR z) by nra. apply lt_IZR in U. apply lt_IZR in V. lia. }
    rewrite Z0. lra. }
  split; [exact St|]. pose proof (St 0%nat ltac:(lia)). pose proof (St 1%nat ltac:(lia)). pose proof (St 2%nat ltac:(lia)).
  change (line_y line 4 = line_y line 0) in E5. lra.
Qed.

Lemma skew_wrong_index : ~ in_shape [2%nat] (remaining 0%nat [0%nat] (fundamental_shape ex_skew)) /\ ~ in_shape [] (remaining 0%nat [0%nat] (fundamental_shape ex_skew)).
Proof.
  change (remaining 0%nat [0%nat] (fundamental_shape ex_skew)) with [2%nat]. split; intros H; inversion H; lia.
Qed.
