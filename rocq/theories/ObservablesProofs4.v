(** Average positions, restored trajectories, spreads and momenta of lists of states. *)
From Coq Require Import Reals Lra Lia Psatz.
From Coquelicot Require Import Rcomplements.
From Verif Require Import ZLib Csum DFT NumPy Index Spec IndexProofs Basis SpecBasis BasisProofs BasisProofs2 BasisProofs3 BasisFacts Lattice LatticeProofs Operator SpecOperator OperatorProofs OperatorProofs2
  StateList SpecStateList StateListProofs StateListProofs3 Wavepacket SpecWavepacket WavepacketProofs WavepacketProofs2 Hamiltonian HamiltonianProofs Brillouin
  FourierProofs4 Observables SpecObservables ObservablesProofs ObservablesProofs2 ObservablesProofs3.
Local Open Scope R_scope.

Lemma axis_direction_length ndim axis : length (axis_direction ndim axis) = ndim.
Proof. unfold axis_direction. rewrite map_length, seq_length. reflexivity. Qed.

Lemma turns_axis shape : forall x axis j, length x = length shape -> (axis < length shape)%nat ->
  turns shape (map (fun i => if Nat.eqb i (j + axis) then 1%Z else 0%Z) (seq j (length shape))) x = INR (nth axis x 0%nat) / INR (nth axis shape 0%nat).
Proof.
  assert (Z0 : forall shape x j k, (k < j)%nat -> turns shape (map (fun i => if Nat.eqb i k then 1%Z else 0%Z) (seq j (length shape))) x = 0).
  { induction shape0 as [|n shape0 IH]; intros x j k Hk; [reflexivity|]. destruct x as [|i x]; [reflexivity|]. cbn [length seq map turns].
    replace (Nat.eqb j k) with false by (symmetry; apply Nat.eqb_neq; lia). rewrite IH by lia. unfold Rdiv. ring. }
  induction shape as [|n shape IH]; intros x axis j Hx Ha; [cbn in Ha; lia|].
  destruct x as [|i x]; [discriminate|]. cbn [length seq map turns]. destruct axis as [|axis].
  - replace (Nat.eqb j (j + 0)) with true by (symmetry; apply Nat.eqb_eq; lia). rewrite Nat.add_0_r, Z0 by lia. cbn [nth]. unfold Rdiv. ring.
  - replace (Nat.eqb j (j + S axis)) with false by (symmetry; apply Nat.eqb_neq; lia). cbn [nth].
    replace (j + S axis)%nat with (S j + axis)%nat by lia. rewrite IH by (cbn in *; lia). unfold Rdiv. ring.
Qed.

Lemma turns_along shape x axis : length x = length shape -> (axis < length shape)%nat ->
  turns shape (axis_direction (length shape) axis) x = INR (nth axis x 0%nat) / INR (nth axis shape 0%nat).
Proof. intros. apply (turns_axis shape x axis 0); assumption. Qed.

Section Lists.
  Variable same : basis -> basis -> bool.
  Hypothesis Hs : identity_test same.
  Variable axes : list basis.
  Hypothesis Hw : bwf (BTuple axes).
  Hypothesis Ho : explicit_orthonormal (BTuple axes).
  Let shape := map bfund axes.
  Let nd := length axes.
  Variable delta : nat -> nat -> R.

  Lemma periodic_phases s axis : sbasis s = BTuple axes -> well_formed_list s ->
    exists f, get_periodic_x same axes s (Some (axis_direction nd axis)) = Some (slist s, f) /\
      forall i, f i = mean_phase shape (axis_direction nd axis) s i.
  Proof using Hs Hw Ho. intros Eb Ws. apply periodic_x_spec; try assumption. apply axis_direction_length. Qed.

  (** One value per state in one dimension. *)
  Lemma average_x_periodic_1d s : sbasis s = BTuple axes -> well_formed_list s -> nd = 1%nat ->
    exists v, get_average_x_periodic same axes delta s 0 = Some (slist s, (bsize (slist s), v)) /\
      forall i, (i < bsize (slist s))%nat -> v i = periodic_position (delta 0%nat 0%nat) (mean_phase shape (axis_direction nd 0) s i).
  Proof using Hs Hw Ho.
    intros Eb Ws E1. destruct (periodic_phases s 0 Eb Ws) as (f & Hf & Ef).
    unfold get_average_x_periodic. fold nd. rewrite Hf, E1. cbn [Nat.ltb Nat.leb]. unfold multiply_vectors.
    destruct (Nat.eqb_spec (bsize (slist s)) 1) as [E|E]; (eexists; split; [reflexivity|]); intros i Hi; cbn beta.
    - assert (i = 0)%nat by lia. subst i. rewrite Ef, E1. reflexivity.
    - rewrite Ef, E1. reflexivity.
  Qed.

  (** More dimensions. *)
  Lemma average_x_periodic_nd s axis : sbasis s = BTuple axes -> well_formed_list s -> (1 < nd)%nat -> (axis < nd)%nat ->
    let e := mean_phase shape (axis_direction nd axis) s in
    (bsize (slist s) = 1%nat -> exists v, get_average_x_periodic same axes delta s axis = Some (slist s, (nd, v)) /\
       forall c, v c = periodic_position (delta axis c) (e 0%nat)) /\
    (bsize (slist s) = nd -> exists v, get_average_x_periodic same axes delta s axis = Some (slist s, (nd, v)) /\
       forall i, v i = periodic_position (delta axis i) (e i)) /\
    (bsize (slist s) <> 1%nat -> bsize (slist s) <> nd -> get_average_x_periodic same axes delta s axis = None).
  Proof using Hs Hw Ho.
    intros Eb Ws Hn Ha e. destruct (periodic_phases s axis Eb Ws) as (f & Hf & Ef).
    unfold get_average_x_periodic. fold nd. rewrite Hf. replace (axis <? nd)%nat with true by (symmetry; apply Nat.ltb_lt; exact Ha).
    unfold multiply_vectors. destruct (Nat.eqb_spec nd 1) as [B|_]; [lia|]. repeat split.
    - intros E. rewrite E. destruct (Nat.eqb_spec 1 nd) as [B|_]; [lia|]. cbn [Nat.eqb]. eexists. split; [reflexivity|].
      intros c. cbn beta. rewrite Ef. reflexivity.
    - intros E. rewrite E, Nat.eqb_refl. eexists. split; [reflexivity|]. intros i. cbn beta. rewrite Ef. reflexivity.
    - intros E1 E2. apply Nat.eqb_neq in E1, E2. rewrite E1, E2. reflexivity.
  Qed.

  (** ** Restored trajectories *)
  Lemma restored_x_1d s rows cols : sbasis s = BTuple axes -> well_formed_list s -> nd = 1%nat -> bsize (slist s) = (rows * cols)%nat ->
    exists v, get_restored_x same axes delta s rows cols 0 = Some (slist s, (cols, v)) /\
      forall r i, (i < cols)%nat ->
        v r i = np_unwrap (fun j => np_angle (mean_phase shape (axis_direction nd 0) s (r * cols + j)%nat)) i * delta 0%nat 0%nat / (2 * PI).
  Proof using Hs Hw Ho.
    intros Eb Ws E1 Er. destruct (periodic_phases s 0 Eb Ws) as (f & Hf & Ef).
    unfold get_restored_x. fold nd. rewrite Hf, Er, Nat.eqb_refl, E1. cbn [Nat.ltb Nat.leb andb]. unfold multiply_vectors.
    assert (U : forall r i, np_unwrap (fun j => np_angle (f (r * cols + j)%nat)) i =
                np_unwrap (fun j => np_angle (mean_phase shape (axis_direction nd 0) s (r * cols + j)%nat)) i).
    { intros r i. unfold np_unwrap. rewrite !Ef. f_equal. apply rsum_ext. intros j Hj. rewrite !Ef. reflexivity. }
    rewrite E1 in U. destruct (Nat.eqb_spec cols 1) as [E|E]; (eexists; split; [reflexivity|]); intros r i Hi; cbn [Nat.eqb].
    - assert (i = 0)%nat by lia. subst i. rewrite U. reflexivity.
    - rewrite U. reflexivity.
  Qed.

  Lemma restored_facts s rows cols v : sbasis s = BTuple axes -> well_formed_list s -> nd = 1%nat -> bsize (slist s) = (rows * cols)%nat ->
    0 < delta 0%nat 0%nat -> get_restored_x same axes delta s rows cols 0 = Some (slist s, (cols, v)) ->
    let L := delta 0%nat 0%nat in
    let e r i := mean_phase shape (axis_direction nd 0) s (r * cols + i)%nat in
    (forall r i, (i < cols)%nat -> e r i = Cmult (RtoC (Cmod (e r i))) (cis (2 * PI * (v r i / L)))) /\
    (forall r i, (S i < cols)%nat -> Rabs (v r (S i) - v r i) <= L / 2) /\
    (forall r, (0 < cols)%nat -> - L / 2 < v r 0%nat <= L / 2) /\
    (forall r (X rho : nat -> R),
       (forall i, (i < cols)%nat -> 0 < rho i /\ e r i = Cmult (RtoC (rho i)) (cis (2 * PI * (X i / L)))) ->
       (forall i, (S i < cols)%nat -> Rabs (X (S i) - X i) < L / 2) ->
       (exists k : Z, (0 < cols)%nat -> v r 0%nat = X 0%nat + IZR k * L) /\
       forall i, (i < cols)%nat -> v r i - v r 0%nat = X i - X 0%nat).
  Proof using Hs Hw Ho.
    intros Eb Ws E1 Er HL G L e. pose proof PI_RGT_0 as HP.
    destruct (restored_x_1d s rows cols Eb Ws E1 Er) as (v' & G' & Ev). rewrite G in G'. injection G' as <-.
    assert (HL' : 0 < L) by exact HL.
    assert (Ev' : forall r i, (i < cols)%nat -> v r i = np_unwrap (fun j => np_angle (e r j)) i * L / (2 * PI)) by exact Ev.
    clear Ev. split; [|split; [|split]].
    - intros r i Hi. rewrite Ev' by exact Hi.
      destruct (unwrap_congruent (fun j => np_angle (e r j)) i) as (k & ->).
      replace (2 * PI * ((np_angle (e r i) + IZR k * (2 * PI)) * L / (2 * PI) / L)) with (np_angle (e r i) + IZR k * (2 * PI)) by (field; lra).
      rewrite cis_shift. apply angle_spec.
    - intros r i Hi. rewrite !Ev' by lia. set (p := fun j => np_angle (e r j)).
      replace (np_unwrap p (S i) * L / (2 * PI) - np_unwrap p i * L / (2 * PI)) with ((np_unwrap p (S i) - np_unwrap p i) * (L / (2 * PI))) by (field; lra).
      assert (Q : 0 < L / (2 * PI)) by (apply Rdiv_lt_0_compat; lra).
      rewrite Rabs_mult, (Rabs_right (L / (2 * PI))) by lra.
      replace (L / 2) with (PI * (L / (2 * PI))) by (field; lra). apply Rmult_le_compat_r; [lra|apply unwrap_close].
    - intros r Hc. rewrite Ev' by exact Hc. rewrite unwrap_zero. destruct (angle_spec (e r 0%nat)) as ((A1 & A2) & _).
      assert (Q : 0 < L / (2 * PI)) by (apply Rdiv_lt_0_compat; lra).
      replace (np_angle (e r 0%nat) * L / (2 * PI)) with (np_angle (e r 0%nat) * (L / (2 * PI))) by (field; lra).
      replace (- L / 2) with (- PI * (L / (2 * PI))) by (field; lra). replace (L / 2) with (PI * (L / (2 * PI))) by (field; lra).
      split; [apply Rmult_lt_compat_r; assumption|apply Rmult_le_compat_r; lra].
    - intros r X rho He HX. set (p := fun j => np_angle (e r j)). set (y := fun i => 2 * PI * (X i / L)).
      assert (Hp : forall i, (i < cols)%nat -> exists k : Z, p i = y i + IZR k * (2 * PI)).
      { intros i Hi. destruct (He i Hi) as (Hr & E). exact (angle_unique _ _ _ E Hr). }
      assert (Hy : forall i, (S i < cols)%nat -> Rabs (y (S i) - y i) < PI).
      { intros i Hi. unfold y. replace (2 * PI * (X (S i) / L) - 2 * PI * (X i / L)) with ((X (S i) - X i) * (2 * PI / L)) by (field; lra).
        assert (Q : 0 < 2 * PI / L) by (apply Rdiv_lt_0_compat; lra).
        rewrite Rabs_mult, (Rabs_right (2 * PI / L)) by lra.
        replace PI with (L / 2 * (2 * PI / L)) at 2 by (field; lra). apply Rmult_lt_compat_r; [exact Q|apply HX; exact Hi]. }
      split.
      + destruct (Nat.eq_dec cols 0) as [C0|C0]; [exists 0%Z; lia|].
        destruct (Hp 0%nat ltac:(lia)) as (k & Hk). exists k. intros Hc. rewrite Ev' by exact Hc. rewrite unwrap_zero. fold (p 0%nat). rewrite Hk.
        unfold y. field. lra.
      + intros i Hi. rewrite !Ev' by lia. rewrite unwrap_zero. fold p. rewrite (unwrap_true_path p y cols Hp Hy i Hi).
        unfold y. cbn beta. fold (p 0%nat). field. lra.
  Qed.

  (** ** Positions and momenta *)
  Lemma diagonal_none D d : ashape d = [length axes] -> length axes <> bsize D ->
    convert_diagonal_operator_to_basis same {| orow := D; ocol := D; odata := d |} (BTuple axes) (BTuple axes) = None.
  Proof using.
    intros Sd N. unfold convert_diagonal_operator_to_basis, as_operator. cbn [odata orow ocol]. unfold np_diag. rewrite Sd.
    unfold convert_operator_to_basis. cbn [orow ocol odata]. unfold reshape. cbn [ashape array2 nprod].
    match goal with |- context [if (?x =? ?y)%nat then _ else _] => destruct (Nat.eqb_spec x y) as [E|E] end; [exfalso; clear -E N; nia|reflexivity].
  Qed.

  Lemma average_x_1d s : sbasis s = BTuple axes -> well_formed_list s -> nd = 1%nat ->
    exists f, get_average_x same axes delta s 0 = Some (slist s, f) /\
      forall i, f i = RtoC (rsum (fun x => density s i x * (INR x * (delta 0%nat 0%nat / INR (nprod shape)))) (nprod shape)).
  Proof using Hs Hw Ho.
    intros Eb Ws E1. destruct (points_ok axes Hw) as (P1 & P2 & P3 & P4). fold shape in P4.
    assert (Sh : exists n, shape = [n]).
    { unfold shape, nd in *. destruct axes as [|a [|b l]]; try discriminate. exists (bfund a). reflexivity. }
    destruct Sh as (n & Sh).
    unfold get_average_x, get_x_operator. fold nd shape. rewrite E1. cbn [Nat.ltb Nat.leb].
    change (as_fundamental_position axes) with (points axes).
    assert (M : exists w, multiply_vectors 1 (dx_stacked shape delta 0) (nprod shape) (fun x => IZR (stacked_nx_points shape 0 x)) = Some (nprod shape, w) /\
                forall x, (x < nprod shape)%nat -> w x = INR x * (delta 0%nat 0%nat / INR (nprod shape))).
    { assert (V : forall x, (x < nprod shape)%nat -> dx_stacked shape delta 0 0 * IZR (stacked_nx_points shape 0 x) = INR x * (delta 0%nat 0%nat / INR (nprod shape))).
      { intros x Hx. rewrite Sh in *. unfold dx_stacked, stacked_nx_points, meshgrid_ravel, flatten, nx_points. cbn [nth unravel nprod] in *.
        rewrite Nat.div_1_r, Nat.mul_1_r, <- INR_IZR_INZ. ring. }
      unfold multiply_vectors. destruct (Nat.eqb_spec 1 (nprod shape)) as [E|E].
      - rewrite <- E. eexists. split; [reflexivity|]. intros x Hx. rewrite E in *. assert (x = 0)%nat by lia. subst x. apply V. exact Hx.
      - destruct (Nat.eqb_spec (nprod shape) 1); [lia|]. cbn [Nat.eqb]. eexists. split; [reflexivity|]. exact V. }
    destruct M as (w & -> & Ew).
    set (d := {| ashape := _; aflat := _ |}).
    assert (Sd : ashape d = [bsize (points axes)]) by (rewrite P4; reflexivity).
    destruct (diagonal_convert same Hs (points axes) (BTuple axes) P1 P2 Hw Ho P3 d Sd) as (o & Eo & _). rewrite Eo.
    destruct (expectation_list_diagonal same Hs (points axes) (BTuple axes) P1 P2 Hw Ho P3 d s o Sd Eb Ws Eo) as (f & Hf & Ef).
    exists f. split; [exact Hf|]. intros i. rewrite Ef, P4, <- csum_RtoC. apply csum_ext. intros x Hx.
    unfold d. cbn [aflat]. rewrite points_overlap_sum by assumption. rewrite Ew by exact Hx. unfold density. rewrite Eb, <- RtoC_mult, Rmult_comm. reflexivity.
  Qed.

End Lists.

Section Momenta.
  Variable same : basis -> basis -> bool.
  Hypothesis Hs : identity_test same.
  Variable axes : list basis.
  Hypothesis Hw : bwf (BTuple axes).
  Hypothesis Ho : explicit_orthonormal (BTuple axes).
  Let shape := map bfund axes.
  Let nd := length axes.
  Variable inv : nat -> nat -> R.

  Lemma average_k_1d s : sbasis s = BTuple axes -> well_formed_list s -> nd = 1%nat ->
    exists f, get_average_k same axes inv s 0 = Some (slist s, f) /\
      forall i, f i = RtoC (rsum (fun p => momentum_density shape s i p * (2 * PI * inv 0%nat 0%nat * IZR (freq (nprod shape) p))) (nprod shape)).
  Proof using Hs Hw Ho.
    intros Eb Ws E1.
    assert (PM : Forall (fun n => (0 < n)%nat) shape) by (apply fund_shape_pos; assumption).
    assert (P1 : bwf (momenta shape)) by (apply momenta_wf; exact PM).
    assert (P2 : explicit_orthonormal (momenta shape)) by (apply full_bases; [exact P1|apply momenta_full]).
    assert (P3 : compatible (momenta shape) (BTuple axes)) by apply compatible_momenta'.
    assert (P4 : bsize (momenta shape) = nprod shape) by apply momenta_size.
    assert (Sh : exists n, shape = [n]).
    { unfold shape, nd in *. destruct axes as [|a [|b l]]; try discriminate. exists (bfund a). reflexivity. }
    destruct Sh as (n & Sh).
    unfold get_average_k, get_k_operator. fold nd shape. rewrite E1. cbn [Nat.ltb Nat.leb].
    rewrite as_fundamental_transformed_momenta. fold shape.
    assert (M : exists w, multiply_vectors 1 (dk_stacked inv 0) (nprod shape) (fun x => IZR (stacked_nk_points shape 0 x)) = Some (nprod shape, w) /\
                forall x, (x < nprod shape)%nat -> w x = 2 * PI * inv 0%nat 0%nat * IZR (freq (nprod shape) x)).
    { assert (V : forall x, (x < nprod shape)%nat -> dk_stacked inv 0 0 * IZR (stacked_nk_points shape 0 x) = 2 * PI * inv 0%nat 0%nat * IZR (freq (nprod shape) x)).
      { intros x Hx. rewrite nk_freq; [|exact Hx|rewrite Sh; cbn; lia]. rewrite Sh in *. unfold dk_stacked. cbn [nth unravel nprod] in *.
        rewrite Nat.div_1_r, Nat.mul_1_r. reflexivity. }
      unfold multiply_vectors. destruct (Nat.eqb_spec 1 (nprod shape)) as [E|E].
      - rewrite <- E. eexists. split; [reflexivity|]. intros x Hx. rewrite E in *. assert (x = 0)%nat by lia. subst x. apply V. exact Hx.
      - destruct (Nat.eqb_spec (nprod shape) 1); [lia|]. cbn [Nat.eqb]. eexists. split; [reflexivity|]. exact V. }
    destruct M as (w & -> & Ew).
    set (d := {| ashape := _; aflat := _ |}).
    assert (Sd : ashape d = [bsize (momenta shape)]) by (rewrite P4; reflexivity).
    destruct (diagonal_convert same Hs (momenta shape) (BTuple axes) P1 P2 Hw Ho P3 d Sd) as (o & Eo & _). rewrite Eo.
    destruct (expectation_list_diagonal same Hs (momenta shape) (BTuple axes) P1 P2 Hw Ho P3 d s o Sd Eb Ws Eo) as (f & Hf & Ef).
    exists f. split; [exact Hf|]. intros i. rewrite Ef, P4, <- csum_RtoC. apply csum_ext. intros p Hp.
    unfold d. cbn [aflat]. rewrite Ew by exact Hp. rewrite !RtoC_mult. unfold momentum_density.
    replace (csum (fun j => Cmult (overlap (momenta shape) (BTuple axes) p j) (state_of s i j)) (bsize (BTuple axes)))
      with (csum (fun x => Cmult (Cconj (bstate (momenta shape) p x)) (amplitude (sbasis s) (state_of s i) x)) (nprod shape)); [rewrite <- !RtoC_mult, Rmult_comm; reflexivity|].
    unfold amplitude, overlap. rewrite Eb. symmetry.
    transitivity (csum (fun j => csum (fun x => Cmult (Cconj (bstate (momenta shape) p x)) (Cmult (state_of s i j) (bstate (BTuple axes) j x))) (nprod shape)) (bsize (BTuple axes))).
    { apply csum_ext. intros j Hj. rewrite <- csum_scal_r. apply csum_ext. intros x Hx. rewrite <- Cmult_assoc. f_equal. apply Cmult_comm. }
    rewrite csum_swap. apply csum_ext. intros x Hx. rewrite csum_scal_l. reflexivity.
  Qed.

  Lemma operators_raise delta axis : nd <> 1%nat -> nd <> nprod shape -> get_x_operator same axes delta axis = None /\ get_k_operator same axes inv axis = None.
  Proof using.
    intros N1 N2. unfold get_x_operator, get_k_operator. fold nd shape.
    destruct (Nat.ltb_spec axis nd) as [La|La]; [|split; reflexivity].
    unfold multiply_vectors. destruct (Nat.eqb_spec nd (nprod shape)); [contradiction|]. destruct (Nat.eqb_spec nd 1); [contradiction|].
    destruct (Nat.eqb_spec (nprod shape) 1) as [E|E]; [|split; reflexivity].
    split; apply diagonal_none; try reflexivity.
    - change (as_fundamental_position axes) with (points axes). rewrite points_size. fold nd shape. lia.
    - rewrite as_fundamental_transformed_momenta, momenta_size. fold nd shape. lia.
  Qed.
End Momenta.
