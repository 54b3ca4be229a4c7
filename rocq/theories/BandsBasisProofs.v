(** Proofs about the bands of a tunnelling simulation taken from wavepackets. *)
From Coq Require Import Reals Lra Lia.
From Verif Require Import ZLib Csum DFT NumPy Index IndexProofs Spec SpecReal Basis SpecBasis BasisProofs BasisProofs2 BasisProofs3
  Operator SpecOperator OperatorProofs OperatorProofs2 Reduce Wavepacket SpecWavepacket WavepacketProofs2 Localize SpecLocalize LocalizeProofs LocalizeProofs4 LocalizeProofs7
  Lattice LatticeProofs Paths PathsProofs3 SpecBloch TightCell SpecTightCell TightCellProofs TightCellProofs2 TightCellProofs3
  Projections SpecProjections ProjectionsProofs ProjectionsProofs2 TwoPoint SpecTwoPoint TwoPointProofs TwoPointProofs2 Dynamics BandsBasis.
Local Open Scope R_scope.
Local Open Scope C_scope.

Section Bands.
  Context (same : basis -> basis -> bool) (Hsame : identity_test same) (ls : list nat) (saxes : list basis).
  Context (Hls : Forall (fun n => (0 < n)%nat) ls) (Hw : bwf (BTuple saxes)) (He : explicit_orthonormal (BTuple saxes)).
  Context (Hl : length ls = length saxes) (H23 : two_or_three (length saxes)) (Hf : map bsize saxes = map bfund saxes).
  Notation ss := (map bfund saxes).
  Notation N := (bsize (BTuple saxes)).

  Definition largest_points (w : ndarray) (p : list Z * list Z) : Prop :=
    in_window ss (cell_corner ss (0, 0)%Z) (fst p) /\ in_window ss (cell_corner ss (0, 0)%Z) (snd p) /\ mirrored ss (fst p) (snd p) /\
    forall nx, length nx = length ss -> (Cmod (wave_at ls saxes (aflat w) 0 nx) <= Cmod (wave_at ls saxes (aflat w) 0 (fst p)))%R.

  Lemma points_of_bands_spec ws : Forall (fun w => nprod (ashape w) = (nprod ls * N)%nat) ws ->
    exists ps, points_of_bands same (map BFundT ls) saxes ws = Some ps /\ Forall2 largest_points ws ps.
  Proof using All.
    induction 1 as [|w ws Hd Hws IH]; [exists []; split; [reflexivity|constructor]|].
    destruct IH as [ps [Eps Vps]].
    destruct (two_points_spec same Hsame ls saxes Hls Hw He Hl w (0, 0)%Z H23 Hf Hd) as [i0 [i1 [E X]]].
    exists ((i0, i1) :: ps). cbn [points_of_bands]. rewrite E, Eps. split; [reflexivity|]. constructor; [exact X|exact Vps].
  Qed.

  Lemma Forall2_at {A B} (P : A -> B -> Prop) l l' a b : Forall2 P l l' -> forall i, (i < length l)%nat -> P (nth i l a) (nth i l' b).
  Proof. induction 1 as [|x y l l' Hxy H IH]; intros i Hi; [cbn in Hi; lia|]. destruct i; [exact Hxy|]. apply IH. cbn in Hi. lia. Qed.

  Lemma bands_locations nb d delta : (0 < nb)%nat -> nprod (ashape d) = (nb * (nprod ls * N))%nat ->
    exists b, from_wavepackets same nb (map BFundT ls) saxes d delta = Some b /\ band_count b = nb /\
      (forall a c, band_cell b a c = delta a c) /\
      forall k, (k < nb)%nat -> exists i0 i1,
        in_window ss (cell_corner ss (0, 0)%Z) i0 /\ in_window ss (cell_corner ss (0, 0)%Z) i1 /\ mirrored ss i0 i1 /\
        (forall nx, length nx = length ss ->
           (Cmod (wave_at ls saxes (fun t => aflat d (k * (nprod ls * N) + t)) 0 nx) <= Cmod (wave_at ls saxes (fun t => aflat d (k * (nprod ls * N) + t)) 0 i0))%R) /\
        forall ax, (ax < 2)%nat -> band_location b ax k = ((IZR (nth ax i0 0%Z) + IZR (nth ax i1 0%Z)) / 2)%R.
  Proof using All.
    intros Hnb Hd. unfold from_wavepackets, wavepacket_list_into_iter. cbn [bsize].
    destruct (Nat.eqb_spec nb 0) as [Z0|_]; [lia|]. rewrite Hd, (Nat.mul_comm nb), Nat.mod_mul, Nat.div_mul by lia. cbn [Nat.eqb].
    set (a := {| ashape := [nb; (nprod ls * N)%nat]; aflat := aflat d |}).
    destruct (points_of_bands_spec (map (select_row a) (seq 0 nb))) as [ps [Eps Vps]].
    { apply Forall_map. apply Forall_forall. intros k _. cbn. lia. }
    rewrite Eps. eexists. split; [reflexivity|]. split; [reflexivity|]. split; [reflexivity|]. intros k Hk. cbn [band_location].
    assert (V := Forall2_at _ _ _ (select_row a 0) ([], []) Vps k ltac:(rewrite map_length, seq_length; exact Hk)).
    rewrite (map_nth (select_row a)), seq_nth in V by exact Hk. cbn [Nat.add] in V.
    destruct (nth k ps ([], [])) as [i0 i1]. destruct V as [V1 [V2 [V3 V4]]]. exists i0, i1. split; [exact V1|]. split; [exact V2|]. split; [exact V3|].
    split; [|intros ax _; reflexivity].
    unfold select_row, a in V4. cbn [ashape aflat tl nprod fst] in V4. rewrite !Nat.mul_1_r in V4. exact V4.
  Qed.
End Bands.

(** On a square grid the points are the exact mirror images of each other. *)
Lemma mirror_square n rest i0 i1 : (0 < n)%nat ->
  in_window (n :: n :: rest) (cell_corner (n :: n :: rest) (0, 0)%Z) i0 -> in_window (n :: n :: rest) (cell_corner (n :: n :: rest) (0, 0)%Z) i1 ->
  mirrored (n :: n :: rest) i0 i1 -> nth 0 i1 0%Z = nth 1 i0 0%Z /\ nth 1 i1 0%Z = nth 0 i0 0%Z.
Proof.
  intros Hn W0 W1 M. destruct i0 as [|a [|b i0]]; try (cbn in W0; tauto). destruct i1 as [|c [|e i1]]; try (cbn in W1; tauto).
  cbn [cell_corner in_window mirrored fst snd] in *. destruct W0 as [A [B _]], W1 as [C [E _]], M as [[q1 M1] [[q2 M2] _]]. cbn [nth].
  split; [assert (q1 = 0%Z) by nia|assert (q2 = 0%Z) by nia]; subst; lia.
Qed.

(** The place the simulation gives a state is that of the middle of the two points with every
    coordinate multiplied by the number of points of the cell along its axis. *)
Lemma placed_state b n0 n1 i j k c m0 m1 (d0 d1 : nat) : (i < n0)%nat -> (j < n1)%nat -> (k < band_count b)%nat -> (0 < d0)%nat -> (0 < d1)%nat ->
  band_location b 0 k = m0 -> band_location b 1 k = m1 ->
  approximate_location b n0 n1 (ravel [n0; n1; band_count b] [i; j; k]) c =
  ((INR i + INR d0 * (m0 / INR d0)) * band_cell b 0 c + (INR j + INR d1 * (m1 / INR d1)) * band_cell b 1 c)%R.
Proof.
  intros Hi Hj Hk H0 H1 <- <-. unfold approximate_location. rewrite unravel_ravel.
  2:{ apply Forall2_cons; [exact Hi|]. apply Forall2_cons; [exact Hj|]. apply Forall2_cons; [exact Hk|]. apply Forall2_nil. }
  unfold tensordot00. cbn. assert (INR d0 <> 0%R) by (apply not_0_INR; lia). assert (INR d1 <> 0%R) by (apply not_0_INR; lia). field. split; assumption.
Qed.

(** One state at the second of four points along both axes. *)
Definition corner_axes : list basis := [BFund 4; BFund 4].
Definition corner_data : ndarray := {| ashape := [16%nat]; aflat := fun t => if (t =? 5)%nat then 1 else 0 |}.


Lemma corner_wave a b : wave_at [1%nat; 1%nat] corner_axes (aflat corner_data) 0 [a; b] =
  if ((Z.to_nat (a mod 4) * 4 + Z.to_nat (b mod 4)) =? 5)%nat then 1 else 0.
Proof.
  unfold wave_at. change (map bfund corner_axes) with [4%nat; 4%nat]. change (unravel [1%nat; 1%nat] 0) with [0%nat; 0%nat].
  change (sample_freqs [1%nat; 1%nat] [0%nat; 0%nat]) with [0%Z; 0%Z]. change (supercell [1%nat; 1%nat] [4%nat; 4%nat]) with [4%nat; 4%nat].
  cbn [plane]. rewrite !Z.mul_0_l, omega_0. change corner_axes with (map BFund [4%nat; 4%nat]).
  assert (I : in_shape (cell_point [4%nat; 4%nat] [a; b]) [4%nat; 4%nat]).
  { cbn [cell_point]. change (Z.of_nat 4) with 4%Z. assert (A := Z.mod_pos_bound a 4 ltac:(lia)). assert (B := Z.mod_pos_bound b 4 ltac:(lia)).
    apply Forall2_cons; [lia|]. apply Forall2_cons; [lia|]. apply Forall2_nil. }
  rewrite amplitude_position by exact I.
  replace (ravel [4%nat; 4%nat] (cell_point [4%nat; 4%nat] [a; b])) with (Z.to_nat (a mod 4) * 4 + Z.to_nat (b mod 4))%nat.
  - unfold row, corner_data. cbn [aflat Nat.mul Nat.add]. destruct (_ =? 5)%nat; ring.
  - cbn [cell_point]. change (Z.of_nat 4) with 4%Z. cbn [ravel nprod fold_right]. cbn. lia.
Qed.

Lemma corner_misplaced same delta : identity_test same ->
  exists b, from_wavepackets same 1 (map BFundT [1%nat; 1%nat]) corner_axes corner_data delta = Some b /\
    (forall nx, length nx = 2%nat -> wave_at [1%nat; 1%nat] corner_axes (aflat corner_data) 0 nx <> 0 -> cell_point [4%nat; 4%nat] nx = [1%nat; 1%nat]) /\
    forall c, approximate_location b 1 1 0 c = (delta 0%nat c + delta 1%nat c)%R.
Proof.
  intros Hs.
  assert (Only : forall a b, wave_at [1%nat; 1%nat] corner_axes (aflat corner_data) 0 [a; b] <> 0 -> (a mod 4 = 1 /\ b mod 4 = 1)%Z).
  { intros a b H. rewrite corner_wave in H. destruct (Nat.eqb_spec (Z.to_nat (a mod 4) * 4 + Z.to_nat (b mod 4)) 5) as [E|_]; [|contradiction].
    assert (A := Z.mod_pos_bound a 4 ltac:(lia)). assert (B := Z.mod_pos_bound b 4 ltac:(lia)).
    revert E A B. generalize (a mod 4)%Z (b mod 4)%Z. intros u v E A B. rewrite <- (Z2Nat.id u), <- (Z2Nat.id v) in * by lia. lia. }
  destruct (bands_locations same Hs [1%nat; 1%nat] corner_axes) with (nb := 1%nat) (d := corner_data) (delta := delta) as [b [Eb [Cb [Db V]]]];
    try reflexivity; try (repeat constructor; fail); try (cbn; tauto); try lia.
  exists b. split; [exact Eb|]. split.
  { intros nx Lx H. destruct nx as [|x [|y [|? ?]]]; try discriminate. destruct (Only x y H) as [A B]. cbn [cell_point]. change (Z.of_nat 4) with 4%Z. rewrite A, B. reflexivity. }
  destruct (V 0%nat ltac:(lia)) as [i0 [i1 [W0 [W1 [M [Mx L]]]]]]. change (map bfund corner_axes) with [4%nat; 4%nat] in *.
  destruct i0 as [|x [|y [|? ?]]]; try (cbn in W0; tauto).
  assert (P : (x mod 4 = 1 /\ y mod 4 = 1)%Z).
  { apply Only. intros E0. specialize (Mx [1; 1]%Z eq_refl). cbn [Nat.mul Nat.add] in Mx. change (fun t => aflat corner_data t) with (aflat corner_data) in Mx. rewrite E0, (corner_wave 1 1) in Mx.
    destruct (Nat.eqb_spec (Z.to_nat (1 mod 4) * 4 + Z.to_nat (1 mod 4)) 5) as [_|F]; [|apply F; reflexivity]. rewrite Cmod_1, Cmod_0 in Mx. lra. }
  assert (Q := mirror_square 4 [] [x; y] i1 ltac:(lia) W0 W1 M). cbn [nth] in Q. destruct Q as [Q1 Q2].
  cbn [cell_corner in_window fst snd map] in W0. change (Z.of_nat 4) with 4%Z in W0. change (4 / 2)%Z with 2%Z in W0.
  assert (X1 : (x = 1 /\ y = 1)%Z).
  { destruct P as [P1 P2]. assert (D1 := Z.div_mod x 4 ltac:(lia)). assert (D2 := Z.div_mod y 4 ltac:(lia)). lia. }
  destruct X1 as [-> ->]. assert (L0 := L 0%nat ltac:(lia)). assert (L1 := L 1%nat ltac:(lia)). cbn [nth] in L0, L1. rewrite Q1 in L0. rewrite Q2 in L1.
  intros c. idtac.
  assert (P3 := placed_state b 1 1 0 0 0 c _ _ 1 1 ltac:(lia) ltac:(lia) ltac:(lia) ltac:(lia) ltac:(lia) L0 L1).
  rewrite Cb in P3. change (ravel [1%nat; 1%nat; 1%nat] [0%nat; 0%nat; 0%nat]) with 0%nat in P3. rewrite P3, !Db. cbn [INR]. field.
Qed.

(** With as many points along both axes the two points are images of one another in the diagonal,
    so that both locations of a band are the same number. *)
Lemma square_locations same ls saxes n rest : identity_test same -> Forall (fun n => (0 < n)%nat) ls -> bwf (BTuple saxes) ->
  explicit_orthonormal (BTuple saxes) -> length ls = length saxes -> two_or_three (length saxes) -> map bsize saxes = map bfund saxes ->
  map bfund saxes = n :: n :: rest -> (0 < n)%nat ->
  forall nb d delta, (0 < nb)%nat -> nprod (ashape d) = (nb * (nprod ls * bsize (BTuple saxes)))%nat ->
  exists b, from_wavepackets same nb (map BFundT ls) saxes d delta = Some b /\
    forall k, (k < nb)%nat -> band_location b 0 k = band_location b 1 k.
Proof.
  intros Hs Hls Hw He Hl H23 Hf E Hn nb d delta Hnb Hd.
  destruct (bands_locations same Hs ls saxes Hls Hw He Hl H23 Hf nb d delta Hnb Hd) as [b [Eb [Cb [_ V]]]].
  exists b. split; [exact Eb|]. intros k Hk. destruct (V k Hk) as [i0 [i1 [W0 [W1 [M [_ L]]]]]]. rewrite E in W0, W1, M.
  destruct (mirror_square n rest i0 i1 Hn W0 W1 M) as [A B]. rewrite !L by lia. rewrite A, B. field.
Qed.

Lemma one_axis_raises same nb l s d delta : (0 < nb)%nat -> nprod (ashape d) = (nb * (bsize l * bsize s))%nat ->
  from_wavepackets same nb [l] [s] d delta = None.
Proof.
  intros Hnb Hd. unfold from_wavepackets. destruct (wavepacket_list_into_iter (BFund nb) d) as [ws|] eqn:E; [|reflexivity].
  unfold wavepacket_list_into_iter in E. cbn [bsize] in E. destruct (nb =? 0)%nat; [discriminate|]. destruct (_ =? 0)%nat; [|discriminate]. injection E as <-.
  destruct nb as [|nb]; [lia|]. cbn [seq map].
  - cbn [points_of_bands]. rewrite (proj1 (two_points_raise same [l] [s] _ (0, 0)%Z 0%R ltac:(cbn; intros [H|H]; discriminate))). reflexivity.
Qed.

(** [middle_fraction d i0 i1]: the middle of two points as a fraction of an axis of [d] points. *)
Definition middle_fraction (d : nat) (i0 i1 : Z) : R := ((IZR i0 / INR d + IZR i1 / INR d) / 2)%R.

Lemma placed_states same ls saxes d0 d1 rest : identity_test same -> Forall (fun n => (0 < n)%nat) ls -> bwf (BTuple saxes) ->
  explicit_orthonormal (BTuple saxes) -> length ls = length saxes -> two_or_three (length saxes) -> map bsize saxes = map bfund saxes ->
  map bfund saxes = d0 :: d1 :: rest -> (0 < d0)%nat -> (0 < d1)%nat ->
  forall nb d delta, (0 < nb)%nat -> nprod (ashape d) = (nb * (nprod ls * bsize (BTuple saxes)))%nat ->
  exists b, from_wavepackets same nb (map BFundT ls) saxes d delta = Some b /\
    forall k, (k < nb)%nat -> exists i0 i1, mirrored (d0 :: d1 :: rest) i0 i1 /\
      (forall nx, length nx = length saxes ->
         (Cmod (wave_at ls saxes (fun t => aflat d (k * (nprod ls * bsize (BTuple saxes)) + t)%nat) 0 nx) <=
          Cmod (wave_at ls saxes (fun t => aflat d (k * (nprod ls * bsize (BTuple saxes)) + t)%nat) 0 i0))%R) /\
      forall n0 n1 i j c, (i < n0)%nat -> (j < n1)%nat ->
      approximate_location b n0 n1 (ravel [n0; n1; nb] [i; j; k]) c =
      ((INR i + INR d0 * middle_fraction d0 (nth 0 i0 0%Z) (nth 0 i1 0%Z)) * delta 0%nat c +
       (INR j + INR d1 * middle_fraction d1 (nth 1 i0 0%Z) (nth 1 i1 0%Z)) * delta 1%nat c)%R.
Proof.
  intros Hs Hls Hw He Hl H23 Hf E H0 H1 nb d delta Hnb Hd.
  destruct (bands_locations same Hs ls saxes Hls Hw He Hl H23 Hf nb d delta Hnb Hd) as [b [Eb [Cb [Db V]]]].
  exists b. split; [exact Eb|]. intros k Hk. destruct (V k Hk) as [i0 [i1 [W0 [W1 [M [Mx L]]]]]]. exists i0, i1.
  split; [rewrite <- E; exact M|]. split; [intros nx Hx; apply Mx; rewrite map_length; exact Hx|].
  intros n0 n1 i j c Hi Hj. assert (P := placed_state b n0 n1 i j k c _ _ d0 d1 Hi Hj ltac:(lia) H0 H1 (L 0%nat ltac:(lia)) (L 1%nat ltac:(lia))).
  rewrite Cb in P. rewrite P, !Db. unfold middle_fraction.
  assert (INR d0 <> 0%R) by (apply not_0_INR; lia). assert (INR d1 <> 0%R) by (apply not_0_INR; lia). field. split; assumption.
Qed.
