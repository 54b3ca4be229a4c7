(** Tight-binding localisation (C32). *)
From Coq Require Import Reals Psatz.
From Verif Require Import ZLib Csum DFT NumPy Interp Index IndexProofs AxesProofs Spec InterpProofs Basis SpecBasis BasisProofs BasisProofs2
  BasisProofs3 BasisFacts Operator SpecOperator OperatorProofs Reduce ReduceProofs KernelProofs4 IndexSum Wavepacket SpecWavepacket WavepacketProofs
  WavepacketProofs2 WavepacketProofs3 SpecMatrix LinAlg Localize SpecLocalize LocalizeProofs3.
Local Open Scope R_scope.
Local Open Scope C_scope.

Lemma np_angle_spec (z : C) : z = RtoC (Cmod z) * cis (np_angle z).
Proof.
  unfold np_angle. destruct (Req_EM_T (Cmod z) 0) as [E|E].
  - apply Cmod_eq_0 in E. subst z. rewrite Cmod_0. ring.
  - assert (Hr : (0 < Cmod z)%R) by (assert (H := Cmod_ge_0 z); lra).
    destruct z as [x y]. cbn [fst snd] in *. set (r := Cmod (x, y)) in *.
    assert (Er : (x * x + y * y = r * r)%R).
    { unfold r, Cmod. cbn [fst snd]. rewrite sqrt_sqrt; nra. }
    set (u := (x / r)%R). assert (Eu : (x = u * r)%R) by (unfold u; field; lra).
    set (w := (y / r)%R). assert (Ew : (y = w * r)%R) by (unfold w; field; lra).
    assert (Euw : (u * u + w * w = 1)%R).
    { apply (Rmult_eq_reg_r (r * r)); [|nra]. rewrite Eu, Ew in Er. nra. }
    assert (Hu : (-1 <= u <= 1)%R) by nra.
    assert (Hs : sin (acos u) = Rabs w).
    { rewrite sin_acos by exact Hu. unfold Rsqr. replace (1 - u * u)%R with (Rsqr w) by (unfold Rsqr; lra). apply sqrt_Rsqr_abs. }
    unfold cis, Cmult, RtoC. cbn [fst snd].
    destruct (Rlt_dec y 0) as [Hy|Hy].
    + rewrite cos_neg, sin_neg, cos_acos, Hs by exact Hu. rewrite Rabs_left by nra. apply injective_projections; cbn [fst snd]; nra.
    + rewrite cos_acos, Hs by exact Hu. rewrite Rabs_right by nra. apply injective_projections; cbn [fst snd]; nra.
Qed.

Lemma plane_phase ls : forall ss s nx, Forall (fun n => (0 < n)%nat) ls -> Forall (fun n => (0 < n)%nat) ss ->
  length ls = length ss -> in_shape s ls -> length nx = length ss ->
  plane (supercell ls ss) (sample_freqs ls s) nx =
  cis (2 * PI * rsum (fun ax => IZR (freq (nth ax ls 0%nat) (nth ax s 0%nat)) / INR (nth ax ls 0%nat) *
                                (IZR (nth ax nx 0%Z) / INR (nth ax ss 0%nat))) (length ss))%R.
Proof.
  induction ls as [|n ls IH]; intros [|m ss] s nx Hl Hs Hlen Hin Hx; try discriminate;
    inversion Hin as [|i ? s' ? Hi Hin']; subst.
  - cbn [supercell plane sample_freqs length rsum]. rewrite Rmult_0_r, cis_0. reflexivity.
  - destruct nx as [|x nx]; [discriminate|]. inversion Hl; subst. inversion Hs; subst. cbn in Hlen, Hx.
    cbn [supercell plane sample_freqs length]. rewrite (IH ss s' nx) by (auto; lia).
    rewrite rsum_front. cbn [nth]. rewrite Rmult_plus_distr_l, cis_plus. f_equal.
    unfold omega. f_equal. rewrite mult_IZR, mult_INR. field. split; apply not_0_INR; lia.
Qed.

Lemma axis_states_position ss : forall k x, length k = length ss -> length x = length ss ->
  axis_states (map BFund ss) k x = idelta k x.
Proof.
  induction ss as [|m ss IH]; intros [|k1 k] [|x1 x] Hk Hx; cbn in *; try lia; try reflexivity.
  rewrite IH by lia. reflexivity.
Qed.

Lemma idelta_sym k : forall x, idelta k x = idelta x k.
Proof. induction k as [|a k IH]; intros [|b x]; cbn; try reflexivity. rewrite IH, cdelta_sym. reflexivity. Qed.

Lemma map_bsize_Fund l : map bsize (map BFund l) = l.
Proof. rewrite map_map. apply map_id. Qed.
Lemma map_bfund_Fund l : map bfund (map BFund l) = l.
Proof. rewrite map_map. apply map_id. Qed.

Lemma amplitude_position ss v x : in_shape x ss -> amplitude (BTuple (map BFund ss)) v (ravel ss x) = v (ravel ss x).
Proof.
  intros Hx. assert (A := amplitude_isum (map BFund ss) v x). rewrite map_bsize_Fund, map_bfund_Fund in A. rewrite (A Hx).
  rewrite (isum_ext _ _ (fun k => idelta x k * v (ravel ss k))).
  - apply isum_idelta with (f := fun k => v (ravel ss k)). exact Hx.
  - intros k Hk. rewrite axis_states_position by (eapply in_shape_length; eassumption). rewrite idelta_sym. ring.
Qed.

Lemma as_fundamental_position_tuple l : as_fundamental_position l = BTuple (map BFund (map bfund l)).
Proof. unfold as_fundamental_position. rewrite map_map. reflexivity. Qed.

Lemma position_wf ss : Forall (fun n => (0 < n)%nat) ss -> bwf (BTuple (map BFund ss)).
Proof. intros H. cbn [bwf]. induction H; cbn; auto. Qed.
Lemma position_full ss : full (BTuple (map BFund ss)).
Proof. cbn [full]. induction ss; cbn; auto. Qed.
Lemma compatible_position l : compatible (BTuple l) (BTuple (map BFund (map bfund l))).
Proof.
  constructor.
  - cbn [bfund]. rewrite map_bfund_Fund. reflexivity.
  - induction l as [|b l IH]; cbn [map]; constructor; [|exact IH]. constructor; [intros la lb [_ E]; discriminate|reflexivity].
Qed.

(** Coefficients in the position basis are the values at the points. *)
Lemma convert_position same l : identity_test same -> bwf (BTuple l) -> explicit_orthonormal (BTuple l) ->
  exists G, convert same (BTuple l) (as_fundamental_position l) = Some G /\
    forall v x, (x < nprod (map bfund l))%nat -> G v x = amplitude (BTuple l) v x.
Proof.
  intros Hs Hw He. rewrite as_fundamental_position_tuple.
  destruct (proj2 (convert_some_iff same _ _) (compatible_position l)) as [G HG]. exists G. split; [exact HG|]. intros v x Hx.
  assert (Hp := fund_shape_pos l Hw).
  destruct (full_bases _ (position_wf _ Hp) (position_full (map bfund l))) as [Co _].
  rewrite <- (convert_amplitude same _ _ G Hs Hw (position_wf _ Hp) He Co HG v x) by (cbn [bfund]; rewrite map_bfund_Fund; exact Hx).
  rewrite <- (ravel_unravel (map bfund l) x) by exact Hx. rewrite amplitude_position by (apply unravel_in_shape; exact Hx). reflexivity.
Qed.

Lemma amplitude_scal b c v x : amplitude b (fun k => c * v k) x = c * amplitude b v x.
Proof. unfold amplitude. rewrite <- csum_scal_l. apply csum_ext. intros k _. ring. Qed.
Lemma amplitude_ext b v w x : (forall k, (k < bsize b)%nat -> v k = w k) -> amplitude b v x = amplitude b w x.
Proof. intros H. unfold amplitude. apply csum_ext. intros k Hk. rewrite H by exact Hk. reflexivity. Qed.

Lemma cell_point_wrap ss : forall nx, Forall (fun n => (0 < n)%nat) ss -> length nx = length ss ->
  in_shape (cell_point ss nx) ss /\ get_flat_index ss nx MWrap = Some (ravel ss (cell_point ss nx)).
Proof.
  intros nx Hp. revert nx. induction Hp as [|m ss Hm Hp IH]; intros [|x nx] Hx; try discriminate.
  - split; [constructor|reflexivity].
  - cbn in Hx. destruct (IH nx ltac:(lia)) as [I F]. cbn [cell_point].
    assert (B := Z.mod_pos_bound x (Z.of_nat m) ltac:(lia)). split; [constructor; [lia|exact I]|].
    unfold get_flat_index in *. cbn [indices_in_mode index_in_mode]. destruct (Nat.eqb_spec m 0); [lia|].
    destruct (indices_in_mode MWrap ss nx) as [l'|]; [|discriminate]. injection F as F. f_equal. cbn [ravel]. congruence.
Qed.

Lemma cell_point_id ss : forall x, in_shape x ss -> cell_point ss (map Z.of_nat x) = x.
Proof.
  intros x H. induction H as [|a m x ss Ha H IH]; [reflexivity|]. cbn [map cell_point]. rewrite IH.
  rewrite Z.mod_small, Nat2Z.id by lia. reflexivity.
Qed.

Section Tight.
  Context (same : basis -> basis -> bool) (Hsame : identity_test same).
  Context (ls : list nat) (saxes : list basis).
  Context (Hls : Forall (fun n => (0 < n)%nat) ls) (Hw : bwf (BTuple saxes)) (He : explicit_orthonormal (BTuple saxes)).
  Context (Hlen : length ls = length saxes).
  Let ss := map bfund saxes.
  Let N := bsize (BTuple saxes).
  Context (data : ndarray) (Hd : nprod (ashape data) = (nprod ls * N)%nat).

  Lemma global_phase_spec p nx : point_at ss p nx ->
    exists g, global_phase same (map BFundT ls) saxes p = Some g /\
      forall s, in_shape s ls -> cis (g (ravel ls s)) = plane (supercell ls ss) (sample_freqs ls s) nx.
  Proof.
    intros Hp. unfold global_phase. fold ss.
    assert (Hss : Forall (fun n => (0 < n)%nat) ss) by (apply fund_shape_pos; exact Hw).
    assert (Hsl : length ss = length saxes) by (unfold ss; apply map_length).
    assert (Lx : length nx = length ss).
    { destruct p as [i|l]; cbn [point_at] in Hp.
      - destruct Hp as [x [Hx [_ ->]]]. rewrite map_length. apply in_shape_length in Hx. exact Hx.
      - destruct Hp as [Hl' ->]. exact Hl'. }
    assert (Ex : match p with Stacked l => Some l | Flat i => match get_stacked_index ss i with Some l => Some (map Z.of_nat l) | None => None end end = Some nx).
    { destruct p as [i|l]; cbn [point_at] in Hp.
      - destruct Hp as [x [Hx [-> ->]]]. unfold get_stacked_index. assert (L := ravel_lt _ _ Hx).
        rewrite (proj2 (Z.leb_le 0 (Z.of_nat (ravel ss x)))), (proj2 (Z.ltb_lt (Z.of_nat (ravel ss x)) (Z.of_nat (nprod ss)))) by lia.
        cbn [andb]. rewrite Nat2Z.id, unravel_ravel by exact Hx. reflexivity.
      - destruct Hp as [_ ->]. reflexivity. }
    rewrite Ex. destruct (sample_fractions_fundamental same ls Hsame Hls) as [fr [Ef Vf]]. rewrite Ef.
    rewrite Lx, Nat.eqb_refl, map_length, Hsl, Hlen, Nat.eqb_refl. cbn [andb].
    eexists. split; [reflexivity|]. intros s Hs. cbv beta.
    rewrite (plane_phase ls ss s nx) by (auto; lia). rewrite Hsl. f_equal. f_equal. apply rsum_ext. intros ax Hax.
    assert (Hax' : (ax < length ls)%nat) by lia.
    rewrite (Vf s ax _ Hs Hax' (freq_is_freq _ _ (in_shape_nth s ls ax Hs Hax'))).
    reflexivity.
  Qed.

  Lemma bloch_phase_spec p nx : point_at ss p nx ->
    exists b, bloch_phase same (map BFundT ls) saxes data p = Some b /\
      forall s, in_shape s ls ->
        let z := amplitude (BTuple saxes) (row N (aflat data) (ravel ls s)) (ravel ss (cell_point ss nx)) in
        z = RtoC (Cmod z) * cis (b (ravel ls s)).
  Proof.
    intros Hp. unfold bloch_phase. fold ss.
    assert (Hss : Forall (fun n => (0 < n)%nat) ss) by (apply fund_shape_pos; exact Hw).
    assert (Ex : in_shape (cell_point ss nx) ss /\
      match p with Stacked l => get_flat_index ss l MWrap | Flat i => python_index (nprod ss) i end = Some (ravel ss (cell_point ss nx))).
    { destruct p as [i|l]; cbn [point_at] in Hp.
      - destruct Hp as [x [Hx [-> ->]]]. rewrite cell_point_id by exact Hx. split; [exact Hx|]. apply python_index_nat, ravel_lt, Hx.
      - destruct Hp as [Hl' ->]. apply cell_point_wrap; assumption. }
    destruct Ex as [Hin Ex]. rewrite Ex. set (x := ravel ss (cell_point ss nx)). assert (Hx : (x < nprod ss)%nat) by apply ravel_lt, Hin.
    unfold convert_wavepacket. fold (momenta ls).
    rewrite reshape_some by (rewrite Hd, momenta_size; unfold N; cbn [nprod]; lia).
    destruct (convert_momenta_self same ls Hsame Hls) as [F [HF IF]]. rewrite HF.
    destruct (convert_position same saxes Hsame Hw He) as [G [HG VG]]. rewrite HG.
    eexists. split; [reflexivity|]. intros s Hs. cbv zeta beta.
    assert (Sz : bsize (as_fundamental_position saxes) = nprod ss).
    { rewrite as_fundamental_position_tuple. cbn [bsize]. rewrite map_bsize_Fund. reflexivity. }
    rewrite Sz. cbn [ravel_array aflat]. rewrite array2_flat by exact Hx. rewrite VG by exact Hx.
    assert (Ea : amplitude (BTuple saxes) (fun k' => F (fun i' => at2 {| ashape := [bsize (momenta ls); bsize (BTuple saxes)]; aflat := aflat data |} i' k') (ravel ls s)) x =
      amplitude (BTuple saxes) (row N (aflat data) (ravel ls s)) x).
    { apply amplitude_ext. intros k Hk. rewrite IF by (apply ravel_lt; exact Hs). reflexivity. }
    rewrite Ea. apply np_angle_spec.
  Qed.

  Lemma localize_spec p nx alpha : point_at ss p nx ->
    exists out, localize_tightly_bound same (map BFundT ls) saxes data p alpha = Some out /\
      ashape out = [(nprod ls * N)%nat] /\
      forall s, in_shape s ls ->
        (exists theta : R, forall k, (k < N)%nat -> row N (aflat out) (ravel ls s) k = cis theta * row N (aflat data) (ravel ls s) k) /\
        plane (supercell ls ss) (sample_freqs ls s) nx *
          amplitude (BTuple saxes) (row N (aflat out) (ravel ls s)) (ravel ss (cell_point ss nx)) =
        RtoC (Cmod (amplitude (BTuple saxes) (row N (aflat data) (ravel ls s)) (ravel ss (cell_point ss nx)))) * cis alpha.
  Proof.
    intros Hp. unfold localize_tightly_bound. destruct (bloch_phase_spec p nx Hp) as [b [Eb Vb]]. destruct (global_phase_spec p nx Hp) as [g [Eg Vg]].
    rewrite Eb, Eg. fold (momenta ls). rewrite momenta_size. fold N.
    rewrite reshape_some by (rewrite Hd; cbn [nprod]; lia).
    eexists. split; [reflexivity|]. split; [cbn [ravel_array array2 ashape nprod]; f_equal; lia|].
    intros s Hs. specialize (Vb s Hs). cbv zeta in Vb. specialize (Vg s Hs).
    set (th := (- (b (ravel ls s) + g (ravel ls s) - alpha))%R).
    match goal with |- context [row N (aflat ?o) _ _ = _] => set (out := o) end.
    assert (Rw : forall k, (k < N)%nat -> row N (aflat out) (ravel ls s) k = cis th * row N (aflat data) (ravel ls s) k).
    { intros k Hk. unfold row at 1, out. cbn [ravel_array aflat]. rewrite array2_flat by exact Hk. unfold at2, row. cbn [ashape aflat nth]. fold th. ring. }
    split; [exists th; exact Rw|].
    rewrite (amplitude_ext _ _ _ _ Rw), amplitude_scal. rewrite Vb at 1. rewrite <- Vg.
    set (m := Cmod _).
    transitivity (RtoC m * (cis (g (ravel ls s)) * cis th * cis (b (ravel ls s)))); [ring|].
    rewrite <- !cis_plus. f_equal. f_equal. unfold th. ring.
  Qed.
End Tight.

Lemma localize_flat_raises same laxes saxes data i alpha : (i < 0 \/ Z.of_nat (nprod (map bfund saxes)) <= i)%Z ->
  localize_tightly_bound same laxes saxes data (Flat i) alpha = None.
Proof.
  intros H. unfold localize_tightly_bound, global_phase, get_stacked_index.
  destruct (bloch_phase _ _ _ _ _); [|reflexivity].
  destruct (Z.leb_spec 0 i); cbn [andb]; [|reflexivity].
  destruct (Z.ltb_spec i (Z.of_nat (nprod (map bfund saxes)))); [lia|reflexivity].
Qed.
