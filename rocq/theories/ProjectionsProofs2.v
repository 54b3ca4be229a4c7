(** Localisation on a single point and on the tight binding state. *)
From Coq Require Import Reals Lra.
From Verif Require Import ZLib Csum DFT NumPy Spec Index IndexProofs IndexSum Basis SpecBasis BasisProofs BasisProofs2 BasisProofs3 Operator SpecOperator OperatorProofs
  LinAlg Reduce StateList Wavepacket SpecWavepacket WavepacketProofs2 WavepacketProofs3 HamiltonianProofs3 SpecMatrix Localize SpecLocalize LocalizeProofs4 Paths PathsProofs3 DynamicsProofs StateListProofs3
  SpecBloch TightCell SpecTightCell TightCellProofs TightCellProofs2 TightCellProofs3 Projections SpecProjections ProjectionsProofs.
Local Open Scope R_scope.
Local Open Scope C_scope.

Lemma stands_zero F : forall ax m, Forall (fun n => (0 < n)%nat) F -> length m = length F ->
  stands_for F (wrap_index_from ax F (map Z.of_nat m) (map (fun _ => 0%Z) F) None) m.
Proof.
  induction F as [|n F IH]; intros ax [|i m] Hp L; try discriminate; [exact Logic.I|]. inversion Hp; subst.
  cbn [map wrap_index_from stands_for]. split; [apply wrap_index_spec; lia|]. apply IH; [assumption|cbn in L; lia].
Qed.
Lemma wrap_length F : forall ax m, length m = length F -> length (wrap_index_from ax F (map Z.of_nat m) (map (fun _ => 0%Z) F) None) = length F.
Proof. induction F as [|n F IH]; intros ax [|i m] L; try discriminate; [reflexivity|]. cbn [map wrap_index_from length]. f_equal. apply IH. cbn in L. lia. Qed.

Lemma first_below_dec s l x : first_below s l x \/ ~ first_below s l x.
Proof.
  unfold first_below. destruct s as [|n s]; [left; exact Logic.I|]. destruct x as [|i x]; [left; exact Logic.I|].
  destruct (Nat.lt_ge_cases (i mod n) l); [left; assumption|right; lia].
Qed.

Section States.
  Context (same : basis -> basis -> bool) (Hsame : identity_test same) (ls : list nat) (saxes : list basis).
  Context (Hls : Forall (fun n => (0 < n)%nat) ls) (Hw : bwf (BTuple saxes)) (He : explicit_orthonormal (BTuple saxes)).
  Context (Hl : length ls = length saxes).
  Context (svd : svd_fn) (Hsvd : svd_ok svd).
  Notation ss := (map bfund saxes).
  Notation N := (bsize (BTuple saxes)).
  Notation F := (supercell ls (map bfund saxes)).

  Let Hl2 : length ls = length ss.
  Proof. rewrite map_length. exact Hl. Qed.
  Let Hss : Forall (fun n => (0 < n)%nat) ss := fund_shape_pos saxes Hw.
  Let HF : Forall (fun n => (0 < n)%nat) F := cells_pos ls ss Hls Hss Hl2.

  Lemma sizes_FundT : map bsize (map BFundT ls) = ls.
  Proof using. apply map_bsize_FundT. Qed.

  (** Projection onto a function on the points of the supercell. *)
  Lemma single_band_samples paxes d p : bwf (BTuple paxes) -> explicit_orthonormal (BTuple paxes) -> map bfund paxes = F ->
    vbasis p = BTuple paxes -> nprod (ashape (vdata p)) = bsize (BTuple paxes) -> nprod (ashape d) = (nprod ls * N)%nat ->
    exists w z, localize_single_band_projection same svd (map BFundT ls) saxes d p = Some w /\ phases_of (nprod ls) N d w z /\
      forall s, (s < nprod ls)%nat ->
        Cconj (z s) * wave_overlap ls saxes d s (amplitude (BTuple paxes) (aflat (vdata p))) =
          RtoC (Cmod (wave_overlap ls saxes d s (amplitude (BTuple paxes) (aflat (vdata p))))).
  Proof using Hsame Hls Hw He Hl Hsvd.
    intros Hwp Hep Hp Eb Hv Hd.
    assert (H := single_band same Hsame (map BFundT ls) saxes paxes Hw He).
    assert (En : bsize (BTuple (map BFundT ls)) = nprod ls) by (cbn [bsize]; rewrite sizes_FundT; reflexivity).
    rewrite sizes_FundT, En in H. apply H; try assumption; [rewrite map_length; exact Hl|apply nprod_pos; exact Hls].
  Qed.

  Lemma position_spec d idx : nprod (ashape d) = (nprod ls * N)%nat -> (0 <= idx < Z.of_nat (nprod ls))%Z ->
    exists f, position_state same (map BFundT ls) saxes d idx = Some (map BFund F, f) /\
      forall x, in_shape x F -> f (ravel F x) = bloch_wave ls saxes d (Z.to_nat idx) x.
  Proof using Hsame Hls Hw He Hl.
    intros Hd Hi. destruct (sample_state same Hsame ls saxes Hls Hw He Hl d idx Hd Hi) as [b [v [P [E [Hb [EP HP]]]]]].
    exists (P (aflat v)). split; [|exact HP]. unfold position_state. rewrite E, EP, Hb. reflexivity.
  Qed.

  Lemma largest_spec f : exists t0, largest_value F f = Some (map Z.of_nat (unravel F t0)) /\ largest_at (nprod F) f t0.
  Proof using Hls Hw Hl.
    destruct (argmax_spec (fun t => Cmod (f t)) (nprod F) (nprod_pos F HF)) as [A [B _]].
    exists (argmax (fun t => Cmod (f t)) (nprod F)). split; [|split; [exact A|exact B]].
    unfold largest_value, get_stacked_index.
    replace ((0 <=? Z.of_nat _)%Z && (Z.of_nat _ <? Z.of_nat (nprod F))%Z)%bool with true
      by (symmetry; apply andb_true_intro; split; [apply Z.leb_le|apply Z.ltb_lt]; lia).
    rewrite Nat2Z.id. reflexivity.
  Qed.

  Definition is_point (p : vector) (t0 : nat) : Prop :=
    vbasis p = BTuple (map BFund F) /\ ashape (vdata p) = [nprod F] /\ delta_at (nprod F) t0 (aflat (vdata p)).

  Lemma point_default d idx : nprod (ashape d) = (nprod ls * N)%nat -> (0 <= idx < Z.of_nat (nprod ls))%Z ->
    exists p t0, single_point_state same (map BFundT ls) saxes d idx None = Some p /\ is_point p t0 /\
      largest_at (nprod F) (fun t => bloch_wave ls saxes d (Z.to_nat idx) (unravel F t)) t0.
  Proof using Hsame Hls Hw He Hl.
    intros Hd Hi. destruct (position_spec d idx Hd Hi) as [f [E Hf]]. destruct (largest_spec f) as [t0 [El [Ht0 HL]]].
    assert (Hx : in_shape (unravel F t0) F) by (apply unravel_in_shape; exact Ht0).
    unfold single_point_state. rewrite E, map_bfund_Fund, El.
    set (o := wrap_index_around_origin F (map Z.of_nat (unravel F t0)) None None).
    assert (Lx := in_shape_length _ _ Hx).
    destruct (flat_index_stands F o HF (wrap_length F 0 _ Lx)) as [x [Hx' [S1 Eo]]]. rewrite Eo.
    assert (Ex : x = unravel F t0) by exact (stands_unique F o _ _ Hx' Hx S1 (stands_zero F 0 _ HF Lx)).
    assert (Er : ravel F x = t0) by (rewrite Ex; apply ravel_unravel; exact Ht0). rewrite Er.
    do 2 eexists. split; [reflexivity|]. split.
    - split; [reflexivity|]. split; [reflexivity|]. intros t Ht. reflexivity.
    - split; [exact Ht0|]. intros t Ht. rewrite <- !Hf by (apply unravel_in_shape; assumption). rewrite !ravel_unravel by assumption. apply HL. exact Ht.
  Qed.

  Lemma point_given d idx o : nprod (ashape d) = (nprod ls * N)%nat -> (0 <= idx < Z.of_nat (nprod ls))%Z -> length o = length ls ->
    exists p x0, single_point_state same (map BFundT ls) saxes d idx (Some o) = Some p /\ in_shape x0 F /\ stands_for F o x0 /\ is_point p (ravel F x0).
  Proof using Hsame Hls Hw He Hl.
    intros Hd Hi Lo. destruct (position_spec d idx Hd Hi) as [f [E Hf]].
    assert (LF : length o = length F) by (rewrite (cells_length ls ss Hl2); congruence).
    destruct (flat_index_stands F o HF LF) as [x [Hx' [S1 Eo]]].
    unfold single_point_state. rewrite E, map_bfund_Fund, Eo. do 2 eexists. split; [reflexivity|]. split; [exact Hx'|]. split; [exact S1|].
    split; [reflexivity|]. split; [reflexivity|]. intros t Ht. reflexivity.
  Qed.

  Lemma overlap_point d s t0 f : (t0 < nprod F)%nat -> delta_at (nprod F) t0 f ->
    wave_overlap ls saxes d s (amplitude (BTuple (map BFund F)) f) = Cconj (bloch_wave ls saxes d s (unravel F t0)).
  Proof using.
    intros Ht H. unfold wave_overlap. rewrite (csum_single _ (nprod F) t0).
    - replace t0 with (ravel F (unravel F t0)) at 2 by (apply ravel_unravel; exact Ht).
      rewrite amplitude_position by (apply unravel_in_shape; exact Ht). rewrite ravel_unravel by exact Ht. rewrite H by exact Ht. rewrite cdelta_refl. ring.
    - exact Ht.
    - intros t Ht' Hn. cbv beta. replace t with (ravel F (unravel F t)) at 2 by (apply ravel_unravel; exact Ht').
      rewrite amplitude_position by (apply unravel_in_shape; exact Ht'). rewrite ravel_unravel by exact Ht'. rewrite H by exact Ht'. rewrite cdelta_neq by exact Hn. ring.
  Qed.

  Lemma explicit_position s : explicit_orthonormal (BTuple (map BFund s)).
  Proof using. induction s as [|n s IH]; cbn; [exact Logic.I|]. split; [exact Logic.I|exact IH]. Qed.

  Lemma single_point d idx : nprod (ashape d) = (nprod ls * N)%nat -> (0 <= idx < Z.of_nat (nprod ls))%Z ->
    exists w z t0, localize_single_point_projection same svd (map BFundT ls) saxes d idx = Some w /\ phases_of (nprod ls) N d w z /\
      largest_at (nprod F) (fun t => bloch_wave ls saxes d (Z.to_nat idx) (unravel F t)) t0 /\
      forall s, (s < nprod ls)%nat -> bloch_wave ls saxes w s (unravel F t0) = RtoC (Cmod (bloch_wave ls saxes d s (unravel F t0))).
  Proof using Hsame Hls Hw He Hl Hsvd.
    intros Hd Hi. destruct (point_default d idx Hd Hi) as [p [t0 [Ep [[P1 [P2 P3]] HL]]]].
    destruct (single_band_samples (map BFund F) d p) as [w [z [Ew [Hz HO]]]]; auto.
    - apply position_wf. exact HF.
    - apply explicit_position.
    - apply map_bfund_Fund.
    - rewrite P2. cbn [nprod bsize]. rewrite map_bsize_Fund. lia.
    - exists w, z, t0. unfold localize_single_point_projection. rewrite Ep. split; [exact Ew|]. split; [exact Hz|]. split; [exact HL|].
      intros s Hs. specialize (HO s Hs). rewrite (overlap_point d s t0 _ (proj1 HL) P3) in HO.
      assert (W : bloch_wave ls saxes w s (unravel F t0) = z s * bloch_wave ls saxes d s (unravel F t0)).
      { assert (WS := fun Hs' => wave_scale (map BFundT ls) saxes N d w s (z s) (unravel F t0) Hs' eq_refl (proj2 (proj2 Hz s Hs))).
        rewrite sizes_FundT in WS. exact (WS Hs). }
      rewrite W. rewrite <- Cconj_mult in HO. apply (f_equal Cconj) in HO. rewrite Cconj_conj in HO. rewrite HO, Cmod_conj. apply injective_projections; cbn; ring.
  Qed.

  (** Projection onto a function given in the momentum basis. *)
  Lemma momentum_projection d f : nprod (ashape d) = (nprod ls * N)%nat ->
    exists T w z, convert same (BTuple (map BFund F)) (as_fundamental_transformed (map BFund F)) = Some T /\
      localize_single_band_projection same svd (map BFundT ls) saxes d
        {| vbasis := as_fundamental_transformed (map BFund F); vdata := {| ashape := [nprod F]; aflat := T f |} |} = Some w /\
      phases_of (nprod ls) N d w z /\
      forall s, (s < nprod ls)%nat -> Cconj (z s) * wave_overlap ls saxes d s f = RtoC (Cmod (wave_overlap ls saxes d s f)).
  Proof using Hsame Hls Hw He Hl Hsvd.
    intros Hd.
    assert (Ef : map bfund (map BFund F) = F) by apply map_bfund_Fund.
    assert (EC : exists T, convert same (BTuple (map BFund F)) (momenta F) = Some T).
    { apply convert_some_iff. rewrite <- Ef at 2. apply compatible_momenta. }
    destruct EC as [T ET].
    assert (Et : as_fundamental_transformed (map BFund F) = momenta F) by (unfold as_fundamental_transformed, momenta; rewrite map_map; reflexivity).
    rewrite Et. set (p := {| vbasis := momenta F; vdata := {| ashape := [nprod F]; aflat := T f |} |}).
    assert (EA : forall t, (t < nprod F)%nat -> amplitude (momenta F) (T f) t = f t).
    { intros t Ht. rewrite (convert_amplitude same (BTuple (map BFund F)) (momenta F) T); auto.
      - replace t with (ravel F (unravel F t)) by (apply ravel_unravel; exact Ht). apply amplitude_position. apply unravel_in_shape. exact Ht.
      - apply position_wf. exact HF.
      - apply momenta_wf. exact HF.
      - apply explicit_position.
      - apply momenta_complete. exact HF.
      - rewrite momenta_fund. exact Ht. }
    assert (Hex : explicit_orthonormal (momenta F)) by (unfold momenta; clear; induction F as [|n s IH]; cbn; [exact Logic.I|split; [exact Logic.I|exact IH]]).
    destruct (single_band_samples (map BFundT F) d p) as [w [z [Ew [Hz HO]]]]; auto.
    { apply (momenta_wf F). exact HF. }
    { apply map_bfund_FundT. }
    { cbn [p vdata ashape nprod]. change (BTuple (map BFundT F)) with (momenta F). rewrite momenta_size. lia. }
    exists T, w, z. split; [exact ET|]. split; [exact Ew|]. split; [exact Hz|]. intros s Hs.
    assert (EO : wave_overlap ls saxes d s (amplitude (BTuple (map BFundT F)) (aflat (vdata p))) = wave_overlap ls saxes d s f).
    { unfold wave_overlap. apply csum_ext. intros t Ht. f_equal. exact (EA t Ht). }
    rewrite <- EO. apply HO. exact Hs.
  Qed.

  Lemma tight_projection d : length saxes = 1%nat \/ length saxes = 2%nat -> map bsize saxes = ss -> nprod (ashape d) = (nprod ls * N)%nat ->
    exists w z o f, localize_tight_binding_projection same svd (map BFundT ls) saxes d = Some w /\ phases_of (nprod ls) N d w z /\
      centre_of ls saxes d 0 None o /\ cut_wave ls saxes d 0 o f /\
      (forall s, (s < nprod ls)%nat -> Cconj (z s) * wave_overlap ls saxes d s f = RtoC (Cmod (wave_overlap ls saxes d s f))) /\
      ((exists x, in_shape x F /\ f (ravel F x) <> 0) -> z 0%nat = 1).
  Proof using Hsame Hls Hw He Hl Hsvd.
    intros Hnd Hfull Hd. pose proof (nprod_pos ls Hls) as Pl.
    destruct (tight_spec same Hsame ls saxes Hls Hw He Hl Hnd Hfull d 0 None Hd ltac:(lia) Logic.I) as [o [out [E [Ho [Lo [Sh Hc]]]]]].
    destruct (momentum_projection d (aflat out) Hd) as [T [w [z [ET [Ew [Hz HO]]]]]].
    exists w, z, o, (aflat out). split.
    { unfold localize_tight_binding_projection. rewrite E, ET, map_bfund_Fund. exact Ew. }
    split; [exact Hz|]. split; [exact Ho|]. split; [exact Hc|]. split; [exact HO|].
    intros [x [Hx Hn]].
    assert (EX : wave_overlap ls saxes d 0 (aflat out) = RtoC (rsum (fun t => Cnorm2 (aflat out t)) (nprod F))).
    { unfold wave_overlap. rewrite <- csum_RtoC. apply csum_ext. intros t Ht. rewrite <- Cconj_mult_self.
      assert (Hxt : in_shape (unravel F t) F) by (apply unravel_in_shape; exact Ht).
      destruct (Hc _ Hxt) as [C1 C2]. rewrite ravel_unravel in C1, C2 by exact Ht. rewrite Z2Nat.inj_0 in C1.
      assert (D : in_cell_around ss F o (unravel F t) /\ first_below ss (nprod ls) (unravel F t) \/
        ~ (in_cell_around ss F o (unravel F t) /\ first_below ss (nprod ls) (unravel F t))).
      { assert (R := around_iff ss F o (unravel F t) (cells_length ls ss Hl2) Lo ltac:(rewrite (in_shape_length _ _ Hxt); exact (cells_length ls ss Hl2)) HF).
        assert (B : first_below ss (nprod ls) (unravel F t) \/ ~ first_below ss (nprod ls) (unravel F t)) by apply first_below_dec.
        destruct B as [B|B]; [|right; intros [_ B']; exact (B B')].
        destruct (around ss F o (unravel F t)); [left; split; [apply R; reflexivity|exact B]|right; intros [K _]; apply R in K; discriminate]. }
      destruct D as [D|D]; [rewrite <- (C1 D); reflexivity|rewrite (C2 D); ring]. }
    assert (Pos : (0 < rsum (fun t => Cnorm2 (aflat out t)) (nprod F))%R).
    { apply Rnot_le_lt. intros Q. apply Hn.
      assert (G : Cnorm2 (aflat out (ravel F x)) = 0%R).
      { apply (StateListProofs3.rsum_zero (fun t => Cnorm2 (aflat out t)) (nprod F)); [intros; apply Cnorm2_nonneg| |apply ravel_lt; exact Hx].
        apply Rle_antisym; [exact Q|]. apply rsum_nonneg. intros. apply Cnorm2_nonneg. }
      apply Cnorm2_eq_0. exact G. }
    assert (H0 := HO 0%nat Pl). rewrite EX, Cmod_R, Rabs_pos_eq in H0 by lra.
    assert (Cz : Cconj (z 0%nat) = 1).
    { set (X := rsum (fun t => Cnorm2 (aflat out t)) (nprod F)) in *. assert (NX : RtoC X <> 0) by (intros K; apply RtoC_inj in K; lra).
      transitivity (Cconj (z 0%nat) * RtoC X * / RtoC X); [field; exact NX|]. rewrite H0. field. exact NX. }
    rewrite <- (Cconj_conj (z 0%nat)), Cz. apply injective_projections; cbn; ring.
  Qed.

  (** The sum over the samples at the point: no other phases give a larger value. *)
  Lemma point_largest d w x0 (z : nat -> C) : (forall s, (s < nprod ls)%nat -> Cmod (z s) = 1%R) ->
    (forall s, (s < nprod ls)%nat -> bloch_wave ls saxes w s x0 = RtoC (Cmod (bloch_wave ls saxes d s x0))) ->
    (Cmod (csum (fun s => (z s * bloch_wave ls saxes d s x0)%C) (nprod ls)) <= Cmod (csum (fun s => bloch_wave ls saxes w s x0) (nprod ls)))%R.
  Proof using.
    intros Hz H. rewrite (csum_ext (fun s => bloch_wave ls saxes w s x0) (fun s => RtoC (Cmod (bloch_wave ls saxes d s x0))) (nprod ls)) by exact H.
    rewrite csum_RtoC, Cmod_R, Rabs_pos_eq by (apply rsum_nonneg; intros; apply Cmod_ge_0).
    eapply Rle_trans; [apply Cmod_csum|]. apply rsum_le. intros s Hs. rewrite Cmod_mult, Hz by exact Hs. lra.
  Qed.
End States.
