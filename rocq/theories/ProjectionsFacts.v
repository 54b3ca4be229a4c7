(** Gaussian projections and examples for localisation by projections. *)
From Coq Require Import Reals Lra.
From Verif Require Import ZLib Csum DFT NumPy Spec Index IndexProofs Basis SpecBasis Operator SpecOperator
  Reduce StateList SpecStateList Wavepacket SpecWavepacket WavepacketProofs2 SpecMatrix Localize SpecLocalize LocalizeProofs4 SpecBloch SpecTightCell TightCell TightCellProofs TightCellProofs3 TightCellFacts
  Projections SpecProjections ProjectionsProofs ProjectionsProofs2 ProjectionsProofs3.
Local Open Scope R_scope.
Local Open Scope C_scope.

Lemma gaussian_projection same (Hsame : identity_test same) ls saxes svd d :
  Forall (fun n => (0 < n)%nat) ls -> bwf (BTuple saxes) -> explicit_orthonormal (BTuple saxes) -> length ls = length saxes -> svd_ok svd ->
  length saxes = 2%nat -> (0 < bsize (BTuple saxes))%nat -> nprod (ashape d) = (nprod ls * bsize (BTuple saxes))%nat ->
  let F := supercell ls (map bfund saxes) in
  exists w z c f, localize_gaussian_projection same svd (map BFundT ls) saxes d = Some w /\ phases_of (nprod ls) (bsize (BTuple saxes)) d w z /\
    (0 < c)%R /\ gaussian_around F [nprod ls; bsize (BTuple saxes)] [0%Z; 0%Z] c f /\
    forall s, (s < nprod ls)%nat -> Cconj (z s) * wave_overlap ls saxes d s f = RtoC (Cmod (wave_overlap ls saxes d s f)).
Proof.
  intros Hls Hw He Hl Hsvd L2 Hn Hd F. assert (Hl2 : length ls = length (map bfund saxes)) by (rewrite map_length; exact Hl).
  assert (HF : Forall (fun n => (0 < n)%nat) F) by (exact (cells_pos ls _ Hls (fund_shape_pos saxes Hw) Hl2)).
  assert (Eb : map bfund (map BFundT ls) = ls) by apply map_bfund_FundT.
  assert (En : bsize (BTuple (map BFundT ls)) = nprod ls) by (cbn [bsize]; rewrite map_bsize_FundT; reflexivity).
  assert (G := gaussian_spec (map BFundT ls) saxes ltac:(rewrite map_length; congruence) L2). rewrite Eb, En in G. fold F in G.
  pose proof (nprod_pos F HF) as PF.
  assert (Z0 : exists o, o = [0%Z; 0%Z] /\ point_at F (Flat 0) o).
  { exists [0%Z; 0%Z]. split; [reflexivity|].
    assert (LF : length F = 2%nat) by (unfold F; rewrite (cells_length ls _ Hl2), map_length; exact L2).
    cbn [point_at]. exists [0%nat; 0%nat]. destruct F as [|f0 [|f1 [|]]]; try discriminate. inversion HF as [|? ? P0 HF1]; subst. inversion HF1; subst.
    split; [constructor; [assumption|constructor; [assumption|constructor]]|]. split; reflexivity. }
  destruct Z0 as [o [-> Hp]].
  destruct (G HF (nprod_pos ls Hls) Hn (Flat 0) [0%Z; 0%Z] Hp) as [st [p [c [E [_ [Sb [_ [Wp [Hc [Hg _]]]]]]]]]].
  assert (Ep : p = [0%Z; 0%Z]).
  { destruct p as [|p0 p]; [contradiction|]. cbn [wrapped_by] in Wp. destruct Wp as [[q0 C0] [W0 Wp]]. destruct p as [|p1 p]; [contradiction|].
    destruct Wp as [[q1 C1] [W1 Wp]]. destruct p; [|contradiction]. pose proof (nprod_pos ls Hls).
    pose proof (Z.div_mod (Z.of_nat (nprod ls)) 2 ltac:(lia)). pose proof (Z.mod_pos_bound (Z.of_nat (nprod ls)) 2 ltac:(lia)).
    pose proof (Z.div_mod (Z.of_nat (bsize (BTuple saxes))) 2 ltac:(lia)). pose proof (Z.mod_pos_bound (Z.of_nat (bsize (BTuple saxes))) 2 ltac:(lia)).
    assert (Q0 : q0 = 0%Z) by nia. assert (Q1 : q1 = 0%Z) by nia. rewrite Q0 in C0. rewrite Q1 in C1.
    replace p0 with 0%Z by lia. replace p1 with 0%Z by lia. reflexivity. }
  subst p.
  destruct (momentum_projection same Hsame ls saxes Hls Hw He Hl svd Hsvd d (aflat (sdata st)) Hd) as [T [w [z [ET [Ew [Hz HO]]]]]].
  exists w, z, c, (aflat (sdata st)). split; [|split; [exact Hz|split; [exact Hc|split; [exact Hg|exact HO]]]].
  unfold localize_gaussian_projection. rewrite E, Sb, Eb, map2_supercell. fold F in ET, Ew |- *. rewrite ET. exact Ew.
Qed.

Lemma gaussian_few same svd laxes saxes d : length saxes <> 2%nat -> localize_gaussian_projection same svd laxes saxes d = None.
Proof. intros H. unfold localize_gaussian_projection. rewrite gaussian_raises by exact H. reflexivity. Qed.
Lemma tight_projection_raises same svd laxes saxes d : (2 < length saxes)%nat -> localize_tight_binding_projection same svd laxes saxes d = None.
Proof. intros H. unfold localize_tight_binding_projection. rewrite tight_raises by exact H. reflexivity. Qed.

(** Two by one samples of a cell of two by two points, asked for around point (1, 0). *)
Lemma gaussian_misplaced : let laxes := [BFundT 2; BFundT 1] in let saxes := [BFund 2; BFund 2] in
  exists st, get_gaussian_states laxes saxes (Stacked [1%Z; 0%Z]) = Some st /\
    (Cmod (aflat (sdata st) (ravel [4%nat; 2%nat] [1%nat; 0%nat])) < Cmod (aflat (sdata st) (ravel [4%nat; 2%nat] [3%nat; 0%nat])))%R.
Proof.
  intros laxes saxes.
  destruct (gaussian_spec laxes saxes eq_refl eq_refl ltac:(repeat constructor) ltac:(cbn; lia) ltac:(cbn; lia) (Stacked [1%Z; 0%Z]) [1%Z; 0%Z] (conj eq_refl eq_refl))
    as [st [p [c [E [_ [_ [_ [Wp [Hc [Hg _]]]]]]]]]].
  exists st. split; [exact E|].
  change (supercell (map bfund laxes) (map bfund saxes)) with [4%nat; 2%nat] in Hg.
  change [bsize (BTuple laxes); bsize (BTuple saxes)] with [2%nat; 4%nat] in *.
  assert (Ep : p = [(-1)%Z; 0%Z]).
  { destruct p as [|p0 p]; [contradiction|]. cbn [wrapped_by] in Wp. destruct Wp as [[q0 C0] [W0 Wp]]. destruct p as [|p1 p]; [contradiction|].
    destruct Wp as [[q1 C1] [W1 Wp]]. destruct p; [|contradiction]. change (Z.of_nat 2 / 2)%Z with 1%Z in W0. change (Z.of_nat 4 / 2)%Z with 2%Z in W1.
    replace p0 with (-1)%Z by lia. replace p1 with 0%Z by lia. reflexivity. }
  subst p.
  assert (S1 : in_shape [1%nat; 0%nat] [4%nat; 2%nat]) by (constructor; [lia|constructor; [lia|constructor]]).
  assert (S3 : in_shape [3%nat; 0%nat] [4%nat; 2%nat]) by (constructor; [lia|constructor; [lia|constructor]]).
  destruct (Hg _ S1) as [y [Iy [Sy Ey]]]. destruct (Hg _ S3) as [y' [Iy' [Sy' Ey']]]. rewrite Ey, Ey'.
  assert (Y : y = [(-3)%Z; 0%Z]).
  { destruct y as [|a [|b [|]]]; cbn [in_window] in Iy; try tauto. cbn [stands_for] in Sy. destruct Sy as [[q C] [[q' C'] _]].
    change (Z.of_nat 4 / 2)%Z with 2%Z in Iy. change (Z.of_nat 2 / 2)%Z with 1%Z in Iy. replace a with (-3)%Z by lia. replace b with 0%Z by lia. reflexivity. }
  assert (Y' : y' = [(-1)%Z; 0%Z]).
  { destruct y' as [|a [|b [|]]]; cbn [in_window] in Iy'; try tauto. cbn [stands_for] in Sy'. destruct Sy' as [[q C] [[q' C'] _]].
    change (Z.of_nat 4 / 2)%Z with 2%Z in Iy'. change (Z.of_nat 2 / 2)%Z with 1%Z in Iy'. replace a with (-1)%Z by lia. replace b with 0%Z by lia. reflexivity. }
  subst y y'. rewrite !Cmod_R, !Rabs_pos_eq by (apply Rmult_le_pos; [lra|apply Rlt_le, exp_pos]).
  apply Rmult_lt_compat_l; [exact Hc|]. apply exp_increasing. cbn [spread].
  replace (IZR (-3 - -1)) with (-2)%R by reflexivity. replace (IZR (-1 - -1)) with 0%R by reflexivity. replace (IZR (0 - 0)) with 0%R by reflexivity.
  cbn [INR]. lra.
Qed.

(** Examples of the hypotheses. *)
Definition ex_plane_point : vector := {| vbasis := BTuple [BFundT 12]; vdata := {| ashape := [12%nat]; aflat := fun t => cdelta t 1 |} |}.
Lemma ex_projection_hyps : bwf (BTuple ex_three) /\ explicit_orthonormal (BTuple ex_three) /\ map bsize ex_three = map bfund ex_three /\
  bwf (BTuple [BFundT 12]) /\ explicit_orthonormal (BTuple [BFundT 12]) /\ map bfund [BFundT 12] = supercell [4%nat] (map bfund ex_three) /\
  vbasis ex_plane_point = BTuple [BFundT 12] /\ nprod (ashape (vdata ex_plane_point)) = bsize (BTuple [BFundT 12]) /\
  nprod (ashape (ex_last 4)) = (nprod [4%nat] * bsize (BTuple ex_three))%nat /\
  Forall2 le [2%nat; 3%nat] (supercell (map bfund [BFundT 2; BFundT 2]) (map bfund [BFund 2; BFund 3])) /\
  ~ Forall2 le [2%nat; 7%nat] (supercell (map bfund [BFundT 2; BFundT 2]) (map bfund [BFund 2; BFund 3])).
Proof.
  destruct ex_three_fact as [A [B [D _]]]. split; [exact A|]. split; [exact B|]. split; [exact D|]. split; [cbn; lia|]. split; [cbn; tauto|].
  do 4 (split; [reflexivity|]). split; [cbn; repeat constructor|].
  intros H. inversion H as [|? ? ? ? _ H1]; subst. inversion H1; subst. cbn in *. lia.
Qed.

(** The overlaps after multiplication with the phases. *)
Lemma overlap_of_phases ls saxes d w z s f : phases_of (nprod ls) (bsize (BTuple saxes)) d w z -> (s < nprod ls)%nat ->
  Cconj (z s) * wave_overlap ls saxes d s f = RtoC (Cmod (wave_overlap ls saxes d s f)) ->
  wave_overlap ls saxes w s f = RtoC (Cmod (wave_overlap ls saxes d s f)).
Proof.
  intros Hz Hs <-. assert (WS := fun Hs' => overlap_scale (map BFundT ls) saxes d w s (z s) f Hs' (proj2 (proj2 Hz s Hs))).
  rewrite sizes_FundT in WS. exact (WS Hs).
Qed.

Section Final.
  Context (same : basis -> basis -> bool) (Hsame : identity_test same) (svd : svd_fn) (Hsvd : svd_ok svd) (ls : list nat) (saxes : list basis) (d : ndarray).
  Context (Hls : Forall (fun n => (0 < n)%nat) ls) (Hw : bwf (BTuple saxes)) (He : explicit_orthonormal (BTuple saxes)) (Hl : length ls = length saxes).
  Notation N := (bsize (BTuple saxes)).
  Notation F := (supercell ls (map bfund saxes)).
  Context (Hd : nprod (ashape d) = (nprod ls * N)%nat).

  Lemma final_single paxes p : bwf (BTuple paxes) -> explicit_orthonormal (BTuple paxes) -> map bfund paxes = F ->
    vbasis p = BTuple paxes -> nprod (ashape (vdata p)) = bsize (BTuple paxes) ->
    let f := amplitude (BTuple paxes) (aflat (vdata p)) in
    exists w z, localize_single_band_projection same svd (map BFundT ls) saxes d p = Some w /\ phases_of (nprod ls) N d w z /\
      forall s, (s < nprod ls)%nat -> wave_overlap ls saxes w s f = RtoC (Cmod (wave_overlap ls saxes d s f)).
  Proof using Hsame Hsvd Hls Hw He Hl Hd.
    intros A B D E G f. destruct (single_band_samples same Hsame ls saxes Hls Hw He Hl svd Hsvd paxes d p A B D E G Hd) as [w [z [Ew [Hz HO]]]].
    exists w, z. split; [exact Ew|]. split; [exact Hz|]. intros s Hs. apply (overlap_of_phases ls saxes d w z s f Hz Hs). exact (HO s Hs).
  Qed.
  Lemma final_tight : length saxes = 1%nat \/ length saxes = 2%nat -> map bsize saxes = map bfund saxes ->
    exists w z o f, localize_tight_binding_projection same svd (map BFundT ls) saxes d = Some w /\ phases_of (nprod ls) N d w z /\
      centre_of ls saxes d 0 None o /\ cut_wave ls saxes d 0 o f /\
      (forall s, (s < nprod ls)%nat -> wave_overlap ls saxes w s f = RtoC (Cmod (wave_overlap ls saxes d s f))) /\
      ((exists x, in_shape x F /\ f (ravel F x) <> 0) -> z 0%nat = 1).
  Proof using Hsame Hsvd Hls Hw He Hl Hd.
    intros A B. destruct (tight_projection same Hsame ls saxes Hls Hw He Hl svd Hsvd d A B Hd) as [w [z [o [f [Ew [Hz [Ho [Hc [HO H0]]]]]]]]].
    exists w, z, o, f. repeat (split; [assumption|]). split; [|exact H0]. intros s Hs. exact (overlap_of_phases ls saxes d w z s f Hz Hs (HO s Hs)).
  Qed.
  Lemma final_gaussian : length saxes = 2%nat -> (0 < N)%nat ->
    exists w z c f, localize_gaussian_projection same svd (map BFundT ls) saxes d = Some w /\ phases_of (nprod ls) N d w z /\
      (0 < c)%R /\ gaussian_around F [nprod ls; N] [0%Z; 0%Z] c f /\
      forall s, (s < nprod ls)%nat -> wave_overlap ls saxes w s f = RtoC (Cmod (wave_overlap ls saxes d s f)).
  Proof using Hsame Hsvd Hls Hw He Hl Hd.
    intros A B. destruct (gaussian_projection same Hsame ls saxes svd d Hls Hw He Hl Hsvd A B Hd) as [w [z [c [f [Ew [Hz [Hc [Hg HO]]]]]]]].
    exists w, z, c, f. repeat (split; [assumption|]). intros s Hs. exact (overlap_of_phases ls saxes d w z s f Hz Hs (HO s Hs)).
  Qed.
  Lemma final_point idx : (0 <= idx < Z.of_nat (nprod ls))%Z ->
    exists w z t0, localize_single_point_projection same svd (map BFundT ls) saxes d idx = Some w /\ phases_of (nprod ls) N d w z /\
      largest_at (nprod F) (fun t => bloch_wave ls saxes d (Z.to_nat idx) (unravel F t)) t0 /\
      (forall s, (s < nprod ls)%nat -> bloch_wave ls saxes w s (unravel F t0) = RtoC (Cmod (bloch_wave ls saxes d s (unravel F t0)))) /\
      forall z' : nat -> C, (forall s, (s < nprod ls)%nat -> Cmod (z' s) = 1%R) ->
        (Cmod (csum (fun s => (z' s * bloch_wave ls saxes d s (unravel F t0))%C) (nprod ls)) <=
         Cmod (csum (fun s => bloch_wave ls saxes w s (unravel F t0)) (nprod ls)))%R.
  Proof using Hsame Hsvd Hls Hw He Hl Hd.
    intros Hi. destruct (single_point same Hsame ls saxes Hls Hw He Hl svd Hsvd d idx Hd Hi) as [w [z [t0 [Ew [Hz [HL HB]]]]]].
    exists w, z, t0. repeat (split; [assumption|]). intros z' Hz'. exact (point_largest ls saxes d w (unravel F t0) z' Hz' HB).
  Qed.
End Final.
