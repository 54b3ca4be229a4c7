(** Proofs about the occupations of eigenstates by states, and of bands. *)
From Coq Require Import Reals Lra Lia Psatz.
From Verif Require Import ZLib Csum DFT NumPy Index Basis SpecBasis Operator SpecMatrix SpecKernel Spectral Spectral3 LinAlg Dynamics DynamicsProofs7 DynamicsProofs8 LatticeProofs TrajectoryProofs Plots SpecPlots PlotsProofs2 ValuePlots ValuePlotsProofs EffectiveMass Occupation SpecOccupation OccupationProofs.
Local Open Scope R_scope.

Lemma listed {A} (g : nat -> A) n i d : (i < n)%nat -> nth i (map g (seq 0 n)) d = g i.
Proof. intros Hi. assert (N := nth_points g n i d [] Hi). rewrite app_nil_r in N. exact N. Qed.
Lemma listed_error {A} (g : nat -> A) n i : (i < n)%nat -> nth_error (map g (seq 0 n)) i = Some (g i).
Proof.
  intros Hi. rewrite nth_error_map, (nth_error_nth' (seq 0 n) 0%nat) by (rewrite seq_length; exact Hi). cbn [option_map]. rewrite seq_nth by exact Hi. reflexivity.
Qed.

Section States.
Variables (n ns : nat) (A : nat -> nat -> C) (E : nat -> R) (V : nat -> nat -> C) (state : nat -> nat -> C) (ground : R).
Hypothesis HV : unitary n V.
Hypothesis HA : forall i j, (i < n)%nat -> (j < n)%nat -> A i j = csum (fun k => V i k * RtoC (E k) * Cconj (V j k))%C n.
Hypothesis Hn : (0 < n)%nat.
Hypothesis Hg : lowest n E ground.

Lemma ground_min : np_min E n = ground.
Proof using Hn Hg.
  destruct (np_min_spec E n Hn) as (M & (i & Hi & Ei)). destruct Hg as (G & (j & Hj & Ej)). apply Rle_antisym.
  - rewrite <- Ej. apply M. exact Hj.
  - rewrite <- Ei. apply G. exact Hi.
Qed.

Lemma all_occupations : (0 < ns)%nat ->
  exists lines, plot_all_eigenstate_occupations n ns E V state = Some lines /\ length lines = ns /\
    forall i, (i < ns)%nat -> exists line, nth_error lines i = Some line /\ length line = n /\
      (forall j, (j < n)%nat -> line_x line j = E j - ground /\ line_y line j = Cmod (csum (fun k => Cconj (V k j) * state i k)%C n) ^ 2) /\
      rsum (line_y line) n = rsum (fun k => Cnorm2 (state i k)) n /\
      rsum (fun j => line_x line j * line_y line j) n =
        fst (csum (fun k => Cconj (state i k) * csum (fun l => A k l * state i l) n)%C n) - ground * rsum (fun k => Cnorm2 (state i k)) n.
Proof using HV HA Hn Hg.
  intros Hns. unfold plot_all_eigenstate_occupations. destruct (Nat.eqb_spec n 0); [lia|]. destruct (Nat.eqb_spec ns 0); [lia|]. eexists. split; [reflexivity|]. split; [rewrite map_length, seq_length; reflexivity|].
  intros i Hi. eexists. split; [apply listed_error; exact Hi|]. cbv beta. split; [rewrite map_length, seq_length; reflexivity|].
  set (line := map _ _). assert (P : forall j, (j < n)%nat -> line_x line j = E j - ground /\ line_y line j = Cnorm2 (csum (fun k => Cconj (V k j) * state i k)%C n)).
  { intros j Hj. unfold line_x, line_y, line. rewrite listed by exact Hj. cbn [fst snd]. rewrite ground_min, occupation_modulus. split; reflexivity. }
  split; [|split].
  - intros j Hj. destruct (P j Hj) as (-> & ->). rewrite Cnorm2_Cmod. split; [reflexivity|ring].
  - rewrite (rsum_ext _ (fun j => Cnorm2 (csum (fun k => Cconj (V k j) * state i k)%C n))) by (intros j Hj; apply P; exact Hj).
    symmetry. apply (diag_nrm n V (state i) HV).
  - rewrite (rsum_ext _ (fun j => E j * Cnorm2 (csum (fun k => Cconj (V k j) * state i k)%C n) + - ground * Cnorm2 (csum (fun k => Cconj (V k j) * state i k)%C n))).
    + rewrite rsum_plus, rsum_scal_l, <- (diag_nrm n V (state i) HV), <- (diag_form n A V E (state i) HV HA). unfold form, nrm, inner_product, mv. ring.
    + intros j Hj. destruct (P j Hj) as (-> & ->). ring.
Qed.

Lemma average_occupations : (0 < ns)%nat ->
  exists line, plot_average_eigenstate_occupation n ns E V state = Some line /\ length line = n /\
    (forall j, (j < n)%nat -> line_x line j = E j - ground /\
       line_y line j = rsum (fun i => Cmod (csum (fun k => Cconj (V k j) * state i k)%C n) ^ 2) ns / INR ns) /\
    rsum (line_y line) n = rsum (fun i => rsum (fun k => Cnorm2 (state i k)) n) ns / INR ns.
Proof using HV Hn Hg.
  clear A HA. intros Hns. unfold plot_average_eigenstate_occupation. destruct (Nat.eqb_spec n 0); [lia|]. destruct (Nat.eqb_spec ns 0); [lia|].
  eexists. split; [reflexivity|]. split; [rewrite map_length, seq_length; reflexivity|].
  set (line := map _ _). assert (P : forall j, (j < n)%nat -> line_x line j = E j - ground /\ line_y line j = rsum (fun i => Cnorm2 (csum (fun k => Cconj (V k j) * state i k)%C n)) ns * / INR ns).
  { intros j Hj. unfold line_x, line_y, line. rewrite listed by exact Hj. cbn [fst snd]. rewrite ground_min. split; [reflexivity|]. unfold mean, Rdiv. f_equal. apply rsum_ext. intros i Hi. apply occupation_modulus. }
  split.
  - intros j Hj. destruct (P j Hj) as (-> & ->). split; [reflexivity|]. unfold Rdiv. f_equal. apply rsum_ext. intros i Hi. rewrite Cnorm2_Cmod. ring.
  - rewrite (rsum_ext _ (fun j => rsum (fun i => Cnorm2 (csum (fun k => Cconj (V k j) * state i k)%C n)) ns * / INR ns)) by (intros j Hj; apply P; exact Hj).
    rewrite rsum_scal_r. unfold Rdiv. f_equal. rewrite rsum_swap. apply rsum_ext. intros i Hi. symmetry. apply (diag_nrm n V (state i) HV).
Qed.
End States.

(** ** Occupations of bands *)
Section Bands.
Variables (nb ns : nat) (kT : R) (energy : nat -> R).
Hypothesis Hnb : (0 < nb)%nat.
Hypothesis Hns : (0 < ns)%nat.
Hypothesis HkT : kT <> 0.
Notation w := (fun b s => exp (- energy (b * ns + s)%nat / kT)).
Notation Zsum := (rsum (fun b => rsum (w b) ns) nb).
Lemma partition_pos : 0 < Zsum.
Proof using Hnb Hns. apply rsum_pos; [exact Hnb|]. intros b. apply rsum_pos; [exact Hns|]. intros. apply exp_pos. Qed.

Lemma band_occupation :
  exists f p, get_wavepacket_band_occupation nb ns kT energy = Some f /\
    (forall b, (b < nb)%nat -> f b = Some (p b)) /\ (forall b, (b < nb)%nat -> 0 < p b) /\ rsum p nb = 1 /\
    (forall b b', (b < nb)%nat -> (b' < nb)%nat -> p b * rsum (w b') ns = p b' * rsum (w b) ns).
Proof using Hnb Hns HkT.
  unfold get_wavepacket_band_occupation. destruct (Req_EM_T kT 0); [contradiction|]. assert (Z := partition_pos).
  eexists. exists (fun b => rsum (w b) ns / Zsum). split; [reflexivity|]. split; [|split; [|split]].
  - intros b Hb. apply rdiv_some. apply Rgt_not_eq. exact Z.
  - intros b Hb. apply Rdiv_lt_0_compat; [|exact Z]. apply rsum_pos; [exact Hns|]. intros. apply exp_pos.
  - transitivity (rsum (fun b => rsum (w b) ns * / Zsum) nb); [reflexivity|]. rewrite (rsum_scal_r (/ Zsum) (fun b => rsum (w b) ns) nb). apply Rinv_r. apply Rgt_not_eq. exact Z.
  - intros b b' Hb Hb'. field. apply Rgt_not_eq. exact Z.
Qed.
End Bands.

Lemma band_occupation_monotone nb ns kT energy f p b b' : (0 < ns)%nat -> 0 < kT ->
  get_wavepacket_band_occupation nb ns kT energy = Some f -> (b < nb)%nat -> (b' < nb)%nat -> f b = Some p ->
  (forall s, (s < ns)%nat -> energy (b * ns + s)%nat <= energy (b' * ns + s)%nat) -> exists p', f b' = Some p' /\ p' <= p.
Proof.
  intros Hns HkT Hf Hb Hb' Hp Hs. assert (Z := partition_pos nb ns kT energy ltac:(lia) Hns). unfold get_wavepacket_band_occupation in Hf.
  destruct (Req_EM_T kT 0); [lra|]. injection Hf as <-. cbv beta in Hp |- *. rewrite rdiv_some in Hp by (apply Rgt_not_eq; exact Z). injection Hp as <-.
  eexists. split; [apply rdiv_some; apply Rgt_not_eq; exact Z|]. apply Rmult_le_compat_r; [left; apply Rinv_0_lt_compat; exact Z|].
  apply rsum_le. intros s Hs'. specialize (Hs s Hs'). set (x := energy (b * ns + s)%nat) in *. set (y := energy (b' * ns + s)%nat) in *.
  assert (L : - y / kT <= - x / kT) by (unfold Rdiv; apply Rmult_le_compat_r; [left; apply Rinv_0_lt_compat; exact HkT|lra]).
  destruct L as [L | ->]; [left; apply exp_increasing; exact L|right; reflexivity].
Qed.

Lemma band_occupation_shift nb ns kT energy c : (0 < nb)%nat -> (0 < ns)%nat -> kT <> 0 ->
  exists f g, get_wavepacket_band_occupation nb ns kT energy = Some f /\ get_wavepacket_band_occupation nb ns kT (fun t => energy t + c) = Some g /\
    forall b, (b < nb)%nat -> f b = g b.
Proof.
  intros Hnb Hns HkT. assert (Z := partition_pos nb ns kT energy Hnb Hns). assert (Z' := partition_pos nb ns kT (fun t => energy t + c) Hnb Hns).
  unfold get_wavepacket_band_occupation. destruct (Req_EM_T kT 0); [contradiction|]. do 2 eexists. split; [reflexivity|]. split; [reflexivity|].
  intros b Hb. cbv beta. rewrite !rdiv_some by (apply Rgt_not_eq; assumption). f_equal.
  assert (F : forall b, rsum (fun s => exp (- (energy (b * ns + s)%nat + c) / kT)) ns = exp (- c / kT) * rsum (fun s => exp (- energy (b * ns + s)%nat / kT)) ns).
  { intros b0. rewrite <- rsum_scal_l. apply rsum_ext. intros s _. rewrite <- exp_plus. f_equal. field. exact HkT. }
  assert (G : rsum (fun b => rsum (fun s => exp (- (energy (b * ns + s)%nat + c) / kT)) ns) nb = exp (- c / kT) * rsum (fun b => rsum (fun s => exp (- energy (b * ns + s)%nat / kT)) ns) nb).
  { rewrite <- rsum_scal_l. apply rsum_ext. intros b0 _. apply F. }
  rewrite G, F. assert (X := exp_pos (- c / kT)). field. split; apply Rgt_not_eq; [exact Z|exact X].
Qed.

Lemma nothing_drawn n ns E V state :
  (plot_all_eigenstate_occupations n ns E V state = None <-> n = 0%nat \/ ns = 0%nat) /\
  (plot_average_eigenstate_occupation n ns E V state = None <-> n = 0%nat \/ ns = 0%nat).
Proof.
  unfold plot_all_eigenstate_occupations, plot_average_eigenstate_occupation.
  destruct (Nat.eqb_spec n 0); destruct (Nat.eqb_spec ns 0); split; split; intros X; try discriminate X; try lia; reflexivity.
Qed.
