(** Properties of the states used as a first guess for localised states (C88). *)
From Coq Require Import Reals.
From Verif Require Import ZLib Csum DFT NumPy Spec Basis SpecBasis Operator Reduce Wavepacket SpecWavepacket Localize
  StateList SpecStateList SeedStates SpecSeed SeedProofs SeedProofs2 SeedProofs3 SeedProofs4 SeedFacts.
Local Open Scope R_scope.
Local Open Scope C_scope.

(** ** C88 *)

(** One point: a unit vector, counted from the end when the index is negative. *)
Theorem C88_single_point :
  forall b idx,
  (forall i, (i < bsize b)%nat -> idx = Z.of_nat i \/ idx = (Z.of_nat i - Z.of_nat (bsize b))%Z ->
     exists v, single_point_exact b idx = Some v /\ is_vector v b (cdelta i)) /\
  ((idx < - Z.of_nat (bsize b) \/ Z.of_nat (bsize b) <= idx)%Z -> single_point_exact b idx = None).
Proof. exact single_exact_spec. Qed.
Print Assumptions C88_single_point.

Example ex_C88_single : (length sd_laxes <= length sd_saxes)%nat /\
  (bsize (BTuple sd_saxes) <= nprod (map2 Nat.mul (map bfund sd_laxes) (map bfund sd_saxes)))%nat /\ bsize (BTuple sd_saxes) = 9%nat.
Proof. exact sd_single. Qed.

(** Single points, one per band: the states raise exactly when the square of the number of
    bands is below the number of basis states, and are orthonormal exactly when it is not
    too far above. *)
Theorem C88_single_points :
  forall laxes saxes nb, let shape := map2 Nat.mul (map bfund laxes) (map bfund saxes) in
  (length laxes <= length saxes)%nat -> (bsize (BTuple saxes) <= nprod shape)%nat ->
  (single_point_states laxes saxes nb = None <-> (nb = 0 \/ nb * nb < bsize (BTuple saxes))%nat) /\
  (forall s, single_point_states laxes saxes nb = Some s ->
     (slist s = BFund nb /\ sbasis s = BTuple (map BFund shape) /\ well_formed_list s /\
      forall i n, (i < nb)%nat -> (n < nprod shape)%nat ->
        state_of s i n = if ((n =? i * nb) && (n <? bsize (BTuple saxes)))%nat then 1 else 0) /\
     (orthonormal_list s <-> ((nb - 1) * nb < bsize (BTuple saxes))%nat)).
Proof.
  intros laxes saxes nb shape H1 H2. split; [exact (single_states_none laxes saxes nb H1 H2)|].
  intros s E. split; [exact (single_states_some laxes saxes nb H1 H2 s E)|exact (single_states_orthonormal laxes saxes nb H1 H2 s E)].
Qed.
Print Assumptions C88_single_points.

Theorem C88_single_points_raise_refuted : single_point_states sd_laxes sd_saxes 2 = None.
Proof. exact sd_two_bands. Qed.
Print Assumptions C88_single_points_raise_refuted.

Theorem C88_single_points_orthonormal_refuted :
  exists s, single_point_states sd_laxes sd_saxes 4 = Some s /\ ~ orthonormal_list s.
Proof. exact sd_four_bands. Qed.
Print Assumptions C88_single_points_orthonormal_refuted.

(** States evenly occupied up to a threshold frequency. *)
Example ex_C88_free : Forall (fun l => (0 < l)%nat) (map bfund sd_laxes) /\ Forall (fun l => (0 < l)%nat) [2; 3]%nat /\ Forall (fun l => (0 < l)%nat) [2; 1]%nat /\
  [2; 3]%nat <> [] /\ length sd_laxes = length [2; 3]%nat /\ length sd_saxes = length [2; 3]%nat /\ length [2; 1]%nat = length [2; 3]%nat /\
  Forall2 le [2; 3]%nat (map bfund sd_saxes) /\ map bfund sd_saxes = supercell [2; 3]%nat [2; 1]%nat /\
  in_shape [1; 2]%nat [2; 3]%nat /\ band_centre [2; 3]%nat [2; 1]%nat [1; 2]%nat = [-2; -1]%Z.
Proof. exact sd_free. Qed.

Theorem C88_free_states :
  forall laxes saxes shape, Forall (fun l => (0 < l)%nat) (map bfund laxes) -> Forall (fun l => (0 < l)%nat) shape ->
  shape <> [] -> length laxes = length shape -> length saxes = length shape -> Forall2 le shape (map bfund saxes) ->
  exists s, free_states laxes saxes shape = Some s /\
    slist s = BTuple (map BFund shape) /\
    sbasis s = BTuple (cut_momenta (supercell (map bfund laxes) shape) (supercell (map bfund laxes) (map bfund saxes))) /\
    well_formed_list s /\ orthonormal_list s.
Proof.
  intros laxes saxes shape H1 H2 H3 H4 H5 H6. destruct (free_spec laxes saxes shape H1 H2 H3 H4 H5 H6) as [s [E [A [B [D _]]]]].
  exists s. repeat (split; [assumption|]). exact (free_orthonormal laxes saxes shape H1 H2 H3 H4 H5 H6 s E).
Qed.
Print Assumptions C88_free_states.

(** More states along an axis than the cell has points raise. *)
Theorem C88_free_states_raise :
  forall laxes saxes shape a, Forall (fun l => (0 < l)%nat) (map bfund laxes) ->
  length laxes = length shape -> length saxes = length shape ->
  (a < length shape)%nat -> (nth a (map bfund saxes) 0 < nth a shape 0)%nat -> free_states laxes saxes shape = None.
Proof.
  intros laxes saxes shape a H1 H2 H3 H4 H5. unfold free_states.
  rewrite (free_axes_none (map bfund laxes) (map bfund saxes) shape a) by (rewrite ?map_length; assumption). destruct shape; reflexivity.
Qed.
Print Assumptions C88_free_states_raise.

(** When the number of states along every axis divides the number of points of the cell, the
    states are translations of one another by that fraction of the cell ... *)
Theorem C88_free_states_translated :
  forall laxes saxes shape q, Forall (fun l => (0 < l)%nat) (map bfund laxes) -> Forall (fun l => (0 < l)%nat) shape ->
  Forall (fun l => (0 < l)%nat) q -> shape <> [] -> length laxes = length shape -> length q = length shape ->
  map bfund saxes = supercell shape q ->
  let N := supercell (map bfund laxes) (map bfund saxes) in
  forall s f x, free_states laxes saxes shape = Some s -> in_shape f shape -> in_shape x N ->
    amplitude (sbasis s) (state_of s (ravel shape f)) (ravel N x) =
    amplitude (sbasis s) (state_of s 0) (ravel N (displaced N (band_centre shape q f) x)).
Proof. exact free_translated. Qed.
Print Assumptions C88_free_states_translated.

(** ... and no state of the same norm with the same momenta is larger at any point than each
    of them is at its centre. *)
Theorem C88_free_states_most_localized :
  forall laxes saxes shape q, Forall (fun l => (0 < l)%nat) (map bfund laxes) -> Forall (fun l => (0 < l)%nat) shape ->
  Forall (fun l => (0 < l)%nat) q -> shape <> [] -> length laxes = length shape -> length q = length shape ->
  map bfund saxes = supercell shape q ->
  let N := supercell (map bfund laxes) (map bfund saxes) in
  forall s f v x, free_states laxes saxes shape = Some s -> in_shape f shape -> in_shape x N ->
    rsum (fun t => Cnorm2 (v t)) (bsize (sbasis s)) = 1%R ->
    (Cnorm2 (amplitude (sbasis s) v (ravel N x)) <=
     Cnorm2 (amplitude (sbasis s) (state_of s (ravel shape f)) (ravel N (on_grid N (band_centre shape q f)))))%R.
Proof.
  intros laxes saxes shape q H1 H2 H3 H4 H5 H6 H7 N s f v x E Hf Hx Hv.
  unfold N. rewrite (free_peak laxes saxes shape q H1 H2 H3 H4 H5 H6 H7 s f E Hf).
  assert (B := free_bound laxes saxes shape q H1 H2 H3 H4 H5 H6 H7 s v x E Hx). rewrite Hv, Rmult_1_r in B. exact B.
Qed.
Print Assumptions C88_free_states_most_localized.

(** States built from the mean occupation of the momenta. *)
Example ex_C88_probability : forall same, identity_test same ->
  exists u, unfurl_wavepacket same [BFundT 1] [BFundT 2] {| ashape := [2%nat]; aflat := fun t => aflat sd_data (0 * 2 + t) |} = Some u /\
    (0 < rsum (fun k => rsum (fun _ => Cnorm2 (aflat u k)) 1 / INR 1)%R 2)%R /\
    nprod (ashape sd_data) = (1 * 2)%nat /\ length sd_fractions = 1%nat /\ Forall (fun f => length f = 1%nat) sd_fractions /\
    (nth 0 (nth 0 sd_fractions []) 0 * INR (bfund (nth 0 [BFundT 2] (BFund 0))))%R = IZR (nth 0 [1%Z] 0%Z).
Proof. exact sd_probability. Qed.

(** Every state has the mean occupation of the first wavepackets, whatever the fractions. *)
Theorem C88_from_probability :
  forall same total m0 nb laxes saxes data fractions us,
  let nw := Nat.min nb total in
  let N := supercell (map bfund laxes) (map bfund saxes) in
  let p := fun k => (rsum (fun w => Cnorm2 (aflat (us w) k)) nw / INR nw)%R in
  (0 < total)%nat -> (0 < nb)%nat -> nprod (ashape data) = (total * m0)%nat -> (0 < length laxes)%nat ->
  length saxes = length laxes -> length fractions = length laxes -> Forall (fun f => length f = nb) fractions ->
  (forall w, (w < nw)%nat ->
     unfurl_wavepacket same laxes saxes {| ashape := [m0]; aflat := fun t => aflat data (w * m0 + t) |} = Some (us w)) ->
  exists s, states_from_probability same total laxes saxes data fractions = Some s /\
    slist s = BFund nb /\ sbasis s = momenta N /\ well_formed_list s /\
    ((0 < rsum p (nprod N))%R -> forall b, (b < nb)%nat ->
      (forall k, (k < nprod N)%nat -> Cnorm2 (state_of s b k) = (p k / rsum p (nprod N))%R) /\
      rsum (fun k => Cnorm2 (state_of s b k)) (nprod N) = 1%R).
Proof.
  intros same total m0 nb laxes saxes data fractions us nw N p H1 H2 H3 H4 H5 H6 H7 H8.
  destruct (from_probability_spec same total m0 nb laxes saxes data fractions us H1 H2 H3 H4 H5 H6 H7 H8) as [s [E [A [B [D _]]]]].
  exists s. repeat (split; [assumption|]). exact (from_probability_occupation same total m0 nb laxes saxes data fractions us H1 H2 H3 H4 H5 H6 H7 H8 s E).
Qed.
Print Assumptions C88_from_probability.

(** For a fraction which is a point of the grid the state is the one with these occupations
    and positive coefficients moved to that point, and it is largest there. *)
Theorem C88_from_probability_centre :
  forall same total m0 nb laxes saxes data fractions us,
  let nw := Nat.min nb total in
  let N := supercell (map bfund laxes) (map bfund saxes) in
  let p := fun k => (rsum (fun w => Cnorm2 (aflat (us w) k)) nw / INR nw)%R in
  (0 < total)%nat -> (0 < nb)%nat -> nprod (ashape data) = (total * m0)%nat -> (0 < length laxes)%nat ->
  length saxes = length laxes -> length fractions = length laxes -> Forall (fun f => length f = nb) fractions ->
  (forall w, (w < nw)%nat ->
     unfurl_wavepacket same laxes saxes {| ashape := [m0]; aflat := fun t => aflat data (w * m0 + t) |} = Some (us w)) ->
  (forall a, (a < length laxes)%nat -> bsize (nth a laxes (BFund 0)) = bfund (nth a laxes (BFund 0))) ->
  Forall (fun n => (0 < n)%nat) N ->
  forall s b c, states_from_probability same total laxes saxes data fractions = Some s -> (0 < rsum p (nprod N))%R -> (b < nb)%nat ->
  length c = length laxes ->
  (forall a, (a < length laxes)%nat -> (nth b (nth a fractions []) 0 * INR (bfund (nth a saxes (BFund 0))))%R = IZR (nth a c 0%Z)) ->
  (forall x, in_shape x N ->
     amplitude (momenta N) (state_of s b) (ravel N x) =
     amplitude (momenta N) (fun k => RtoC (sqrt (p k / rsum p (nprod N)))) (ravel N (displaced N c x))) /\
  (forall x, in_shape x N ->
     (Cmod (amplitude (momenta N) (state_of s b) (ravel N x)) <=
      Cmod (amplitude (momenta N) (state_of s b) (ravel N (on_grid N c))))%R).
Proof.
  intros same total m0 nb laxes saxes data fractions us nw N p H1 H2 H3 H4 H5 H6 H7 H8 H9 H10 s b c.
  exact (from_probability_translated same total m0 nb laxes saxes data fractions us H1 H2 H3 H4 H5 H6 H7 H8 (fun _ => c) H9 H10 s b).
Qed.
Print Assumptions C88_from_probability_centre.
