(** Properties of localisation: operators (C30) and projections (C31). *)
From Coq Require Import Reals.
From Verif Require Import ZLib Csum DFT NumPy Spec Basis SpecBasis Operator SpecOperator Wavepacket SpecWavepacket
  SpecMatrix Localize SpecLocalize LocalizeProofs LocalizeProofs2 LocalizeFacts Spectral3.
Local Open Scope R_scope.
Local Open Scope C_scope.

(** Two bands, one sample, states of length two. *)
Example ex_localize_ok :
  nprod (ashape ex_rotation) = (1 * 2 * 2)%nat /\ nprod (ashape ex_bands) = (2 * 1 * 2)%nat /\
  nprod (ashape ex_energies) = (2 * 1)%nat /\
  unitary 2 (at_sample 2 2 ex_rotation 0) /\
  forall l m, (l < 2)%nat -> (m < 2)%nat ->
    inner_product 2 (band_state 1 2 ex_bands 0 l) (band_state 1 2 ex_bands 0 m) = cdelta l m.
Proof. repeat (split; [reflexivity|]). split; [exact ex_rotation_unitary|exact ex_bands_orthonormal]. Qed.

(** ** C30 *)

(** [nw] localised bands from [nb] bands: the states at each sample are combined with the
    matrix of that sample. *)
Theorem C30_localized_combines_bands :
  forall nw nb ns n op data, nprod (ashape op) = (ns * nw * nb)%nat -> nprod (ashape data) = (nb * ns * n)%nat ->
  (0 < nb * ns)%nat ->
  exists out, localized_wavepackets nw nb ns op data = Some out /\ ashape out = [(nw * ns * n)%nat] /\
    forall i s k, (i < nw)%nat -> (s < ns)%nat -> (k < n)%nat ->
      band_state ns n out s i k = csum (fun l => at_sample nw nb op s i l * band_state ns n data s l k) nb.
Proof. exact localized_spec. Qed.
Print Assumptions C30_localized_combines_bands.

Theorem C30_localized_orthonormal :
  forall nw nb ns n op data, nprod (ashape op) = (ns * nw * nb)%nat -> nprod (ashape data) = (nb * ns * n)%nat ->
  (0 < nb * ns)%nat ->
  forall out, localized_wavepackets nw nb ns op data = Some out ->
  forall s, (s < ns)%nat -> orthonormal_rows nw nb (at_sample nw nb op s) ->
  (forall l m, (l < nb)%nat -> (m < nb)%nat ->
     inner_product n (band_state ns n data s l) (band_state ns n data s m) = cdelta l m) ->
  forall i j, (i < nw)%nat -> (j < nw)%nat ->
    inner_product n (band_state ns n out s i) (band_state ns n out s j) = cdelta i j.
Proof. exact localized_orthonormal. Qed.
Print Assumptions C30_localized_orthonormal.

(** Real energies give a Hermitian matrix at every sample. *)
Theorem C30_hamiltonian_hermitian :
  forall nw nb ns op, nprod (ashape op) = (ns * nw * nb)%nat ->
  forall ham, nprod (ashape ham) = (nb * ns)%nat ->
  (forall t, (t < nb * ns)%nat -> snd (aflat ham t) = 0%R) ->
  exists out, localized_hamiltonian nw nb ns op ham = Some out /\ ashape out = [(ns * nw * nw)%nat] /\
    forall s, (s < ns)%nat -> hermitian nw (at_sample nw nw out s).
Proof.
  exact hamiltonian_hermitian_exists.
Qed.
Print Assumptions C30_hamiltonian_hermitian.

(** The trace at each sample is the sum of the energies there. *)
Theorem C30_hamiltonian_trace :
  forall nw nb ns op, nprod (ashape op) = (ns * nw * nb)%nat ->
  forall ham, nprod (ashape ham) = (nb * ns)%nat ->
  forall out, localized_hamiltonian nw nb ns op ham = Some out ->
  forall s, (s < ns)%nat -> orthonormal_columns nw nb (at_sample nw nb op s) ->
    csum (fun i => at_sample nw nw out s i i) nw = csum (fun c => aflat ham (c * ns + s)) nb.
Proof. exact hamiltonian_trace. Qed.
Print Assumptions C30_hamiltonian_trace.

(** Entry (i, j) is the matrix element <w_j|H|w_i> of H = sum_c E_c |v_c><v_c| between the
    localised states, that is, the transpose of the matrix of H. *)
Theorem C30_hamiltonian_is_transposed :
  forall nw nb ns n op data, nprod (ashape op) = (ns * nw * nb)%nat -> nprod (ashape data) = (nb * ns * n)%nat ->
  (0 < nb * ns)%nat ->
  forall ham, nprod (ashape ham) = (nb * ns)%nat ->
  forall out w, localized_hamiltonian nw nb ns op ham = Some out -> localized_wavepackets nw nb ns op data = Some w ->
  forall s, (s < ns)%nat ->
  (forall l m, (l < nb)%nat -> (m < nb)%nat ->
     inner_product n (band_state ns n data s l) (band_state ns n data s m) = cdelta l m) ->
  forall i j, (i < nw)%nat -> (j < nw)%nat ->
    at_sample nw nw out s i j =
    csum (fun c => aflat ham (c * ns + s) *
      (inner_product n (band_state ns n w s j) (band_state ns n data s c) *
       inner_product n (band_state ns n data s c) (band_state ns n w s i))) nb.
Proof. exact hamiltonian_elements. Qed.
Print Assumptions C30_hamiltonian_is_transposed.

(** It is not the matrix <w_i|H|w_j> itself. *)
Theorem C30_hamiltonian_elements_refuted : exists op data ham out w,
  nprod (ashape op) = 4%nat /\ nprod (ashape data) = 4%nat /\ nprod (ashape ham) = 2%nat /\
  unitary 2 (at_sample 2 2 op 0) /\
  (forall l m, (l < 2)%nat -> (m < 2)%nat ->
     inner_product 2 (band_state 1 2 data 0 l) (band_state 1 2 data 0 m) = cdelta l m) /\
  localized_hamiltonian 2 2 1 op ham = Some out /\ localized_wavepackets 2 2 1 op data = Some w /\
  at_sample 2 2 out 0 0 1 <>
    csum (fun c => aflat ham (c * 1 + 0) *
      (inner_product 2 (band_state 1 2 w 0 0) (band_state 1 2 data 0 c) *
       inner_product 2 (band_state 1 2 data 0 c) (band_state 1 2 w 0 1))) 2.
Proof. exact hamiltonian_elements_refuted. Qed.
Print Assumptions C30_hamiltonian_elements_refuted.

(** A diagonal operator multiplies each band and sample by its own factor. *)
Theorem C30_diagonal_localized :
  forall nb ns n op data, nprod (ashape op) = (ns * nb)%nat -> nprod (ashape data) = (nb * ns * n)%nat ->
  (0 < nb * ns)%nat ->
  exists out, diagonal_localized_wavepackets nb ns op data = Some out /\ ashape out = [(nb * ns * n)%nat] /\
    forall b s k, (b < nb)%nat -> (s < ns)%nat -> (k < n)%nat ->
      band_state ns n out s b k = aflat op (s * nb + b) * band_state ns n data s b k.
Proof. exact diagonal_localized_spec. Qed.
Print Assumptions C30_diagonal_localized.

(** The identity operator is the identity when there are as many bands as samples. *)
Theorem C30_identity_operator_square :
  forall bands samples, bsize bands = bsize samples -> (0 < bsize bands)%nat ->
  exists o, identity_operator bands samples = Some o /\ bsize (lrow o) = bsize bands /\ list_wf o /\
    forall s i l, (s < bsize samples)%nat -> (i < bsize bands)%nat -> (l < bsize bands)%nat ->
      at_sample (bsize bands) (bsize bands) (ldata o) s i l = cdelta i l.
Proof. exact identity_square. Qed.
Print Assumptions C30_identity_operator_square.
Example ex_identity_square : bsize (BFund 2) = bsize (BTuple [BFundT 2]) /\ (0 < bsize (BFund 2))%nat.
Proof. cbn. lia. Qed.

(** Otherwise it is not: one band and two samples. *)
Theorem C30_identity_operator_refuted : exists o, identity_operator (BFund 1) (BFund 2) = Some o /\
  bsize (lrow o) = 2%nat /\ at_sample 2 1 (ldata o) 1 0 0 = 0.
Proof. exact identity_refuted. Qed.
Print Assumptions C30_identity_operator_refuted.

(** ** C31 *)

(** A function with the properties asked of svd exists. *)
Example C31_svd_exists : exists svd, svd_ok svd.
Proof. exact svd_exists. Qed.

(** [np] projections, given in the basis of the tuple [paxes] of the whole supercell, onto
    [nb] bands sampled on [laxes]. *)
Example ex_projection_ok : let laxes := [BFundT 2; BFundT 3] in let saxes := [BTrans 2 3; BEven 2 2 1] in
  let paxes := [BFund 6; BFundT 12] in
  identity_test (fun _ _ => false) /\ bwf (BTuple saxes) /\ explicit_orthonormal (BTuple saxes) /\
  length laxes = length saxes /\ map bfund paxes = supercell (map bsize laxes) (map bfund saxes).
Proof. cbn. split; [intros a b H; discriminate|]. repeat split; lia. Qed.

Theorem C31_operator_exists :
  forall same laxes saxes paxes, length laxes = length saxes ->
  map bfund paxes = supercell (map bsize laxes) (map bfund saxes) ->
  forall np projections, nprod (ashape projections) = (np * bsize (BTuple paxes))%nat ->
  forall svd nb data, nprod (ashape data) = (nb * bsize (BTuple laxes) * bsize (BTuple saxes))%nat ->
  exists op, localization_operator_for_projections same svd nb np laxes saxes data (BTuple paxes) projections = Some op /\
    ashape op = [(bsize (BTuple laxes) * np * nb)%nat].
Proof. exact projections_exist. Qed.
Print Assumptions C31_operator_exists.

(** Not more projections than bands: the matrix at every sample has orthonormal rows, so
    (C30) orthonormal bands are localised to orthonormal states. *)
Theorem C31_operator_isometry :
  forall same laxes saxes paxes, length laxes = length saxes ->
  map bfund paxes = supercell (map bsize laxes) (map bfund saxes) ->
  forall np projections, nprod (ashape projections) = (np * bsize (BTuple paxes))%nat ->
  forall svd, svd_ok svd ->
  forall nb data, nprod (ashape data) = (nb * bsize (BTuple laxes) * bsize (BTuple saxes))%nat ->
  forall op, (np <= nb)%nat ->
  localization_operator_for_projections same svd nb np laxes saxes data (BTuple paxes) projections = Some op ->
  forall s, (s < bsize (BTuple laxes))%nat -> orthonormal_rows np nb (at_sample np nb op s).
Proof. exact projections_isometry. Qed.
Print Assumptions C31_operator_isometry.

Theorem C31_operator_unitary :
  forall same laxes saxes paxes, length laxes = length saxes ->
  map bfund paxes = supercell (map bsize laxes) (map bfund saxes) ->
  forall np projections, nprod (ashape projections) = (np * bsize (BTuple paxes))%nat ->
  forall svd, svd_ok svd ->
  forall nb data, nprod (ashape data) = (nb * bsize (BTuple laxes) * bsize (BTuple saxes))%nat ->
  forall op, np = nb ->
  localization_operator_for_projections same svd nb np laxes saxes data (BTuple paxes) projections = Some op ->
  forall s, (s < bsize (BTuple laxes))%nat -> unitary nb (at_sample np nb op s).
Proof. exact projections_unitary. Qed.
Print Assumptions C31_operator_unitary.

(** More projections than bands: never. *)
Theorem C31_too_many_projections :
  forall same svd nb np laxes saxes data pb projections op, (nb < np)%nat ->
  localization_operator_for_projections same svd nb np laxes saxes data pb projections = Some op ->
  forall s, (s < bsize (BTuple laxes))%nat -> ~ orthonormal_rows np nb (at_sample np nb op s).
Proof. exact projections_too_many. Qed.
Print Assumptions C31_too_many_projections.

(** The overlaps of the localised states at a sample with the projections form a
    Hermitian positive semidefinite matrix. *)
Theorem C31_overlap_positive :
  forall same, identity_test same ->
  forall laxes saxes paxes, bwf (BTuple saxes) -> explicit_orthonormal (BTuple saxes) -> length laxes = length saxes ->
  map bfund paxes = supercell (map bsize laxes) (map bfund saxes) ->
  forall np projections, nprod (ashape projections) = (np * bsize (BTuple paxes))%nat ->
  forall svd, svd_ok svd ->
  forall nb data, nprod (ashape data) = (nb * bsize (BTuple laxes) * bsize (BTuple saxes))%nat ->
  (0 < nb * bsize (BTuple laxes))%nat ->
  forall op,
  localization_operator_for_projections same svd nb np laxes saxes data (BTuple paxes) projections = Some op ->
  exists w, localized_wavepackets np nb (bsize (BTuple laxes)) op data = Some w /\
  forall s, (s < bsize (BTuple laxes))%nat -> exists b d M,
    states_at_bloch_idx same np laxes saxes w (Z.of_nat s) = Some (b, d) /\
    inner_products same np np (BTuple b) (BTuple paxes) d projections = Some M /\
    hermitian np M /\ positive_semidefinite np M.
Proof. exact projections_overlap. Qed.
Print Assumptions C31_overlap_positive.

(** For orthonormal bands the localised states are, among all orthonormal combinations of
    the bands at that sample, the closest to the projections. *)
Theorem C31_closest_states :
  forall same, identity_test same ->
  forall laxes saxes paxes, bwf (BTuple saxes) -> explicit_orthonormal (BTuple saxes) -> length laxes = length saxes ->
  map bfund paxes = supercell (map bsize laxes) (map bfund saxes) ->
  forall np projections, nprod (ashape projections) = (np * bsize (BTuple paxes))%nat ->
  forall svd, svd_ok svd ->
  forall nb data, nprod (ashape data) = (nb * bsize (BTuple laxes) * bsize (BTuple saxes))%nat ->
  (0 < nb * bsize (BTuple laxes))%nat ->
  forall op, (np <= nb)%nat ->
  localization_operator_for_projections same svd nb np laxes saxes data (BTuple paxes) projections = Some op ->
  exists w, localized_wavepackets np nb (bsize (BTuple laxes)) op data = Some w /\
  forall s, (s < bsize (BTuple laxes))%nat ->
    (forall l m, (l < nb)%nat -> (m < nb)%nat ->
       inner_product (bsize (BTuple saxes)) (band_state (bsize (BTuple laxes)) (bsize (BTuple saxes)) data s l)
         (band_state (bsize (BTuple laxes)) (bsize (BTuple saxes)) data s m) = cdelta l m) ->
    exists b d dw F,
      states_at_bloch_idx same nb laxes saxes data (Z.of_nat s) = Some (b, d) /\
      states_at_bloch_idx same np laxes saxes w (Z.of_nat s) = Some (b, dw) /\
      convert same (BTuple paxes) (BTuple b) = Some F /\
      forall W, orthonormal_rows np nb W ->
        (rsum (fun p => distance2 (bsize (BTuple b)) (row (bsize (BTuple b)) (aflat dw) p)
                          (F (row (bsize (BTuple paxes)) (aflat projections) p))) np <=
         rsum (fun p => distance2 (bsize (BTuple b))
                          (fun k => csum (fun c => (W p c * row (bsize (BTuple b)) (aflat d) c k)%C) nb)
                          (F (row (bsize (BTuple paxes)) (aflat projections) p))) np)%R.
Proof. exact projections_closest. Qed.
Print Assumptions C31_closest_states.
