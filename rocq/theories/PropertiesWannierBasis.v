(** The basis and the Hamiltonian of Wannier states, diagonal operators of localisation and the
    operator of the tight binding states (C109). *)
From Coq Require Import Reals Psatz.
From Verif Require Import ZLib Csum DFT NumPy Index Basis SpecBasis BasisProofs Operator SpecOperator StateList Wavepacket SpecWavepacket
  WavepacketProofs SpecMatrix Localize SpecLocalize LocalizeFacts TightCell BlochProofs3 WannierBasis SpecWannierBasis WannierBasisProofs WannierBasisFacts
  WannierBasisFacts2 WannierBasisFacts3 Spectral3.
Local Open Scope R_scope.
Local Open Scope C_scope.

Example C109_case : Forall (fun n => (0 < n)%nat) [2%nat] /\ bwf (BTuple [BFundT 2]) /\ explicit_orthonormal (BTuple [BFundT 2]) /\
  nprod (ashape ex_exchange) = (nprod [2%nat] * 2 * 2)%nat /\ nprod (ashape ex_plane_bands) = (2 * nprod [2%nat] * bsize (BTuple [BFundT 2]))%nat /\
  nprod (ashape ex_energies) = (2 * nprod [2%nat])%nat /\
  map bsize [BFundT 2] = map bfund [BFundT 2] /\
  (forall s, (s < 2)%nat -> orthonormal_rows 2 2 (at_sample 2 2 ex_exchange s)) /\
  (forall s, (s < 2)%nat -> orthonormal_columns 2 2 (at_sample 2 2 ex_exchange s)) /\
  (forall s l m, (s < 2)%nat -> (l < 2)%nat -> (m < 2)%nat -> inner_product 2 (band_state 2 2 ex_plane_bands s l) (band_state 2 2 ex_plane_bands s m) = cdelta l m).
Proof. exact ex_exchange_ok. Qed.

(** get_wannier_basis: coefficients in it are the inner products with the Wannier states, a
    vector of coefficients is the sum of the states, nothing is lost on the way from coefficients
    to positions and back, and nothing on the way from positions if there are as many bands as
    states of a unit cell. *)
Theorem C109_wannier_basis :
  forall same, identity_test same -> forall ls saxes, Forall (fun n => (0 < n)%nat) ls -> bwf (BTuple saxes) ->
  explicit_orthonormal (BTuple saxes) -> length ls = length saxes ->
  forall nw nb op data, (0 < nw)%nat -> (0 < nb)%nat ->
  let ns := nprod ls in let N := bsize (BTuple saxes) in let n := nprod (supercell ls (map bfund saxes)) in
  let positions := BTuple (map BFund (supercell ls (map bfund saxes))) in
  nprod (ashape op) = (ns * nw * nb)%nat -> nprod (ashape data) = (nb * ns * N)%nat -> map bsize saxes = map bfund saxes ->
  (forall s, (s < ns)%nat -> orthonormal_rows nw nb (at_sample nw nb op s)) ->
  (forall s l m, (s < ns)%nat -> (l < nb)%nat -> (m < nb)%nat ->
     inner_product N (band_state ns N data s l) (band_state ns N data s m) = cdelta l m) ->
  exists out B G H,
    wannier_states same nw nb (map BFundT ls) saxes op data = Some out /\
    wannier_basis same nw nb (map BFundT ls) saxes op data = Some B /\ bsize B = (nw * ns)%nat /\
    convert same positions B = Some G /\ convert same B positions = Some H /\
    (forall v r, (r < nw * ns)%nat -> G v r = inner_product n (row n (aflat out) r) v) /\
    (forall v x, (x < n)%nat -> H v x = csum (fun r => v r * row n (aflat out) r x) (nw * ns)) /\
    (forall v r, (r < nw * ns)%nat -> G (H v) r = v r) /\
    (nw = N -> forall v x, (x < n)%nat -> H (G v) x = v x).
Proof. exact wannier_conversion. Qed.
Print Assumptions C109_wannier_basis.

(** get_wannier_hamiltonian: at every sample the operator whose eigenvectors are the columns of
    the operator of localisation and whose eigenvalues are the energies of the bands. *)
Theorem C109_wannier_hamiltonian :
  forall wannier bands samples op energies, let nw := bsize wannier in let nb := bsize bands in let ns := bsize samples in
  nprod (ashape op) = (ns * nw * nb)%nat -> nprod (ashape energies) = (nb * ns)%nat ->
  exists W, wannier_hamiltonian wannier bands samples op energies = Some W /\ list_wf W /\
    lbasis W = samples /\ lrow W = wannier /\ lcol W = wannier /\
    (forall s i j, (s < ns)%nat -> (i < nw)%nat -> (j < nw)%nat ->
      list_entry W s i j = csum (fun c => at_sample nw nb op s i c * aflat energies (c * ns + s) * Cconj (at_sample nw nb op s j c)) nb) /\
    (forall s c i, (s < ns)%nat -> (c < nb)%nat -> (i < nw)%nat -> orthonormal_columns nw nb (at_sample nw nb op s) ->
      csum (fun j => list_entry W s i j * at_sample nw nb op s j c) nw = aflat energies (c * ns + s) * at_sample nw nb op s i c).
Proof. exact wannier_hamiltonian_spec. Qed.
Print Assumptions C109_wannier_hamiltonian.

(** get_full_wannier_hamiltonian is its Fourier transform: it only depends on the distance
    between cells, around the supercell, and the inverse transform of any of its columns of cells
    gives the Hamiltonian at the samples back. *)
Theorem C109_full_hamiltonian :
  forall wannier bands ls op energies, Forall (fun n => (0 < n)%nat) ls ->
  nprod (ashape op) = (nprod ls * bsize wannier * bsize bands)%nat -> nprod (ashape energies) = (bsize bands * nprod ls)%nat ->
  let nw := bsize wannier in
  exists W H, wannier_hamiltonian wannier bands (BTuple (map BFundT ls)) op energies = Some W /\
    full_wannier_hamiltonian nw (bsize bands) ls op energies = Some H /\
    let h R k R' l := aflat H (((ravel ls R * nw + k) * nprod ls + ravel ls R') * nw + l) in
    let wave s R := plane ls (sample_freqs ls (unravel ls s)) (map Z.of_nat R) in
    (forall R R' k l, in_shape R ls -> in_shape R' ls -> (k < nw)%nat -> (l < nw)%nat ->
      h R k R' l = csum (fun s => list_entry W s k l * (wave s R * Cconj (wave s R'))) (nprod ls) / RtoC (INR (nprod ls))) /\
    (forall T R R' k l, in_shape T ls -> in_shape R ls -> in_shape R' ls -> (k < nw)%nat -> (l < nw)%nat ->
      h (moved_cell ls T R) k (moved_cell ls T R') l = h R k R' l) /\
    (forall s R' k l, (s < nprod ls)%nat -> in_shape R' ls -> (k < nw)%nat -> (l < nw)%nat ->
      csum (fun R => h (unravel ls R) k R' l * (Cconj (wave s (unravel ls R)) * wave s R')) (nprod ls) = list_entry W s k l).
Proof. exact full_and_sampled. Qed.
Print Assumptions C109_full_hamiltonian.

Example C109_phases_case : dl_wf ex_phases /\ bwf (dl_bands ex_phases) /\ explicit_orthonormal (dl_bands ex_phases) /\ (0 < bsize (dl_bands ex_phases))%nat /\
  (exists o, localization_as_full ex_phases = Some o) /\ nprod (ashape ex_plane_bands) = (bsize (dl_bands ex_phases) * bsize (dl_samples ex_phases) * 2)%nat.
Proof. split; [reflexivity|]. split; [cbn; lia|]. split; [exact I|]. split; [cbn; lia|]. split; [|reflexivity]. eexists; reflexivity. Qed.

(** diagonal_localization_operator_as_full has the factors on the diagonal of every sample and
    nothing elsewhere, and localization_operator_as_diagonal of it gives them back. *)
Theorem C109_diagonal_round_trip :
  forall same d, identity_test same -> bwf (dl_bands d) -> explicit_orthonormal (dl_bands d) -> dl_wf d -> (0 < bsize (dl_bands d))%nat ->
  exists o, localization_as_full d = Some o /\ list_wf o /\ lbasis o = dl_samples d /\ lrow o = dl_bands d /\ lcol o = dl_bands d /\
    (forall s i j, (s < bsize (dl_samples d))%nat -> (i < bsize (dl_bands d))%nat -> (j < bsize (dl_bands d))%nat ->
      list_entry o s i j = if Nat.eqb i j then aflat (dl_data d) (s * bsize (dl_bands d) + i) else 0) /\
    exists d', localization_as_diagonal same o = Some d' /\ dl_samples d' = dl_samples d /\ dl_bands d' = dl_bands d /\ dl_wf d' /\
      forall t, (t < bsize (dl_samples d) * bsize (dl_bands d))%nat -> aflat (dl_data d') t = aflat (dl_data d) t.
Proof.
  intros same d Hs Hb He Hd Hn. destruct (as_full_spec d Hd Hn) as [o [E [A [B [C0 [D V]]]]]]. exists o.
  repeat (split; [assumption|]). exact (full_to_diagonal same d o Hs Hb He Hd Hn E).
Qed.
Print Assumptions C109_diagonal_round_trip.

(** The other way round only the diagonal is kept. *)
Theorem C109_full_to_diagonal :
  forall same o, identity_test same -> bwf (lrow o) -> explicit_orthonormal (lrow o) -> list_wf o -> lcol o = lrow o -> (0 < bsize (lrow o))%nat ->
  exists d o', localization_as_diagonal same o = Some d /\ localization_as_full d = Some o' /\ list_wf o' /\
    lbasis o' = lbasis o /\ lrow o' = lrow o /\ lcol o' = lrow o /\
    forall s i j, (s < bsize (lbasis o))%nat -> (i < bsize (lrow o))%nat -> (j < bsize (lrow o))%nat ->
      list_entry o' s i j = if Nat.eqb i j then list_entry o s i j else 0.
Proof. exact diagonal_to_full. Qed.
Print Assumptions C109_full_to_diagonal.

(** get_localized_wavepackets with the full form and get_diagonal_localized_wavepackets agree. *)
Theorem C109_diagonal_applied :
  forall d o n data, dl_wf d -> (0 < bsize (dl_bands d) * bsize (dl_samples d))%nat ->
  nprod (ashape data) = (bsize (dl_bands d) * bsize (dl_samples d) * n)%nat ->
  localization_as_full d = Some o ->
  exists w w', localized_wavepackets (bsize (dl_bands d)) (bsize (dl_bands d)) (bsize (dl_samples d)) (ldata o) data = Some w /\
    diagonal_localized_wavepackets (bsize (dl_bands d)) (bsize (dl_samples d)) (dl_data d) data = Some w' /\ ashape w = ashape w' /\
    forall t, (t < bsize (dl_bands d) * bsize (dl_samples d) * n)%nat -> aflat w t = aflat w' t.
Proof. exact diagonal_applied. Qed.
Print Assumptions C109_diagonal_applied.

Example C109_svd_case : exists svd, svd_ok svd.
Proof. exact svd_exists. Qed.

(** get_localization_operator_tight_binding_projections is unitary at every sample, whatever the
    wavepackets, in one and two dimensions; the Wannier basis of orthonormal wavepackets and this
    operator exists and is as in [C109_wannier_basis]. *)
Theorem C109_tight_binding_operator :
  forall same, identity_test same -> forall ls saxes, Forall (fun n => (0 < n)%nat) ls -> bwf (BTuple saxes) ->
  explicit_orthonormal (BTuple saxes) -> length ls = length saxes -> length saxes = 1%nat \/ length saxes = 2%nat ->
  map bsize saxes = map bfund saxes -> forall svd, svd_ok svd ->
  forall bands data, let nb := bsize bands in let ns := nprod ls in let N := bsize (BTuple saxes) in
  let n := nprod (supercell ls (map bfund saxes)) in
  (0 < nb)%nat -> nprod (ashape data) = (nb * ns * N)%nat ->
  exists op, tight_binding_operator same svd bands (map BFundT ls) saxes data = Some op /\
    nprod (ashape op) = (ns * nb * nb)%nat /\ (forall s, (s < ns)%nat -> unitary nb (at_sample nb nb op s)) /\
    ((forall s l m, (s < ns)%nat -> (l < nb)%nat -> (m < nb)%nat ->
        inner_product N (band_state ns N data s l) (band_state ns N data s m) = cdelta l m) ->
     exists B G H, wannier_basis same nb nb (map BFundT ls) saxes op data = Some B /\ bsize B = (nb * ns)%nat /\
       convert same (BTuple (map BFund (supercell ls (map bfund saxes)))) B = Some G /\
       convert same B (BTuple (map BFund (supercell ls (map bfund saxes)))) = Some H /\
       (forall v r, (r < nb * ns)%nat -> G (H v) r = v r) /\ (nb = N -> forall v x, (x < n)%nat -> H (G v) x = v x)).
Proof.
  intros same Hs ls saxes Hls Hw He Hl Hd Hf svd Hsvd bands data nb ns N n Hnb Hdata.
  destruct (tight_operator_spec same Hs ls saxes Hls Hw He Hl Hd Hf svd Hsvd bands data Hnb Hdata) as [op [E [Hop U]]].
  exists op. split; [exact E|]. split; [exact Hop|]. split; [exact U|]. intros Ho.
  destruct (wannier_conversion same Hs ls saxes Hls Hw He Hl nb nb op data Hnb Hnb Hop Hdata Hf (fun s h => proj1 (U s h)) Ho)
    as [out [B [G [H [_ [EB [Sz [EG [EH [_ [_ [V1 V2]]]]]]]]]]]].
  exists B, G, H. auto 8.
Qed.
Print Assumptions C109_tight_binding_operator.
