(** Properties of wavepacket generation (C29), tight binding localisation (C32) and Wannier
    states (C62, C64). *)
From Coq Require Import Reals Psatz.
From Verif Require Import ZLib Csum DFT NumPy Index IndexProofs Spec Basis SpecBasis BasisFacts Operator SpecOperator Wavepacket SpecWavepacket
  SpecMatrix Localize SpecLocalize LocalizeProofs3 LocalizeProofs4 LocalizeProofs5 LocalizeProofs6 LocalizeFacts2 LocalizeProofs7 Spectral3.
Local Open Scope R_scope.
Local Open Scope C_scope.

(** ** C29 *)

(** The fraction of a sample along an axis is f / n for the list state of that sample, the
    plane wave of signed frequency f on n points. *)
Theorem C29_sample_fractions :
  forall same l, identity_test same -> bwf (BTuple l) -> Forall (fun b => is_transformed b = true) l ->
  exists fr, sample_fractions same l = Some fr /\
    forall s ax, in_shape s (map bsize l) -> (ax < length l)%nat ->
    let b := nth ax l (BFund 0) in
    exists f, (- Z.of_nat (bfund b) <= 2 * f < Z.of_nat (bfund b))%Z /\
      (forall x, bstate b (nth ax s 0%nat) x = plane_wave (bfund b) f x) /\
      fr ax (ravel (map bsize l) s) = (IZR f / INR (bfund b))%R.
Proof. exact sample_fractions_signed. Qed.
Print Assumptions C29_sample_fractions.
Example C29_sample_fractions_case : bwf (BTuple [BFundT 3; BTrans 2 5; BEvenT 3 2 1]) /\
  Forall (fun b => is_transformed b = true) [BFundT 3; BTrans 2 5; BEvenT 3 2 1].
Proof. split; [cbn; repeat split; lia|repeat constructor]. Qed.

(** On the usual list basis: 0, 1/n, ..., -1/n. *)
Theorem C29_sample_fractions_fundamental :
  forall same ls, identity_test same -> Forall (fun n => (0 < n)%nat) ls ->
  exists fr, sample_fractions same (map BFundT ls) = Some fr /\
    forall s ax f, in_shape s ls -> (ax < length ls)%nat -> is_freq (nth ax ls 0%nat) (nth ax s 0%nat) f ->
      fr ax (ravel ls s) = (IZR f / INR (nth ax ls 0%nat))%R.
Proof. exact sample_fractions_fundamental. Qed.
Print Assumptions C29_sample_fractions_fundamental.

(** With a list basis of position type and odd length every sample gets fraction zero. *)
Theorem C29_position_list_all_zero :
  forall same n, identity_test same -> Nat.Odd n ->
  exists fr, sample_fractions same [BFund n] = Some fr /\ forall i, (i < n)%nat -> fr 0%nat i = 0%R.
Proof. exact sample_fractions_position. Qed.
Print Assumptions C29_position_list_all_zero.

(** At every sample the states are orthonormal eigenvectors of the Hamiltonian at the
    fraction of that sample, and band [b] has eigenvalue number offset + step * b. *)
Theorem C29_generate_eigenstates :
  forall same eigh ls n nb step offset ham, identity_test same -> eigh_ok eigh ->
  Forall (fun m => (0 < m)%nat) ls -> (0 < nb)%nat -> (0 < step)%nat -> (offset + step * (nb - 1) < n)%nat ->
  (forall s, in_shape s ls -> hermitian n (ham (fractions ls s))) ->
  exists vectors energies,
    generate_wavepacket same eigh (map BFundT ls) n ham nb (Z.of_nat step) (Z.of_nat offset) = Some (vectors, energies) /\
    ashape vectors = [(nb * nprod ls * n)%nat] /\ ashape energies = [(nb * nprod ls)%nat] /\
    forall s, in_shape s ls ->
      (forall b, (b < nb)%nat -> exists e : R,
        aflat energies (b * nprod ls + ravel ls s) = RtoC e /\
        (forall E, ascending_spectrum n (ham (fractions ls s)) E -> e = E (offset + step * b)%nat) /\
        forall x, (x < n)%nat ->
          csum (fun y => ham (fractions ls s) x y * band_state (nprod ls) n vectors (ravel ls s) b y) n =
          RtoC e * band_state (nprod ls) n vectors (ravel ls s) b x) /\
      forall b c, (b < nb)%nat -> (c < nb)%nat ->
        inner_product n (band_state (nprod ls) n vectors (ravel ls s) b) (band_state (nprod ls) n vectors (ravel ls s) c) = cdelta b c.
Proof. exact generate_wavepacket_spec. Qed.
Print Assumptions C29_generate_eigenstates.
(** A function with the properties asked of eigh exists (spectral theorem). *)
Example C29_eigh_exists : exists eigh, eigh_ok eigh.
Proof. exact eigh_exists. Qed.
(** A Hamiltonian depending on the fraction, two bands numbered 1 and 3 of four states. *)
Example C29_generate_case :
  let ham := fun (f : list R) i j => cdelta i j * RtoC (INR i + nth 0 f 0)%R in
  Forall (fun m => (0 < m)%nat) [3%nat] /\ (1 + 2 * (2 - 1) < 4)%nat /\
  (forall s, in_shape s [3%nat] -> hermitian 4 (ham (fractions [3%nat] s))) /\
  ascending_spectrum 4 (ham (fractions [3%nat] [1%nat])) (fun i => (INR i + / 3)%R) /\ fractions [3%nat] [1%nat] = [(1 / (1 + 1 + 1))%R].
Proof.
  intros ham. split; [repeat constructor|]. split; [lia|]. split.
  - intros s _ i j _ _. unfold adjoint, ham. rewrite Cconj_mult, Cconj_RtoC, Cconj_cdelta.
    destruct (Nat.eq_dec i j) as [->|Hn]; [reflexivity|]. rewrite !cdelta_neq by auto. ring.
  - split; [|reflexivity]. split.
    + intros i j Hij _. apply le_INR in Hij. lra.
    + exists cdelta. assert (U : orthonormal_rows 4 4 cdelta).
      { intros i j Hi Hj. rewrite (csum_ext _ (fun x => cdelta i x * cdelta j x)) by (intros; rewrite Cconj_cdelta; reflexivity).
        rewrite csum_delta_l by exact Hi. apply cdelta_sym. }
      split; [split; [exact U|]|].
      * apply LinAlg.orthonormal_square. exact U.
      * intros i j Hi Hj. rewrite (csum_ext _ (fun k => cdelta i k * (RtoC (INR k + / 3)%R * cdelta j k))) by (intros; rewrite Cconj_cdelta; ring).
        rewrite csum_delta_l by exact Hi. unfold ham. cbn [fractions nth]. change (IZR (freq 3 1)) with 1%R. rewrite (cdelta_sym j i), Cmult_comm.
        f_equal. f_equal. cbn. lra.
Qed.

(** No samples, no bands, or bands beyond the number of states. *)
Theorem C29_generate_raises :
  forall eigh ns frac n ham nb (step offset : Z), (0 < step)%Z ->
  (ns = 0%nat \/ nb = 0%nat \/ (offset < 0)%Z \/ (Z.of_nat n <= offset + step * (Z.of_nat nb - 1))%Z) ->
  generate_uneven_wavepacket eigh ns frac n ham nb step offset = None.
Proof. exact generate_raises. Qed.
Print Assumptions C29_generate_raises.
Example C29_generate_raises_case : (Z.of_nat 4 <= 1 + 2 * (Z.of_nat 3 - 1))%Z.
Proof. lia. Qed.

(** ** C32 *)

(** The state of each sample is multiplied by one phase, and the Bloch wave of every sample
    has phase alpha at the chosen point, with its old modulus. *)
Theorem C32_localize_fixes_phase :
  forall same, identity_test same -> forall ls saxes, Forall (fun n => (0 < n)%nat) ls -> bwf (BTuple saxes) ->
  explicit_orthonormal (BTuple saxes) -> length ls = length saxes ->
  forall data, nprod (ashape data) = (nprod ls * bsize (BTuple saxes))%nat ->
  forall p nx alpha, point_at (map bfund saxes) p nx ->
    exists out, localize_tightly_bound same (map BFundT ls) saxes data p alpha = Some out /\
      ashape out = [(nprod ls * bsize (BTuple saxes))%nat] /\
      forall s, in_shape s ls ->
        (exists theta : R, forall k, (k < bsize (BTuple saxes))%nat ->
           row (bsize (BTuple saxes)) (aflat out) (ravel ls s) k = cis theta * row (bsize (BTuple saxes)) (aflat data) (ravel ls s) k) /\
        plane (supercell ls (map bfund saxes)) (sample_freqs ls s) nx *
          amplitude (BTuple saxes) (row (bsize (BTuple saxes)) (aflat out) (ravel ls s)) (ravel (map bfund saxes) (cell_point (map bfund saxes) nx)) =
        RtoC (Cmod (amplitude (BTuple saxes) (row (bsize (BTuple saxes)) (aflat data) (ravel ls s))
                      (ravel (map bfund saxes) (cell_point (map bfund saxes) nx)))) * cis alpha.
Proof. exact localize_spec. Qed.
Print Assumptions C32_localize_fixes_phase.
(** A flat index, and a point outside the first cell. *)
Example C32_localize_case :
  bwf (BTuple [BTrans 2 3; BFundT 2]) /\ explicit_orthonormal (BTuple [BTrans 2 3; BFundT 2]) /\
  point_at [3%nat; 2%nat] (Flat 5) [2%Z; 1%Z] /\ point_at [3%nat; 2%nat] (Stacked [4%Z; (-1)%Z]) [4%Z; (-1)%Z] /\
  cell_point [3%nat; 2%nat] [4%Z; (-1)%Z] = [1%nat; 1%nat].
Proof.
  split; [cbn; repeat split; lia|]. split; [cbn; repeat split|].
  split; [|repeat split]. exists [2%nat; 1%nat]. split; [repeat constructor|]. split; reflexivity.
Qed.

Theorem C32_flat_index_raises :
  forall same laxes saxes data i alpha, (i < 0 \/ Z.of_nat (nprod (map bfund saxes)) <= i)%Z ->
  localize_tightly_bound same laxes saxes data (Flat i) alpha = None.
Proof. exact localize_flat_raises. Qed.
Print Assumptions C32_flat_index_raises.
Example C32_flat_index_raises_case : (Z.of_nat (nprod (map bfund [BTrans 2 3; BFundT 2])) <= 6)%Z.
Proof. cbn. lia. Qed.

(** ** C62 *)

(** Row (i, R): the localised state of band i summed over the samples, moved by R steps; a
    step is the number of basis states along the axis. *)
Theorem C62_wannier_states_are_translated :
  forall same, identity_test same -> forall ls saxes, Forall (fun n => (0 < n)%nat) ls -> bwf (BTuple saxes) ->
  explicit_orthonormal (BTuple saxes) -> length ls = length saxes ->
  forall nw nb op data, (0 < nw)%nat -> (0 < nb)%nat ->
  nprod (ashape op) = (nprod ls * nw * nb)%nat -> nprod (ashape data) = (nb * nprod ls * bsize (BTuple saxes))%nat ->
  let ss := map bfund saxes in
  let F := supercell ls ss in
  exists loc out,
    localized_wavepackets nw nb (nprod ls) op data = Some loc /\
    wannier_states same nw nb (map BFundT ls) saxes op data = Some out /\
    ashape out = [(nw * nprod ls * nprod F)%nat] /\
    forall i R x, (i < nw)%nat -> in_shape R ls -> in_shape x F ->
      row (nprod F) (aflat out) (i * nprod ls + ravel ls R) (ravel F x) =
      RtoC (/ INR (nprod ls)) * csum (fun s =>
        plane F (sample_freqs ls (unravel ls s)) (map Z.of_nat (moved F (map bsize saxes) R x)) *
        amplitude (BTuple saxes) (band_state (nprod ls) (bsize (BTuple saxes)) loc s i)
          (ravel ss (in_cell ss (moved F (map bsize saxes) R x)))) (nprod ls).
Proof. exact wannier_spec. Qed.
Print Assumptions C62_wannier_states_are_translated.

(** With as many basis states as points along every axis the Wannier states of all bands
    and cells are orthonormal. *)
Theorem C62_wannier_orthonormal :
  forall same, identity_test same -> forall ls saxes, Forall (fun n => (0 < n)%nat) ls -> bwf (BTuple saxes) ->
  explicit_orthonormal (BTuple saxes) -> length ls = length saxes ->
  forall nw nb op data, (0 < nw)%nat -> (0 < nb)%nat ->
  nprod (ashape op) = (nprod ls * nw * nb)%nat -> nprod (ashape data) = (nb * nprod ls * bsize (BTuple saxes))%nat ->
  map bsize saxes = map bfund saxes ->
  forall out, wannier_states same nw nb (map BFundT ls) saxes op data = Some out ->
  (forall s, (s < nprod ls)%nat -> orthonormal_rows nw nb (at_sample nw nb op s)) ->
  (forall s l m, (s < nprod ls)%nat -> (l < nb)%nat -> (m < nb)%nat ->
     inner_product (bsize (BTuple saxes)) (band_state (nprod ls) (bsize (BTuple saxes)) data s l)
       (band_state (nprod ls) (bsize (BTuple saxes)) data s m) = cdelta l m) ->
  let n := nprod (supercell ls (map bfund saxes)) in
  forall i j R R', (i < nw)%nat -> (j < nw)%nat -> (R < nprod ls)%nat -> (R' < nprod ls)%nat ->
    inner_product n (row n (aflat out) (i * nprod ls + R)) (row n (aflat out) (j * nprod ls + R')) = cdelta i j * cdelta R R'.
Proof. exact wannier_orthonormal. Qed.
Print Assumptions C62_wannier_orthonormal.

(** With fewer states than points the states of two cells overlap. *)
Theorem C62_wannier_truncated_refuted :
  forall same, identity_test same ->
  exists op data out, nprod (ashape op) = 2%nat /\ nprod (ashape data) = 2%nat /\
    (forall s, (s < 2)%nat -> orthonormal_rows 1 1 (at_sample 1 1 op s)) /\
    (forall s, (s < 2)%nat -> inner_product 1 (band_state 2 1 data s 0) (band_state 2 1 data s 0) = 1) /\
    wannier_states same 1 1 [BFundT 2] [BTrans 1 2] op data = Some out /\
    inner_product 4 (row 4 (aflat out) 0) (row 4 (aflat out) 1) <> 0.
Proof. exact wannier_truncated_refuted. Qed.
Print Assumptions C62_wannier_truncated_refuted.

(** ** C64 *)

(** Entry (R, k; R', l) is the matrix element of H between the Wannier state (l, R') on the
    left and (k, R) on the right, where H has the given energies on the Bloch states. *)
Theorem C64_full_hamiltonian_elements :
  forall same, identity_test same -> forall ls saxes, Forall (fun n => (0 < n)%nat) ls -> bwf (BTuple saxes) ->
  explicit_orthonormal (BTuple saxes) -> length ls = length saxes ->
  forall nw nb op data ham, (0 < nw)%nat -> (0 < nb)%nat ->
  nprod (ashape op) = (nprod ls * nw * nb)%nat -> nprod (ashape data) = (nb * nprod ls * bsize (BTuple saxes))%nat ->
  nprod (ashape ham) = (nb * nprod ls)%nat ->
  map bsize saxes = map bfund saxes ->
  forall st out, get_bloch_states same (BFund nb) (map BFundT ls) saxes data = Some st ->
  wannier_states same nw nb (map BFundT ls) saxes op data = Some out ->
  (forall s l m, (s < nprod ls)%nat -> (l < nb)%nat -> (m < nb)%nat ->
     inner_product (bsize (BTuple saxes)) (band_state (nprod ls) (bsize (BTuple saxes)) data s l)
       (band_state (nprod ls) (bsize (BTuple saxes)) data s m) = cdelta l m) ->
  let F := supercell ls (map bfund saxes) in
  let bloch c s := amplitude (momenta F) (row (nprod F) (aflat st) (c * nprod ls + s)) in
  let wannier k R := row (nprod F) (aflat out) (k * nprod ls + R) in
  exists H, full_wannier_hamiltonian nw nb ls op ham = Some H /\
    ashape H = [(nprod ls * nw * nprod ls * nw)%nat] /\
    forall R k R' l, (R < nprod ls)%nat -> (k < nw)%nat -> (R' < nprod ls)%nat -> (l < nw)%nat ->
      aflat H (((R * nw + k) * nprod ls + R') * nw + l) =
      csum (fun c => csum (fun s => aflat ham (c * nprod ls + s) *
        (inner_product (nprod F) (wannier l R') (bloch c s) * inner_product (nprod F) (bloch c s) (wannier k R))) (nprod ls)) nb.
Proof. exact full_hamiltonian_spec. Qed.
Print Assumptions C64_full_hamiltonian_elements.

(** Left and right are exchanged: the entry in row (0, 0) and column (1, 0) is not
    <w_0|H|w_1>. *)
Theorem C64_full_hamiltonian_transposed_refuted :
  forall same, identity_test same ->
  exists op data ham st out H, nprod (ashape op) = 3%nat /\ nprod (ashape data) = 3%nat /\ nprod (ashape ham) = 3%nat /\
    (forall s, (s < 3)%nat -> orthonormal_rows 1 1 (at_sample 1 1 op s)) /\
    (forall s, (s < 3)%nat -> inner_product 1 (band_state 3 1 data s 0) (band_state 3 1 data s 0) = 1) /\
    (forall t, snd (aflat ham t) = 0%R) /\
    get_bloch_states same (BFund 1) [BFundT 3] [BFundT 1] data = Some st /\
    wannier_states same 1 1 [BFundT 3] [BFundT 1] op data = Some out /\
    full_wannier_hamiltonian 1 1 [3%nat] op ham = Some H /\
    aflat H 1 <> csum (fun s => aflat ham s *
      (inner_product 3 (row 3 (aflat out) 0) (amplitude (momenta [3%nat]) (row 3 (aflat st) s)) *
       inner_product 3 (amplitude (momenta [3%nat]) (row 3 (aflat st) s)) (row 3 (aflat out) 1))) 3.
Proof. exact full_hamiltonian_transposed_refuted. Qed.
Print Assumptions C64_full_hamiltonian_transposed_refuted.

(** The rows are ordered (cell, band), the Wannier states (band, cell): the diagonal entry
    of row 1 is not the energy of Wannier state 1. *)
Theorem C64_full_hamiltonian_order_refuted :
  forall same, identity_test same ->
  exists op data ham st out H, nprod (ashape op) = 8%nat /\ nprod (ashape data) = 8%nat /\ nprod (ashape ham) = 4%nat /\
    (forall s, (s < 2)%nat -> orthonormal_rows 2 2 (at_sample 2 2 op s)) /\
    (forall s l m, (s < 2)%nat -> (l < 2)%nat -> (m < 2)%nat -> inner_product 2 (band_state 2 2 data s l) (band_state 2 2 data s m) = cdelta l m) /\
    get_bloch_states same (BFund 2) [BFundT 2] [BFundT 2] data = Some st /\
    wannier_states same 2 2 [BFundT 2] [BFundT 2] op data = Some out /\
    full_wannier_hamiltonian 2 2 [2%nat] op ham = Some H /\
    aflat H (1 * 4 + 1) <> csum (fun c => csum (fun s => aflat ham (c * 2 + s) *
      (inner_product 4 (row 4 (aflat out) 1) (amplitude (momenta [4%nat]) (row 4 (aflat st) (c * 2 + s))) *
       inner_product 4 (amplitude (momenta [4%nat]) (row 4 (aflat st) (c * 2 + s))) (row 4 (aflat out) 1))) 2) 2.
Proof. exact full_hamiltonian_order_refuted. Qed.
Print Assumptions C64_full_hamiltonian_order_refuted.

(** ** C63 *)

(** The wavepacket of a band; negative indices count from the end. *)
Theorem C63_get_wavepacket :
  forall bands n data, (0 < bsize bands)%nat -> nprod (ashape data) = (bsize bands * n)%nat -> forall idx,
    match get_wavepacket bands data idx with
    | Some w => ashape w = [n] /\
        ((0 <= idx < Z.of_nat (bsize bands))%Z /\ (forall k, aflat w k = row n (aflat data) (Z.to_nat idx) k) \/
         (- Z.of_nat (bsize bands) <= idx < 0)%Z /\ (forall k, aflat w k = row n (aflat data) (Z.to_nat (idx + Z.of_nat (bsize bands))) k))
    | None => (idx < - Z.of_nat (bsize bands) \/ Z.of_nat (bsize bands) <= idx)%Z
    end.
Proof. exact get_wavepacket_spec. Qed.
Print Assumptions C63_get_wavepacket.

Theorem C63_into_iter :
  forall bands n data, (0 < bsize bands)%nat -> nprod (ashape data) = (bsize bands * n)%nat ->
  exists l, wavepacket_list_into_iter bands data = Some l /\ length l = bsize bands /\
    forall b w, nth_error l b = Some w -> ashape w = [n] /\ forall k, aflat w k = row n (aflat data) b k.
Proof. exact into_iter_spec. Qed.
Print Assumptions C63_into_iter.

(** Splitting a list and collecting the parts gives the list back. *)
Theorem C63_iter_round_trip :
  forall bands n data, (0 < bsize bands)%nat -> nprod (ashape data) = (bsize bands * n)%nat ->
  exists l out, wavepacket_list_into_iter bands data = Some l /\
    as_wavepacket_list (AList l) = Some (bsize bands, out) /\ ashape out = [(bsize bands * n)%nat] /\
    forall t, (t < bsize bands * n)%nat -> aflat out t = aflat data t.
Proof. exact iter_round_trip. Qed.
Print Assumptions C63_iter_round_trip.
Example C63_list_case : (0 < bsize (BFund 2))%nat /\ nprod (ashape (ones [6%nat])) = (bsize (BFund 2) * 3)%nat.
Proof. cbn. lia. Qed.

(** A generator loses its first wavepacket. *)
Theorem C63_iterator_drops_first :
  forall a l, as_wavepacket_list (AnIterator (a :: l)) =
  match l with [] => Some (0%nat, {| ashape := [0%nat]; aflat := fun _ => RtoC 0%R |}) | _ => as_wavepacket_list (AList l) end.
Proof. exact iterator_drops. Qed.
Print Assumptions C63_iterator_drops_first.

(** Fewer samples: the sample kept at [i] is the one with the same fraction. *)
Theorem C63_to_shape_keeps_fractions :
  forall old new n data, nprod (ashape data) = (nprod old * n)%nat -> divisible old new = true ->
  exists out, convert_wavepacket_to_shape old new n data = Some out /\ ashape out = [nprod new; n] /\
    forall i, in_shape i new -> exists j, in_shape j old /\ fractions old j = fractions new i /\
      forall k, (k < n)%nat -> row n (aflat out) (ravel new i) k = row n (aflat data) (ravel old j) k.
Proof. exact to_shape_spec. Qed.
Print Assumptions C63_to_shape_keeps_fractions.
Theorem C63_fractions_identify_samples :
  forall ls s s', in_shape s ls -> in_shape s' ls -> fractions ls s = fractions ls s' -> s = s'.
Proof. exact fractions_inj. Qed.
Print Assumptions C63_fractions_identify_samples.
Theorem C63_to_shape_accepts :
  forall old new, divisible old new = true <->
  length old = length new /\ forall ax, (ax < length old)%nat ->
    (0 < nth ax new 0)%nat /\ exists p, (0 < p)%nat /\ nth ax old 0%nat = (p * nth ax new 0)%nat.
Proof. exact divisible_spec. Qed.
Print Assumptions C63_to_shape_accepts.
Theorem C63_to_shape_raises :
  forall old new n data,
  (length old <> length new \/ exists ax, (ax < length old)%nat /\ forall p, nth ax old 0%nat <> (p * nth ax new 0)%nat) ->
  convert_wavepacket_to_shape old new n data = None.
Proof. exact to_shape_raises. Qed.
Print Assumptions C63_to_shape_raises.
Example C63_to_shape_case : divisible [6%nat; 4%nat] [3%nat; 2%nat] = true /\ nprod (ashape (ones [48%nat])) = (nprod [6%nat; 4%nat] * 2)%nat.
Proof. split; reflexivity. Qed.

(** The list basis of the result is of position type, for which the sample fractions are
    different ones. *)
Theorem C63_to_shape_label_refuted :
  forall same, identity_test same ->
  exists out fr, convert_wavepacket_to_shape [6%nat] [3%nat] 1 (ones [6%nat]) = Some out /\
    sample_fractions same (map BFund [3%nat]) = Some fr /\
    fr 0%nat 1%nat <> nth 0 (fractions [3%nat] [1%nat]) 0%R.
Proof. exact to_shape_label_refuted. Qed.
Print Assumptions C63_to_shape_label_refuted.
