(** Properties of Bloch states with eigenvalues (C99). *)
From Coq Require Import Reals.
From Verif Require Import ZLib Csum DFT NumPy Index Spec Basis SpecBasis Operator SpecOperator Wavepacket SpecWavepacket
  BlochBasis SpecBloch BlochFacts BlochEnergies SpecBlochEnergy BlochEnergyProofs BlochEnergyProofs2 BlochEnergyFacts.
Local Open Scope R_scope.
Local Open Scope C_scope.

(** ** C99 *)

(** The states of C98 (two bands, two samples, two points per cell) with the energies 0, 1,
    2, 3 and a state at one point of the supercell. *)
Example C99_nonvacuous : nprod (ashape ex_energies) = (2 * nprod [2%nat])%nat /\
  (forall r, (r < 2 * nprod [2%nat])%nat -> exists e, aflat ex_energies r = RtoC e /\ (0 <= e <= 3)%R) /\
  2%nat = nprod (map bfund ex_bloch_axes) /\ bwf (BFund 4) /\
  bfund (BFund 4) = nprod (supercell [2%nat] (map bfund ex_bloch_axes)) /\
  inner_product 4 (amplitude (BFund 4) (fun k => if Nat.eqb k 1 then 1 else 0)) (amplitude (BFund 4) (fun k => if Nat.eqb k 1 then 1 else 0)) = 1.
Proof. exact ex_energies_fact. Qed.
Example C99_slices : slice_rows 5 (Some 4%Z) (Some 0%Z) (Some (-2)%Z) = Some [4%nat; 2%nat] /\
  slice_rows 5 (Some 1%Z) (Some (-1)%Z) (Some 2%Z) = Some [1%nat; 3%nat].
Proof. exact ex_slices. Qed.

(** One state per sample, in the order of the samples: what [get_wavepacket_state_vector]
    returns, the Bloch wave of the sample. *)
Theorem C99_all_states_are_the_bloch_waves :
  forall (same : basis -> basis -> bool), identity_test same ->
  forall (ls : list nat) (saxes : list basis) (d : ndarray),
    Forall (fun n => (0 < n)%nat) ls -> bwf (BTuple saxes) -> explicit_orthonormal (BTuple saxes) ->
    length ls = length saxes -> nprod (ashape d) = (nprod ls * bsize (BTuple saxes))%nat ->
    let F := supercell ls (map bfund saxes) in
    exists l, get_all_wavepacket_states same (map BFundT ls) saxes d = Some l /\ length l = nprod ls /\
      forall i b0, (i < nprod ls)%nat -> let bv := nth i l b0 in
        get_wavepacket_state_vector same (map BFundT ls) saxes d (Z.of_nat i) = Some bv /\
        map bfund (fst bv) = F /\ ashape (snd bv) = [bsize (BTuple (fst bv))] /\
        forall x, in_shape x F -> amplitude (BTuple (fst bv)) (aflat (snd bv)) (ravel F x) = bloch_wave ls saxes d i x.
Proof. exact (fun same Hs ls saxes d Hls Hw He Hl => all_states_waves same Hs ls saxes Hls Hw He Hl d). Qed.
Print Assumptions C99_all_states_are_the_bloch_waves.

(** [get_all_eigenstates] raises for every wavepacket whose states have more than one
    point. *)
Theorem C99_all_eigenstates_raises :
  forall (same : basis -> basis -> bool) (ls : list nat) (saxes : list basis) (d eig : ndarray),
    Forall (fun n => (0 < n)%nat) ls -> nprod (map bfund saxes) <> 1%nat ->
    get_all_eigenstates same (map BFundT ls) saxes d eig = None.
Proof. exact (fun same ls saxes d eig Hls => all_eigenstates_raise same ls saxes Hls d eig). Qed.
Print Assumptions C99_all_eigenstates_raises.

(** And with it the localisation by the position operator, in all three forms, whatever
    they would do with the eigenstates. *)
Theorem C99_position_localisation_raises :
  forall (A B : Type) (same : basis -> basis -> bool) (ws : list wavepacket_eig)
    (finish : list (list basis * C * C) -> option (list A))
    (finish_many : list (list (list basis * C * C)) -> option B) (finish_individual : list A -> option B),
    (exists w ls, In w ws /\ w_list w = map BFundT ls /\ Forall (fun n => (0 < n)%nat) ls /\
       nprod (map bfund (w_state w)) <> 1%nat) ->
    (exists w, In w ws /\ localize_position_operator same finish w = None) /\
    localize_position_operator_many_band same finish_many ws = None /\
    localize_position_operator_individual same finish finish_individual ws = None.
Proof.
  intros A B same ws f f1 f2 H. split; [|split].
  - destruct H as [w [ls [Hi [E [Hls Hn]]]]]. exists w. split; [exact Hi|]. exact (localize_raises same f w ls E Hls Hn).
  - exact (localize_many_raises same f1 ws H).
  - exact (localize_individual_raises same f f2 ws H).
Qed.
Print Assumptions C99_position_localisation_raises.

(** The energy of a state of the supercell under the full Bloch Hamiltonian: the eigenvalues
    weighted with the squared components along the Bloch waves. *)
Theorem C99_energy_of_a_state :
  forall (same : basis -> basis -> bool), identity_test same ->
  forall (nb : nat) (ls : list nat) (saxes : list basis) (d eig : ndarray) (sb : basis) (v : nat -> C),
    Forall (fun n => (0 < n)%nat) ls -> bwf (BTuple saxes) -> explicit_orthonormal (BTuple saxes) ->
    length ls = length saxes ->
    nprod (ashape d) = (nb * nprod ls * bsize (BTuple saxes))%nat -> nprod (ashape eig) = (nb * nprod ls)%nat ->
    bwf sb -> bfund sb = nprod (supercell ls (map bfund saxes)) ->
    bloch_energy same nb ls saxes d eig sb v =
      Some (csum (fun r => aflat eig r * RtoC (Cnorm2 (bloch_component ls saxes d (amplitude sb v) r))) (nb * nprod ls)).
Proof. exact (fun same Hs nb ls saxes d eig sb v Hls Hw He Hl => energy_spec same Hs nb ls saxes Hls Hw He Hl d eig sb v). Qed.
Print Assumptions C99_energy_of_a_state.

(** A Bloch wave has its own eigenvalue as its energy. *)
Theorem C99_energy_of_a_bloch_wave :
  forall (same : basis -> basis -> bool), identity_test same ->
  forall (nb : nat) (ls : list nat) (saxes : list basis) (d eig : ndarray) (sb : basis) (v : nat -> C) (r : nat),
    Forall (fun n => (0 < n)%nat) ls -> bwf (BTuple saxes) -> explicit_orthonormal (BTuple saxes) ->
    length ls = length saxes ->
    let F := supercell ls (map bfund saxes) in
    nprod (ashape d) = (nb * nprod ls * bsize (BTuple saxes))%nat -> nprod (ashape eig) = (nb * nprod ls)%nat ->
    bands_orthonormal nb ls saxes d -> bwf sb -> bfund sb = nprod F -> (r < nb * nprod ls)%nat ->
    (forall x, in_shape x F -> amplitude sb v (ravel F x) = bloch_wave ls saxes d r x) ->
    bloch_energy same nb ls saxes d eig sb v = Some (aflat eig r).
Proof. exact (fun same Hs nb ls saxes d eig sb v r Hls Hw He Hl => energy_bloch_state same Hs nb ls saxes Hls Hw He Hl d eig sb v r). Qed.
Print Assumptions C99_energy_of_a_bloch_wave.

(** With as many bands as points of the cell, the energy of a normalised state lies between
    the bounds of the eigenvalues. *)
Theorem C99_energy_bounds :
  forall (same : basis -> basis -> bool), identity_test same ->
  forall (nb : nat) (ls : list nat) (saxes : list basis) (d eig : ndarray) (sb : basis) (v : nat -> C) (lo hi : R),
    Forall (fun n => (0 < n)%nat) ls -> bwf (BTuple saxes) -> explicit_orthonormal (BTuple saxes) ->
    length ls = length saxes ->
    let F := supercell ls (map bfund saxes) in
    nprod (ashape d) = (nb * nprod ls * bsize (BTuple saxes))%nat -> nprod (ashape eig) = (nb * nprod ls)%nat ->
    bands_orthonormal nb ls saxes d -> nb = nprod (map bfund saxes) -> bwf sb -> bfund sb = nprod F ->
    (forall r, (r < nb * nprod ls)%nat -> exists e : R, aflat eig r = RtoC e /\ (lo <= e <= hi)%R) ->
    inner_product (nprod F) (amplitude sb v) (amplitude sb v) = 1 ->
    exists e : R, bloch_energy same nb ls saxes d eig sb v = Some (RtoC e) /\ (lo <= e <= hi)%R.
Proof. exact (fun same Hs nb ls saxes d eig sb v lo hi Hls Hw He Hl => energy_bounds same Hs nb ls saxes Hls Hw He Hl d eig sb v lo hi). Qed.
Print Assumptions C99_energy_bounds.

(** The average eigenvalue of every band is the mean over the samples. *)
Theorem C99_average_eigenvalues :
  forall (bands samples : basis) (eig : ndarray), nprod (ashape eig) = (bsize bands * bsize samples)%nat ->
  exists out, get_average_eigenvalues bands samples eig = Some (bands, out) /\ ashape out = [bsize bands] /\
    forall b, (b < bsize bands)%nat ->
      aflat out b = csum (fun s => aflat eig (b * bsize samples + s)%nat) (bsize samples) / RtoC (INR (bsize samples)).
Proof. exact average_eigenvalues_bands. Qed.
Print Assumptions C99_average_eigenvalues.

(** A slice of bands, for every start, stop and step: the selected bands in that order,
    each with its own eigenvalues. *)
Theorem C99_slice_keeps_eigenvalues :
  forall (nb ns m : nat) (d eig : ndarray) (start stop step : option Z), (0 < nb)%nat -> step <> Some 0%Z ->
  nprod (ashape d) = (nb * (ns * m))%nat -> nprod (ashape eig) = (nb * ns)%nat ->
  exists rows d' eig', get_wavepackets_with_eigenvalues nb d eig start stop step = Some (length rows, d', eig') /\
    selects nb start stop step rows /\
    ashape d' = [(length rows * (ns * m))%nat] /\ ashape eig' = [(length rows * ns)%nat] /\
    forall k s, (k < length rows)%nat -> (s < ns)%nat ->
      (forall j, (j < m)%nat -> aflat d' ((k * ns + s) * m + j)%nat = aflat d ((nth k rows 0 * ns + s) * m + j)%nat) /\
      aflat eig' (k * ns + s)%nat = aflat eig (nth k rows 0 * ns + s)%nat.
Proof. exact slice_with_eigenvalues. Qed.
Print Assumptions C99_slice_keeps_eigenvalues.

(** One band: its states and its eigenvalues; negative indices count from the end, others
    out of range raise. *)
Theorem C99_wavepacket_at_band :
  forall (nb ns m : nat) (d eig : ndarray) (idx : Z), (0 < nb)%nat ->
  nprod (ashape d) = (nb * (ns * m))%nat -> nprod (ashape eig) = (nb * ns)%nat ->
  ((- Z.of_nat nb <= idx < Z.of_nat nb)%Z ->
   exists b d' eig', get_wavepacket_at_band nb d eig idx = Some (d', eig') /\ (b < nb)%nat /\ Z.of_nat b = counted nb idx /\
     ashape d' = [(ns * m)%nat] /\ ashape eig' = [ns] /\
     forall s, (s < ns)%nat ->
       (forall j, (j < m)%nat -> aflat d' (s * m + j)%nat = aflat d ((b * ns + s) * m + j)%nat) /\
       aflat eig' s = aflat eig (b * ns + s)%nat) /\
  (~ (- Z.of_nat nb <= idx < Z.of_nat nb)%Z -> get_wavepacket_at_band nb d eig idx = None).
Proof. exact at_band_spec. Qed.
Print Assumptions C99_wavepacket_at_band.
