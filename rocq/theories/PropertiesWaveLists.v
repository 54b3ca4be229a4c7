(** Conversions of collections of wavepackets with eigenvalues, and the bases of their samples (C112). *)
From Coq Require Import Reals.
From Verif Require Import ZLib Csum DFT NumPy Index Basis SpecBasis SpecReal Operator Wavepacket SpecWavepacket VolumeBasis SpecVolumeBasis
  VolumeBasisFacts WaveLists SpecWaveLists WaveListsProofs WaveListsFacts.
Local Open Scope R_scope.
Local Open Scope C_scope.

(** convert_wavepacket_with_eigenvalues_to_basis: the list axis of states and eigenvalues and the
    axis of the states are converted with the overlaps of the basis states; bands do not mix. *)
Theorem C112_entries :
  forall same nb lb sb (lo so : option basis) data ev, identity_test same ->
  let lb' := match lo with None => lb | Some b => b end in let sb' := match so with None => sb | Some b => b end in
  bwf lb -> bwf sb -> bwf lb' -> bwf sb' -> explicit_orthonormal lb -> explicit_orthonormal sb ->
  compatible lb lb' -> compatible sb sb' ->
  nprod (ashape data) = (nb * bsize lb * bsize sb)%nat -> nprod (ashape ev) = (nb * bsize lb)%nat ->
  exists d e, convert_wavepacket_with_eigenvalues_to_basis same nb lb sb lo so data ev = Some (d, e) /\
    ashape d = [(nb * bsize lb' * bsize sb')%nat] /\ ashape e = [nb; bsize lb'] /\
    (forall b s k, (b < nb)%nat -> (s < bsize lb')%nat -> (k < bsize sb')%nat ->
       band_state (bsize lb') (bsize sb') (aflat d) b s k =
       csum (fun s' => overlap lb' lb s s' * csum (fun k' => overlap sb' sb k k' * band_state (bsize lb) (bsize sb) (aflat data) b s' k') (bsize sb)) (bsize lb)) /\
    (forall b s, (b < nb)%nat -> (s < bsize lb')%nat ->
       band_value (bsize lb') (aflat e) b s = csum (fun s' => overlap lb' lb s s' * band_value (bsize lb) (aflat ev) b s') (bsize lb)).
Proof. exact conv_some. Qed.
Print Assumptions C112_entries.
Theorem C112_raises :
  forall same nb lb sb lb' sb' data ev,
  (exists r, convert_wavepacket_with_eigenvalues_to_basis same nb lb sb (Some lb') (Some sb') data ev = Some r) <->
  compatible lb lb' /\ compatible sb sb' /\ nprod (ashape data) = (nb * bsize lb * bsize sb)%nat /\ nprod (ashape ev) = (nb * bsize lb)%nat.
Proof. exact conv_exists. Qed.
Print Assumptions C112_raises.

(** If the new list basis picks states of the old one, as when it is left out or truncated, every
    state keeps its values and its eigenvalue. *)
Theorem C112_picked_states_kept :
  forall same nb lb sb (lo so : option basis) data ev pick, identity_test same ->
  let lb' := match lo with None => lb | Some b => b end in let sb' := match so with None => sb | Some b => b end in
  bwf lb -> bwf sb -> bwf lb' -> bwf sb' -> explicit_orthonormal lb -> explicit_orthonormal sb -> full sb' ->
  compatible lb lb' -> compatible sb sb' -> picks lb lb' pick ->
  nprod (ashape data) = (nb * bsize lb * bsize sb)%nat -> nprod (ashape ev) = (nb * bsize lb)%nat ->
  exists d e, convert_wavepacket_with_eigenvalues_to_basis same nb lb sb lo so data ev = Some (d, e) /\
    forall b s, (b < nb)%nat -> (s < bsize lb')%nat ->
      band_value (bsize lb') (aflat e) b s = band_value (bsize lb) (aflat ev) b (pick s) /\
      forall x, (x < bfund sb')%nat ->
        amplitude sb' (band_state (bsize lb') (bsize sb') (aflat d) b s) x = amplitude sb (band_state (bsize lb) (bsize sb) (aflat data) b (pick s)) x.
Proof. exact conv_picks. Qed.
Print Assumptions C112_picked_states_kept.
Example C112_picks_case :
  (forall lb, bwf lb -> explicit_orthonormal lb -> picks lb lb (fun s => s)) /\
  (forall n N, (0 < n <= N)%nat -> picks (BFundT N) (BTrans n N) (fun s => slot N (freq n s)) /\ picks (BFund N) (BTrunc n N) (fun s => slot N (freq n s))).
Proof. split; [exact picks_self|exact picks_truncated]. Qed.

(** In general eigenvalues are converted like amplitudes and the results are no eigenvalues: two
    states with energies 0 and 1. *)
Example C112_states_case :
  nprod (ashape ex_states) = (1 * bsize (BFund 2) * bsize (BFund 2))%nat /\ nprod (ashape ex_values) = (1 * bsize (BFund 2))%nat /\
  (forall s, (s < 2)%nat -> eigenpair 2 ex_levels (band_state 2 2 (aflat ex_states) 0 s) (band_value 2 (aflat ex_values) 0 s)).
Proof. exact ex_states_ok. Qed.
Theorem C112_eigenpairs_refuted :
  forall same, identity_test same ->
  exists d e, convert_wavepacket_with_eigenvalues_to_basis same 1 (BFund 2) (BFund 2) (Some (BFundT 2)) None ex_states ex_values = Some (d, e) /\
    band_value 2 (aflat e) 0 0 = isqrt 2 /\ (forall k, (k < 2)%nat -> band_state 2 2 (aflat d) 0 0 k = isqrt 2) /\
    forall c, ~ eigenpair 2 ex_levels (band_state 2 2 (aflat d) 0 0) c.
Proof. exact eigenpairs_refuted. Qed.
Print Assumptions C112_eigenpairs_refuted.

(** convert_wavepacket_to_position_basis and convert_potential_to_position_basis hold the values at
    the points of the grid, for every basis. *)
Theorem C112_wavepacket_position :
  forall same d lb axes data, identity_test same -> in_space d axes -> bwf (stacked axes) -> explicit_orthonormal (stacked axes) ->
  bwf lb -> explicit_orthonormal lb -> nprod (ashape data) = (bsize lb * bsize (stacked axes))%nat ->
  let N := nprod (fundamental_shape axes) in
  exists P r, convert_wavepacket_to_position_basis same lb axes data = Some (P, r) /\ ashape r = [(bsize lb * N)%nat] /\
    forall i x, (i < bsize lb)%nat -> (x < N)%nat ->
      aflat r (i * N + x)%nat = amplitude (stacked axes) (fun k => aflat data (i * bsize (stacked axes) + k)%nat) x.
Proof. exact wavepacket_position. Qed.
Print Assumptions C112_wavepacket_position.
Theorem C112_potential_position :
  forall same d axes data, identity_test same -> in_space d axes -> bwf (stacked axes) -> explicit_orthonormal (stacked axes) ->
  exists P r, convert_potential_to_position_basis same axes data = Some (P, r) /\ stacked P = stacked_basis_as_fundamental_basis axes /\
    forall x, (x < nprod (fundamental_shape axes))%nat -> r x = amplitude (stacked axes) data x.
Proof.
  intros same d axes data Hs Hd Hw He. destruct (potential_position same d axes data Hs Hd Hw He) as [P [G [_ [SP [_ [E V]]]]]].
  exists P, (G data). split; [exact E|]. split; [exact SP|]. intros x Hx. exact (V data x Hx).
Qed.
Print Assumptions C112_potential_position.
Example C112_lattice_case : in_space 2 ex_skew /\ bwf (stacked ex_skew) /\ explicit_orthonormal (stacked ex_skew) /\
  is_inverse (length ex_skew) (lattice_of ex_skew) ex_skew_inverse.
Proof. exact ex_skew_ok. Qed.

(** get_wavepacket_fundamental_sample_frequencies: the wave vector of sample [j] advances the phase
    by the signed fraction of a turn of [j] along every lattice vector of the unit cell. *)
Theorem C112_sample_frequencies :
  forall d axes ls, in_space d axes -> length ls = length axes -> Forall (fun n => (0 < n)%nat) ls ->
  exists B, get_fundamental_sample_basis axes ls = Some B /\ stacked B = BTuple (map BFundT ls) /\
    forall inv, is_inverse (length axes) (lattice_of B) inv ->
    forall b j, (b < length axes)%nat -> (j < nprod ls)%nat ->
      rsum (fun c => get_wavepacket_fundamental_sample_frequencies ls inv c j * lattice_of axes b c)%R (length axes) =
      (2 * PI * (IZR (freq (nth b ls 0%nat) (nth b (unravel ls j) 0%nat)) / INR (nth b ls 0%nat)))%R.
Proof. exact sample_frequencies. Qed.
Print Assumptions C112_sample_frequencies.

(** get_fundamental_unfurled_sample_basis_momentum: all states of the basis at the given offsets
    obey Bloch's theorem on the supercell with these offsets as crystal momentum. *)
Theorem C112_bloch_states :
  forall d axes ls os, in_space d axes -> length ls = length axes -> length os = length axes -> bwf (stacked axes) ->
  Forall (fun n => (0 < n)%nat) ls ->
  let ss := fundamental_shape axes in
  exists B, get_fundamental_unfurled_sample_basis_momentum axes ls (Some os) = Some B /\
    map la_delta B = map2 scaled ls (map la_delta axes) /\ map (fun a => bsize (la_basis a)) B = ss /\
    fundamental_shape B = map2 Nat.mul ss ls /\
    forall k x cells, (k < nprod ss)%nat -> in_shape x (fundamental_shape B) -> length cells = length axes ->
      bstate (stacked B) k (ravel (fundamental_shape B) (moved_cells ss ls cells x)) =
      plane ls os (map Z.of_nat cells) * bstate (stacked B) k (ravel (fundamental_shape B) x).
Proof. exact unfurled_sample. Qed.
Print Assumptions C112_bloch_states.
(** With more offsets than axes it raises, with fewer the basis silently has fewer axes. *)
Theorem C112_offsets :
  forall d axes ls os, in_space d axes -> length ls = length axes ->
  ((exists B, get_fundamental_unfurled_sample_basis_momentum axes ls (Some os) = Some B) <-> (length os <= length axes)%nat) /\
  (forall B, get_fundamental_unfurled_sample_basis_momentum axes ls (Some os) = Some B -> length B = length os) /\
  get_fundamental_unfurled_sample_basis_momentum axes ls None = get_fundamental_unfurled_sample_basis_momentum axes ls (Some (repeat 0%Z (length ls))).
Proof. exact unfurled_sample_offsets. Qed.
Print Assumptions C112_offsets.
