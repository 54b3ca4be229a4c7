(** Model of the plots of wavepacket/plot.py that show the samples of a wavepacket and the energies
    of its bands.  Indices and bands are not negative; labels, scales and figures are left out.
    Arithmetic is exact.  No proofs here. *)
From Coq Require Import Reals.
From Verif Require Import ZLib Csum DFT NumPy Index Basis Lattice Operator Hamiltonian Wavepacket Paths Dynamics StateList VolumeBasis WaveLists
  Plots EffectiveMass StackedPlots.
Local Open Scope nat_scope.

(** wavepacket/plot.py:106-139 [plot_wavepacket_sample_frequencies] of samples in a basis with as many
    states as points, of shape [ls]; [inv] is the inverse of the lattice of the sample basis.  The
    basis of the wavepacket is the pair of the basis of the list and the basis of the states, so
    [util.ndim] is two and the default index is empty.  Axes that the index does not reach are kept. *)
Definition plot_wavepacket_sample_frequencies (ls : list nat) (inv : nat -> nat -> R) (axes : nat * nat) (idx : option (list nat))
    : option (list (R * R)) :=
  let nd := length ls in
  let total := nprod ls in
  let idx := match idx with None => repeat 0 (2 - 2) | Some i => i end in
  if (fst axes <? nd) && (snd axes <? nd) && (0 <? total) then
    let picked t := get_wavepacket_fundamental_sample_frequencies ls inv (nth (t / total) [fst axes; snd axes] 0) (t mod total) in
    match sliced_points 2 ls picked (None :: slice_ignoring_axes idx [fst axes; snd axes]) with
    | Some points => Some (map (fun p => (p 0, p 1)) points)
    | None => None
    end
  else None.

(** 142-180 [plot_wavepacket_eigenvalues_2d_k] of one eigenvalue per sample. *)
Definition plot_wavepacket_eigenvalues_2d_k (same : basis -> basis -> bool) (ls : list nat) (axes : list length_axis) (inv : nat -> nat -> R)
    (eigenvalue : ndarray) (a b : nat) (idx : option (list nat)) (m : plot_measure) : option mesh :=
  match get_fundamental_sample_basis axes ls with
  | Some sample => if nprod (ashape eigenvalue) =? nprod ls then plot_data_2d_k same sample inv (aflat eigenvalue) a b idx m else None
  | None => None
  end.

(** [list(range(n)) if bands is None else bands] and the selection of rows [data[bands, :]]. *)
Definition chosen_bands (nb : nat) (bands : option (list nat)) : option (list nat) :=
  match bands with
  | None => Some (seq 0 nb)
  | Some l => if forallb (fun b => b <? nb) l then Some l else None
  end.
(** One line per band, or the first exception. *)
Fixpoint band_lines {A} (f : nat -> option A) (bands : list nat) : option (list A) :=
  match bands with
  | [] => Some []
  | b :: bands =>
      match f b with
      | None => None
      | Some line => match band_lines f bands with None => None | Some lines => Some (line :: lines) end
      end
  end.

(** 197-245 [plot_uneven_wavepacket_eigenvalues_1d_k] of [nb] bands and [ns] samples: [fraction i s] is
    component [i] of the Bloch fractions of sample [s], [inv] the inverse of the matrix of lattice
    vectors, [argsort key n] what np.argsort returns. *)
Definition plot_uneven_wavepacket_eigenvalues_1d_k (argsort : (nat -> R) -> nat -> nat -> nat) (nd : nat) (inv : nat -> nat -> R)
    (nb ns : nat) (fraction : nat -> nat -> R) (eigenvalue : ndarray) (a : nat) (bands : option (list nat)) (m : plot_measure)
    : option (list (list (R * R))) :=
  if a <? nd then
    match band_lines (get_projected_bloch_phases nd inv fraction (dk_stacked inv a)) (seq 0 ns), chosen_bands nb bands, reshape eigenvalue [nb; ns] with
    | Some phases, Some bands, Some e =>
        let phase s := nth s phases 0%R in
        let order := argsort phase ns in
        band_lines (fun b => plot_data_1d ns (fun i => at2 e b (order i)) (fun i => phase (order i)) m false) bands
    | _, _, _ => None
    end
  else None.

(** 248-304 [plot_wavepacket_eigenvalues_1d_k] and 307-362 [plot_wavepacket_eigenvalues_1d_x]: [laxes]
    are the axes of the basis of the samples.  [reshape(0, -1)] raises. *)
Definition wavepacket_energies (same : basis -> basis -> bool) (nb : nat) (laxes : list basis) (axes : list length_axis) (data eigenvalue : ndarray)
    (bands : option (list nat)) : option ((nat -> nat -> C) * list nat) :=
  match convert_wavepacket_with_eigenvalues_to_basis same nb (BTuple laxes) (stacked axes) (Some (BTuple (map BFundT (map bfund laxes)))) None data eigenvalue with
  | Some (_, e) =>
      if nb =? 0 then None
      else match chosen_bands nb bands with Some bands => Some (at2 e, bands) | None => None end
  | None => None
  end.
Definition plot_wavepacket_eigenvalues_1d_k (same : basis -> basis -> bool) (nb : nat) (laxes : list basis) (axes : list length_axis)
    (inv : nat -> nat -> R) (data eigenvalue : ndarray) (a : nat) (bands : option (list nat)) (m : plot_measure) : option (list (list (R * R))) :=
  match wavepacket_energies same nb laxes axes data eigenvalue bands, get_fundamental_sample_basis axes (map bfund laxes) with
  | Some (e, bands), Some sample => band_lines (fun b => plot_data_1d_k same sample inv (e b) a None m) bands
  | _, _ => None
  end.
Definition plot_wavepacket_eigenvalues_1d_x (same : basis -> basis -> bool) (nb : nat) (laxes : list basis) (axes : list length_axis)
    (data eigenvalue : ndarray) (a : nat) (bands : option (list nat)) (m : plot_measure) : option (list (list (R * R))) :=
  match wavepacket_energies same nb laxes axes data eigenvalue bands, get_fundamental_sample_basis axes (map bfund laxes) with
  | Some (e, bands), Some sample => band_lines (fun b => plot_data_1d_x same sample (e b) a None m) bands
  | _, _ => None
  end.

(** 365-438 [plot_wavepacket_transformed_energy_1d]: the line of the bands and, with a mass, the line of
    a free particle.  [BasisUtil(basis[0]).nx_points] counts from zero. *)
Definition plot_wavepacket_transformed_energy_1d (same : basis -> basis -> bool) (hbar : R) (nb : nat) (laxes : list basis) (axes : list length_axis)
    (data eigenvalue : ndarray) (free_mass : option R) (axis : Z) (bands : option (list nat)) (m : plot_measure)
    : option (list (R * R) * option (list (R * R))) :=
  let shape := map bfund laxes in
  match convert_wavepacket_with_eigenvalues_to_basis same nb (BTuple laxes) (stacked axes) (Some (BTuple (map BFund shape))) None data eigenvalue with
  | Some (_, e) =>
      match chosen_bands nb bands, neighbour_index shape axis with
      | Some bands, Some k =>
          match plot_data_1d (length bands) (fun i => at2 e (nth i bands 0) k) (fun i => INR (nth i bands 0)) m false with
          | Some line =>
              match free_mass with
              | None => Some (line, None)
              | Some mass =>
                  match axis_length axes axis with
                  | None => None
                  | Some delta =>
                      let norm := (delta * sqrt (INR (bsize (BTuple laxes))) / (2 * PI))%R in
                      match rdiv (4 * PI * hbar ^ 2)%R (2 * mass * delta ^ 3)%R with
                      | None => None
                      | Some r => Some (line, Some (map (fun b => (INR b, (2 * INR b + 1) * (norm * r))%R) bands))
                      end
                  end
              end
          | None => None
          end
      | _, _ => None
      end
  | None => None
  end.
