(** Conversions of collections of wavepackets with eigenvalues, and the bases of their samples. *)
From Coq Require Import Reals.
From Verif Require Import ZLib Csum DFT NumPy Index Basis Operator Wavepacket Hamiltonian VolumeBasis.
Local Open Scope nat_scope.

(** wavepacket/conversion.py:159-199 [convert_wavepacket_with_eigenvalues_to_basis]: [nb] is the
    number of bands, [lb] the basis of the samples, [sb] the basis of the states; the list axis,
    then the state axis of the data are converted, and the list axis of the eigenvalues, which
    stay two-dimensional.  The conversion of an axis to its own basis object is [convert] with
    [same] true. *)
Definition convert_wavepacket_with_eigenvalues_to_basis (same : basis -> basis -> bool) (nb : nat) (lb sb : basis)
  (list_basis basis : option basis) (data eigenvalue : ndarray) : option (ndarray * ndarray) :=
  let lb' := match list_basis with None => lb | Some b => b end in
  let sb' := match basis with None => sb | Some b => b end in
  match reshape data [nb; bsize lb; bsize sb], convert same lb lb', convert same sb sb', reshape eigenvalue [nb; bsize lb] with
  | Some d, Some F, Some G, Some e =>
      Some (ravel_array (array3 nb (bsize lb') (bsize sb') (fun b i k => G (fun k' => F (fun i' => at3 d b i' k') i) k)),
            array2 nb (bsize lb') (fun b i => F (fun i' => at2 e b i') i))
  | _, _, _, _ => None
  end.

(** 202-221 [convert_wavepacket_to_position_basis]. *)
Definition convert_wavepacket_to_position_basis (same : basis -> basis -> bool) (lb : basis) (axes : list length_axis) (data : ndarray)
  : option (list length_axis * ndarray) :=
  match stacked_basis_as_fundamental_position_basis axes with
  | Some p => match convert_wavepacket same lb (stacked axes) lb (stacked p) data with Some d => Some (p, d) | None => None end
  | None => None
  end.
(** potential/conversion.py:52-71 [convert_potential_to_position_basis]. *)
Definition convert_potential_to_position_basis (same : basis -> basis -> bool) (axes : list length_axis) (data : nat -> C)
  : option (list length_axis * (nat -> C)) :=
  match stacked_basis_as_fundamental_position_basis axes with
  | Some p => match convert same (stacked axes) (stacked p) with Some F => Some (p, F data) | None => None end
  | None => None
  end.

(** [v * n] for a vector. *)
Definition scaled (n : nat) (v : list R) : list R := map (fun x => (x * INR n)%R) v.

(** wavepacket/wavepacket.py:110-131 [get_fundamental_unfurled_sample_basis_momentum]: one axis per
    offset; IndexError if there is no such axis.  [ls] is the fundamental shape of the list. *)
Fixpoint sample_axes (axes : list length_axis) (ls : list nat) (offsets : list Z) : option (list length_axis) :=
  match offsets, axes, ls with
  | [], _, _ => Some []
  | o :: offsets, a :: axes, n :: ls =>
      match sample_axes axes ls offsets with
      | Some r => Some ({| la_basis := BEvenT (bfund (la_basis a)) n o; la_delta := scaled n (la_delta a) |} :: r)
      | None => None
      end
  | _, _, _ => None
  end.
Definition get_fundamental_unfurled_sample_basis_momentum (axes : list length_axis) (ls : list nat) (offsets : option (list Z))
  : option (list length_axis) :=
  let offsets := match offsets with None => repeat 0%Z (length ls) | Some o => o end in
  match stacked_basis_as_fundamental_position_basis axes with Some p => sample_axes p ls offsets | None => None end.

(** 134-158 [get_fundamental_sample_basis]: one axis per axis of the list. *)
Fixpoint sample_basis_axes (axes : list length_axis) (ls : list nat) : option (list length_axis) :=
  match ls, axes with
  | [], _ => Some []
  | n :: ls, a :: axes =>
      match sample_basis_axes axes ls with
      | Some r => Some (momentum_axis_of (scaled n (la_delta a)) n :: r)
      | None => None
      end
  | _ :: _, [] => None
  end.
Definition get_fundamental_sample_basis (axes : list length_axis) (ls : list nat) : option (list length_axis) :=
  match stacked_basis_as_fundamental_momentum_basis axes with Some m => sample_basis_axes m ls | None => None end.
(** 218-235 [get_wavepacket_fundamental_sample_frequencies]: component [c] of the wave vector of
    sample [j]; [inv] is the inverse of the lattice of the sample basis. *)
Definition get_wavepacket_fundamental_sample_frequencies (ls : list nat) (inv : nat -> nat -> R) (c j : nat) : R :=
  fundamental_stacked_k_points ls inv c j.
