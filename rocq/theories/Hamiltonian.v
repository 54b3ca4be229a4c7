(** Model of potential/potential.py, potential/conversion.py and
    hamiltonian_builder/momentum_basis.py.  Exact real arithmetic.  No proofs here.

    The length vectors of the axes are the rows of [delta] (delta_x_stacked) and [inv] is
    what [np.linalg.inv(delta_x_stacked)] returned; the number of axes is the number of
    spatial components, since the inverse exists only for square matrices. *)
From Coq Require Import Reals.
From Verif Require Import ZLib Csum DFT NumPy Index Lattice Basis Operator Wavepacket.
Local Open Scope nat_scope.

(** basis/util.py:445-456 [dk_stacked] and [fundamental_dk_stacked]: component [c] of the
    reciprocal vector of axis [a], 2 pi (inv delta).T. *)
Definition dk_stacked (inv : nat -> nat -> R) (a c : nat) : R := (2 * PI * inv c a)%R.

(** basis/util.py:362-367 [fundamental_stacked_k_points] of axes with fundamental shape
    [shape]: component [c] of momentum [i]. *)
Definition fundamental_stacked_k_points (shape : list nat) (inv : nat -> nat -> R) (c i : nat) : R :=
  tensordot00 (length shape) (dk_stacked inv) (fun a => IZR (stacked_nk_points shape a i)) c.

(** ** hamiltonian_builder/momentum_basis.py *)

(** 67-101 [hamiltonian_from_mass]: a diagonal operator in the fundamental momentum basis.
    [None] as Bloch fraction means zero. *)
Definition mass_energy (hbar : R) (shape : list nat) (inv : nat -> nat -> R) (mass : R)
    (bloch_fraction : option (nat -> R)) (i : nat) : R :=
  let bloch_fraction := match bloch_fraction with None => fun _ => 0%R | Some f => f end in
  let bloch_phase := tensordot00 (length shape) (dk_stacked inv) bloch_fraction in
  let k_points c := (fundamental_stacked_k_points shape inv c i + bloch_phase c)%R in
  rsum (fun c => (hbar * k_points c) * (hbar * k_points c) / (2 * mass))%R (length shape).
Definition hamiltonian_from_mass (hbar : R) (axes : list basis) (inv : nat -> nat -> R) (mass : R)
    (bloch_fraction : option (nat -> R)) : operator :=
  let b := as_fundamental_transformed axes in
  {| orow := b; ocol := b;
     odata := {| ashape := [nprod (map bfund axes)];
                 aflat := fun i => RtoC (mass_energy hbar (map bfund axes) inv mass bloch_fraction i) |} |}.

(** 104-124 [hamiltonian_from_mass_in_basis]. *)
Definition hamiltonian_from_mass_in_basis (same : basis -> basis -> bool) (hbar : R) (axes : list basis)
    (inv : nat -> nat -> R) (mass : R) (bloch_fraction : option (nat -> R)) : option operator :=
  match as_operator (hamiltonian_from_mass hbar axes inv mass bloch_fraction) with
  | Some o => convert_operator_to_basis same o (BTuple axes) (BTuple axes)
  | None => None
  end.

(** potential/conversion.py:33-49 [convert_potential_to_basis] of a potential in the stacked
    basis with the given axes. *)
Definition convert_potential_to_basis (same : basis -> basis -> bool) (axes : list basis) (b : basis)
    (data : nat -> C) : option ndarray :=
  match convert same (BTuple axes) b with
  | Some F => Some {| ashape := [bsize b]; aflat := F data |}
  | None => None
  end.

(** 41-64 [hamiltonian_from_potential]. *)
Definition hamiltonian_from_potential (same : basis -> basis -> bool) (axes : list basis)
    (data : nat -> C) : option operator :=
  let p := as_fundamental_position axes in
  match convert_potential_to_basis same axes p data with
  | None => None
  | Some converted =>
      match np_diag converted with
      | None => None
      | Some d =>
          convert_operator_to_basis same {| orow := p; ocol := p; odata := ravel_array d |}
            (BTuple axes) (BTuple axes)
      end
  end.

(** 127-148 [total_surface_hamiltonian]. *)
Definition total_surface_hamiltonian (same : basis -> basis -> bool) (hbar : R) (axes : list basis)
    (inv : nat -> nat -> R) (data : nat -> C) (mass : R) (bloch_fraction : option (nat -> R))
  : option operator :=
  match hamiltonian_from_potential same axes data with
  | None => None
  | Some potential_hamiltonian =>
      match hamiltonian_from_mass_in_basis same hbar axes inv mass bloch_fraction with
      | None => None
      | Some kinetic_hamiltonian => add_operator kinetic_hamiltonian potential_hamiltonian
      end
  end.

(** ** potential/conversion.py *)

(** 77-124 [get_continuous_potential]: the value of the returned function at the point with
    components [x]. *)
Definition fourier_series (shape : list nat) (inv : nat -> nat -> R) (data : nat -> C) (x : nat -> R) : C :=
  csum (fun j =>
      let phase := rsum (fun c => fundamental_stacked_k_points shape inv c j * x c)%R (length shape) in
      Cmult (data j) (Cdiv (cis phase) (RtoC (sqrt (INR (nprod shape))))))
    (nprod shape).
Definition get_continuous_potential (same : basis -> basis -> bool) (axes : list basis)
    (inv : nat -> nat -> R) (data : nat -> C) : option ((nat -> R) -> C) :=
  match convert_potential_to_basis same axes (as_fundamental_transformed axes) data with
  | None => None
  | Some converted => Some (fourier_series (map bfund axes) inv (aflat converted))
  end.

(** 127-140 [get_potential_derivative]: data in the fundamental momentum basis.  There
    [k_points] equals [fundamental_stacked_k_points], because every axis of that basis has
    as many states as points; a component outside the number of axes raises IndexError
    (negative numbers count from the end). *)
Definition get_potential_derivative (same : basis -> basis -> bool) (axes : list basis)
    (inv : nat -> nat -> R) (data : nat -> C) (axis : Z) : option ndarray :=
  match convert_potential_to_basis same axes (as_fundamental_transformed axes) data,
        python_index (length axes) axis with
  | Some converted, Some c =>
      Some {| ashape := ashape converted;
              aflat := fun j =>
                Cmult (Cmult Ci (RtoC (fundamental_stacked_k_points (map bfund axes) inv c j)))
                      (aflat converted j) |}
  | _, _ => None
  end.

(** ** potential/potential.py *)

(** numpy orders complex numbers by real part, then imaginary part. *)
Definition clt (a b : C) : bool :=
  if Rlt_dec (fst a) (fst b) then true
  else if Rlt_dec (fst b) (fst a) then false
  else if Rlt_dec (snd a) (snd b) then true else false.

(** [points.min()]; ValueError for an empty array. *)
Fixpoint array_min_from (m : C) (v : nat -> C) (n : nat) : C :=
  match n with
  | 0 => m
  | S n => let m := array_min_from m v n in if clt (v n) m then v n else m
  end.
Definition array_min (n : nat) (v : nat -> C) : option C :=
  match n with 0 => None | S _ => Some (array_min_from (v 0) v n) end.

(** 189-203 [normalize_potential] of a potential with [n] points. *)
Definition normalize_potential (n : nat) (v : nat -> C) : option (nat -> C) :=
  match array_min n v with
  | None => None
  | Some m => Some (fun i => Cminus (v i) m)
  end.

(** [x ** (1 / n)] for a real x: ZeroDivisionError for n = 0; for n = 1 the exponent is
    1.0 and the result x.  For negative x and n >= 2 the result is not a real number (nan
    for float64 data, a complex root for complex128 data), which is not modelled: [None]. *)
Definition nth_root (n : nat) (x : R) : option R :=
  match n with
  | 0 => None
  | 1 => Some x
  | _ => if Rlt_dec x 0 then None
         else if Rlt_dec 0 x then Some (Rpower x (1 / INR n)) else Some 0%R
  end.

(** 206-224 [truncate_potential], at one real energy.  [None]: the logarithm is not a
    finite real number, or [nth_root] fails, or the cutoff is zero. *)
Definition truncate_potential (cutoff : R) (n : nat) (offset : R) (E : R) : option R :=
  if Req_EM_T cutoff 0 then None else
  let y := (1 + ((E + offset) / cutoff) ^ n)%R in
  if Rlt_dec 0 y then
    match nth_root n (ln y) with
    | Some r => Some (cutoff * r - offset)%R
    | None => None
    end
  else None.

(** 227-232 [undo_truncate_potential]. *)
Definition undo_truncate_potential (cutoff : R) (n : nat) (offset : R) (d : R) : option R :=
  if Req_EM_T cutoff 0 then None else
  match nth_root n (exp ((d + offset) / cutoff) - 1)%R with
  | Some r => Some (cutoff * r - offset)%R
  | None => None
  end.
