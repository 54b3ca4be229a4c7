(** Model of dynamics/incoherent_propagation/isf.py and of the rest of
    dynamics/incoherent_propagation/tunnelling_matrix.py: probabilities from density matrices,
    scattering functions of simulations, rate decompositions and jump matrices.
    No proofs here. *)
From Coq Require Import Reals.
From Verif Require Import ZLib Csum DFT NumPy Index Lattice Basis Operator Kernel Reduce Dynamics.
Local Open Scope nat_scope.

(** The bases of a tunnelling simulation as python objects: a fundamental or time basis with
    [n] states, the bands of tunnelling_basis.py:31-47, or a TupleBasis of such bases. *)
Inductive site_basis := Axis (n : nat) | Bands (b : bands) | Stacked (l : list site_basis).
Fixpoint sb_n (b : site_basis) : nat :=
  match b with Axis n => n | Bands b => band_count b | Stacked l => nprod (map sb_n l) end.
(** stacked_basis.py:303-345 [__getitem__] for an index that is not negative, and [shape];
    bases that are not stacked have neither. *)
Definition sb_item (b : site_basis) (i : nat) : option site_basis :=
  match b with Stacked l => nth_error l i | _ => None end.
Definition sb_shape (b : site_basis) : option (list nat) :=
  match b with Stacked l => Some (map sb_n l) | _ => None end.

(** A dictionary with the fields "basis" and "data". *)
Record held := { hbasis : site_basis; hdata : ndarray }.

(** The matrix handed to scipy.linalg.eig: [matrix["data"].reshape(matrix["basis"].shape)];
    a basis that is not a pair gives an array that is not a matrix, which raises. *)
Definition as_matrix (m : held) : option operator :=
  match hbasis m with
  | Stacked [a; b] => Some {| orow := BFund (sb_n a); ocol := BFund (sb_n b); odata := hdata m |}
  | _ => None
  end.

(** ** tunnelling_matrix.py *)

(** 362-376 [density_matrix_as_probability]: np.real of the data; the basis is kept, although
    that of a density matrix is a pair of equal bases. *)
Definition np_real (a : ndarray) : ndarray := {| ashape := ashape a; aflat := fun t => RtoC (fst (aflat a t)) |}.
Definition density_matrix_as_probability (m : held) : held := {| hbasis := hbasis m; hdata := np_real (hdata m) |}.

(** 379-396 [density_matrix_list_as_probabilities]. *)
Definition density_matrix_list_as_probabilities (m : held) : option held :=
  match sb_item (hbasis m) 0, sb_item (hbasis m) 1 with
  | Some times, Some both =>
      match sb_item both 0 with
      | Some b => Some {| hbasis := Stacked [times; b]; hdata := np_real (hdata m) |}
      | None => None
      end
  | _, _ => None
  end.

(** 78-111 [get_jump_matrix_from_a_matrix].  The six indices need an array with at least six
    axes (with more, the assignment of an array to an element raises); negative hop shifts
    count from the end. *)
Definition get_jump_matrix_from_a_matrix (m : held) : option held :=
  match sb_item (hbasis m) 2, sb_shape (hbasis m) with
  | Some third, Some shape =>
      let nb := sb_n third in
      match reshape (hdata m) (shape ++ shape) with
      | None => None
      | Some stacked =>
          match shape ++ shape with
          | [d0; d1; d2; d3; d4; d5] =>
              match all_some (map (fun t =>
                let n0 := t / (nb * 9) in let n1 := (t / 9) mod nb in let hop := t mod 9 in
                match get_hop_shift hop 2 with
                | None => None
                | Some shift =>
                    match python_index d0 0, python_index d1 0, python_index d2 (Z.of_nat n0),
                          python_index d3 (nth 0 shift 0%Z), python_index d4 (nth 1 shift 0%Z), python_index d5 (Z.of_nat n1) with
                    | Some i0, Some i1, Some i2, Some i3, Some i4, Some i5 =>
                        Some (aflat stacked (ravel [d0; d1; d2; d3; d4; d5] [i0; i1; i2; i3; i4; i5]))
                    | _, _, _, _, _, _ => None
                    end
                end) (seq 0 (nb * nb * 9))) with
              | None => None
              | Some data =>
                  match sb_item (hbasis m) 0, sb_item (hbasis m) 1 with
                  | Some a, Some b =>
                      match sb_item a 2, sb_item b 2 with
                      | Some ba, Some bb =>
                          Some {| hbasis := Stacked [ba; bb];
                                  hdata := {| ashape := [nb * nb * 9]; aflat := fun t => nth t data (RtoC 0%R) |} |}
                      | _, _ => None
                      end
                  | _, _ => None
                  end
              end
          | _ => None
          end
      end
  | _, _ => None
  end.

(** 192-218 [resample_tunnelling_a_matrix]. *)
Definition resample_tunnelling_a_matrix (m : held) (n0 n1 n_bands : nat) : option operator :=
  match get_jump_matrix_from_a_matrix m with
  | None => None
  | Some jump =>
      match sb_item (hbasis jump) 0 with
      | Some b => get_a_matrix_from_jump_matrix (sb_n b) (hdata jump) n0 n1 (Some n_bands)
      | None => None
      end
  end.

(** ** eigenstates.py, with bases *)

(** 141-173 [get_tunnelling_simulation_state] for eigenstates of the basis [b]: the solution
    of a system of equations with a right hand side of another length raises. *)
Definition simulation_of_eigenstates (solve : solve_fn) (b : site_basis) (es : eigenstates) (initial : held)
    (nt : nat) (times : nat -> R) : option held :=
  match ashape (hdata initial) with
  | [k] =>
      if k =? es_size es then
        match get_tunnelling_simulation_state solve es (aflat (hdata initial)) nt times with
        | Some out => Some {| hbasis := Stacked [Axis nt; Stacked [b; b]]; hdata := out |}
        | None => None
        end
      else None
  | _ => None
  end.

(** 37-58 [calculate_tunnelling_eigenstates] with the basis of its states. *)
Definition eigenstates_of (eig : eig_fn) (m : held) : option (site_basis * eigenstates) :=
  match as_matrix m, sb_item (hbasis m) 0 with
  | Some M, Some b =>
      match calculate_tunnelling_eigenstates eig M with Some es => Some (b, es) | None => None end
  | _, _ => None
  end.

(** 176-199 [calculate_tunnelling_simulation_state]. *)
Definition simulation_state (eig : eig_fn) (solve : solve_fn) (m initial : held) (nt : nat) (times : nat -> R)
  : option held :=
  match eigenstates_of eig m with
  | Some (b, es) => simulation_of_eigenstates solve b es initial nt times
  | None => None
  end.

(** ** isf.py *)

(** dynamics/isf.py:64-113 [calculate_isf_approximate_locations] of probability vectors with
    their bases.  Modelled when the third axis holds the bands and there are three axes
    (anything else but more axes raises: no index 2, no unit cell). *)
Definition isf_of_occupations (inv : nat -> nat -> R) (initial final : held) (dk : nat -> R) : option (nat -> C) :=
  match sb_item (hbasis initial) 2, sb_item (hbasis initial) 0, sb_item (hbasis initial) 1, hbasis initial with
  | Some (Bands b), Some a0, Some a1, Stacked [_; _; _] =>
      let n := nprod [sb_n a0; sb_n a1; band_count b] in
      match reshape (hdata initial) [n], sb_shape (hbasis final) with
      | Some p, Some [nt; n'] =>
          match reshape (hdata final) [nt; n'] with
          | Some q =>
              if n' =? n
              then calculate_isf_approximate_locations b (sb_n a0) (sb_n a1) inv (fun x => fst (aflat p x))
                     (fun s x => fst (at2 q s x)) dk
              else None
          | None => None
          end
      | _, _ => None
      end
  | _, _, _, _ => None
  end.

(** 54-78 [calculate_isf_at_times]. *)
Definition calculate_isf_at_times (eig : eig_fn) (solve : solve_fn) (inv : nat -> nat -> R) (m initial : held)
    (nt : nat) (times : nat -> R) (dk : nat -> R) : option (nat -> C) :=
  match simulation_state eig solve m initial nt times with
  | None => None
  | Some final =>
      match density_matrix_list_as_probabilities final with
      | Some final_occupation => isf_of_occupations inv (density_matrix_as_probability initial) final_occupation dk
      | None => None
      end
  end.

(** 88-117 of eigenstates.py, [get_equilibrium_state], with its basis. *)
Definition equilibrium_of (solve : solve_fn) (b : site_basis) (es : eigenstates) : option held :=
  match get_equilibrium_state solve es with
  | Some q => Some {| hbasis := Stacked [b; b]; hdata := {| ashape := [es_size es]; aflat := q |} |}
  | None => None
  end.
(** probability_vector.py:133-157 [sum_probability] over the axes (0, 1): the data. *)
Definition sum_first_axes (p : held) : option ndarray :=
  match sb_shape (hbasis p) with Some shape => np_sum (hdata p) shape [0%Z; 1%Z] | None => None end.

(** 99-107 of [calculate_equilibrium_state_averaged_isf]: everything before its loop over the
    bands, with the occupations of the bands and their number. *)
Definition averaged_isf_occupations (eig : eig_fn) (solve : solve_fn) (m : held) : option (ndarray * nat) :=
  match eigenstates_of eig m with
  | None => None
  | Some (b, es) =>
      match equilibrium_of solve b es with
      | None => None
      | Some equilibrium =>
          match sum_first_axes (density_matrix_as_probability equilibrium), sb_shape (hbasis m) with
          | Some occupation, Some shape =>
              match nth_error shape 2 with Some bands => Some (occupation, bands) | None => None end
          | _, _ => None
          end
      end
  end.

(** 151-156 of [calculate_equilibrium_initial_state_isf]: the shape of the array for its loop
    over the bands. *)
Definition initial_state_isf_shape (eig : eig_fn) (m : held) (nt : nat) : option (list nat) :=
  match eigenstates_of eig m, sb_shape (hbasis m) with
  | Some _, Some shape =>
      match nth_error shape 2 with Some bands => Some [bands; nt; sb_n (hbasis m)] | None => None end
  | _, _ => None
  end.

(** 193-218 [get_rate_decomposition]: the fields "eigenvalues" and "coefficients". *)
Definition get_rate_decomposition (eig : eig_fn) (solve : solve_fn) (m initial : held) : option (ndarray * ndarray) :=
  match eigenstates_of eig m with
  | None => None
  | Some (_, es) =>
      match ashape (hdata initial) with
      | [k] =>
          if k =? es_size es then
            match get_operator_state_vector_decomposition solve (aflat (hdata initial)) es with
            | Some c => Some (array2 (es_size es) (es_size es) (es_state es), {| ashape := [es_size es]; aflat := c |})
            | None => None
            end
          else None
      | _ => None
      end
  end.
