(** Model of the compiled Hamiltonian generator (lib/hamiltonian_generator/src/lib.rs:50-374) and of hamiltonian_builder/explicit_z_basis.py.  Floating point numbers are exact
    reals; the frequencies and sizes are far from the 64 bit limits, so they do not wrap.
    [None] is a panic (out of range index, division by zero) or a python exception. *)
From Coq Require Import Reals List ZArith Arith.
From Verif Require Import ZLib Csum DFT NumPy Index Lattice Basis Operator Wavepacket Hamiltonian Localize Oscillator.
Import ListNotations.
Local Open Scope nat_scope.

(** lib.rs:53-62 [x0_coordinates], [x1_coordinates]: [(0..ceil(n/2)).chain(-floor(n/2)..0)]. *)
Definition x_coordinates (n : nat) : list Z :=
  map Z.of_nat (seq 0 ((n + 1) / 2)) ++ map (fun i => Z.of_nat i - Z.of_nat (n / 2))%Z (seq 0 (n / 2)).

(** lib.rs:63-70 [coordinates]. *)
Definition coordinates (r0 r1 r2 : nat) : list (Z * Z * nat) :=
  flat_map (fun x => flat_map (fun y => map (fun z => (x, y, z)) (seq 0 r2)) (x_coordinates r1)) (x_coordinates r0).

(** An iterator mapped by a closure with mutable state (the hash map), collected in order. *)
Fixpoint map_accum {S A B} (f : S -> A -> option (S * B)) (s : S) (l : list A) : option (S * list B) :=
  match l with
  | [] => Some (s, [])
  | a :: l =>
      match f s a with
      | None => None
      | Some (s, b) =>
          match map_accum f s l with
          | None => None
          | Some (s, bs) => Some (s, b :: bs)
          end
      end
  end.

(** The hash map [g_points]. *)
Definition memo_key := (nat * nat * nat * nat)%type.
Definition memo := list (memo_key * C).
Definition key_eqb (a b : memo_key) : bool :=
  let '(a0, a1, a2, a3) := a in let '(b0, b1, b2, b3) := b in
  (a0 =? b0) && (a1 =? b1) && (a2 =? b2) && (a3 =? b3).
Fixpoint memo_get (m : memo) (k : memo_key) : option C :=
  match m with
  | [] => None
  | (k', c) :: m => if key_eqb k' k then Some c else memo_get m k
  end.

(** lib.rs:180-224 and 242-282 [calculate_off_diagonal_energies]: [body nz1 nz2 points] is the
    integral along z of the two versions. *)
Definition off_diagonal_step (body : nat -> nat -> list C -> option C) (ft : list (list (list C)))
    (c1 : Z * Z * nat) (m : memo) (c2 : Z * Z * nat) : option (memo * C) :=
  let '(nkx0_1, nkx1_1, nz1) := c1 in
  let '(nkx0_2, nkx1_2, nz2) := c2 in
  match ft with
  | [] => None
  | row :: _ =>
      let nx0 := Z.of_nat (length ft) in
      let nx1 := Z.of_nat (length row) in
      if (nx1 =? 0)%Z then None else
      let n_dkx0 := Z.to_nat ((nkx0_2 - nkx0_1) mod nx0) in
      let n_dkx1 := Z.to_nat ((nkx1_2 - nkx1_1) mod nx1) in
      match memo_get m (n_dkx0, n_dkx1, nz1, nz2) with
      | Some a => Some (m, a)
      | None =>
          match nth_error ft n_dkx0 with
          | None => None
          | Some r =>
              match nth_error r n_dkx1 with
              | None => None
              | Some points =>
                  match body nz1 nz2 points with
                  | None => None
                  | Some out => Some (((n_dkx0, n_dkx1, nz1, nz2), out) :: m, out)
                  end
              end
          end
      end
  end.
Definition off_diagonal (body : nat -> nat -> list C -> option C) (ft : list (list (list C)))
    (r0 r1 r2 : nat) : option (list (list C)) :=
  let cs := coordinates r0 r1 r2 in
  match map_accum (fun m c1 => map_accum (off_diagonal_step body ft c1) m cs) [] cs with
  | Some (_, rows) => Some rows
  | None => None
  end.

(** [ft_pot_points.iter().zip(sho1).zip(sho2).map(f).sum()]: stops at the shortest. *)
Fixpoint zip_sum {A B} (f : C -> A -> B -> C) (p : list C) (u : list A) (v : list B) : C :=
  match p, u, v with
  | a :: p, b :: u, c :: v => Cplus (f a b c) (zip_sum f p u v)
  | _, _, _ => RtoC 0%R
  end.

(** lib.rs:165-224 and 296-323, the pyfunction [calculate_off_diagonal_energies]: oscillator
    states at the points [dz * i + z_offset]. *)
Definition calculate_off_diagonal_energies (hbar : R) (ft : list (list (list C))) (r0 r1 r2 : nat)
    (dz mass omega z_offset : R) : option (list (list C)) :=
  match ft with
  | (points :: _) :: _ =>
      let z_points := map (fun i => dz * INR i + z_offset)%R (seq 0 (length points)) in
      let cache := map (fun nz => map (fun p => rust_sho_wavefunction hbar p omega mass nz) z_points) (seq 0 r2) in
      off_diagonal (fun nz1 nz2 points =>
          match nth_error cache nz1, nth_error cache nz2 with
          | Some sho1, Some sho2 =>
              Some (Cmult (zip_sum (fun i j k => Cmult (Cmult i (RtoC j)) (RtoC k)) points sho1 sho2) (RtoC dz))
          | _, _ => None
          end) ft r0 r1 r2
  | _ => if r2 =? 0 then off_diagonal (fun _ _ _ => None) ft r0 r1 r2 else None
  end.

(** lib.rs:242-282 and 325-341, the pyfunction [calculate_off_diagonal_energies2]. *)
Definition calculate_off_diagonal_energies2 (ft : list (list (list C))) (eigenstates_z : list (list C))
    (r0 r1 r2 : nat) : option (list (list C)) :=
  off_diagonal (fun nz1 nz2 points =>
      match nth_error eigenstates_z nz1, nth_error eigenstates_z nz2 with
      | Some sho1, Some sho2 => Some (zip_sum (fun i j k => Cmult (Cmult i j) (Cconj k)) points sho1 sho2)
      | _, _ => None
      end) ft r0 r1 r2.

(** lib.rs:127-141 [dk_prefactor], [dkx0], [dkx1]. *)
Definition dk_prefactor (d0 d1 : R * R) : R := (2 * PI / (fst d0 * snd d1 - snd d0 * fst d1))%R.
Definition dkx0 (d0 d1 : R * R) : R * R := (dk_prefactor d0 d1 * snd d1, - dk_prefactor d0 d1 * fst d1)%R.
Definition dkx1 (d0 d1 : R * R) : R * R := (- dk_prefactor d0 d1 * snd d0, dk_prefactor d0 d1 * fst d0)%R.

(** lib.rs:89-124 [calculate_wavefunction] and 343-374 [get_eigenstate_wavefunction], at one
    point: the sum over the pairs of [vector.iter().zip(coordinates)]. *)
Definition eigenstate_term (hbar : R) (d0 d1 : R * R) (mass omega kx ky : R) (point : R * R * R)
    (c : Z * Z * nat) : C :=
  let '(x, y, z) := point in
  let '(nkx0, nkx1, nz) := c in
  Cmult (RtoC (rust_sho_wavefunction hbar z omega mass nz))
    (cis ((IZR nkx0 * fst (dkx0 d0 d1) + IZR nkx1 * fst (dkx1 d0 d1) + kx) * x
          + (IZR nkx0 * snd (dkx0 d0 d1) + IZR nkx1 * snd (dkx1 d0 d1) + ky) * y)%R).
Definition get_eigenstate_wavefunction (hbar : R) (r0 r1 r2 : nat) (d0 d1 : R * R) (mass omega kx ky : R)
    (vector : list C) (point : R * R * R) : C :=
  fold_right (fun p acc => Cplus (Cmult (fst p) (eigenstate_term hbar d0 d1 mass omega kx ky point (snd p))) acc)
    (RtoC 0%R) (combine vector (coordinates r0 r1 r2)).

(** ** explicit_z_basis.py *)

(** [np.fft.ifft2(v, axes=(0, 1))] of an array of shape (n0, n1, nz). *)
Definition ifft2 (n0 n1 : nat) (v : nat -> nat -> nat -> C) (k0 k1 z : nat) : C :=
  Cmult (RtoC (/ (INR n0 * INR n1))%R)
    (csum (fun x0 => csum (fun x1 =>
       Cmult (v x0 x1 z) (Cmult (omega n0 (Z.of_nat k0 * Z.of_nat x0)) (omega n1 (Z.of_nat k1 * Z.of_nat x1)))) n1) n0).

(** [.tolist()] *)
Definition to_list2 {A} (n m : nat) (v : nat -> nat -> A) : list (list A) :=
  map (fun i => map (v i) (seq 0 m)) (seq 0 n).
Definition to_list3 {A} (l n m : nat) (v : nat -> nat -> nat -> A) : list (list (list A)) :=
  map (fun i => to_list2 n m (v i)) (seq 0 l).

(** explicit_z_basis.py:227-238 [subtracted_points] and [get_ft_potential]: the potential has shape
    (n0, n1, nz) and the potential of the configuration nz points. *)
Definition ft_potential (n0 n1 nz : nat) (data config : nat -> C) : nat -> nat -> nat -> C :=
  ifft2 n0 n1 (fun x0 x1 z => Cminus (data (ravel [n0; n1; nz] [x0; x1; z])) (config z)).

(** 59-80 [_get_xy_hamiltonian]: the diagonal of the kinetic energy in the basis of the first
    two axes, repeated for every z state. *)
Definition xy_hamiltonian (same : basis -> basis -> bool) (hbar : R) (r0 r1 m : nat) (inv2 : nat -> nat -> R)
    (mass : R) (frac : nat -> R) : option (nat -> C) :=
  match hamiltonian_from_mass_in_basis same hbar [BTrans r0 r0; BTrans r1 r1] inv2 mass (Some frac) with
  | None => None
  | Some h =>
      match reshape (odata h) [bsize (orow h); bsize (ocol h)] with
      | None => None
      | Some a =>
          match np_diag a with
          | Some d => Some (fun t => aflat d (t / m))
          | None => None
          end
      end
  end.

(** 97-122 the size check, 124-157 [basis], 167-192 [bloch_z_hamiltonian], 194-209
    [hamiltonian], 241-277 [total_surface_hamiltonian] and
    stacked_basis/potential_basis.py:53-79 [get_potential_basis_config_eigenstates].  The potential has [n0] x [n1] x [nz]
    points; [config] is the potential of the configuration on the same [nz] points, [m] its
    number of states.  [inv2] and [inv1] are the inverses of the matrices of length vectors of
    the first two axes (their first two components) and of the axis of the configuration. *)
Definition explicit_z_basis (n0 n1 nz r0 r1 m : nat) (vectors : nat -> nat -> C) : basis :=
  BTuple [BTrans r0 n0; BTrans r1 n1; BExpl m vectors (BFund nz)].
Definition explicit_z_hamiltonian (same : basis -> basis -> bool) (eigh : eigh_fn) (hbar : R) (n0 n1 nz : nat)
    (inv2 inv1 : nat -> nat -> R) (data : nat -> C) (frac : nat -> R) (r0 r1 : nat)
    (config : nat -> C) (mass : R) (m : nat) : option operator :=
  if n0 <? 2 * (r0 - 1) then None
  else if n1 <? 2 * (r1 - 1) then None
  else
  match total_surface_hamiltonian same hbar [BFund nz] inv1 config mass (Some (fun _ => frac 2)) with
  | None => None
  | Some hz =>
      match reshape (odata hz) [nz; nz] with None => None | Some az =>
      match calculate_eigenvectors_hermitian eigh nz (at2 az) 0 (Z.of_nat m - 1) with
      | None => None
      | Some (e, vectors) =>
          let b := explicit_z_basis n0 n1 nz r0 r1 m vectors in
          let n := bsize b in
          match calculate_off_diagonal_energies2 (to_list3 n0 n1 nz (ft_potential n0 n1 nz data config))
                  (to_list2 m nz vectors) r0 r1 m with
          | None => None
          | Some rows =>
              match xy_hamiltonian same hbar r0 r1 m inv2 mass frac with
              | None => None
              | Some xy =>
                  let diagonal (d : nat -> C) : ndarray := ravel_array (array2 n n (fun i j => if i =? j then d i else RtoC 0%R)) in
                  let z_data := array2 n n (fun i j =>
                     Cplus (if i =? j then RtoC (e (i mod m)) else RtoC 0%R) (nth j (nth i rows []) (RtoC 0%R))) in
                  add_operator {| orow := b; ocol := b; odata := diagonal xy |}
                               {| orow := b; ocol := b; odata := ravel_array z_data |}
              end
          end
      end end
  end.

(** 280-327 [total_surface_hamiltonian_as_fundamental]: the same numbers with the first two axes
    declared as fundamental; without three axes IndexError. *)
Definition explicit_z_hamiltonian_as_fundamental (same : basis -> basis -> bool) (eigh : eigh_fn) (hbar : R) (n0 n1 nz : nat)
    (inv2 inv1 : nat -> nat -> R) (data : nat -> C) (frac : nat -> R) (r0 r1 : nat)
    (config : nat -> C) (mass : R) (m : nat) : option operator :=
  match explicit_z_hamiltonian same eigh hbar n0 n1 nz inv2 inv1 data frac r0 r1 config mass m with
  | None => None
  | Some h =>
      match orow h with
      | BTuple (a :: b :: c :: _) =>
          let new_basis := BTuple [BFundT (bsize a); BFundT (bsize b); c] in
          Some {| orow := new_basis; ocol := new_basis; odata := odata h |}
      | _ => None
      end
  end.
