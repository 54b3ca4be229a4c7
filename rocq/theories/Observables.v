(** Model of the observables of lists of states in state_vector/plot.py and of the expectation
    values in state_vector/eigenstate_calculation.py they are computed with.  The basis of the
    states is stacked, with the axes [axes] and lattice vectors [delta]; [shape] is its
    fundamental shape.  Arithmetic is exact.  No proofs here. *)
From Coq Require Import Reals.
From Verif Require Import ZLib Csum DFT NumPy Index Basis Operator Lattice Wavepacket StateList Hamiltonian Brillouin.
Local Open Scope nat_scope.

(** operator/conversion.py:57-73 [convert_diagonal_operator_to_basis]. *)
Definition convert_diagonal_operator_to_basis (same : basis -> basis -> bool) (o : operator) (row col : basis) : option operator :=
  match as_operator o with
  | Some full => convert_operator_to_basis same full row col
  | None => None
  end.

(** eigenstate_calculation.py:156-186 [calculate_expectation_list]. *)
Definition calculate_expectation_list (same : basis -> basis -> bool) (o : operator) (s : state_list)
  : option (basis * (nat -> C)) :=
  let b := sbasis s in
  match convert_operator_to_basis same o b b with
  | None => None
  | Some c =>
      match as_matrix s, reshape (odata c) [bsize (orow c); bsize (ocol c)] with
      | Some m, Some a =>
          Some (slist s, fun i => csum (fun j => csum (fun k =>
            Cmult (Cmult (Cconj (at2 m i j)) (at2 a j k)) (at2 m i k)) (bsize b)) (bsize b))
      | _, _ => None
      end
  end.

(** The product of one-dimensional arrays of lengths [n] and [m]. *)
Definition multiply_vectors (n : nat) (x : nat -> R) (m : nat) (y : nat -> R) : option (nat * (nat -> R)) :=
  if n =? m then Some (n, fun i => (x i * y i)%R)
  else if m =? 1 then Some (n, fun i => (x i * y 0%nat)%R)
  else if n =? 1 then Some (m, fun i => (x 0%nat * y i)%R)
  else None.

(** plot.py:927-961 [get_periodic_x_operator]; the sum over the axes fails for a direction with
    another number of entries. *)
Definition periodic_phase (shape : list nat) (direction : list Z) (x : nat) : R :=
  (2 * PI * rsum (fun i => IZR (stacked_nx_points shape i x) * (IZR (nth i direction 0%Z) / INR (nth i shape 0%nat))) (length shape))%R.
Definition get_periodic_x_operator (same : basis -> basis -> bool) (axes : list basis) (direction : option (list Z))
  : option operator :=
  let shape := map bfund axes in
  let direction := match direction with Some d => d | None => map (fun _ => 1%Z) axes end in
  if List.length direction =? List.length axes then
    convert_diagonal_operator_to_basis same
      {| orow := as_fundamental_position axes; ocol := as_fundamental_position axes;
         odata := {| ashape := [nprod shape]; aflat := fun x => cis (periodic_phase shape direction x) |} |}
      (BTuple axes) (BTuple axes)
  else None.

(** 964-982 [_get_periodic_x]. *)
Definition get_periodic_x (same : basis -> basis -> bool) (axes : list basis) (s : state_list) (direction : option (list Z))
  : option (basis * (nat -> C)) :=
  match get_periodic_x_operator same axes direction with
  | Some o => calculate_expectation_list same o s
  | None => None
  end.

(** np.angle. *)
Definition np_angle (z : C) : R :=
  if Req_EM_T (Cmod z) 0 then 0%R
  else if Rle_dec 0 (snd z) then acos (fst z / Cmod z)%R else (- acos (fst z / Cmod z))%R.

(** The direction of one axis. *)
Definition axis_direction (ndim axis : nat) : list Z := map (fun i => if i =? axis then 1%Z else 0%Z) (seq 0 ndim).

(** 988-1002 [_get_average_x_periodic]: the angles, one per state, times the vector of the axis,
    with one entry per dimension. *)
Definition get_average_x_periodic (same : basis -> basis -> bool) (axes : list basis) (delta : nat -> nat -> R)
    (s : state_list) (axis : nat) : option (basis * (nat * (nat -> R))) :=
  let ndim := List.length axes in
  match get_periodic_x same axes s (Some (axis_direction ndim axis)) with
  | None => None
  | Some (lb, e) =>
      if axis <? ndim then
        match multiply_vectors (bsize lb) (fun i => rmod (np_angle (e i)) (2 * PI)) ndim (delta axis) with
        | Some (n, v) => Some (lb, (n, fun i => (v i / (2 * PI))%R))
        | None => None
        end
      else None
  end.

(** np.unwrap of one row, with the default period and discontinuity. *)
Definition unwrap_step (dd : R) : R :=
  if Rlt_dec (Rabs dd) PI then 0%R
  else
    let ddmod := (rmod (dd + PI) (2 * PI) - PI)%R in
    let ddmod := if Req_EM_T ddmod (- PI)%R then (if Rlt_dec 0 dd then PI else ddmod) else ddmod in
    (ddmod - dd)%R.
Definition np_unwrap (p : nat -> R) (i : nat) : R := (p i + rsum (fun j => unwrap_step (p (S j) - p j)) i)%R.

(** 1005-1025 [_get_restored_x] of states with a list basis of [rows] rows and [cols] times. *)
Definition get_restored_x (same : basis -> basis -> bool) (axes : list basis) (delta : nat -> nat -> R)
    (s : state_list) (rows cols axis : nat) : option (basis * (nat * (nat -> nat -> R))) :=
  let ndim := List.length axes in
  match get_periodic_x same axes s (Some (axis_direction ndim axis)) with
  | None => None
  | Some (lb, e) =>
      if (axis <? ndim) && (bsize lb =? rows * cols) then
        let row r := multiply_vectors cols (np_unwrap (fun i => np_angle (e (r * cols + i)))) ndim (delta axis) in
        match row 0 with
        | Some (n, _) => Some (lb, (n, fun r i => match row r with Some (_, v) => (v i / (2 * PI))%R | None => 0%R end))
        | None => None
        end
      else None
  end.

(** 1059-1080 [_get_x_operator] and 1247-1268 [_get_k_operator]: the vector of the axis, with one
    entry per dimension, times the numbers of the points. *)
Definition get_x_operator (same : basis -> basis -> bool) (axes : list basis) (delta : nat -> nat -> R) (axis : nat)
  : option operator :=
  let shape := map bfund axes in
  if axis <? List.length axes then
    match multiply_vectors (List.length axes) (dx_stacked shape delta axis) (nprod shape)
                           (fun x => IZR (stacked_nx_points shape axis x)) with
    | Some (n, v) =>
        convert_diagonal_operator_to_basis same
          {| orow := as_fundamental_position axes; ocol := as_fundamental_position axes;
             odata := {| ashape := [n]; aflat := fun x => RtoC (v x) |} |} (BTuple axes) (BTuple axes)
    | None => None
    end
  else None.
Definition get_k_operator (same : basis -> basis -> bool) (axes : list basis) (inv : nat -> nat -> R) (axis : nat)
  : option operator :=
  let shape := map bfund axes in
  if axis <? List.length axes then
    match multiply_vectors (List.length axes) (dk_stacked inv axis) (nprod shape)
                           (fun x => IZR (stacked_nk_points shape axis x)) with
    | Some (n, v) =>
        convert_diagonal_operator_to_basis same
          {| orow := as_fundamental_transformed axes; ocol := as_fundamental_transformed axes;
             odata := {| ashape := [n]; aflat := fun x => RtoC (v x) |} |} (BTuple axes) (BTuple axes)
    | None => None
    end
  else None.

(** 1083-1100 [_get_average_x] and 1271-1288 [_get_average_k]. *)
Definition get_average_x (same : basis -> basis -> bool) (axes : list basis) (delta : nat -> nat -> R) (s : state_list) (axis : nat)
  : option (basis * (nat -> C)) :=
  match get_x_operator same axes delta axis with Some o => calculate_expectation_list same o s | None => None end.
Definition get_average_k (same : basis -> basis -> bool) (axes : list basis) (inv : nat -> nat -> R) (s : state_list) (axis : nat)
  : option (basis * (nat -> C)) :=
  match get_k_operator same axes inv axis with Some o => calculate_expectation_list same o s | None => None end.

(** The states divided by their norms, which [_get_x_spread] stores in its argument.  Nothing is
    returned if a state vanishes, where numpy produces nan. *)
Definition state_norm (s : state_list) (i : nat) : R :=
  sqrt (rsum (fun k => Cnorm2 (aflat (sdata s) (i * bsize (sbasis s) + k))) (bsize (sbasis s))).
Definition normalise_states (s : state_list) : option state_list :=
  match as_matrix s with
  | None => None
  | Some m =>
      if forallb (fun i => if Req_EM_T (state_norm s i) 0 then false else true) (seq 0 (bsize (slist s))) then
        Some {| slist := slist s; sbasis := sbasis s;
                sdata := ravel_array (array2 (bsize (slist s)) (bsize (sbasis s))
                           (fun i k => Cdiv (at2 m i k) (RtoC (state_norm s i)))) |}
      else None
  end.

(** 1132-1170 [_get_x_spread]: the new states and the spreads; [None] is an infinite spread. *)
Definition vector_length (ndim : nat) (v : nat -> R) : R := sqrt (rsum (fun c => (v c * v c)%R) ndim).
Definition spread_of (q norm : R) : option R :=
  if Req_EM_T norm 0 then None else Some (sqrt (- (4 / (q * q)) * ln norm))%R.
Definition get_x_spread (same : basis -> basis -> bool) (axes : list basis) (delta : nat -> nat -> R) (s : state_list) (axis : nat)
  : option (state_list * (basis * (nat -> option R))) :=
  let ndim := List.length axes in
  match normalise_states s with
  | None => None
  | Some s' =>
      match get_periodic_x same axes s' (Some (axis_direction ndim axis)) with
      | None => None
      | Some (lb, e) =>
          if axis <? ndim then
            let q := (2 * PI / vector_length ndim (delta axis))%R in
            Some (s', (lb, fun i => spread_of q (Cmod (e i))))
          else None
      end
  end.

(** 1173-1200 [get_coherent_coordinates]: x0, k0 and sigma0 of every state. *)
Definition get_coherent_coordinates (same : basis -> basis -> bool) (axes : list basis) (delta inv : nat -> nat -> R)
    (s : state_list) (axis : nat) : option (nat * (nat -> R) * (nat -> C) * (nat -> option R)) :=
  match get_x_spread same axes delta s axis with
  | None => None
  | Some (s', (_, sigma)) =>
      match get_average_x_periodic same axes delta s' axis, get_average_k same axes inv s' axis with
      | Some (_, (n, x0)), Some (_, k0) => Some (n, x0, k0, sigma)
      | _, _ => None
      end
  end.
