(** Model of the averages over pairs of times in state_vector/plot.py.  Positions and
    wavenumbers are real numbers, in one row per trajectory and one column per time; a row is a
    function of the time.  No proofs here. *)
From Coq Require Import Reals.
From Verif Require Import ZLib Csum DFT NumPy TimeBasis.
Local Open Scope nat_scope.

(** scipy.signal.correlate(x, y, mode="full")[k] of two arrays of [n] real numbers:
    the sum over l of x[l] y[l - k + n - 1]. *)
Definition correlate_full (n : nat) (x y : nat -> R) (k : nat) : R :=
  rsum (fun l => if (k <=? l + n - 1) && (l + n - 1 - k <? n) then (x l * y (l + n - 1 - k)%nat)%R else 0%R) n.

(** 1525-1540 [_calculate_total_offsset_multiplications_real]: entry [d] of the slice. *)
Definition offset_products_real (n : nat) (lhs rhs : nat -> R) (d : nat) : R := correlate_full n lhs rhs (n - 1 + d).

(** 1543-1563 [_calculate_total_offsset_multiplications_complex]. *)
Definition offset_products_complex (n : nat) (lhs rhs : nat -> C) (d : nat) : C :=
  let re_re := offset_products_real n (fun i => fst (lhs i)) (fun i => fst (rhs i)) d in
  let re_im := offset_products_real n (fun i => fst (lhs i)) (fun i => snd (rhs i)) d in
  let im_re := offset_products_real n (fun i => snd (lhs i)) (fun i => fst (rhs i)) d in
  let im_im := offset_products_real n (fun i => snd (lhs i)) (fun i => snd (rhs i)) d in
  (re_re - im_im, re_im + im_re)%R.

(** np.cumsum, and a[::-1] of [n] entries. *)
Definition cumsum (x : nat -> R) (k : nat) : R := rsum x (S k).
Definition reversed {A} (n : nat) (x : nat -> A) (k : nat) : A := x (n - 1 - k).

(** Row [r] of flat data, and flat data from rows. *)
Definition row_of {A} (n : nat) (data : nat -> A) (r : nat) : nat -> A := fun i => data (r * n + i).
Definition flat_of {A} (n : nat) (f : nat -> nat -> A) : nat -> A := fun t => f (t / n) (t mod n).

(** The times of the result, as in 1582, 1603, 1626, 1649: [n] of them with the spacing of the
    given ones.  [dt] raises if there are none. *)
Definition lag_basis (b : time_basis) : option time_basis :=
  match dt b with
  | Some h => Some {| tn := tn b; tstep := 1; toffset := 0; tspan := (h * INR (tn b))%R |}
  | None => None
  end.

(** 1566-1583 [get_average_displacements]. *)
Definition get_average_displacements (b : time_basis) (positions : nat -> R) : option (time_basis * (nat -> R)) :=
  match lag_basis b with
  | None => None
  | Some out =>
      let n := tn b in
      Some (out, flat_of n (fun r d =>
        let x := row_of n positions r in
        let squared i := (x i * x i)%R in
        let total := reversed n (cumsum (fun i => squared i + reversed n squared i)%R) in
        ((total d - 2 * offset_products_real n x x d) / reversed n (fun i => INR (1 + i)%nat) d)%R))
  end.

(** 1586-1604 [get_average_isf]. *)
Definition get_average_isf (b : time_basis) (positions : nat -> R) (scattered_k : R) : option (time_basis * (nat -> C)) :=
  match lag_basis b with
  | None => None
  | Some out =>
      let n := tn b in
      Some (out, flat_of n (fun r d =>
        let m i := cis (scattered_k * row_of n positions r i)%R in
        Cdiv (offset_products_complex n (fun i => Cconj (m i)) m d) (RtoC (reversed n (fun i => INR (1 + i)) d))))
  end.

(** 1607-1627 [get_average_normalized_drift]. *)
Definition get_average_normalized_drift (b : time_basis) (positions k_values : nat -> R) : option (time_basis * (nat -> R)) :=
  match lag_basis b with
  | None => None
  | Some out =>
      let n := tn b in
      Some (out, flat_of n (fun r d =>
        let x := row_of n positions r in
        let k i := (1 / row_of n k_values r i)%R in
        let convolution := offset_products_real n x (fun i => 1 / k i)%R in
        let cumulative := reversed n (cumsum (fun i => x i / k i)%R) in
        (cumulative d - convolution d / INR n)%R))
  end.

(** 1630-1650 [get_normalized_average_drift]. *)
Definition get_normalized_average_drift (b : time_basis) (positions k_values : nat -> R) : option (time_basis * (nat -> R)) :=
  match lag_basis b with
  | None => None
  | Some out =>
      let n := tn b in
      Some (out, flat_of n (fun r d =>
        let x := row_of n positions r in
        let k i := (1 / row_of n k_values r i)%R in
        let cumulative_rhs := cumsum (reversed n x) in
        let cumulative_lhs := cumsum x in
        let cumulative_k := cumsum k in
        reversed n (fun i => (cumulative_lhs i - cumulative_rhs i) / cumulative_k i)%R d))
  end.
