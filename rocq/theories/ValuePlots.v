(** Model of the lines that state_vector/plot_value_list.py draws.  Arithmetic is exact; labels,
    scales and figures are left out.  No proofs here. *)
From Coq Require Import Reals.
From Verif Require Import ZLib Csum DFT NumPy Index TimeBasis Dynamics Plots.
Local Open Scope nat_scope.

(** plot_value_list.py:40-71 [plot_value_list_against_nx] and 74-103
    [plot_value_list_against_time] of as many values as there are states or times. *)
Definition plot_value_list_against_nx (n : nat) (v : nat -> C) (m : plot_measure) : option (list (R * R)) :=
  plot_data_1d n v INR m false.
Definition plot_value_list_against_time (b : time_basis) (v : nat -> C) (m : plot_measure) : option (list (R * R)) :=
  match times b with
  | Some ts => plot_data_1d (tn b) v (fun j => nth j ts 0%R) m false
  | None => None
  end.

(** np.fft.fft and np.fft.fftfreq(n, d), whose integers are those of [nk_points]; the division
    1.0 / (n * d) raises for zero. *)
Definition np_fft (n : nat) (v : nat -> C) (k : nat) : C := csum (fun j => Cmult (v j) (omega n (- (Z.of_nat k * Z.of_nat j)))) n.
Definition np_fftfreq (n : nat) (d : R) : option (nat -> R) :=
  match rdiv 1 (INR n * d) with
  | Some val => Some (fun k => IZR (nk_points n k) * val)%R
  | None => None
  end.

(** 106-145 [plot_value_list_against_frequency]. *)
Definition plot_value_list_against_frequency (b : time_basis) (v : nat -> C) (m : plot_measure) : option (list (R * R)) :=
  let n := tn b in
  let rolled := roll n (toffset b) v in
  match dt b with
  | None => None
  | Some d =>
      match np_fftfreq n d with
      | None => None
      | Some coordinates => plot_data_1d n (fftshift_vector n (np_fft n rolled)) (fftshift_vector n coordinates) m false
      end
  end.

(** [np.cumsum(stacked, axis=0)]. *)
Definition cumulative (f : nat -> nat -> C) (i j : nat) : C := csum (fun i' => f i' j) (S i).

(** 148-186 [plot_split_value_list_against_time] and 189-237
    [plot_split_value_list_against_frequency] of [nb] lists of values: the lines, in order. *)
Definition plot_split_value_list_against_time (nb : nat) (b : time_basis) (v : nat -> C) (m : plot_measure) : option (list (option (list (R * R)))) :=
  match times b with
  | Some ts => Some (map (fun i => plot_data_1d (tn b) (cumulative (fun i j => v (i * tn b + j)) i) (fun j => nth j ts 0%R) m false) (seq 0 nb))
  | None => None
  end.
Definition plot_split_value_list_against_frequency (nb : nat) (b : time_basis) (v : nat -> C) (m : plot_measure) : option (list (option (list (R * R)))) :=
  let n := tn b in
  let transformed i := fftshift_vector n (np_fft n (roll n (toffset b) (fun j => v (i * n + j)))) in
  match dt b with
  | None => None
  | Some d =>
      match np_fftfreq n d with
      | None => None
      | Some coordinates => Some (map (fun i => plot_data_1d n (cumulative transformed i) (fftshift_vector n coordinates) m false) (seq 0 nb))
      end
  end.

(** 240-273 [plot_all_value_list_against_time]: one line for each list. *)
Definition plot_all_value_list_against_time (nb : nat) (b : time_basis) (v : nat -> C) (m : plot_measure) : list (option (list (R * R))) :=
  map (fun i => plot_value_list_against_time b (fun j => v (i * tn b + j)) m) (seq 0 nb).

(** 276-320 [plot_average_value_list_against_time] of [nb] lists of values: the line and the lower
    and upper edges of the shaded band.  [get_measured_data] runs over all values at once.  Without
    lists numpy warns and gives nan: [None]. *)
Definition mean (n : nat) (f : nat -> R) : R := (rsum f n / INR n)%R.
Definition np_std (n : nat) (f : nat -> R) : R := sqrt (mean n (fun i => (f i - mean n f) ^ 2)%R).
Definition plot_average_value_list_against_time (nb : nat) (b : time_basis) (v : nat -> C) (m : plot_measure)
  : option (list (R * R) * (nat -> R) * (nat -> R)) :=
  let n := tn b in
  let measured := measured_vector m v in
  let column j := fun i => measured (i * n + j) in
  let average j := mean nb (column j) in
  let std j := (np_std nb (column j) / sqrt (INR nb))%R in
  if nb =? 0 then None
  else
    match times b with
    | None => None
    | Some ts =>
        match plot_data_1d n (fun j => RtoC (average j)) (fun j => nth j ts 0%R) m false with
        | Some line => Some (line, fun j => (average j - std j)%R, fun j => (average j + std j)%R)
        | None => None
        end
    end.
