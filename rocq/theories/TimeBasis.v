(** Model of basis/time_basis_like.py and of basis/block_fraction_basis.py.  No proofs here. *)
From Coq Require Import Reals.
From Verif Require Import ZLib Csum DFT NumPy Index.
Local Open Scope nat_scope.

(** 38-50 [EvenlySpacedTimeBasis]; 77-83 [FundamentalTimeBasis] has step one and offset zero. *)
Record time_basis := { tn : nat; tstep : nat; toffset : Z; tspan : R }.
Definition fundamental_time_basis (n : nat) (span : R) : time_basis := {| tn := n; tstep := 1; toffset := 0; tspan := span |}.

(** evenly_spaced_basis.py:78-79 [fundamental_n]. *)
Definition tfund (b : time_basis) : nat := tn b * tstep b.

(** np.arange of integers: it raises when the step is zero. *)
Definition arange (start stop step : Z) : option (list Z) :=
  if (step =? 0)%Z then None
  else Some (map (fun i => (start + Z.of_nat i * step)%Z) (seq 0 (Z.to_nat (- ((start - stop) / step))))).

(** 69-71 [nt_points]. *)
Definition nt_points (b : time_basis) : option (list Z) :=
  arange (toffset b) (Z.of_nat (tn b) * Z.of_nat (tstep b) + toffset b) (Z.of_nat (tstep b)).

(** 60-67 [dt], [fundamental_dt]: division by zero raises. *)
Definition dt (b : time_basis) : option R :=
  if tn b =? 0 then None else Some (tspan b / INR (tn b))%R.
Definition fundamental_dt (b : time_basis) : option R :=
  if tfund b =? 0 then None else Some (tspan b / INR (tfund b))%R.

(** 48-50 [times]. *)
Definition times (b : time_basis) : option (list R) :=
  match fundamental_dt b, nt_points b with
  | Some h, Some l => Some (map (fun j => h * IZR j)%R l)
  | _, _ => None
  end.

(** np.linspace(start, stop, n) with both ends. *)
Definition linspace (start stop : R) (n : nat) : list R :=
  map (fun i => start + (stop - start) * INR i / INR (n - 1))%R (seq 0 n).

(** 52-54 [fundamental_times]. *)
Definition fundamental_times (b : time_basis) : list R := linspace 0%R (tspan b) (tfund b).

(** 28-30 [BasisWithTimeLike.delta_t], as inherited by [ExplicitTimeBasis] (86-101). *)
Definition explicit_delta_t (times : list R) : option R :=
  match times with t0 :: t1 :: _ => Some (t1 - t0)%R | _ => None end.

(** basis/block_fraction_basis.py:56-60 [EvenlySpacedBlockFractionBasis.bloch_fractions]:
    np.linspace(-0.5, 0.5, N, endpoint=False), sampled by
    evenly_spaced_basis.py:102-113, which makes them complex. *)
Definition bloch_fractions (n step : nat) (offset : Z) : nat -> C :=
  truncate_sample_axis n step offset (fun j => RtoC (- (1 / 2) + INR j / INR (n * step))%R).
(** 29-31 [ndim]: the first entry of the shape, which is [n] as the array is one-dimensional. *)
Definition bloch_ndim (n step : nat) (offset : Z) : nat := n.
