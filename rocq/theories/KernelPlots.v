(** Model of what the plots of kernel/plot.py show.  Labels, scales and figures are left out;
    arithmetic is exact and the numbers drawn by the random generator are arguments.  No proofs here. *)
From Coq Require Import Reals.
From Verif Require Import ZLib Csum DFT NumPy Index Basis Lattice Operator Kernel KernelConvert Sample Plots.
Local Open Scope nat_scope.

(** [np.sort] of [n] numbers: the numbers in an order [np.argsort] may give. *)
Definition np_sort (argsort : (nat -> R) -> nat -> nat -> nat) (n : nat) (f : nat -> R) (a : nat) : R := f (argsort f n a).

(** kernel/plot.py:203-207 and 242-245: entry [t] of [cumulative], which has one entry more than the
    eigenvalues: zero, then [np.cumsum] of the moduli in ascending order. *)
Definition cumulative_modulus (argsort : (nat -> R) -> nat -> nat -> nat) (n : nat) (eigenvalue : nat -> C) (t : nat) : R :=
  rsum (np_sort argsort n (fun a => Cmod (eigenvalue a))) t.

(** [list(range(0, size, step))]. *)
Definition range_step (size step : nat) : list nat := map (fun k => k * step) (seq 0 ((size + step - 1) / step)).

(** 179-220 [plot_kernel_truncation_error]: the points of the line. *)
Definition plot_kernel_truncation_error (argsort : (nat -> R) -> nat -> nat -> nat)
    (eigh : nat -> (nat -> nat -> C) -> eigh_result) (b0 b1 : basis) (k : ndarray) (truncations : option (list Z)) : option (list (R * R)) :=
  match get_periodic_noise_operators_eigenvalue eigh b0 b1 k with
  | None => None
  | Some operators =>
      let n := nprod (ashape (neig operators)) in
      let size := n + 1 in
      let ts := match truncations with
                | None => map Z.of_nat (range_step size (1 + size / 100))
                | Some ts => ts
                end in
      match python_indices size ts with
      | None => None
      | Some is => Some (combine (map IZR ts) (map (cumulative_modulus argsort n (aflat (neig operators))) is))
      end
  end.

(** 223-257 [plot_diagonal_kernel_truncation_error]: a complex line, of which the modulus is drawn. *)
Definition plot_diagonal_kernel_truncation_error (argsort : (nat -> R) -> nat -> nat -> nat)
    (eigh : nat -> (nat -> nat -> C) -> eigh_result) (b0 b1 : basis) (k : ndarray) : option (list (R * R)) :=
  match get_periodic_noise_operators_diagonal_eigenvalue eigh b0 b1 k with
  | None => None
  | Some operators =>
      let n := nprod (ashape (neig operators)) in
      plot_data_1d (n + 1) (fun t => RtoC (cumulative_modulus argsort n (aflat (neig operators)) t)) INR PAbs false
  end.

(** 260-330 [plot_diagonal_noise_operators_single_sample] with an axis to draw on (without one
    [ax.set_ylabel] raises): the potential handed to [plot_data_1d_x].  [re] and [im] are what the two
    calls of [rng.normal] returned.  The truncated operators only give the number of factors; the
    operators added up are taken from the list that is not truncated. *)
Fixpoint add_selected (o : noise_operators) (term : nat -> operator -> nat -> C) (count : nat) : option (nat -> C) :=
  match count with
  | 0 => Some (fun _ => RtoC 0%R)
  | S c =>
      match add_selected o term c, select_diagonal_operator (nops o) (Z.of_nat c) with
      | Some total, Some op => Some (fun x => Cplus (total x) (term c op x))
      | _, _ => None
      end
  end.
Definition noise_operators_single_sample (argsort : (nat -> R) -> nat -> nat -> nat) (hbar : R) (re im : nat -> R)
    (o : noise_operators) (truncation : option (list Z)) : option (nat -> C) :=
  let ts := match truncation with None => map Z.of_nat (seq 0 (nprod (ashape (neig o)))) | Some ts => ts end in
  match truncate_diagonal_noise_operator_list argsort o ts with
  | None => None
  | Some truncated =>
      let factor i := Cmult (Cdiv (RtoC 1%R) (RtoC (sqrt 2))) (Cplus (RtoC (re i)) (Cmult Ci (RtoC (im i)))) in
      match add_selected o (fun i op x => Cmult (Cmult (factor i) (scimath_sqrt (Cmult (aflat (neig o) i) (RtoC hbar)))) (aflat (odata op) x))
              (nprod (ashape (neig truncated))) with
      | None => None
      | Some v => if bsize (lrow (nops truncated)) =? 0 then None else Some (fun x => Cminus (v x) (v 0))
      end
  end.

(** 431-472 [plot_diagonal_noise_operators_eigenvalues]: the heights of the line.  [[:truncation:-1]] of an
    array of [n] entries counts down from the last and stops before [truncation]. *)
Definition backward_stop (n : nat) (truncation : option Z) : Z :=
  match truncation with
  | None => -1
  | Some t => if (t <? 0)%Z then Z.max (t + Z.of_nat n) (-1) else Z.min t (Z.of_nat n - 1)
  end.
Definition plot_noise_eigenvalues (argsort : (nat -> R) -> nat -> nat -> nat) (o : noise_operators) (truncation : option Z) (m : plot_measure) : list R :=
  let n := nprod (ashape (neig o)) in
  let eigenvalues := measured_vector m (aflat (neig o)) in
  let order := argsort eigenvalues n in
  map (fun a => eigenvalues (order (n - 1 - a))) (seq 0 (Z.to_nat (Z.of_nat n - 1 - backward_stop n truncation))).

(** 548-556 [_get_noise_kernel_percentage_error], 572-587 [plot_isotropic_kernel_error_1d].  numpy returns
    inf or nan for an entry divided by zero; here [None]. *)
Definition noise_kernel_percentage_error (same : basis -> basis -> bool) (b : basis) (true_kernel : ndarray)
    (b' : basis) (fitted : ndarray) : option (nat -> option C) :=
  match convert_isotropic_kernel_to_basis same b' fitted b with
  | None => None
  | Some c => Some (fun x =>
      if Ceq_dec (aflat true_kernel x) (RtoC 0%R) then None
      else Some (Cdiv (Cmult (Cminus (aflat c x) (aflat true_kernel x)) (RtoC 100)) (aflat true_kernel x)))
  end.

(** 75-104 [plot_diagonal_kernel_2d]: [np.fft.fftshift] of both axes; [pcolormesh] without coordinates
    draws entry [i, j] in row [i] and column [j]. *)
Definition plot_diagonal_kernel_2d (b0 : basis) (k : ndarray) (m : plot_measure) : option mesh :=
  let n := bsize b0 in
  match reshape k [n; n] with
  | None => None
  | Some a =>
      plot_data_2d n n (fun i j => fftshift_vector n (fun i' => fftshift_vector n (at2 a i') j) i)
        (fun axis i j => INR (if axis =? 0 then j else i)) m
  end.
