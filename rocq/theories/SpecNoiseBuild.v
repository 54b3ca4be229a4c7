(** Vocabulary for the statements about noise operators built for a Hamiltonian. *)
From Coq Require Import Reals.
From Verif Require Import ZLib Csum DFT NumPy Spec Basis SpecBasis Operator SpecOperator Wavepacket SpecWavepacket Kernel SpecKernel SpecCorrelation SpecTaylor.
Local Open Scope R_scope.
Local Open Scope C_scope.

(** The matrix elements, in the states of [b], of the multiplication with [f]. *)
Definition multiplication (b : basis) (f : nat -> C) (i j : nat) : C :=
  csum (fun x => Cconj (bstate b i x) * f x * bstate b j x) (bfund b).

(** The vector [u] is an eigenvector of the matrix [h] with energy [E]. *)
Definition eigenvector (n : nat) (h : nat -> nat -> C) (u : nat -> C) (E : R) : Prop :=
  forall i, (i < n)%nat -> csum (fun j => h i j * u j) n = RtoC E * u i.

(** The matrix element <u|A|v> and the sum over noise operators of lambda_a |<u|L_a|v>|^2. *)
Definition element (n : nat) (A : nat -> nat -> C) (u v : nat -> C) : C :=
  csum (fun i => csum (fun j => Cconj (u i) * A i j * v j) n) n.
Definition transition (n : nat) (o : noise_operators) (u v : nat -> C) : C :=
  csum (fun a => eigenvalue o a * Cconj (element n (list_entry (nops o) a) u v) * element n (list_entry (nops o) a) u v)
       (noise_count o).

(** The same for multiplications with correlation [D x y] at the points x and y. *)
Definition overlap_rate (b : basis) (D : nat -> nat -> C) (u v : nat -> C) : C :=
  csum (fun x => csum (fun y => amplitude b u x * Cconj (amplitude b v x) * D x y * (Cconj (amplitude b u y) * amplitude b v y))
    (bfund b)) (bfund b).

(** [d x y] is the distance of the points x and y of a lattice (SpecCorrelation). *)
Definition distances (delta : nat -> nat -> R) (shape : list nat) (d : nat -> nat -> R) : Prop :=
  forall x y, in_shape x shape -> in_shape y shape -> periodic_distance delta shape x y (d (ravel shape x) (ravel shape y)).

(** The displacement of point [j] of [N] from the middle, between - N/2 and N/2. *)
Definition from_middle (N j : nat) : Z :=
  if ((j =? 0) && Nat.even N)%nat%bool then (- (Z.of_nat N / 2))%Z else (Z.of_nat N / 2 - Z.of_nat j)%Z.

(** The product over axes of the [n] term series of a gaussian, in which the product of the two
    displacements from the middle takes the place of the squared distance. *)
Fixpoint linear_product (a lambda : R) (axes : list (nat * R)) (sizes : list (option nat)) (x y : list nat) : R :=
  match axes, sizes, x, y with
  | (N, dx) :: axes, t :: sizes, i :: x, j :: y =>
      let n := match t with Some n => n | None => N end in
      (rsum (fun m => nth m (gaussian_series a (2 * PI * lambda / dx) n) 0 *
               ((2 * PI * IZR (from_middle N i) / INR N) * (2 * PI * IZR (from_middle N j) / INR N)) ^ m) n *
       linear_product a lambda axes sizes x y)%R
  | _, _, _, _ => 1%R
  end.

(** Every axis has points and terms. *)
Fixpoint linear_axes (axes : list (nat * R)) (sizes : list (option nat)) : Prop :=
  match axes, sizes with
  | [], _ => True
  | (N, _) :: axes, t :: sizes => (0 < N)%nat /\ (0 < match t with Some n => n | None => N end)%nat /\ linear_axes axes sizes
  | _ :: _, [] => False
  end.

(** The correlation, through the diagonal elements alone, of a list of full operators. *)
Definition diagonal_correlation (o : noise_operators) (x y : nat) : C :=
  csum (fun a => eigenvalue o a * Cconj (list_entry (nops o) a x x) * list_entry (nops o) a y y) (noise_count o).
