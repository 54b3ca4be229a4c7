(** Vocabulary for the effective masses of bands. *)
From Coq Require Import Reals.
From Verif Require Import ZLib Csum DFT NumPy.
Local Open Scope R_scope.

(** The Fourier component of energies at samples of shape [ls] that turns once along axis [a]:
    the mean of the energies with the phases of a step to the next cell. *)
Definition neighbour_component (ls : list nat) (a : nat) (E : nat -> R) : C :=
  Cdiv (csum (fun s => Cmult (RtoC (E s)) (cis (2 * PI * INR (nth a (unravel ls s) 0%nat) / INR (nth a ls 0%nat)))) (nprod ls)) (RtoC (INR (nprod ls))).

(** The square of the wave number of band [N] of a free particle at crystal momentum [k] of the
    zone between - pi / delta and pi / delta. *)
Definition free_band (delta : R) (N : nat) (k : R) : R :=
  if Nat.even N then (INR N * PI / delta + Rabs k) ^ 2 else (INR (N + 1) * PI / delta - Rabs k) ^ 2.

(** The crystal momentum of sample [s] of [n], in the zone. *)
Definition sample_momentum (delta : R) (n s : nat) : R :=
  2 * PI * (if (2 * s <? n)%nat then INR s else INR s - INR n) / (INR n * delta).
