(** Small vocabulary for the friction integrals. *)
From Coq Require Import Reals.
From Coquelicot Require Import Coquelicot.
From Verif Require Import Csum GammaIntegral.
Local Open Scope R_scope.

Definition physical (c : constants) : Prop :=
  0 < hbar c /\ 0 < electron_mass c /\ 0 < elementary_charge c /\ 0 < epsilon_0 c.

(** Energy of an electron with wavenumber [k]. *)
Definition electron_energy (c : constants) (k : R) : R := (hbar c) ^ 2 * k ^ 2 / (2 * electron_mass c).

(** The potential of a proton screened by its electron, continuous at zero momentum. *)
Definition screened (c : constants) (q : R) : R :=
  - ((elementary_charge c) ^ 2 / (epsilon_0 c * (alpha c) ^ 2)) * ((2 + (q / alpha c) ^ 2) / (1 + (q / alpha c) ^ 2) ^ 2).

(** Both components are continuous. *)
Definition continuous_overlap (overlap : R -> C) : Prop :=
  forall q, continuous (fun q => fst (overlap q)) q /\ continuous (fun q => snd (overlap q)) q.

(** Occupation of a state of energy [e] at chemical potential [mu]. *)
Definition fermi_dirac (kT mu e : R) : R := / (1 + exp ((e - mu) / kT)).

(** Length of the change of the wavevector when an electron of wavenumber [k_f] turns by
    the angle [phi]. *)
Definition transfer (k_f phi : R) : R := sqrt ((k_f - k_f * cos phi) ^ 2 + (k_f * sin phi) ^ 2).

(** Strength of the screened potential. *)
Definition strength (c : constants) : R := (elementary_charge c) ^ 2 / (epsilon_0 c * (alpha c) ^ 2).

(** The factor in front of the integral as documented. *)
Definition documented_prefactor (c : constants) (k_f : R) : R := 4 * electron_mass c * k_f ^ 3 / (hbar c * (2 * PI) ^ 3).
