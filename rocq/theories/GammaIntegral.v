(** Model of dynamics/hermitian_gamma_integral.py.  The physical constants are parameters.
    scipy.integrate.quad is the integral itself; its error estimate and failures are left
    out.  No proofs here. *)
From Coq Require Import Reals.
From Coquelicot Require Import Coquelicot.
From Verif Require Import Csum DFT.
Local Open Scope R_scope.

(** 7-12: hbar, electron_mass, elementary_charge and epsilon_0 of scipy.constants. *)
Record constants := { hbar : R; electron_mass : R; elementary_charge : R; epsilon_0 : R }.

(** 46-52 [_get_delta_e]. *)
Definition delta_e (c : constants) (k_0 k_1 : R) : R :=
  (hbar c * k_0) ^ 2 / (2 * electron_mass c) - (hbar c * k_1) ^ 2 / (2 * electron_mass c).

(** 55-61 [_get_fermi_occupation]; the temperature [kT] is "boltzmann_energy". *)
Definition fermi_occupation (c : constants) (k_f kT k : R) : R :=
  1 / (1 + exp (delta_e c k k_f / kT)).

(** 64-89 [get_hermitian_gamma_occupation_integrand]; [None] stands for the nan that np.sqrt
    gives below zero. *)
Definition final_square (c : constants) (omega k : R) : R := k ^ 2 + 2 * electron_mass c * omega / (hbar c) ^ 2.
Definition occupation_integrand (c : constants) (omega k_f kT k : R) : option R :=
  if Rle_dec 0 (final_square c omega k) then
    let k_3 := sqrt (final_square c omega k) in
    Some (fermi_occupation c k_f kT k * (1 - fermi_occupation c k_f kT k_3))
  else None.

(** 92-117 [calculate_hermitian_gamma_occupation_integral].  The integral is nan as soon as
    the integrand is on some part of the interval, that is when it is at the point of the
    interval nearest to zero. *)
Definition d_k (c : constants) (k_f kT : R) : R := 2 * kT * electron_mass c / ((hbar c) ^ 2 * k_f).
Definition nearest_to_zero (a b : R) : R := if Rle_dec 0 a then a else if Rle_dec b 0 then b else 0.
Definition occupation_integral (c : constants) (omega k_f kT : R) : option R :=
  let a := k_f - 20 * d_k c k_f kT in
  let b := k_f + 20 * d_k c k_f kT in
  match occupation_integrand c omega k_f kT (nearest_to_zero a b) with
  | Some _ => Some (RInt (fun k => match occupation_integrand c omega k_f kT k with Some y => y | None => 0 end) a b)
  | None => None
  end.

(** 120-121 [_calculate_real_gamma_prefactor]. *)
Definition gamma_prefactor (c : constants) (k_f : R) : R :=
  4 * electron_mass c * k_f ^ 3 / ((hbar c) ^ 3 * (2 * PI) ^ 3).

(** 124-141 [_get_coulomb_potential]; [np.isclose(x, 0)] is |x| <= 1e-8. *)
Definition bohr_radius (c : constants) : R :=
  4 * PI * epsilon_0 c * (hbar c) ^ 2 / ((elementary_charge c) ^ 2 * electron_mass c).
Definition alpha (c : constants) : R := 2 / bohr_radius c.
Definition coulomb_potential (c : constants) (q : R) : R :=
  let q_div_alpha := q / alpha c in
  let small_q_limit := - (2) * ((elementary_charge c) ^ 2 / (epsilon_0 c * (alpha c) ^ 2)) * (1 - 3 / 2 * q_div_alpha ^ 2) in
  let full_expression := (elementary_charge c) ^ 2 / (epsilon_0 c * q ^ 2) * ((1 / (1 + q_div_alpha ^ 2)) ^ 2 - 1) in
  if Rle_dec (Rabs q_div_alpha) (/ 100000000) then small_q_limit else full_expression.

(** 144-164 [_get_hopping_potential_integrand]. *)
Definition hopping_integrand (c : constants) (k_f : R) (overlap : R -> C) (phi : R) : C :=
  let q := k_f * sin (phi / 2) in
  (RtoC (gamma_prefactor c k_f * sin phi * (coulomb_potential c q) ^ 2) * overlap q)%C.

(** 167-180 [_complex_quad], its first component. *)
Definition complex_quad (f : R -> C) (a b : R) : C := (RInt (fun x => fst (f x)) a b, RInt (fun x => snd (f x)) a b).

(** 183-213 [calculate_hermitian_gamma_potential_integral]. *)
Definition potential_integral (c : constants) (k_f : R) (overlap : R -> C) : C :=
  complex_quad (hopping_integrand c k_f overlap) 0 PI.

(** 216-246 [calculate_real_gamma_integral]. *)
Definition real_gamma_integral (c : constants) (omega k_f kT : R) (overlap : R -> C) : option C :=
  match occupation_integral c omega k_f kT with
  | Some i => Some (potential_integral c k_f overlap * RtoC i)%C
  | None => None
  end.
