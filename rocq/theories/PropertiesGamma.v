(** Properties of the friction integrals (C89). *)
From Coq Require Import Reals.
From Coquelicot Require Import Coquelicot.
From Verif Require Import Csum DFT GammaIntegral SpecGamma GammaProofs2 GammaProofs4 GammaFacts.
Local Open Scope R_scope.

(** ** C89 *)

Example ex_C89_constants : physical gm_c /\ 0 < 1 /\ 0 < / 100.
Proof. exact (conj gm_physical (conj (proj1 gm_energies) (proj1 (proj2 gm_energies)))). Qed.

(** The occupation is that of Fermi and Dirac: between zero and one, a half at the Fermi
    wavenumber, smaller for faster electrons, and with as many electrons above the Fermi
    energy as holes below it. *)
Theorem C89_fermi_occupation :
  forall c k_f kT, physical c -> 0 < kT ->
  fermi_occupation c k_f kT k_f = / 2 /\
  (forall k, 0 < fermi_occupation c k_f kT k < 1 /\ fermi_occupation c k_f kT k = fermi_dirac kT (electron_energy c k_f) (electron_energy c k)) /\
  (forall k k', Rabs k < Rabs k' -> fermi_occupation c k_f kT k' < fermi_occupation c k_f kT k) /\
  (forall k k', electron_energy c k + electron_energy c k' = 2 * electron_energy c k_f ->
     fermi_occupation c k_f kT k + fermi_occupation c k_f kT k' = 1).
Proof. exact fermi_facts. Qed.
Print Assumptions C89_fermi_occupation.

(** The integrand is the probability that the electron is there and that its final state is
    empty, the final state having [omega] more energy.  It is not a number if there is no such
    state.  It satisfies detailed balance. *)
Theorem C89_integrand :
  forall c omega k_f kT k, physical c -> 0 < kT ->
  let n := fermi_dirac kT (electron_energy c k_f) in let e := electron_energy c k in
  (0 <= e + omega -> occupation_integrand c omega k_f kT k = Some (n e * (1 - n (e + omega)))) /\
  (e + omega < 0 -> occupation_integrand c omega k_f kT k = None) /\
  n e * (1 - n (e + omega)) = exp (omega / kT) * (n (e + omega) * (1 - n e)).
Proof. exact integrand_spec. Qed.
Print Assumptions C89_integrand.

Example ex_C89_energies :
  (forall k, 1 - 40 * / 100 * electron_mass gm_c / ((hbar gm_c) ^ 2 * 1) <= k <= 1 + 40 * / 100 * electron_mass gm_c / ((hbar gm_c) ^ 2 * 1) ->
     0 <= electron_energy gm_c k + - (/ 10)) /\
  (exists k, 1 - 40 * / 100 * electron_mass gm_c / ((hbar gm_c) ^ 2 * 1) <= k <= 1 + 40 * / 100 * electron_mass gm_c / ((hbar gm_c) ^ 2 * 1) /\
     electron_energy gm_c k + - (1) < 0).
Proof. exact (proj2 (proj2 gm_energies)). Qed.

(** The integral over the occupations exists exactly when every electron in the interval
    has a final state.  It is positive, at most the length of the interval, and is the
    Boltzmann factor times the integral for the reverse process. *)
Theorem C89_occupation_integral :
  forall c omega k_f kT, physical c -> 0 < k_f -> 0 < kT ->
  let half := 40 * kT * electron_mass c / ((hbar c) ^ 2 * k_f) in
  let n := fermi_dirac kT (electron_energy c k_f) in let E := electron_energy c in
  ((forall k, k_f - half <= k <= k_f + half -> 0 <= E k + omega) ->
    exists i, occupation_integral c omega k_f kT = Some i /\ 0 < i < 2 * half /\
      is_RInt (fun k => n (E k) * (1 - n (E k + omega))) (k_f - half) (k_f + half) i /\
      is_RInt (fun k => n (E k + omega) * (1 - n (E k))) (k_f - half) (k_f + half) (exp (- (omega / kT)) * i)) /\
  ((exists k, k_f - half <= k <= k_f + half /\ E k + omega < 0) -> occupation_integral c omega k_f kT = None).
Proof. exact occupation_spec. Qed.
Print Assumptions C89_occupation_integral.

(** It grows with the energy given to the electron. *)
Theorem C89_occupation_increasing :
  forall c omega omega' k_f kT i i', physical c -> 0 < k_f -> 0 < kT -> omega < omega' ->
  occupation_integral c omega k_f kT = Some i -> occupation_integral c omega' k_f kT = Some i' -> i < i'.
Proof. exact occupation_increasing. Qed.
Print Assumptions C89_occupation_increasing.

(** The potential is the screened one, up to thirty-two decimals, also where the expression
    changes; it is attractive, finite and even. *)
Theorem C89_potential :
  forall c q, physical c ->
  Rabs (coulomb_potential c q - screened c q) <= 4 * strength c / 10 ^ 32 /\
  (/ 10 ^ 8 < Rabs (q / alpha c) -> coulomb_potential c q = screened c q) /\
  - (2 * strength c) <= coulomb_potential c q < 0 /\ coulomb_potential c (- q) = coulomb_potential c q /\
  alpha c = (elementary_charge c) ^ 2 * electron_mass c / (2 * PI * epsilon_0 c * (hbar c) ^ 2).
Proof. exact coulomb_spec. Qed.
Print Assumptions C89_potential.

Example ex_C89_overlap : continuous_overlap gm_overlap /\ (forall q, 0 <= q <= 1 -> Cmod (gm_overlap q) <= 2).
Proof. exact (conj (proj1 gm_continuous) (proj1 gm_bounded)). Qed.

(** The integral over the angle, up to thirty decimals, is the documented one divided by
    the square of hbar, with the potential and the overlap taken at half of the change of
    the wavevector. *)
Theorem C89_potential_integral :
  forall c k_f M o, physical c -> 0 < k_f -> continuous_overlap o -> (forall q, 0 <= q <= k_f -> Cmod (o q) <= M) ->
  let bound := 32 / 10 ^ 32 * M * (documented_prefactor c k_f / (hbar c) ^ 2) * (strength c) ^ 2 in
  exists x y,
  is_RInt (fun phi => documented_prefactor c k_f * sin phi * (screened c (transfer k_f phi / 2)) ^ 2 * fst (o (transfer k_f phi / 2))) 0 PI x /\
  is_RInt (fun phi => documented_prefactor c k_f * sin phi * (screened c (transfer k_f phi / 2)) ^ 2 * snd (o (transfer k_f phi / 2))) 0 PI y /\
  Rabs (fst (potential_integral c k_f o) - x / (hbar c) ^ 2) <= bound /\ Rabs (snd (potential_integral c k_f o) - y / (hbar c) ^ 2) <= bound.
Proof. exact potential_spec. Qed.
Print Assumptions C89_potential_integral.

Example ex_C89_real_overlap : continuous_overlap gm_real /\ (forall q, 0 <= q <= 1 -> snd (gm_real q) = 0 /\ 0 < fst (gm_real q) <= 1).
Proof. exact (conj (proj2 gm_continuous) (proj2 gm_bounded)). Qed.

(** It is linear in the overlap, the conjugate overlap gives the conjugate, and an overlap
    between zero and one gives a real result between zero and a bound. *)
Theorem C89_potential_algebra :
  forall c k_f, physical c -> 0 < k_f -> forall o, continuous_overlap o ->
  potential_integral c k_f (fun q => Cconj (o q)) = Cconj (potential_integral c k_f o) /\
  (forall o' z w, continuous_overlap o' ->
     potential_integral c k_f (fun q => (z * o q + w * o' q)%C) = (z * potential_integral c k_f o + w * potential_integral c k_f o')%C) /\
  ((forall q, 0 <= q <= k_f -> snd (o q) = 0 /\ 0 <= fst (o q) <= 1) ->
     snd (potential_integral c k_f o) = 0 /\
     0 <= fst (potential_integral c k_f o) <= 8 * (documented_prefactor c k_f / (hbar c) ^ 2) * (strength c) ^ 2) /\
  ((forall q, 0 <= q <= k_f -> 0 < fst (o q)) -> 0 < fst (potential_integral c k_f o)).
Proof. exact potential_algebra. Qed.
Print Assumptions C89_potential_algebra.

Example ex_C89_total : exists g g', real_gamma_integral gm_c (- / 10) 1 (/ 100) gm_real = Some g /\ real_gamma_integral gm_c 0 1 (/ 100) gm_real = Some g'.
Proof. exact gm_total. Qed.

(** The rate is the product of the two.  The conjugate overlap gives the conjugate, and for
    a positive overlap the rate is positive and grows with the energy. *)
Theorem C89_rate :
  forall c omega k_f kT, physical c -> 0 < k_f -> 0 < kT -> forall o, continuous_overlap o -> forall g,
  real_gamma_integral c omega k_f kT o = Some g ->
  (exists i, occupation_integral c omega k_f kT = Some i /\ g = (potential_integral c k_f o * RtoC i)%C) /\
  real_gamma_integral c omega k_f kT (fun q => Cconj (o q)) = Some (Cconj g) /\
  ((forall q, 0 <= q <= k_f -> 0 < fst (o q)) -> 0 < fst g) /\
  (forall omega' g', omega < omega' -> real_gamma_integral c omega' k_f kT o = Some g' ->
     (forall q, 0 <= q <= k_f -> 0 < fst (o q)) -> fst g < fst g').
Proof. exact total_facts. Qed.
Print Assumptions C89_rate.

(** It is not a number exactly when the integral over the occupations is not. *)
Theorem C89_rate_nan :
  forall c omega k_f kT o, real_gamma_integral c omega k_f kT o = None <-> occupation_integral c omega k_f kT = None.
Proof. exact total_spec. Qed.
Print Assumptions C89_rate_nan.
