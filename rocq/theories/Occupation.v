(** Model of the occupations of eigenstates and bands that are drawn against energy
    (state_vector/eigenvalue_list_plot.py, state_vector/plot.py, wavepacket/plot.py).  Arithmetic is
    exact; labels, scales and figures are left out.  No proofs here. *)
From Coq Require Import Reals.
From Verif Require Import ZLib Csum DFT NumPy Index Basis Operator Dynamics Plots ValuePlots EffectiveMass Reduce TimeBasis.
Local Open Scope nat_scope.

(** eigenvalue_list_plot.py:77-118 [plot_eigenstate_occupations] of [n] real eigenvalues; [kT] is the
    product of temperature and Boltzmann constant, [argsort] is np.argsort.  The result is the line
    and the eigenvalues of the caller afterwards: [energies -= np.min(energies)] changes them in
    place.  np.min of nothing raises; for [kT] zero numpy warns and gives nan: [None]. *)
Definition plot_eigenstate_occupations (argsort : (nat -> R) -> nat -> nat -> nat) (n : nat) (energy : nat -> R) (kT : R)
  : option (list (R * R) * (nat -> R)) :=
  if n =? 0 then None
  else
    let energies i := (energy i - np_min energy n)%R in
    if Req_EM_T kT 0 then None
    else
      let weight i := exp (- Rabs (energies i) / kT) in
      let occupation i := (weight i / rsum weight n)%R in
      let a_sort := argsort energies n in
      Some (map (fun a => (energies (a_sort a), occupation (a_sort a))) (seq 0 n), energies).

(** 121-157 [plot_eigenvalues]: the drawn values, at the places 0, 1, ... *)
Definition plot_eigenvalues (argsort : (nat -> R) -> nat -> nat -> nat) (n : nat) (eigenvalue : nat -> C) (m : plot_measure) : list R :=
  let a_sort := argsort (fun i => Cmod (eigenvalue i)) n in
  let energies := measured_vector m eigenvalue in
  map (fun a => energies (a_sort a)) (seq 0 n).

(** state_vector/plot.py:684-695 [_get_eigenstate_occupation]: [E], [V] are the eigenvalues and the
    eigenvectors (in columns) of the Hamiltonian; states and eigenstates have the same basis, so
    nothing is converted.  698-733 [plot_all_eigenstate_occupations], whose animation 736-780
    draws the same lines one by one, and 813-851 [plot_average_eigenstate_occupation].  np.min of
    nothing raises, and so does reshape to (0, -1) for no states: [None]. *)
Definition eigenstate_occupation (n : nat) (V : nat -> nat -> C) (state : nat -> nat -> C) (i j : nat) : C :=
  csum (fun k => Cmult (Cconj (state i k)) (V k j)) n.
Definition plot_all_eigenstate_occupations (n ns : nat) (E : nat -> R) (V : nat -> nat -> C) (state : nat -> nat -> C)
  : option (list (list (R * R))) :=
  if n =? 0 then None
  else if ns =? 0 then None
  else
    let energies j := (E j - np_min E n)%R in
    Some (map (fun i => map (fun j => (energies j, (Cmod (eigenstate_occupation n V state i j) ^ 2)%R)) (seq 0 n)) (seq 0 ns)).
Definition plot_average_eigenstate_occupation (n ns : nat) (E : nat -> R) (V : nat -> nat -> C) (state : nat -> nat -> C)
  : option (list (R * R)) :=
  if n =? 0 then None
  else if ns =? 0 then None
  else
    let energies j := (E j - np_min E n)%R in
    Some (map (fun j => (energies j, mean ns (fun i => (Cmod (eigenstate_occupation n V state i j) ^ 2)%R))) (seq 0 n)).

(** 875-922 [plot_total_band_occupation_against_energy]: [h] are the energies of the Hamiltonian and
    [c] the amplitudes of the state in its Bloch basis, both in the order (band, sample).  The
    result is the line and the place of the dashed line.  np.average raises if the weights add to
    zero. *)
Definition plot_total_band_occupation_against_energy (nb ns : nat) (h c : nat -> C) (m : plot_measure) : option (list (R * R) * R) :=
  let energy (b : nat) := match get_average_band_energy nb ns h b with Some e => e | None => 0%R end in
  let total (b : nat) := rsum (fun s => (Cmod (c (b * ns + s)%nat) ^ 2)%R) ns in
  if ns =? 0 then None
  else
    match plot_data_1d nb (fun b => RtoC (total b)) energy m false with
    | None => None
    | Some line =>
        match rdiv (rsum (fun b => energy b * total b)%R nb) (rsum total nb) with
        | None => None
        | Some average_energy => Some (line, average_energy)
        end
    end.

(** wavepacket/plot.py:1112-1145 [plot_occupation_against_band] and 1148-1185
    [plot_occupation_against_band_average_energy], whose Hamiltonian has the eigenvalues as data
    (get_eigenstate.py:860-877). *)
Definition plot_occupation_against_band (nb ns : nat) (kT : R) (energy : nat -> R) (m : plot_measure) : option (list (R * R)) :=
  match get_wavepacket_band_occupation nb ns kT energy with
  | Some f => plot_value_list_against_nx nb (fun b => match f b with Some p => RtoC p | None => RtoC 0%R end) m
  | None => None
  end.
Definition plot_occupation_against_band_average_energy (nb ns : nat) (kT : R) (energy : nat -> R) (m : plot_measure) : option (list (R * R)) :=
  match get_wavepacket_band_occupation nb ns kT energy with
  | Some f =>
      if ns =? 0 then None
      else
        plot_data_1d nb (fun b => match f b with Some p => RtoC p | None => RtoC 0%R end)
          (fun b => match get_average_band_energy nb ns (fun t => RtoC (energy t)) b with Some e => e | None => 0%R end) m false
  | None => None
  end.

(** probability_vector/plot.py:43-78 [plot_probability_against_time]: one line for each state; the
    data are real.  dynamics/plot.py:39-70 [plot_probability_per_band] and 112-144
    [plot_probability_per_site] of a simulation basis with axes [l]. *)
Definition plot_probability_against_time (t : time_basis) (n : nat) (data : nat -> C) : option (list (list (R * R))) :=
  match times t with
  | Some ts => Some (map (fun s => map (fun j => (nth j ts 0%R, fst (data (j * n + s)))) (seq 0 (tn t))) (seq 0 n))
  | None => None
  end.
Definition plot_probability_summed (t : time_basis) (l : list basis) (data : ndarray) (axes : list Z) : option (list (list (R * R))) :=
  match sum_probabilities (BFund (tn t)) l data (Some axes) with
  | Some (r, d) => plot_probability_against_time t (nprod (map bsize r)) (aflat d)
  | None => None
  end.
Definition plot_probability_per_band (t : time_basis) (l : list basis) (data : ndarray) := plot_probability_summed t l data [0; 1]%Z.
Definition plot_probability_per_site (t : time_basis) (l : list basis) (data : ndarray) := plot_probability_summed t l data [2]%Z.
