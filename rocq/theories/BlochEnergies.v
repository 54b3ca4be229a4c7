(** Model of the functions of wavepacket/get_eigenstate.py, wavepacket/wavepacket.py and
    wavepacket/localization/_operator.py that treat Bloch states together with their
    eigenvalues.  No proofs here. *)
From Coq Require Import Reals.
From Verif Require Import ZLib Csum DFT NumPy Index Basis Operator Reduce Wavepacket BlochBasis.
Local Open Scope nat_scope.

(** ** wavepacket/get_eigenstate.py *)

(** The offsets of sample [i]: entry [i] of every array of [util.stacked_nk_points], where
    [util] belongs to [get_fundamental_sample_basis] (wavepacket.py:134-158), whose shape is
    the fundamental shape of the list basis. *)
Definition sample_offsets (ls : list nat) (i : nat) : list Z :=
  map (fun ax => stacked_nk_points ls ax i) (seq 0 (length ls)).

(** 246-279 [get_all_wavepacket_states]: basis and data of the state of every sample.
    Different numbers of list and state axes raise (an index error or the strict zip). *)
Definition get_all_wavepacket_states (same : basis -> basis -> bool) (laxes saxes : list basis) (data : ndarray)
  : option (list (list basis * ndarray)) :=
  let ls := map bfund laxes in
  let ss := map bfund saxes in
  match convert_wavepacket same (BTuple laxes) (BTuple saxes)
          (as_fundamental_transformed laxes) (as_fundamental_transformed saxes) data with
  | None => None
  | Some d =>
      match reshape d [nprod ls; nprod ss] with
      | None => None
      | Some d2 =>
          all_some (map (fun i =>
            match sampled_basis ls ss (sample_offsets ls i) with
            | Some b => Some (b, select_row d2 i)
            | None => None
            end) (seq 0 (nprod ls)))
      end
  end.

(** 202-243 [get_all_eigenstates]: the converted data are flat here and the strict zip runs
    over their numbers, over the eigenvalues and over the samples. *)
Definition get_all_eigenstates (same : basis -> basis -> bool) (laxes saxes : list basis) (data eig : ndarray)
  : option (list (list basis * C * C)) :=
  let ls := map bfund laxes in
  let ss := map bfund saxes in
  match convert_wavepacket same (BTuple laxes) (BTuple saxes)
          (as_fundamental_transformed laxes) (as_fundamental_transformed saxes) data with
  | None => None
  | Some d =>
      if (nprod (ashape d) =? nprod ls) && (nprod (ashape eig) =? nprod ls) then
        all_some (map (fun i =>
          match sampled_basis ls ss (sample_offsets ls i) with
          | Some b => Some (b, aflat d i, aflat eig i)
          | None => None
          end) (seq 0 (nprod ls)))
      else None
  end.

(** ** wavepacket/localization/_operator.py

    Everything these functions do with the eigenstates is left open ([finish]): they all
    start from [get_all_eigenstates]. *)
Record wavepacket_eig := { w_list : list basis; w_state : list basis; w_data : ndarray; w_eig : ndarray }.
(** 118-136 [localize_position_operator] with 98-115 [_localize_operator]. *)
Definition localize_position_operator {A} (same : basis -> basis -> bool)
    (finish : list (list basis * C * C) -> option (list A)) (w : wavepacket_eig) : option (list A) :=
  match get_all_eigenstates same (w_list w) (w_state w) (w_data w) (w_eig w) with
  | Some l => finish l
  | None => None
  end.
(** 139-176 [localize_position_operator_many_band]; [wavepackets[0]] raises on an empty list. *)
Definition localize_position_operator_many_band {A} (same : basis -> basis -> bool)
    (finish : list (list (list basis * C * C)) -> option A) (ws : list wavepacket_eig) : option A :=
  match ws with
  | [] => None
  | _ =>
      match all_some (map (fun w => get_all_eigenstates same (w_list w) (w_state w) (w_data w) (w_eig w)) ws) with
      | Some l => finish l
      | None => None
      end
  end.
(** 179-210 [localize_position_operator_many_band_individual]; entry
    [np.prod(list_shape) // 4] of every list, with the list shape of the first one. *)
Definition localize_position_operator_individual {A B} (same : basis -> basis -> bool)
    (finish : list (list basis * C * C) -> option (list A)) (finish' : list A -> option B)
    (ws : list wavepacket_eig) : option B :=
  match ws with
  | [] => None
  | w0 :: _ =>
      match all_some (map (fun w =>
          match localize_position_operator same finish w with
          | Some l => nth_error l (nprod (map bsize (w_list w0)) / 4)
          | None => None
          end) ws) with
      | Some l => finish' l
      | None => None
      end
  end.

(** ** Energies *)

(** eigenstate_calculation.py:105-128 [calculate_expectation_diagonal] with the operator
    of get_eigenstate.py:860-877 [get_full_bloch_hamiltonian], whose data are the
    eigenvalues and whose basis is the Bloch basis; [sb], [state] are basis and data of the
    state.  The einsum needs as many eigenvalues as Bloch states (the broadcasting of a
    single eigenvalue is left out). *)
Definition bloch_energy (same : basis -> basis -> bool) (nb : nat) (ls : list nat) (saxes : list basis)
    (data eig : ndarray) (sb : basis) (state : nat -> C) : option C :=
  match bloch_from_fundamental same nb ls saxes data (into_fundamental sb state) with
  | Some c =>
      if nprod (ashape eig) =? nb * nprod ls then
        Some (csum (fun r => Cmult (Cmult (Cconj (c r)) (aflat eig r)) (c r)) (nb * nprod ls))
      else None
  | None => None
  end.

(** wavepacket.py:494-513 [get_average_eigenvalues] with eigenstate_list.py:52-69
    [get_eigenvalues_list]: the bands and the samples are the two axes, the second one is
    averaged; the band basis is the first basis left. *)
Definition get_average_eigenvalues (bands samples : basis) (eig : ndarray) : option (basis * ndarray) :=
  match average_eigenvalues {| dbasis := [bands; samples]; ddata := eig |} (Some [1%Z]) with
  | Some r => match dbasis r with b :: _ => Some (b, ddata r) | [] => None end
  | None => None
  end.

(** ** Slices of bands *)

(** The rows [a[start:stop:step]] of an array of [n] rows (CPython's PySlice_AdjustIndices);
    a step of zero raises. *)
Definition slice_rows (n : nat) (start stop step : option Z) : option (list nat) :=
  let n := Z.of_nat n in
  let step := match step with Some s => s | None => 1%Z end in
  let lower := (if step <? 0 then -1 else 0)%Z in
  let upper := (if step <? 0 then n - 1 else n)%Z in
  let adjust i := (if i <? 0 then Z.max (i + n) lower else Z.min i upper)%Z in
  let start := match start with Some i => adjust i | None => (if step <? 0 then upper else lower)%Z end in
  let stop := match stop with Some i => adjust i | None => (if step <? 0 then lower else upper)%Z end in
  if (step =? 0)%Z then None
  else
    let len := (if step <? 0 then (if stop <? start then (start - stop - 1) / (- step) + 1 else 0)
                else (if start <? stop then (stop - start - 1) / step + 1 else 0))%Z in
    Some (map (fun j => Z.to_nat (start + Z.of_nat j * step)) (seq 0 (Z.to_nat len))).

(** [a.reshape(n, -1)[rows].ravel()]: the rows and their common length. *)
Definition take_rows (n : nat) (a : ndarray) (rows : list nat) : option ndarray :=
  if n =? 0 then None
  else if nprod (ashape a) mod n =? 0 then
    let m := nprod (ashape a) / n in
    Some {| ashape := [length rows * m]; aflat := fun t => aflat a (nth (t / m) rows 0 * m + t mod m) |}
  else None.

(** wavepacket.py:420-447 [get_wavepackets_with_eigenvalues]: the number of bands, the data
    and the eigenvalues; [nb] bands. *)
Definition get_wavepackets_with_eigenvalues (nb : nat) (data eig : ndarray) (start stop step : option Z)
  : option (nat * ndarray * ndarray) :=
  match slice_rows nb start stop step with
  | None => None
  | Some rows =>
      match take_rows nb data rows, take_rows nb eig rows with
      | Some d, Some e => Some (length rows, d, e)
      | _, _ => None
      end
  end.

(** wavepacket.py:368-390 [get_wavepacket_at_band]: the data and the eigenvalues of one band. *)
Definition get_wavepacket_at_band (nb : nat) (data eig : ndarray) (idx : Z) : option (ndarray * ndarray) :=
  match python_index nb idx with
  | None => None
  | Some i =>
      match take_rows nb data [i], take_rows nb eig [i] with
      | Some d, Some e => Some (d, e)
      | _, _ => None
      end
  end.
