(** Model of the localisation about a largest value of the wavepacket,
    wavepacket/localization/_tight_binding.py:169-335.  No proofs here. *)
From Coq Require Import Reals.
From Verif Require Import ZLib Csum DFT NumPy Index Basis Operator Reduce Wavepacket Localize Lattice Paths Projections.
Local Open Scope nat_scope.

(** 169-203 [get_wavepacket_two_points].  [util.shape] needs two axes; the origin has three
    entries, so [origin[ax]] raises from the fourth axis on. *)
Definition get_wavepacket_two_points (same : basis -> basis -> bool) (laxes saxes : list basis) (data : ndarray) (offset : Z * Z)
  : option (list Z * list Z) :=
  let shape := map bsize saxes in
  match shape with
  | n0 :: n1 :: _ =>
      let origin := [Z.of_nat n0 * fst offset; Z.of_nat n1 * snd offset; 0]%Z in
      match position_state same laxes saxes data 0 with
      | None => None
      | Some (b, v) =>
          match largest_value (map bfund b) v with
          | None => None
          | Some i =>
              if length shape <=? 3 then
                let i0 := wrap_index_around_origin shape i (Some origin) None in
                match get_x01_mirrored_index i0 with
                | Some m => Some (i0, wrap_index_around_origin shape m (Some origin) None)
                | None => None
                end
              else None
          end
      end
  | _ => None
  end.

(** 206-209 [_wrap_phases]. *)
Definition wrap_phases (x half_width : R) : R := (rmod (x + half_width) (2 * half_width) - half_width)%R.

(** [a[:, ..., np.newaxis]] with [k] slices: an IndexError when there are more slices than axes. *)
Definition slices_newaxis (k : nat) (a : ndarray) : option ndarray :=
  if k <=? length (ashape a)
  then Some {| ashape := firstn k (ashape a) ++ 1 :: skipn k (ashape a); aflat := aflat a |}
  else None.

(** The sum of the phases of [_get_bloch_wavefunction_phases] and [_get_global_phases]. *)
Definition wave_phase (same : basis -> basis -> bool) (laxes saxes : list basis) (data : ndarray) (idx : list Z)
  : option (nat -> R) :=
  match bloch_phase same laxes saxes data (Stacked idx), global_phase same laxes saxes (Stacked idx) with
  | Some b, Some g => Some (fun s => (b s + g s)%R)
  | _, _ => None
  end.

(** 212-296 [localize_tightly_bound_wavepacket_two_point_max].  The data are multiplied as they
    are, without a reshape. *)
Definition localize_two_point_max (same : basis -> basis -> bool) (laxes saxes : list basis) (data : ndarray)
    (offset : Z * Z) (angle : R) : option ndarray :=
  match get_wavepacket_two_points same laxes saxes data offset with
  | None => None
  | Some (i0, i1) =>
      match wave_phase same laxes saxes data i0, wave_phase same laxes saxes data i1 with
      | Some phi0, Some phi1 =>
          let fix_ s := (phi0 s + phi1 s - phi1 s + / 2 * wrap_phases (phi1 s - phi0 s) (PI / 2))%R in
          match slices_newaxis 1 {| ashape := [bsize (BTuple laxes)]; aflat := fun s => cis (- (fix_ s - angle))%R |} with
          | Some phases => broadcast_op Cmult data phases
          | None => None
          end
      | _, _ => None
      end
  end.

(** 299-335 [localize_tightly_bound_wavepacket_max_point]. *)
Definition localize_max_point (same : basis -> basis -> bool) (laxes saxes : list basis) (data : ndarray) (angle : R)
  : option ndarray :=
  match position_state same laxes saxes data 0 with
  | None => None
  | Some (b, v) =>
      match largest_value (map bfund b) v with
      | None => None
      | Some i =>
          match wave_phase same laxes saxes data (wrap_index_around_origin (map bsize saxes) i None (Some [0; 1])) with
          | None => None
          | Some phi =>
              match slices_newaxis 2 {| ashape := [bsize (BTuple laxes)]; aflat := fun s => cis (- (phi s - angle))%R |} with
              | Some phases => broadcast_op Cmult data phases
              | None => None
              end
          end
      end
  end.
