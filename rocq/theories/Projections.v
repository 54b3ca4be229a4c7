(** Model of the states to project onto and of the localisation of single bands,
    wavepacket/localization/_projection.py:149-463.  No proofs here. *)
From Coq Require Import Reals.
From Verif Require Import ZLib Csum DFT NumPy Index Basis Operator Reduce StateList Wavepacket Localize Paths TightCell.
Local Open Scope nat_scope.

(** 149-182 [localize_single_band_wavepacket_projection] with [localize_wavepacket_projection]:
    the wavepacket and the projection as lists of one. *)
Definition localize_single_band_projection (same : basis -> basis -> bool) (svd : svd_fn) (laxes saxes : list basis)
    (data : ndarray) (projection : vector) : option ndarray :=
  match as_wavepacket_list (AList [data]), as_state_vector_list [projection] with
  | Some (nb, d), Some p =>
      let np := bsize (slist p) in
      match localization_operator_for_projections same svd nb np laxes saxes d (sbasis p) (sdata p) with
      | Some op =>
          match localized_wavepackets np nb (bsize (BTuple laxes)) op d with
          | Some w => get_wavepacket (slist p) w 0
          | None => None
          end
      | None => None
      end
  | _, _ => None
  end.

(** The state of a sample in the position basis: the axes of its basis and its values. *)
Definition position_state (same : basis -> basis -> bool) (laxes saxes : list basis) (data : ndarray) (idx : Z)
  : option (list basis * (nat -> C)) :=
  match get_wavepacket_state_vector same laxes saxes data idx with
  | None => None
  | Some (b, v) =>
      match convert same (BTuple b) (as_fundamental_position b) with
      | Some P => Some (map BFund (map bfund b), P (aflat v))
      | None => None
      end
  end.
Definition largest_value (F : list nat) (v : nat -> C) : option (list Z) :=
  match get_stacked_index F (Z.of_nat (argmax (fun t => Cmod (v t)) (nprod F))) with
  | Some i => Some (map Z.of_nat i)
  | None => None
  end.

(** 220-238 [get_single_point_state_for_wavepacket] with state_vector/util.py:62-68; the
    origin is a tuple. *)
Definition single_point_state (same : basis -> basis -> bool) (laxes saxes : list basis) (data : ndarray) (idx : Z)
    (origin : option (list Z)) : option vector :=
  match position_state same laxes saxes data idx with
  | None => None
  | Some (b, v) =>
      let F := map bfund b in
      let o := match origin with
               | Some o => Some o
               | None => match largest_value F v with
                         | Some i => Some (wrap_index_around_origin F i None None)
                         | None => None
                         end
               end in
      match o with
      | None => None
      | Some o =>
          match get_flat_index F o MWrap with
          | None => None
          | Some i => Some {| vbasis := BTuple b;
                              vdata := {| ashape := [nprod F]; aflat := fun t => if t =? i then RtoC 1%R else RtoC 0%R |} |}
          end
      end
  end.
(** 241-261 [localize_single_point_projection]. *)
Definition localize_single_point_projection (same : basis -> basis -> bool) (svd : svd_fn) (laxes saxes : list basis)
    (data : ndarray) (idx : Z) : option ndarray :=
  match single_point_state same laxes saxes data idx None with
  | Some p => localize_single_band_projection same svd laxes saxes data p
  | None => None
  end.

(** 197-217 [localize_tight_binding_projection]. *)
Definition localize_tight_binding_projection (same : basis -> basis -> bool) (svd : svd_fn) (laxes saxes : list basis)
    (data : ndarray) : option ndarray :=
  match get_tight_binding_state same laxes saxes data 0 None with
  | Some (BTuple b, v) =>
      match convert same (BTuple b) (as_fundamental_transformed b) with
      | Some T =>
          localize_single_band_projection same svd laxes saxes data
            {| vbasis := as_fundamental_transformed b;
               vdata := {| ashape := [nprod (map bfund b)]; aflat := T (aflat v) |} |}
      | None => None
      end
  | _ => None
  end.

(** [wrap_index_around_origin(wavepacket["basis"], origin)]: the basis is the pair (list basis,
    state basis), so two entries are read and returned. *)
Definition wrap_in_pair (nl n : nat) (o : list Z) : option (list Z) :=
  match o with
  | o0 :: o1 :: _ => Some [wrap_index o0 (Z.of_nat nl) 0; wrap_index o1 (Z.of_nat n) 0]
  | _ => None
  end.
(** [wrap_index_around_origin(basis, util.stacked_nx_points, origin)] at grid point [x]; the
    origin must have an entry for every axis. *)
Definition coordinates (F : list nat) (o : list Z) (x : list nat) : option (list Z) :=
  if length F <=? length o then Some (wrap_index_around_origin F (map Z.of_nat x) (Some o) None) else None.

(** 264-319 [get_exponential_state]: division before subtraction as written; [sample] is the
    stacked index of the point the value is for. *)
Definition exponential_weight (nl n : nat) (nfl nf : nat) (F : list nat) (o : list Z) (x : list nat) : option R :=
  match wrap_in_pair nl n o with
  | None => None
  | Some o =>
      match coordinates F o x with
      | None => None
      | Some c =>
          match nth_error c 0, nth_error c 1, nth_error c 2, nth_error o 0, nth_error o 1, nth_error o 2,
                nth_error [nfl; nf] 0, nth_error [nfl; nf] 1, nth_error [nfl; nf] 2 with
          | Some c0, Some c1, Some c2, Some o0, Some o1, Some o2, Some n0, Some n1, Some n2 =>
              let d c o n := (IZR c - IZR o / INR n)%R in
              Some (exp (- (d c0 o0 n0 * d c0 o0 n0 + d c1 o1 n1 * d c1 o1 n1 + d c2 o2 n2 * d c2 o2 n2)))%R
          | _, _, _, _, _, _, _, _, _ => None
          end
      end
  end.
Definition given_or_largest (F : list nat) (v : nat -> C) (origin : option point) : option (list Z) :=
  match origin with
  | None => largest_value F v
  | Some (Stacked o) => Some o
  | Some (Flat i) => match get_stacked_index F i with Some o => Some (map Z.of_nat o) | None => None end
  end.
(** The weights of all points: the indexing raises for the array as it does for one entry. *)
Definition get_exponential_state (same : basis -> basis -> bool) (laxes saxes : list basis) (data : ndarray)
    (idx : Z) (origin : option point) : option vector :=
  match position_state same laxes saxes data idx with
  | None => None
  | Some (b, v) =>
      let F := map bfund b in
      match given_or_largest F v origin with
      | None => None
      | Some o =>
          let w x := exponential_weight (bsize (BTuple laxes)) (bsize (BTuple saxes)) (bfund (BTuple laxes)) (bfund (BTuple saxes)) F o x in
          match w (unravel F 0) with
          | None => None
          | Some _ =>
              let value t := match w (unravel F t) with Some r => r | None => 0%R end in
              let norm := sqrt (rsum (fun t => (value t * value t)%R) (nprod F)) in
              Some {| vbasis := BTuple b; vdata := {| ashape := [nprod F]; aflat := fun t => RtoC (value t / norm)%R |} |}
          end
      end
  end.
(** 322-358 [localize_exponential_decay_projection] with [_get_exponential_decay_state]; the
    rest, after the exponential state, is left open. *)
Definition localize_exponential_decay_projection (same : basis -> basis -> bool) (laxes saxes : list basis) (data : ndarray)
    (finish : vector -> option ndarray) : option ndarray :=
  match get_exponential_state same laxes saxes data 0 None with
  | Some e => finish e
  | None => None
  end.

(** 361-412 [get_gaussian_states]: one state on the supercell. *)
Definition gaussian_weight (nl n : nat) (F : list nat) (o : list Z) (x : list nat) : option R :=
  match wrap_in_pair nl n o with
  | None => None
  | Some o =>
      match coordinates F o x with
      | Some [c0; c1] =>
          match o with
          | [o0; o1] =>
              let d0 := (IZR (c0 - o0) / INR nl)%R in
              let d1 := (IZR (c1 - o1) / INR n)%R in
              Some (exp (- (1 / 2) * (d0 * d0 + d1 * d1)))%R
          | _ => None
          end
      | _ => None (* zip(strict=True) *)
      end
  end.
Definition get_gaussian_states (laxes saxes : list basis) (origin : point) : option state_list :=
  let F := map2 Nat.mul (map bfund laxes) (map bfund saxes) in
  let o := match origin with
           | Stacked o => Some o
           | Flat i => match get_stacked_index F i with Some o => Some (map Z.of_nat o) | None => None end
           end in
  if negb (length laxes =? length saxes) then None
  else
  match o with
  | None => None
  | Some o =>
      let w x := gaussian_weight (bsize (BTuple laxes)) (bsize (BTuple saxes)) F o x in
      match w (unravel F 0) with
      | None => None
      | Some _ =>
          let value t := match w (unravel F t) with Some r => r | None => 0%R end in
          let norm := sqrt (rsum (fun t => (value t * value t)%R) (nprod F)) in
          Some {| slist := BFund 1; sbasis := BTuple (map BFund F);
                  sdata := {| ashape := [nprod F]; aflat := fun t => RtoC (value t / norm)%R |} |}
      end
  end.

(** 415-434 [localize_wavepacket_gaussian_projection]; [get_state_vector] (state_vector_list.py)
    of the only state. *)
Definition localize_gaussian_projection (same : basis -> basis -> bool) (svd : svd_fn) (laxes saxes : list basis)
    (data : ndarray) : option ndarray :=
  match get_gaussian_states laxes saxes (Flat 0) with
  | None => None
  | Some s =>
      let F := map2 Nat.mul (map bfund laxes) (map bfund saxes) in
      match sbasis s with
      | BTuple b =>
          match convert same (BTuple b) (as_fundamental_transformed b) with
          | Some T =>
              localize_single_band_projection same svd laxes saxes data
                {| vbasis := as_fundamental_transformed b;
                   vdata := {| ashape := [nprod F]; aflat := T (aflat (sdata s)) |} |}
          | None => None
          end
      | _ => None
      end
  end.

(** 437-463 [get_evenly_spaced_points]: [F] is the shape of the supercell. *)
Definition even_point (F shape : list nat) (i : nat) : list nat :=
  map2 (fun p s => p / s) (map2 Nat.mul F (unravel shape i)) shape.
Definition get_evenly_spaced_points (laxes saxes : list basis) (shape : list nat) : option state_list :=
  let F := map2 Nat.mul (map bfund laxes) (map bfund saxes) in
  if negb (length laxes =? length saxes) then None
  else if negb (length F =? length shape) && (0 <? nprod shape) then None (* zip(strict=True) *)
  else
    match all_some (map (fun i => get_flat_index F (map Z.of_nat (even_point F shape i)) MRaise) (seq 0 (nprod shape))) with
    | None => None
    | Some l =>
        Some {| slist := BTuple (map BFund shape); sbasis := BTuple (map BFund F);
                sdata := ravel_array (array2 (nprod shape) (nprod F) (fun i t => if t =? nth i l 0 then RtoC 1%R else RtoC 0%R)) |}
    end.
