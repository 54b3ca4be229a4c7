(** Model of wavepacket/get_eigenstate.py:282-355, the states of the tight binding
    approximation.  No proofs here. *)
From Coq Require Import Reals.
From Verif Require Import ZLib Csum DFT NumPy Index Basis Operator Reduce StateList Wavepacket Localize Paths.
Local Open Scope nat_scope.

(** Entry [p] of the two arrays of [fundamental_stacked_nx_points] (basis/util.py:223-231) of
    a basis with the two parts (list basis, state basis) of [n] points in the second part. *)
Definition pair_point (n p : nat) : list Z := [Z.of_nat (p / n); Z.of_nat (p mod n)].

(** 313-320, the origin: the given one in stacked form (stacked_basis/util.py:297-298; a tuple
    must have an entry for every axis, more are ignored), by default the first largest value of
    [abs(state)] wrapped around zero.  [F] is the shape of the state, [ns] the shape of the
    state basis of the wavepacket. *)
Definition cell_origin (F ns : list nat) (v : nat -> C) (origin : option point) : option (list Z) :=
  match origin with
  | Some (Stacked o) => if length ns <=? length o then Some o else None
  | Some (Flat i) => match get_stacked_index ns i with Some o => Some (map Z.of_nat o) | None => None end
  | None =>
      match get_stacked_index F (Z.of_nat (argmax (fun t => Cmod (v t)) (nprod F))) with
      | Some i => Some (wrap_index_around_origin ns (map Z.of_nat i) None None)
      | None => None
      end
  end.

(** 324-333, the flat indices of the points that are kept: [idx[ax]] of the two arrays raises
    from the third axis on. *)
Definition cell_points (F ns : list nat) (nl n : nat) (o : list Z) : option (list nat) :=
  if 2 <? length ns then None
  else all_some (map (fun p =>
         get_flat_index F (wrap_index_around_origin ns (pair_point n p) (Some o) None) MWrap) (seq 0 (nl * n))).

(** 282-341 [get_tight_binding_state] with a flat index of the sample: basis and data. *)
Definition get_tight_binding_state (same : basis -> basis -> bool) (laxes saxes : list basis) (data : ndarray)
    (idx : Z) (origin : option point) : option (basis * ndarray) :=
  match get_wavepacket_state_vector same laxes saxes data idx with
  | None => None
  | Some (b, v) =>
      let F := map bfund b in
      match convert same (BTuple b) (as_fundamental_position b) with
      | None => None
      | Some P =>
          let v := P (aflat v) in
          match cell_origin F (map bsize saxes) v origin with
          | None => None
          | Some o =>
              match cell_points F (map bsize saxes) (bfund (BTuple laxes)) (bfund (BTuple saxes)) o with
              | None => None
              | Some kept =>
                  Some (as_fundamental_position b,
                        {| ashape := [nprod F];
                           aflat := fun t => if existsb (Nat.eqb t) kept then v t else RtoC 0%R |})
              end
          end
      end
  end.

(** 344-358 [get_tight_binding_states]: one state per band; the list basis is the band basis. *)
Definition get_tight_binding_states (same : basis -> basis -> bool) (bands : basis) (laxes saxes : list basis) (data : ndarray)
    (idx : Z) (origin : option point) : option state_list :=
  match wavepacket_list_into_iter bands data with
  | None => None
  | Some l =>
      match all_some (map (fun d => get_tight_binding_state same laxes saxes d idx origin) l) with
      | None => None
      | Some l =>
          match as_state_vector_list (map (fun s => {| vbasis := fst s; vdata := snd s |}) l) with
          | Some s => Some {| slist := bands; sbasis := sbasis s; sdata := sdata s |}
          | None => None
          end
      end
  end.
