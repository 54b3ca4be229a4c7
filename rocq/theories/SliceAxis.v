(** Model of util/util.py [slice_along_axis] and of how numpy reads its result.  No proofs here. *)
From Coq Require Import List ZArith Arith.
Import ListNotations.
Local Open Scope nat_scope.

(** An entry of an index of an array: everything along an axis, the ellipsis, a new axis, or an
    index or slice [x] along an axis. *)
Inductive index_entry (A : Type) : Type := Everything | Ellipsis | NewAxis | Along (x : A).
Arguments Everything {A}. Arguments Ellipsis {A}. Arguments NewAxis {A}. Arguments Along {A} x.

(** util/util.py:19-35 [slice_along_axis]: [None] for the slice is a new axis. *)
Definition slice_along_axis {A} (slice_at_axis : option A) (axis : Z) : list (index_entry A) :=
  let entry := match slice_at_axis with Some x => Along x | None => NewAxis end in
  if (axis <? 0)%Z then Ellipsis :: entry :: repeat Everything (Z.to_nat (-1 - axis))
  else repeat Everything (Z.to_nat axis) ++ [entry].

(** numpy's reading of an index of an array with [nd] axes: the first ellipsis, or the end, stands for
    everything along the axes that are left; too many entries, or a second ellipsis, raise. *)
Definition uses_axis {A} (e : index_entry A) : bool := match e with Everything => true | Along _ => true | _ => false end.
Definition is_ellipsis {A} (e : index_entry A) : bool := match e with Ellipsis => true | _ => false end.
Definition np_index {A} (nd : nat) (index : list (index_entry A)) : option (list (index_entry A)) :=
  let used := length (filter uses_axis index) in
  let left := repeat Everything (nd - used) in
  match filter is_ellipsis index with
  | [] => if used <=? nd then Some (index ++ left) else None
  | [_] => if used <=? nd then Some (flat_map (fun e => if is_ellipsis e then left else [e]) index) else None
  | _ => None
  end.
