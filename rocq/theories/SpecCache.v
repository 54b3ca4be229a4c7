(** Vocabulary for the statements about cached functions. *)
From Coq Require Import List Arith Bool.
From Coq Require String.
From Verif Require Import Cache.
Import ListNotations.
Local Open Scope nat_scope.

(** What the pickle format promises: a complete dump loads to the same object, and
    nothing shorter loads at all. *)
Definition pickle_ok {V} (pk : pickle V) : Prop :=
  (forall v, picklable pk v = true -> loads pk (dumps pk v) = Some v) /\
  (forall v, picklable pk v = false -> loads pk (dumps pk v) = None) /\
  (forall v k, k < length (dumps pk v) -> loads pk (firstn k (dumps pk v)) = None).
(** The same for npy files; [stored v] is np.asanyarray(v)[()]. *)
Definition npy_ok {V} (io : npy V) (stored : V -> V) : Prop :=
  (forall v, npy_loads io (npy_dumps io v) = Some (stored v) /\ is_object io (stored v) = is_object io v) /\
  (forall v k, k < length (npy_dumps io v) -> npy_loads io (firstn k (npy_dumps io v)) = None) /\
  (forall v, is_object io v = true -> npy_header io v < length (npy_dumps io v)).

(** Calls with the same path have the same value. *)
Definition path_determines {A V} (c : cached_function A V) : Prop :=
  forall a b p, path c a = Some p -> path c b = Some p -> inner c a = inner c b.

(** Whatever can be loaded from the path of [a] is the value of the function at [a]. *)
Definition consistent {A V} (pk : pickle V) (c : cached_function A V) (fs : filesystem) : Prop :=
  forall a p bytes v, path c a = Some p -> files fs p = Some bytes -> loads pk bytes = Some v ->
    inner c a = Some v.

(** The calls with path [p] in a history. *)
Definition uses {A V} (c : cached_function A V) (p : String.string) (e : event (A := A)) : bool :=
  match e with
  | Call _ _ a => match path c a with Some q => String.eqb q p | None => false end
  | Remove q => String.eqb q p
  end.
(** Number of times the function was evaluated on arguments with path [p]. *)
Definition evaluations {A V} (c : cached_function A V) (p : String.string)
    (trace : list (event (A := A) * result V * list A)) : nat :=
  length (filter (fun a => match path c a with Some q => String.eqb q p | None => false end)
                 (concat (map snd trace))).

(** A call which looks into the cache. *)
Definition loading (k : call_type) : Prop := k = load_or_call_cached \/ k = load_or_call_uncached.

(** A process which has not started; those which save their result. *)
Definition fresh {V} (s : proc V) : Prop := exists save, s = Begin save.
Definition saves {V} (s : proc V) : bool := match s with Begin save => save | _ => false end.
