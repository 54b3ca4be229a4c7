(** Cached functions: pickle caches (C42), numpy caches (C43). *)
From Coq Require Import List Arith Bool Lia.
From Coq Require String.
From Verif Require Import Cache SpecCache CacheProofs CacheProofs2.
Import ListNotations.
Local Open Scope nat_scope.

(** ** C42 *)

(** The squares of a number and its successor, cached under one path per number;
    numbers are stored as a tag and two bytes, and 9 has no value. *)
Definition ex_path (a : nat) : option String.string :=
  Some (String.String (Ascii.ascii_of_nat (97 + a)) String.EmptyString).
Definition ex_function : cached_function nat (nat * nat) :=
  {| inner := fun a => if a =? 9 then None else Some (a * a, S a * S a); path := ex_path |}.
Definition ex_empty : filesystem := {| files := fun _ => None; can_write := fun _ => true |}.
(** The same with a single path for every argument. *)
Definition ex_one_path : cached_function nat (nat * nat) :=
  {| inner := fun a => Some (a * a, S a * S a); path := fun _ => ex_path 0 |}.
(** A pickle for which (0, 0) is None and pairs starting with 1 cannot be dumped. *)
Definition odd_pickle : pickle (nat * nat) :=
  {| dumps := fun v => if fst v =? 1 then [7] else [7; fst v; snd v];
     picklable := fun v => negb (fst v =? 1);
     loads := fun b => match b with [7; x; y] => Some (x, y) | _ => None end;
     is_none := fun v => (fst v =? 0) && (snd v =? 0) |}.
Example odd_pickle_ok : pickle_ok odd_pickle /\ picklable odd_pickle (1, 4) = false /\
  is_none odd_pickle (0, 0) = true /\ picklable odd_pickle (0, 0) = true.
Proof.
  split; [|repeat split; reflexivity]. split; [|split].
  - intros [x y] H. cbn in *. destruct (x =? 1); [discriminate|reflexivity].
  - intros [x y] H. cbn in *. destruct (x =? 1); [reflexivity|discriminate].
  - intros [x y] k Hk. cbn in *. destruct (x =? 1); cbn in Hk;
      destruct k as [|[|[|k]]]; try reflexivity; lia.
Qed.
Example ex_cache_ok : pickle_ok pair_pickle /\ consistent pair_pickle ex_function ex_empty /\
  inner ex_function 3 = Some (9, 16) /\ inner ex_function 9 = None /\
  (forall a b p, a < 9 -> b < 9 -> path ex_function a = Some p -> path ex_function b = Some p -> a = b).
Proof.
  split; [exact pair_pickle_ok|]. split; [intros a p bytes v _ H; discriminate|].
  split; [reflexivity|]. split; [reflexivity|].
  intros a b p Ha Hb H1 H2. assert (E : ex_path a = ex_path b) by (unfold ex_function in *; cbn in *; congruence).
  do 9 (destruct a as [|a]; [do 9 (destruct b as [|b]; [reflexivity || discriminate E|]); lia|]). lia.
Qed.
Example ex_path_determines : path_determines {| inner := fun a : nat => Some (5, 6); path := fun _ => ex_path 0 |}.
Proof. intros a b p _ _. reflexivity. Qed.

(** Whatever was called, killed, or removed before: a call which returns, returns the
    value of the function, provided calls sharing a path have the same value. *)
Theorem C42_returned_values_are_right :
  forall (A V : Type) (pk : pickle V) (c : cached_function A V),
  pickle_ok pk -> path_determines c ->
  forall events fs k kill a v ev, consistent pk c fs ->
  In (Call k kill a, Returned v, ev) (snd (run pk c events fs)) -> inner c a = Some v.
Proof. intros A V pk c H. exact (history_values pk c H). Qed.
Print Assumptions C42_returned_values_are_right.

(** Otherwise the last write wins: the value saved for [a] is returned for any [b] with
    the same path. *)
Theorem C42_last_write_wins :
  forall (A V : Type) (pk : pickle V) (c : cached_function A V), pickle_ok pk ->
  forall fs a p v, inner c a = Some v -> path c a = Some p -> can_write fs p = true ->
  picklable pk v = true -> is_none pk v = false ->
  exists fs', call pk c call_cached never a fs = (fs', Returned v, [a]) /\
    forall b k kill, path c b = Some p -> loading k -> call pk c k kill b fs' = (fs', Returned v, []).
Proof. intros A V pk c H. exact (repaired pk c H). Qed.
Print Assumptions C42_last_write_wins.
Theorem C42_shared_path_refuted :
  exists (c : cached_function nat (nat * nat)) fs',
    call pair_pickle c load_or_call_cached never 2 ex_empty = (fs', Returned (4, 9), [2]) /\
    call pair_pickle c load_or_call_cached never 3 fs' = (fs', Returned (4, 9), []) /\
    inner c 3 = Some (9, 16).
Proof. exists ex_one_path. eexists. split; [reflexivity|]. split; reflexivity. Qed.
Print Assumptions C42_shared_path_refuted.

(** Starting without a file, uninterrupted calls evaluate the function once per path. *)
Theorem C42_evaluated_once :
  forall (A V : Type) (pk : pickle V) (c : cached_function A V), pickle_ok pk ->
  forall p,
  (forall a v, path c a = Some p -> inner c a = Some v -> picklable pk v = true /\ is_none pk v = false) ->
  (forall a, path c a = Some p -> inner c a <> None) ->
  forall events fs, can_write fs p = true ->
  Forall (fun e => uses c p e = true -> exists a, e = Call load_or_call_cached never a) events ->
  files fs p = None ->
  evaluations c p (snd (run pk c events fs)) = if existsb (uses c p) events then 1 else 0.
Proof. intros A V pk c H p H1 H2 events fs H3 H4. exact (proj1 (once_history pk c H p H1 H2 events fs H3 H4)). Qed.
Print Assumptions C42_evaluated_once.
Example ex_once : evaluations ex_function (String.String (Ascii.ascii_of_nat 99) String.EmptyString)
  (snd (run pair_pickle ex_function
    [Call load_or_call_cached never 2; Call call_cached (after_bytes 1) 3; Call load_or_call_cached never 2;
     Call load_or_call_cached never 9; Call load_or_call_cached never 2] ex_empty)) = 1.
Proof. reflexivity. Qed.

(** A process killed while dumping leaves a file on which every later load raises, for
    ever, without evaluating the function. *)
Theorem C42_killed_while_saving :
  forall (A V : Type) (pk : pickle V) (c : cached_function A V), pickle_ok pk ->
  forall fs a p v n events, inner c a = Some v -> path c a = Some p -> can_write fs p = true ->
  n < length (dumps pk v) ->
  Forall (fun e => exists k kill b, e = Call k kill b /\ loading k /\ path c b = Some p) events ->
  exists fs', call pk c call_cached (after_bytes n) a fs = (fs', Killed, [a]) /\
    (forall q, q <> p -> files fs' q = files fs q) /\
    fst (run pk c events fs') = fs' /\
    Forall (fun t => snd (fst t) = Raised /\ snd t = []) (snd (run pk c events fs')).
Proof. intros A V pk c H. exact (killed_dump pk c H). Qed.
Print Assumptions C42_killed_while_saving.
(** So does a result which cannot be pickled. *)
Theorem C42_unpicklable_result :
  forall (A V : Type) (pk : pickle V) (c : cached_function A V), pickle_ok pk ->
  forall fs a p v events, inner c a = Some v -> path c a = Some p -> can_write fs p = true ->
  files fs p = None -> picklable pk v = false ->
  Forall (fun e => exists k kill b, e = Call k kill b /\ loading k /\ path c b = Some p) events ->
  exists fs', call pk c load_or_call_cached never a fs = (fs', Raised, [a]) /\
    fst (run pk c events fs') = fs' /\
    Forall (fun t => snd (fst t) = Raised /\ snd t = []) (snd (run pk c events fs')).
Proof. intros A V pk c H. exact (unpicklable pk c H). Qed.
Print Assumptions C42_unpicklable_result.

(** A function which raises leaves the disk alone; a missing directory loses the value. *)
Theorem C42_raising_function :
  forall (A V : Type) (pk : pickle V) (c : cached_function A V) fs a k kill,
  inner c a = None -> fst (fst (call pk c k kill a fs)) = fs.
Proof. intros A V. exact raising_call. Qed.
Print Assumptions C42_raising_function.
Theorem C42_missing_directory :
  forall (A V : Type) (pk : pickle V) (c : cached_function A V) fs a p v,
  inner c a = Some v -> path c a = Some p -> can_write fs p = false ->
  files fs p = None -> call pk c load_or_call_cached never a fs = (fs, Raised, [a]).
Proof. intros A V. exact unwritable_call. Qed.
Print Assumptions C42_missing_directory.

(** None is evaluated on every call, although it is saved every time. *)
Theorem C42_none_is_never_cached :
  forall (A V : Type) (pk : pickle V) (c : cached_function A V), pickle_ok pk ->
  forall fs a p v n, inner c a = Some v -> path c a = Some p -> can_write fs p = true ->
  picklable pk v = true -> is_none pk v = true -> files fs p = None ->
  snd (run pk c (repeat (Call load_or_call_cached never a) n) fs) =
  repeat (Call load_or_call_cached never a, Returned v, [a]) n.
Proof. intros A V pk c H. exact (none_history pk c H). Qed.
Print Assumptions C42_none_is_never_cached.

(** Several processes at once.  With at most one which saves, whatever any of them
    returns is the value, at every moment of every schedule. *)
Theorem C42_one_writer :
  forall (V : Type) (pk : pickle V) (v : V), pickle_ok pk -> picklable pk v = true ->
  forall file procs file' procs' w,
  (file = None \/ file = Some (dumps pk v)) -> Forall fresh procs ->
  length (filter saves procs) <= 1 ->
  steps pk v (file, procs) (file', procs') ->
  In (Done (Returned w)) procs' -> w = v.
Proof. intros V pk v H _. exact (single_writer pk v H). Qed.
Print Assumptions C42_one_writer.
(** With two, a third one can load something which was never computed. *)
Theorem C42_two_writers_refuted :
  exists file' : option (list nat), pickle_ok pair_pickle /\
  steps pair_pickle (3, 4) (None, [Begin true; Begin true; Begin false])
    (file', [Writing 3; Writing 1; Done (Returned (0, 4))]).
Proof. destruct two_writers as [f H]. exists f. split; [exact pair_pickle_ok|exact H]. Qed.
Print Assumptions C42_two_writers_refuted.
(** But once every process has finished and none was killed, the file is whole. *)
Theorem C42_all_finished :
  forall (V : Type) (pk : pickle V) (v : V), pickle_ok pk -> picklable pk v = true ->
  forall file procs file' procs',
  (file = None \/ file = Some (dumps pk v)) -> Forall fresh procs ->
  steps pk v (file, procs) (file', procs') ->
  Forall (fun s => exists r, s = Done r /\ r <> Killed) procs' ->
  (file' = None \/ file' = Some (dumps pk v)) /\
  (0 < length (filter saves procs) -> file' = Some (dumps pk v)).
Proof. intros V pk v _ _. exact (all_finished pk v). Qed.
Print Assumptions C42_all_finished.

(** ** C43 *)

(** Pairs as arrays; those starting with 1 have dtype object. *)
Definition pair_npy : npy (nat * nat) :=
  {| npy_dumps := fun v => [8; fst v; snd v]; npy_header := fun _ => 1;
     npy_loads := fun b => match b with [8; x; y] => Some (x, y) | _ => None end;
     is_object := fun v => fst v =? 1 |}.
Definition npy_path (a : nat) : option String.string :=
  match ex_path a with Some p => Some (String.append p dot_npy) | None => None end.
Definition npy_function (f : nat -> option String.string) : cached_function nat (nat * nat) :=
  {| inner := fun a => Some (a, S a); path := f |}.
Example pair_npy_ok : npy_ok pair_npy (fun v => v) /\ is_object pair_npy (1, 2) = true /\
  (exists p, path (npy_function npy_path) 1 = Some p /\ is_npy p = true) /\
  (exists p, path (npy_function ex_path) 1 = Some p /\ is_npy p = false).
Proof.
  split; [|split; [reflexivity|split; eexists; split; reflexivity]]. split; [|split].
  - intros [x y]. split; reflexivity.
  - intros [x y] k Hk. cbn in Hk. destruct k as [|[|[|k]]]; try reflexivity. lia.
  - intros v _. cbn. lia.
Qed.

(** With the suffix: the first call evaluates and saves, later ones load, except that
    arrays of objects are refused unless [load_pickle] is set. *)
Theorem C43_npy_suffix :
  forall (A V : Type) (io : npy V) (c : cached_function A V) (stored : V -> V), npy_ok io stored ->
  forall load_pickle save_pickle a p v fs,
  is_npy p = true -> path c a = Some p -> inner c a = Some v ->
  files fs p = None -> can_write fs p = true -> (is_object io v = true -> save_pickle = true) ->
  exists fs', npy_call io c load_pickle save_pickle never a fs = (fs', Returned v, [a]) /\
    forall b kill, path c b = Some p ->
      npy_call io c load_pickle save_pickle kill b fs' =
        (fs', if is_object io v && negb load_pickle then Raised else Returned (stored v), []).
Proof. intros A V. exact npy_first. Qed.
Print Assumptions C43_npy_suffix.

(** Without it: in every history every call evaluates the function again. *)
Theorem C43_other_suffix :
  forall (A V : Type) (io : npy V) (c : cached_function A V) load_pickle save_pickle p,
  is_npy p = false -> forall calls fs, files fs p = None ->
  Forall (fun t => path c (fst (fst t)) = Some p -> snd t = [fst (fst t)])
    (snd (npy_run io c load_pickle save_pickle calls fs)).
Proof. intros A V. exact npy_wrong_suffix. Qed.
Print Assumptions C43_other_suffix.
Example ex_other_suffix : snd (npy_run pair_npy (npy_function ex_path) true true [(never, 2); (never, 2)] ex_empty) =
  [(2, Returned (2, 3), [2]); (2, Returned (2, 3), [2])] /\
  snd (npy_run pair_npy (npy_function npy_path) true true [(never, 2); (never, 2)] ex_empty) =
  [(2, Returned (2, 3), [2]); (2, Returned (2, 3), [])].
Proof. split; reflexivity. Qed.

(** A killed save, or an array of objects with [save_pickle=False], leaves a file on which
    every later call raises without evaluating. *)
Theorem C43_broken_file :
  forall (A V : Type) (io : npy V) (c : cached_function A V) (stored : V -> V), npy_ok io stored ->
  forall load_pickle save_pickle kill a p v fs,
  is_npy p = true -> path c a = Some p -> inner c a = Some v ->
  files fs p = None -> can_write fs p = true ->
  ((exists k, kill = after_bytes k /\ k < length (npy_dumps io v) /\ (is_object io v = true -> save_pickle = true)) \/
   (kill = never /\ is_object io v = true /\ save_pickle = false)) ->
  exists fs' r, npy_call io c load_pickle save_pickle kill a fs = (fs', r, [a]) /\ (forall w, r <> Returned w) /\
    forall b kill', path c b = Some p -> npy_call io c load_pickle save_pickle kill' b fs' = (fs', Raised, []).
Proof. intros A V. exact npy_broken. Qed.
Print Assumptions C43_broken_file.
