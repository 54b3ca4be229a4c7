(** Model of util/decorators.py: CachedFunction (pickle) and npy_cached (numpy).
    No proofs here.

    A path is a string, a file its list of bytes.  The wrapped function is
    deterministic: [inner a] is its value, or None when it raises.  The function
    computing the path from the arguments is total and deterministic. *)
From Coq Require Import List Arith Bool.
From Coq Require String Ascii.
Import ListNotations.
Local Open Scope nat_scope.

(** What is on disk, and which files can be opened for writing (the directory may be
    missing, in which case open raises). *)
Record filesystem := { files : String.string -> option (list nat); can_write : String.string -> bool }.
Definition put (p : String.string) (content : option (list nat)) (fs : filesystem) : filesystem :=
  {| files := fun q => if String.eqb q p then content else files fs q; can_write := can_write fs |}.

(** pickle.dump and pickle.load.  [dumps v] are the bytes pickle.dump writes; when it
    raises on the way ([picklable v = false]) they are the bytes written until then.
    [loads] is None when pickle.load raises.  [is_none] is the test [obj is None]. *)
Record pickle (V : Type) := {
  dumps : V -> list nat; picklable : V -> bool; loads : list nat -> option V; is_none : V -> bool }.
Arguments dumps {V}. Arguments picklable {V}. Arguments loads {V}. Arguments is_none {V}.

(** 112-117 [CallType]. *)
Inductive call_type := load_or_call_cached | load_or_call_uncached | call_uncached | call_cached.

(** 120-139 [CachedFunction]: the function and the path. *)
Record cached_function (A V : Type) := { inner : A -> option V; path : A -> option String.string }.
Arguments inner {A V}. Arguments path {A V}.

(** How a call ends: with a value, with an exception, or because the process was
    killed. *)
Inductive result (V : Type) := Returned (v : V) | Raised | Killed.
Arguments Returned {V}. Arguments Raised {V}. Arguments Killed {V}.

(** Where the process is killed: never, before the cache file is opened for
    writing, or after [k] bytes of the dump have reached the disk. *)
Inductive kill_point := never | before_open | after_bytes (k : nat).

(** Outcome of a call: the disk, the result, and the arguments the function was
    evaluated on. *)
Definition outcome (A V : Type) := (filesystem * result V * list A)%type.

Section CachedFunction.
Context {A V : Type}.
Variables (pk : pickle V) (c : cached_function A V).

(** 141-143 [call_uncached]. *)
Definition do_call_uncached (kill : kill_point) (a : A) (fs : filesystem) : outcome A V :=
  match inner c a with
  | None => (fs, Raised, [a])
  | Some v => match kill with never => (fs, Returned v, [a]) | _ => (fs, Killed, [a]) end
  end.

(** 145-152 [call_cached]: evaluate, then open the file (which empties it) and dump. *)
Definition do_call_cached (kill : kill_point) (a : A) (fs : filesystem) : outcome A V :=
  match inner c a with
  | None => (fs, Raised, [a])
  | Some v =>
      match kill, path c a with
      | before_open, _ => (fs, Killed, [a])
      | never, None => (fs, Returned v, [a])
      | after_bytes _, None => (fs, Killed, [a])
      | _, Some p =>
          if can_write fs p then
            match kill with
            | after_bytes k => (put p (Some (firstn k (dumps pk v))) fs, Killed, [a])
            | _ => (put p (Some (dumps pk v)) fs, if picklable pk v then Returned v else Raised, [a])
            end
          else (fs, Raised, [a])
      end
  end.

(** 154-163 [_load_cache]: None if there is no path or no file (or if None was
    cached), else the loaded object; an unreadable file raises. *)
Inductive load_result := Loaded (v : V) | NotCached | LoadRaised.
Definition load_cache (a : A) (fs : filesystem) : load_result :=
  match path c a with
  | None => NotCached
  | Some p =>
      match files fs p with
      | None => NotCached
      | Some bytes =>
          match loads pk bytes with
          | None => LoadRaised
          | Some v => if is_none pk v then NotCached else Loaded v
          end
      end
  end.

(** 165-171 [load_or_call_uncached], 173-181 [load_or_call_cached], 183-193
    [__call__] with the default call type. *)
Definition call (k : call_type) (kill : kill_point) (a : A) (fs : filesystem) : outcome A V :=
  match k with
  | call_uncached => do_call_uncached kill a fs
  | call_cached => do_call_cached kill a fs
  | load_or_call_uncached =>
      match load_cache a fs with
      | Loaded v => (fs, Returned v, [])
      | NotCached => do_call_uncached kill a fs
      | LoadRaised => (fs, Raised, [])
      end
  | load_or_call_cached =>
      match load_cache a fs with
      | Loaded v => (fs, Returned v, [])
      | NotCached => do_call_cached kill a fs
      | LoadRaised => (fs, Raised, [])
      end
  end.

(** A history: calls (which may be killed) and files removed by the user. *)
Inductive event := Call (k : call_type) (kill : kill_point) (a : A) | Remove (p : String.string).
Fixpoint run (events : list event) (fs : filesystem) : filesystem * list (event * result V * list A) :=
  match events with
  | [] => (fs, [])
  | Call k kill a :: events =>
      let '(fs1, r, ev) := call k kill a fs in
      let (fs2, t) := run events fs1 in (fs2, (Call k kill a, r, ev) :: t)
  | Remove p :: events => let (fs2, t) := run events (put p None fs) in (fs2, t)
  end.
End CachedFunction.

(** ** Several processes calling the same function on the same arguments at the same
    time.  Every process reads and writes the file in pieces of any size; opening for
    writing empties the file; a write beyond the end leaves zero bytes in between. *)
Definition write_at (off : nat) (chunk content : list nat) : list nat :=
  firstn off (content ++ repeat 0 (off - length content)) ++ chunk ++ skipn (off + length chunk) content.

Inductive proc (V : Type) :=
| Begin (save : bool)                 (* about to open the file for reading *)
| Reading (save : bool) (got : list nat)  (* bytes read so far *)
| Computing (save : bool)             (* no usable cache: evaluate the function *)
| Writing (off : nat)                 (* file opened for writing, [off] bytes written *)
| Done (r : result V).
Arguments Begin {V}. Arguments Reading {V}. Arguments Computing {V}. Arguments Writing {V}. Arguments Done {V}.

(** One step of one process, with the content of the file; [v] is the value of the
    function, assumed picklable.  [save] tells load_or_call_cached from load_or_call_uncached. *)
Inductive proc_step {V} (pk : pickle V) (v : V) : option (list nat) -> proc V -> option (list nat) -> proc V -> Prop :=
| step_missing save : proc_step pk v None (Begin save) None (Computing save)
| step_open save content : proc_step pk v (Some content) (Begin save) (Some content) (Reading save [])
| step_read save content got n :
    proc_step pk v (Some content) (Reading save got)
      (Some content) (Reading save (got ++ firstn n (skipn (length got) content)))
| step_loaded save file got w : loads pk got = Some w -> is_none pk w = false ->
    proc_step pk v file (Reading save got) file (Done (Returned w))
| step_loaded_none save file got w : loads pk got = Some w -> is_none pk w = true ->
    proc_step pk v file (Reading save got) file (Computing save)
| step_eof save content got : length content <= length got -> loads pk got = None ->
    proc_step pk v (Some content) (Reading save got) (Some content) (Done Raised)
| step_compute file : proc_step pk v file (Computing false) file (Done (Returned v))
| step_truncate file : proc_step pk v file (Computing true) (Some []) (Writing 0)
| step_write content off n :
    proc_step pk v (Some content) (Writing off)
      (Some (write_at off (firstn n (skipn off (dumps pk v))) content))
      (Writing (off + length (firstn n (skipn off (dumps pk v)))))
| step_close file : proc_step pk v file (Writing (length (dumps pk v))) file (Done (Returned v))
| step_kill file s : (forall r, s <> Done r) -> proc_step pk v file s file (Done Killed).

(** Any process may take the next step. *)
Inductive step {V} (pk : pickle V) (v : V) : option (list nat) * list (proc V) -> option (list nat) * list (proc V) -> Prop :=
| step_proc file before s after file' s' : proc_step pk v file s file' s' ->
    step pk v (file, before ++ s :: after) (file', before ++ s' :: after).
Inductive steps {V} (pk : pickle V) (v : V) : option (list nat) * list (proc V) -> option (list nat) * list (proc V) -> Prop :=
| steps_refl s : steps pk v s s
| steps_step s s' s'' : steps pk v s s' -> step pk v s' s'' -> steps pk v s s''.

(** ** npy_cached *)

(** [str.endswith(".npy")], and the file np.save writes to. *)
Definition dot_npy : String.string :=
  String.String (Ascii.ascii_of_nat 46) (String.String (Ascii.ascii_of_nat 110)
    (String.String (Ascii.ascii_of_nat 112) (String.String (Ascii.ascii_of_nat 121) String.EmptyString))).
Fixpoint is_npy (s : String.string) : bool :=
  String.eqb s dot_npy || match s with String.EmptyString => false | String.String _ s => is_npy s end.
Definition save_path (p : String.string) : String.string := if is_npy p then p else String.append p dot_npy.

(** np.save(np.asanyarray(v)) and np.load(..)[()].  [is_object v]: the array has dtype
    object and is stored as a pickle.  [npy_loads] gives the stored object; None when
    the file is not readable.  The first [npy_header v] bytes are the header, written
    before np.save looks at the dtype. *)
Record npy (V : Type) := {
  npy_dumps : V -> list nat; npy_header : V -> nat; npy_loads : list nat -> option V; is_object : V -> bool }.
Arguments npy_dumps {V}. Arguments npy_header {V}. Arguments npy_loads {V}. Arguments is_object {V}.

(** 67-109 [npy_cached] with the options [load_pickle], [save_pickle]. *)
Definition npy_call {A V} (io : npy V) (c : cached_function A V) (load_pickle save_pickle : bool)
    (kill : kill_point) (a : A) (fs : filesystem) : outcome A V :=
  match path c a with
  | None => do_call_uncached c kill a fs
  | Some p =>
      match files fs p with
      | Some bytes =>
          match npy_loads io bytes with
          | None => (fs, Raised, [])
          | Some w => if is_object io w && negb load_pickle then (fs, Raised, []) else (fs, Returned w, [])
          end
      | None =>
          match inner c a with
          | None => (fs, Raised, [a])
          | Some v =>
              match kill with
              | before_open => (fs, Killed, [a])
              | _ =>
                  let q := save_path p in
                  if can_write fs q then
                    if is_object io v && negb save_pickle then (put q (Some (firstn (npy_header io v) (npy_dumps io v))) fs, Raised, [a])
                    else match kill with
                         | after_bytes k => (put q (Some (firstn k (npy_dumps io v))) fs, Killed, [a])
                         | _ => (put q (Some (npy_dumps io v)) fs, Returned v, [a])
                         end
                  else (fs, Raised, [a])
              end
          end
      end
  end.

Fixpoint npy_run {A V} (io : npy V) (c : cached_function A V) (load_pickle save_pickle : bool)
    (calls : list (kill_point * A)) (fs : filesystem) : filesystem * list (A * result V * list A) :=
  match calls with
  | [] => (fs, [])
  | (kill, a) :: calls =>
      let '(fs1, r, ev) := npy_call io c load_pickle save_pickle kill a fs in
      let (fs2, t) := npy_run io c load_pickle save_pickle calls fs1 in (fs2, (a, r, ev) :: t)
  end.
