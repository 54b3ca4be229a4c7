(** Vocabulary for the statements about the files exchanged with Wannier90. *)
From Coq Require Import Reals Ascii String.
From Verif Require Import ZLib Csum DFT NumPy Spec Basis SpecBasis Operator SpecOperator SpecWavepacket SpecLocalize Wannier.
Local Open Scope R_scope.
Local Open Scope C_scope.

(** ** Text *)

(** Lines, each ended by a newline. *)
Definition file_of_lines (lines : list text) : text := flat_map (fun l => l ++ [newline]) lines.

(** Lines, each ended by a newline, a carriage return and a newline, or a carriage return. *)
Inductive text_of_lines : list text -> text -> Prop :=
| no_line : text_of_lines [] []
| unix_line l ls t : text_of_lines ls t -> text_of_lines (l :: ls) (l ++ newline :: t)
| windows_line l ls t : text_of_lines ls t -> text_of_lines (l :: ls) (l ++ carriage_return :: newline :: t)
| mac_line l ls t : text_of_lines ls t -> hd_error t <> Some newline -> text_of_lines (l :: ls) (l ++ carriage_return :: t).

(** Digits of a natural number (leading zeros allowed) and of an integer. *)
Inductive decimal : nat -> text -> Prop :=
| one_digit d : (d < 10)%nat -> decimal d [ascii_of_nat (48 + d)]
| more_digits n t d : decimal n t -> (d < 10)%nat -> decimal (10 * n + d) (t ++ [ascii_of_nat (48 + d)]).
Inductive integer : Z -> text -> Prop :=
| natural n t : decimal n t -> integer (Z.of_nat n) t
| negative n t : decimal n t -> integer (- Z.of_nat n) ("-"%char :: t).

(** A line of words with blanks before, between and after them. *)
Inductive line_of_words : list text -> text -> Prop :=
| no_words n : line_of_words [] (repeat " "%char n)
| last_word n w m : line_of_words [w] (repeat " "%char n ++ w ++ repeat " "%char m)
| first_word n w ws t : line_of_words ws t -> (0 < length ws)%nat ->
    line_of_words (w :: ws) (repeat " "%char n ++ w ++ " "%char :: t).

(** Lines of integers. *)
Definition integer_line (zs : list Z) (t : text) : Prop :=
  exists ws, Forall2 integer zs ws /\ line_of_words ws t.

(** An nnkp file with [n] neighbours for every sample and the lines [entries]: the block
    starts at the first "begin nnkpts". *)
Definition nnkp_file (n : Z) (entries : list (list Z)) (file : text) : Prop :=
  exists before rest count lines after,
    file = (before ++ txt "begin nnkpts" ++ rest ++ [newline] ++ count ++ [newline] ++ file_of_lines lines ++
            txt "end nnkpts" ++ after)%list /\
    (forall a b, before <> (a ++ txt "begin nnkpts" ++ b)%list) /\
    (exists k, rest = repeat " "%char k) /\
    integer_line [n] count /\ Forall2 integer_line entries lines.

(** A [_u.mat] file: a line, the counts, and for every sample an empty line, a line with
    the sample and the entries of the matrix [U s], one per line, the first index running
    fastest. *)
Definition u_mat_lines (nk nw : nat) (header counts : text) (sample : nat -> text)
    (entry : nat -> nat -> nat -> text) : list text :=
  header :: counts ::
  flat_map (fun s => [] :: sample s ::
    flat_map (fun j => map (fun i => entry s i j) (seq 0 nw)) (seq 0 nw)) (seq 0 nk).
Definition complex_line (float : text -> option R) (z : C) (t : text) : Prop :=
  exists a b, line_of_words [a; b] t /\ a <> [] /\ b <> [] /\
    forallb (fun c => negb (is_space c)) (a ++ b) = true /\ float a = Some (fst z) /\ float b = Some (snd z).
Definition u_mat_file (float : text -> option R) (nk nw : nat) (U : nat -> nat -> nat -> C) (file : text) : Prop :=
  exists header counts sample entry,
    text_of_lines (u_mat_lines nk nw header counts sample entry) file /\
    forallb (fun c => negb (is_break c)) header = true /\
    integer_line [Z.of_nat nk; Z.of_nat nw; Z.of_nat nw] counts /\
    (forall s, (s < nk)%nat -> forallb (fun c => negb (is_break c)) (sample s) = true) /\
    (forall s i j, (s < nk)%nat -> (i < nw)%nat -> (j < nw)%nat -> complex_line float (U s i j) (entry s i j)).

(** ** Overlaps *)

(** The plane wave of lattice vector [g], e^(2 pi i g.x), on a grid of shape [F]. *)
Fixpoint lattice_wave (F : list nat) (g : list Z) (x : list nat) : C :=
  match F, g, x with
  | n :: F, g1 :: g, x1 :: x => omega n (g1 * Z.of_nat x1) * lattice_wave F g x
  | _, _, _ => 1
  end.

(** The lattice vector without its components along the ignored axes. *)
Definition kept_axes (ignore : list nat) (g : list Z) : list Z :=
  map (fun a => if existsb (Nat.eqb a) ignore then 0%Z else nth a g 0%Z) (seq 0 (length g)).

(** Overlap of band [m] at sample [s] with e^(-i g.x) times band [n] at sample [t], summed
    over the points of the unit cell. *)
Definition bloch_overlap (saxes : list basis) (ns : nat) (data : ndarray) (g : list Z) (s m t n : nat) : C :=
  csum (fun x =>
    Cconj (amplitude (BTuple saxes) (band_state ns (bsize (BTuple saxes)) data s m) x) *
    (lattice_wave (map bfund saxes) (map Z.opp g) (unravel (map bfund saxes) x) *
     amplitude (BTuple saxes) (band_state ns (bsize (BTuple saxes)) data t n) x)) (bfund (BTuple saxes)).

(** Every axis of the states is a full momentum axis or an ignored axis. *)
Definition momentum_or_ignored (ignore : list nat) (saxes : list basis) : Prop :=
  forall a, (a < length saxes)%nat -> In a ignore \/ exists n, nth_error saxes a = Some (BFundT n).

(** An entry of the nnkp file: two samples of [ns], counted from one, and a lattice vector. *)
Definition neighbour (ns : nat) (e : list Z) : Prop :=
  exists k0 k1 g, e = k0 :: k1 :: g /\ length g = 3%nat /\ (1 <= k0 <= Z.of_nat ns)%Z /\ (1 <= k1 <= Z.of_nat ns)%Z.

(** The block of the mmn file for the entry [e]: its header, and the overlaps of all pairs
    of [nb] bands, the first band running fastest. *)
Definition overlap_block (nb : nat) (saxes : list basis) (ns : nat) (data : ndarray) (ignore : list nat)
    (e : list Z) (block : list Z * list C) : Prop :=
  fst block = e /\ length (snd block) = (nb * nb)%nat /\
  forall m n, (m < nb)%nat -> (n < nb)%nat ->
    nth (n * nb + m) (snd block) 0 =
    bloch_overlap saxes ns data (kept_axes ignore (skipn 2 e)) (Z.to_nat (nth 0 e 0%Z - 1)) m (Z.to_nat (nth 1 e 0%Z - 1)) n.

(** ** Symmetry operations *)

(** The stacked index with component [a] reversed, or components [a] and [b] exchanged. *)
Definition reversed (shape : list nat) (a : nat) (i : list nat) : list nat :=
  map (fun k => if (k =? a)%nat then ((nth k shape 0 - nth k i 0) mod nth k shape 0)%nat else nth k i 0%nat)
      (seq 0 (length shape)).
Definition exchanged (shape : list nat) (a b : nat) (i : list nat) : list nat :=
  map (fun k => if (k =? b)%nat then (nth a i 0 mod nth b shape 0)%nat
                else if (k =? a)%nat then (nth b i 0 mod nth a shape 0)%nat else nth k i 0%nat)
      (seq 0 (length shape)).

(** ** Projections *)

(** Band [m] at sample [s] over the supercell: the Bloch wave of the sample times the state
    of the unit cell. *)
Definition bloch_wave (ls : list nat) (saxes : list basis) (data : ndarray) (s m x : nat) : C :=
  let ss := map bfund saxes in
  isqrt (nprod ls) * plane (supercell ls ss) (sample_freqs ls (unravel ls s)) (map Z.of_nat (unravel (supercell ls ss) x)) *
  amplitude (BTuple saxes) (band_state (nprod ls) (bsize (BTuple saxes)) data s m) (ravel ss (in_cell ss (unravel (supercell ls ss) x))).

(** [axis] names axis [a] of [n], from either end. *)
Definition names_axis (n : nat) (axis : Z) (a : nat) : Prop :=
  (a < n)%nat /\ (axis = Z.of_nat a \/ axis = (Z.of_nat a - Z.of_nat n)%Z).


(** Operations on flat indices, given the shape. *)
Notation operation := (Z -> list nat -> option nat) (only parsing).

(** [f] is reached from [i] by applying operations of the list. *)
Inductive reached (shape : list nat) (ops : list operation) (i : nat) : nat -> Prop :=
| reached_self : reached shape ops i i
| reached_step f g op : reached shape ops i f -> In op ops -> op (Z.of_nat f) shape = Some g -> reached shape ops i g.

(** Exchange of the two axes and reversal of each. *)
Definition square_symmetry : list operation :=
  [fun i sh => x0x1_symmetry_op i sh (0%Z, 1%Z); fun i sh => x0_symmetry_op i sh 0%Z; fun i sh => x0_symmetry_op i sh 1%Z].
