(** Model of wavepacket/localization/_wannier90.py: the files exchanged with Wannier90.
    No proofs here.

    Files read are texts, lists of ASCII characters; Python's [float] on a token is a
    parameter.  Files written are given by their content: the integers and the complex
    numbers they list, in order; the printing of floats is not modelled.  The win file and
    the Wannier90 program itself are not modelled. *)
From Coq Require Import Reals Ascii String.
From Verif Require Import ZLib Csum DFT NumPy Interp Index Basis Operator Reduce Wavepacket Localize.
Local Open Scope nat_scope.

(** ** Python text *)
Definition text := list ascii.
Definition txt (s : string) : text := list_ascii_of_string s.

(** [str.isspace] and the line boundaries of [str.splitlines] on ASCII characters. *)
Definition is_space (c : ascii) : bool :=
  let n := nat_of_ascii c in ((9 <=? n) && (n <=? 13)) || ((28 <=? n) && (n <=? 32)).
Definition is_break (c : ascii) : bool :=
  let n := nat_of_ascii c in ((10 <=? n) && (n <=? 13)) || ((28 <=? n) && (n <=? 30)).
Definition newline : ascii := ascii_of_nat 10.
Definition carriage_return : ascii := ascii_of_nat 13.

(** [s.splitlines()]; [cur] is the current line, reversed. *)
Fixpoint lines_from (cur s : text) : list text :=
  match s with
  | [] => match cur with [] => [] | _ => [rev cur] end
  | c :: s' =>
      if is_break c then
        rev cur ::
          match s' with
          | c' :: s'' => if Ascii.eqb c carriage_return && Ascii.eqb c' newline
                         then lines_from [] s'' else lines_from [] s'
          | [] => []
          end
      else lines_from (c :: cur) s'
  end.
Definition splitlines (s : text) : list text := lines_from [] s.

(** [s.split()]: the words between white space; [cur] is the current word, reversed. *)
Fixpoint words_from (cur s : text) : list text :=
  match s with
  | [] => match cur with [] => [] | _ => [rev cur] end
  | c :: s => if is_space c then match cur with [] => words_from [] s | _ => rev cur :: words_from [] s end
              else words_from (c :: cur) s
  end.
Definition words (s : text) : list text := words_from [] s.

(** [s.split("\n")]. *)
Fixpoint pieces_from (cur s : text) : list text :=
  match s with
  | [] => [rev cur]
  | c :: s => if Ascii.eqb c newline then rev cur :: pieces_from [] s else pieces_from (c :: cur) s
  end.
Definition split_newline (s : text) : list text := pieces_from [] s.

(** [s.strip()]. *)
Fixpoint lstrip (s : text) : text :=
  match s with c :: s' => if is_space c then lstrip s' else s | [] => [] end.
Definition strip (s : text) : text := rev (lstrip (rev (lstrip s))).

(** [int(s)]: an optional sign and digits, with white space around; None for ValueError.
    Underscores between digits, which Python accepts, are refused here. *)
Definition digit_of (c : ascii) : option nat :=
  let n := nat_of_ascii c in if (48 <=? n) && (n <=? 57) then Some (n - 48) else None.
Fixpoint digits_value (acc : nat) (s : text) : option nat :=
  match s with
  | [] => Some acc
  | c :: s => match digit_of c with Some d => digits_value (10 * acc + d) s | None => None end
  end.
Definition unsigned (s : text) : option nat := match s with [] => None | _ => digits_value 0 s end.
Definition python_int (s : text) : option Z :=
  match strip s with
  | c :: r => if Ascii.eqb c "-" then option_map (fun n => (- Z.of_nat n)%Z) (unsigned r)
              else if Ascii.eqb c "+" then option_map Z.of_nat (unsigned r)
              else option_map Z.of_nat (unsigned (c :: r))
  | [] => None
  end.

(** ** 264-283 [_parse_nnk_points_file] *)

(** [re.search("begin nnkpts((.|\n)+?)end nnkpts", s)]: the shortest non-empty group after
    the first opening that is closed later. *)
Fixpoint after_prefix (p s : text) : option text :=
  match p, s with
  | [], _ => Some s
  | c :: p, d :: s => if Ascii.eqb c d then after_prefix p s else None
  | _ :: _, [] => None
  end.
Fixpoint until (p s : text) : option text :=
  match after_prefix p s with
  | Some _ => Some []
  | None => match s with [] => None | c :: s' => option_map (cons c) (until p s') end
  end.
Definition lazy_group (closing s : text) : option text :=
  match s with [] => None | c :: s' => option_map (cons c) (until closing s') end.
Fixpoint search_group (opening closing s : text) : option text :=
  match match after_prefix opening s with Some r => lazy_group closing r | None => None end with
  | Some g => Some g
  | None => match s with [] => None | _ :: s' => search_group opening closing s' end
  end.

Definition parse_nnk_points_file (file : text) : option (Z * list (list Z)) :=
  match search_group (txt "begin nnkpts") (txt "end nnkpts") file with
  | None => None (* Unable to find nnk_points block *)
  | Some g =>
      match split_newline (strip g) with
      | [] => None
      | l :: ls =>
          match python_int l, all_some (map (fun line => all_some (map python_int (firstn 5 (words line)))) ls) with
          | Some n, Some entries => Some (n, entries)
          | _, _ => None
          end
      end
  end.

(** ** 186-313 the overlaps *)

(** 186-227 [_get_offset_bloch_state]: the state, stacked on three axes, rolled by minus
    the offset. *)
Definition padded_shape (shape : list nat) : option (list nat) :=
  if length shape <=? 3 then Some (shape ++ repeat 1 (3 - length shape)) else None.
Definition get_offset_bloch_state (shape : list nat) (offset : list Z) (v : nat -> C) : option (nat -> C) :=
  match padded_shape shape with
  | Some s => Some (flatten s (roll_axes s (map Z.opp offset) (stack s v)))
  | None => None
  end.

(** [offset[i] = 0] for every i of [ignore_axes]. *)
Definition set_zero (i : nat) (l : list Z) : list Z :=
  map (fun p => if fst p =? i then 0%Z else snd p) (combine (seq 0 (length l)) l).
Fixpoint ignore_offsets (ignore : list Z) (offset : list Z) : option (list Z) :=
  match ignore with
  | [] => Some offset
  | i :: ignore =>
      match python_index (length offset) i with
      | Some a => ignore_offsets ignore (set_zero a offset)
      | None => None (* IndexError *)
      end
  end.

(** wavepacket/get_eigenstate.py:182-199 [get_bloch_state_vector] with a flat index:
    row [idx] of the [ns] states of the wavepacket, [n] numbers each. *)
Definition get_bloch_state_vector (ns n : nat) (data : ndarray) (idx : Z) : option (nat -> C) :=
  match reshape data [ns; n], python_index ns idx with
  | Some d, Some i => Some (at2 d i)
  | _, _ => None
  end.

(** 238-261 [_build_mmn_file_block]: the five integers of the header line and the numbers
    of the lines below it.  [ss] is the shape of the state basis. *)
Definition build_mmn_file_block (bands : basis) (ns : nat) (ss : list nat) (data : ndarray)
    (ignore : list Z) (k : list Z) : option (list Z * list C) :=
  match k with
  | [k0; k1; o0; o1; o2] =>
      match ignore_offsets ignore [o0; o1; o2], wavepacket_list_into_iter bands data with
      | Some offset, Some wavepackets =>
          match all_some (flat_map (fun wn => map (fun wm =>
              match get_bloch_state_vector ns (nprod ss) wn (k1 - 1),
                    get_bloch_state_vector ns (nprod ss) wm (k0 - 1) with
              | Some vn, Some vm =>
                  match get_offset_bloch_state ss offset vn with
                  | Some r => Some (csum (fun i => Cmult (r i) (Cconj (vm i))) (nprod ss))
                  | None => None
                  end
              | _, _ => None
              end) wavepackets) wavepackets) with
          | Some values => Some (k, values)
          | None => None
          end
      | _, _ => None
      end
  | _ => None (* offset[2] raises IndexError *)
  end.

(** 286-313 [_build_mmn_file]: the counts of the first line and the blocks. *)
Definition build_mmn_file (bands : basis) (ns : nat) (ss : list nat) (data : ndarray)
    (ignore : list Z) (nnk_points_file : text) : option (nat * nat * Z * list (list Z * list C)) :=
  match parse_nnk_points_file nnk_points_file with
  | Some (n_tot, points) =>
      match all_some (map (build_mmn_file_block bands ns ss data ignore) points) with
      | Some blocks => Some (bsize bands, ns, n_tot, blocks)
      | None => None
      end
  | None => None
  end.

(** 485-499 of [_write_localization_files_wannier90]: the states are converted first; the
    axes not ignored become momentum axes. *)
Definition converted_axes (ignore : list Z) (saxes : list basis) : list basis :=
  map (fun p => if existsb (Z.eqb (Z.of_nat (fst p))) ignore then snd p else BFundT (bfund (snd p)))
      (combine (seq 0 (length saxes)) saxes).
Definition write_mmn_file (same : basis -> basis -> bool) (bands : basis) (ns : nat) (saxes : list basis)
    (data : ndarray) (ignore : list Z) (nnk_points_file : text)
  : option (nat * nat * Z * list (list Z * list C)) :=
  let caxes := converted_axes ignore saxes in
  match reshape data [bsize bands * ns; bsize (BTuple saxes)], convert same (BTuple saxes) (BTuple caxes) with
  | Some d, Some F =>
      build_mmn_file bands ns (map bsize caxes)
        (ravel_array (array2 (bsize bands * ns) (bsize (BTuple caxes)) (fun i k => F (at2 d i) k)))
        ignore nnk_points_file
  | _, _ => None
  end.

(** 316-347 [_build_amn_file]: the counts of the first line, then one line per sample,
    band and projection.  [pb] is the basis of the projections; they are converted to the
    basis of the states at every sample. *)
Definition build_amn_file (same : basis -> basis -> bool) (nb np : nat) (laxes saxes : list basis)
    (pb : basis) (data projections : ndarray) : option (nat * nat * nat * list (nat * nat * nat * C)) :=
  let ns := nprod (map bsize laxes) in
  match all_some (map (fun i =>
          match states_at_bloch_idx same nb laxes saxes data (Z.of_nat i) with
          | Some (b, d) => inner_products same nb np (BTuple b) pb d projections
          | None => None
          end) (seq 0 ns)) with
  | Some l =>
      Some (nb, ns, np,
        flat_map (fun k => flat_map (fun m => map (fun n =>
          (m + 1, n + 1, k + 1, nth k l (fun _ _ => RtoC 0%R) m n)) (seq 0 np)) (seq 0 nb)) (seq 0 ns))
  | None => None
  end.

(** ** 350-376 symmetry operations on flat indices *)
Definition set_nth {A} (i : nat) (a : A) (l : list A) : list A := firstn i l ++ a :: skipn (S i) l.

(** 350-355 [x0_symmetry_op]. *)
Definition x0_symmetry_op (idx : Z) (shape : list nat) (axis : Z) : option nat :=
  match get_stacked_index shape idx, python_index (length shape) axis with
  | Some s, Some a =>
      let s := map Z.of_nat s in
      get_flat_index shape (set_nth a (- nth a s 0)%Z s) MWrap
  | _, _ => None
  end.

(** 358-365 [x0x1_symmetry_op]. *)
Definition x0x1_symmetry_op (idx : Z) (shape : list nat) (axes : Z * Z) : option nat :=
  match get_stacked_index shape idx, python_index (length shape) (fst axes), python_index (length shape) (snd axes) with
  | Some s, Some a, Some b =>
      let s := map Z.of_nat s in
      let i0 := nth a s 0%Z in
      let s := set_nth a (nth b s 0%Z) s in
      get_flat_index shape (set_nth b i0 s) MWrap
  | _, _, _ => None
  end.

(** 368-376 [_get_fundamental_k_points]: entry [i] of the result. *)
Definition get_fundamental_k_point (shape : list nat) (symmetry : list (Z -> list nat -> option nat)) (i : nat)
  : option nat :=
  fold_left (fun f op =>
    match f with
    | Some f => match op (Z.of_nat f) shape with Some b => Some (Nat.min b f) | None => None end
    | None => None
    end) symmetry (Some i).

(** 506-509 of [_write_localization_files_wannier90] with 379-397 [_build_dmn_file]:
    NotImplementedError whenever symmetry operations are given. *)
Definition build_dmn_file (symmetry : option (list (Z -> list nat -> option nat))) : option unit :=
  match symmetry with None => Some tt | Some _ => None end.

(** ** 415-459 the result of Wannier90 *)

(** [l[start::step]] for 0 <= start and 0 < step. *)
Fixpoint every {A} (step skip : nat) (l : list A) : list A :=
  match l with
  | [] => []
  | x :: l => match skip with 0 => x :: every step (step - 1) l | S k => every step k l end
  end.

(** 415-419 [_parse_u_mat_file_block]. *)
Definition parse_u_mat_line (float : text -> option R) (line : text) : option C :=
  match words (strip line) with
  | a :: b :: _ => match float a, float b with Some x, Some y => Some (x, y) | _, _ => None end
  | _ => None
  end.
Definition parse_u_mat_file_block (float : text -> option R) (block : list text) : option (list C) :=
  all_some (map (parse_u_mat_line float) block).

(** 422-459 [_get_localization_operator_from_u_mat_file]: np.array refuses rows of
    different lengths.  Counts that are not positive give an empty array. *)
Definition localization_operator_from_u_mat_file (float : text -> option R) (file : text) : option ndarray :=
  let lines := splitlines file in
  match nth_error lines 1 with
  | None => None
  | Some l =>
      match words (strip l) with
      | _ :: w1 :: w2 :: _ =>
          match python_int w1, python_int w2 with
          | Some nw, Some nb =>
              let nw := Z.to_nat nw in
              let nb := Z.to_nat nb in
              match all_some (flat_map (fun m => map (fun n =>
                      parse_u_mat_file_block float (every (2 + nw * nb) (4 + n + nw * m) lines)) (seq 0 nw)) (seq 0 nb)) with
              | None => None
              | Some rows =>
                  let nk := length (hd [] rows) in
                  if forallb (fun r => length r =? nk) rows then
                    Some (ravel_array (array3 nk nb nw (fun k m n => nth k (nth (m * nw + n) rows []) (RtoC 0%R))))
                  else None
              end
          | _, _ => None
          end
      | _ => None
      end
  end.

(** 683-712 [get_localization_operator_wannier90_individual_bands]; [ops] are the data of
    the operators of the bands taken one at a time. *)
Definition individual_bands_operator (nb ns : nat) (ops : list ndarray) : option ndarray :=
  match ops with
  | [] => if nb * ns =? 0 then Some {| ashape := [0]; aflat := fun _ => RtoC 0%R |} else None
  | o :: _ =>
      let n := nprod (ashape o) in
      if forallb (fun b => same_shape (ashape b) (ashape o)) ops && (length ops * n =? nb * ns) then
        Some (ravel_array (array3 ns nb nb (fun s b b' =>
          if b =? b' then let t := b * ns + s in aflat (nth (t / n) ops o) (t mod n) else RtoC 0%R)))
      else None
  end.
