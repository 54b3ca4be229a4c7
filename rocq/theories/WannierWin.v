(** Model of the rest of wavepacket/localization/_wannier90.py: the .win file, the files written
    before the two runs of Wannier90 and the localisation with their results.  No proofs here. *)
From Coq Require Import Reals.
From Verif Require Import ZLib Csum DFT NumPy Index Basis Operator Reduce Wavepacket Localize VolumeBasis Wannier.
Local Open Scope nat_scope.

(** 113-125 [_build_real_lattice_block]: the rows of the unit cell, in units of 1e-10.
    [delta_x_padded[:n, :n] = delta_x * 1e10] for [n] vectors of [m] components: the target has
    min(n, 3) rows and columns; ValueError unless the values can be broadcast to it.  The text
    of the numbers is not modelled. *)
Definition build_real_lattice_block (delta : list (list R)) : option (list (list R)) :=
  let n := length delta in
  let m := length (hd [] delta) in
  if (n <=? 3) && ((n =? 0) || (m =? n) || (m =? 1)) then
    Some (map (fun i => map (fun j =>
      if (i <? n) && (j <? n) then (nth (if m =? 1 then 0 else j) (nth i delta []) 0 * 10 ^ 10)%R
      else if i =? j then 1%R else 0%R) (seq 0 3)) (seq 0 3))
  else None.

(** 129-148 [_build_k_points_block]: mp_grid and the fractions of the samples, for at least one
    axis; ValueError for more than three. *)
Definition build_k_points_block (same : basis -> basis -> bool) (laxes : list basis)
  : option (list nat * list (list R)) :=
  match sample_fractions same laxes with
  | Some fr =>
      if length laxes <=? 3 then
        Some (map bsize laxes ++ repeat 1 (3 - length laxes),
              map (fun j => map (fun a => if a <? length laxes then fr a j else 0%R) (seq 0 3))
                  (seq 0 (bsize (BTuple laxes))))
      else None
  | None => None
  end.

(** 96-110 [ProjectionsBasis] and [Wannier90Options]: the basis of the projections and, if there
    are any, the basis and the data of the states. *)
Record w90_options := {
  w_projections : basis; w_states : option (basis * ndarray);
  w_num_iter : Z; w_window : Z; w_tolerance : R;
  w_symmetry : option (list (Z -> list nat -> option nat)); w_ignore : list Z }.

(** 151-180 [_build_win_file]: "write_u_matrices" and "search_shells" are the same in every
    file and left out. *)
Record win_file := {
  win_setup : bool; win_num_iter : Z; win_tolerance : R; win_window : Z;
  win_projections : bool; win_num_wann : nat;
  win_cell : list (list R); win_grid : list nat; win_points : list (list R) }.
Definition has_projections (o : w90_options) : bool := match w_states o with Some _ => true | None => false end.
Definition build_win_file (same : basis -> basis -> bool) (bands : basis) (laxes : list basis) (saxes : list length_axis)
    (setup : bool) (o : w90_options) : option win_file :=
  match delta_x_stacked saxes with
  | None => None
  | Some delta =>
      match build_real_lattice_block delta, build_k_points_block same laxes with
      | Some cell, Some (grid, points) =>
          Some {| win_setup := setup; win_num_iter := w_num_iter o; win_tolerance := w_tolerance o; win_window := w_window o;
                  win_projections := has_projections o; win_num_wann := bsize bands;
                  win_cell := cell; win_grid := grid; win_points := points |}
      | _, _ => None
      end
  end.

(** 473-509 [_write_localization_files_wannier90]: the .win, .mmn and .amn files (the .dmn file
    is never written, see [build_dmn_file]). *)
Definition mmn_contents := (nat * nat * Z * list (list Z * list C))%type.
Definition amn_contents := (nat * nat * nat * list (nat * nat * nat * C))%type.
Definition write_amn_file (same : basis -> basis -> bool) (bands : basis) (laxes saxes : list basis) (data : ndarray)
    (ignore : list Z) (projections pb : basis) (states : ndarray) : option amn_contents :=
  let caxes := converted_axes ignore saxes in
  let n := bsize bands * bsize (BTuple laxes) in
  match reshape data [n; bsize (BTuple saxes)], convert same (BTuple saxes) (BTuple caxes) with
  | Some d, Some F =>
      build_amn_file same (bsize bands) (bsize projections) laxes caxes pb
        (ravel_array (array2 n (bsize (BTuple caxes)) (fun i k => F (at2 d i) k))) states
  | _, _ => None
  end.
Definition write_localization_files (same : basis -> basis -> bool) (bands : basis) (laxes : list basis)
    (saxes : list length_axis) (data : ndarray) (nnkp : text) (o : w90_options)
  : option (win_file * mmn_contents * option amn_contents) :=
  match build_win_file same bands laxes saxes false o,
        write_mmn_file same bands (bsize (BTuple laxes)) (map la_basis saxes) data (w_ignore o) nnkp,
        build_dmn_file (w_symmetry o) with
  | Some win, Some mmn, Some _ =>
      match w_states o with
      | None => Some (win, mmn, None)
      | Some (pb, states) =>
          match write_amn_file same bands laxes (map la_basis saxes) data (w_ignore o) (w_projections o) pb states with
          | Some amn => Some (win, mmn, Some amn)
          | None => None
          end
      end
  | _, _, _ => None
  end.

(** 586-601, the options used when none are given. *)
Definition default_options (n : nat) : w90_options :=
  {| w_projections := BFund n; w_states := None; w_num_iter := 10000%Z; w_window := 3%Z; w_tolerance := (/ 10 ^ 10)%R;
     w_symmetry := None; w_ignore := [] |}.

(** 563-648 [get_localization_operator_wannier90].  [nnkp] and [u_mat] are the texts found in
    spa.nnkp and spa_u.mat after Wannier90 (or, if it could not be run, the user) was given the
    files; [None] if there is no such file.  The three bases are those of the result, in order. *)
Definition nnkp_of := win_file -> option text.
Definition u_mat_of := win_file * mmn_contents * option amn_contents -> option text.
Definition get_localization_operator_wannier90 (same : basis -> basis -> bool) (float : text -> option R)
    (nnkp : nnkp_of) (u_mat : u_mat_of) (bands : basis) (laxes : list basis) (saxes : list length_axis) (data : ndarray)
    (options : option w90_options) : option (basis * basis * basis * ndarray) :=
  let o := match options with None => default_options (bsize bands) | Some o => o end in
  match build_win_file same bands laxes saxes true o with
  | None => None
  | Some setup =>
      match nnkp setup with
      | None => None
      | Some n_nkp_file =>
          match write_localization_files same bands laxes saxes data n_nkp_file o with
          | None => None
          | Some files =>
              match u_mat files with
              | None => None
              | Some u_mat_file =>
                  match localization_operator_from_u_mat_file float u_mat_file with
                  | Some op => Some (BTuple laxes, w_projections o, bands, op)
                  | None => None
                  end
              end
          end
      end
  end.

(** 651-680 [localize_wavepacket_wannier90]: the data. *)
Definition localize_wavepacket_wannier90 (same : basis -> basis -> bool) (float : text -> option R)
    (nnkp : nnkp_of) (u_mat : u_mat_of) (bands : basis) (laxes : list basis) (saxes : list length_axis) (data : ndarray)
    (o : w90_options) : option ndarray :=
  match get_localization_operator_wannier90 same float nnkp u_mat bands laxes saxes data (Some o) with
  | Some (list_basis, projections, bands, op) =>
      localized_wavepackets (bsize projections) (bsize bands) (bsize list_basis) op data
  | None => None
  end.

(** 683-712 [get_localization_operator_wannier90_individual_bands]; [nnkp] and [u_mat] may depend
    on the band. *)
Definition individual_options : w90_options :=
  {| w_projections := BFund 1; w_states := None; w_num_iter := 10000%Z; w_window := 3%Z; w_tolerance := (/ 10 ^ 20)%R;
     w_symmetry := None; w_ignore := [2%Z] |}.
Definition localization_operator_individual_bands (same : basis -> basis -> bool) (float : text -> option R)
    (nnkp : nat -> nnkp_of) (u_mat : nat -> u_mat_of) (bands : basis) (laxes : list basis) (saxes : list length_axis)
    (data : ndarray) : option ndarray :=
  match wavepacket_list_into_iter bands data with
  | None => None
  | Some wavepackets =>
      match all_some (map (fun b =>
              get_localization_operator_wannier90 same float (nnkp b) (u_mat b) (BFund 1) laxes saxes
                (nth b wavepackets data) (Some individual_options)) (seq 0 (length wavepackets))) with
      | Some l => individual_bands_operator (bsize bands) (bsize (BTuple laxes)) (map (fun r => snd r) l)
      | None => None
      end
  end.
