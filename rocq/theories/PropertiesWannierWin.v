(** Properties of the input files of Wannier90 and of the localisation with its results (C113). *)
From Coq Require Import Reals Ascii String.
From Verif Require Import ZLib Csum DFT NumPy Index Spec Basis SpecBasis Operator SpecOperator Wavepacket SpecWavepacket Localize SpecLocalize
  Lattice VolumeBasis SpecVolumeBasis Wannier SpecWannier WannierFacts WannierWin SpecWannierWin WannierWinProofs WannierWinFacts WannierWinFacts2 WannierWinFacts3.
Local Open Scope R_scope.
Local Open Scope C_scope.

(** ** C113 *)
Example ex_C113_cell : forall same, identity_test same ->
  exists win, build_win_file same (BFund 1) ex_laxes ex_cell_axes true ex_options = Some win /\
    win_cell win = ex_cell /\ win_grid win = [2; 1; 1]%nat /\ reciprocal (win_cell win) ex_reciprocal.
Proof. exact ex_win. Qed.
Example ex_C113_axes : (0 < List.length ex_cell_axes <= 3)%nat /\ List.length ex_laxes = List.length ex_cell_axes /\
  in_space (List.length ex_cell_axes) ex_cell_axes /\ bwf (BTuple ex_laxes) /\ Forall (fun b => is_transformed b = true) ex_laxes /\
  bwf (stacked ex_cell_axes) /\ explicit_orthonormal (stacked ex_cell_axes) /\
  nprod (ashape ex_wave_data) = (bsize (BFund 1) * nprod (map bsize ex_laxes) * bsize (stacked ex_cell_axes))%nat /\
  nprod (ashape ex_two_bands) = (bsize (BFund 2) * nprod (map bsize ex_laxes) * bsize (stacked ex_cell_axes))%nat.
Proof. exact ex_axes_ok. Qed.
Example ex_C113_wannier90 : answers_setup 2 (fun _ => Some ex_nnkp) /\
  answers_files integer_float 2 1 two_U (fun _ => Some two_u_mat).
Proof. exact ex_answers. Qed.
Example ex_C113_projections : forall pb states, w_states ex_options = Some (pb, states) ->
  exists paxes, pb = BTuple paxes /\ bwf pb /\ explicit_orthonormal pb /\
    map bfund paxes = supercell (map bsize ex_laxes) (fundamental_shape ex_cell_axes) /\
    nprod (ashape states) = (bsize (w_projections ex_options) * bsize pb)%nat.
Proof. exact ex_states_ok. Qed.

(** The wave vectors in the file: for vectors reciprocal to the cell of the file, no component
    outside the space of the crystal and, along every axis, the phase per unit cell of the
    plane wave of that sample. *)
Theorem C113_wave_vectors :
  forall same bands laxes saxes setup o, identity_test same -> (0 < List.length saxes <= 3)%nat ->
  List.length laxes = List.length saxes ->
  in_space (List.length saxes) saxes -> bwf (BTuple laxes) -> Forall (fun b => is_transformed b = true) laxes ->
  exists win, build_win_file same bands laxes saxes setup o = Some win /\ win_setup win = setup /\
    win_projections win = has_projections o /\ win_num_wann win = bsize bands /\
    win_num_iter win = w_num_iter o /\ win_tolerance win = w_tolerance o /\ win_window win = w_window o /\
    win_grid win = (map bsize laxes ++ repeat 1%nat (3 - List.length laxes))%list /\
    nprod (win_grid win) = List.length (win_points win) /\
    forall s B, in_shape s (map bsize laxes) -> reciprocal (win_cell win) B ->
    let K := wave_vector B (nth (ravel (map bsize laxes) s) (win_points win) []) in
    (forall c, (List.length saxes <= c < 3)%nat -> K c = 0%R) /\
    forall a, (a < List.length saxes)%nat ->
      let b := nth a laxes (BFund 0) in
      exists f, (- Z.of_nat (bfund b) <= 2 * f < Z.of_nat (bfund b))%Z /\
        (forall x, bstate b (nth a s 0%nat) x = plane_wave (bfund b) f x) /\
        rsum (fun c => 10 ^ 10 * K c * lattice_of saxes a c)%R (List.length saxes) = (2 * PI * (IZR f / INR (bfund b)))%R.
Proof. exact win_vectors. Qed.
Print Assumptions C113_wave_vectors.

(** The states of every sample are Bloch waves with the wave vector listed for that sample. *)
Theorem C113_bloch_waves :
  forall same bands ls saxes setup o data, identity_test same -> (0 < List.length saxes <= 3)%nat ->
  List.length ls = List.length saxes ->
  in_space (List.length saxes) saxes -> Forall (fun n => (0 < n)%nat) ls -> bwf (stacked saxes) ->
  exists win, build_win_file same bands (map BFundT ls) saxes setup o = Some win /\
    forall s m B, (s < nprod ls)%nat -> reciprocal (win_cell win) B ->
    let F := supercell ls (fundamental_shape saxes) in
    forall x cells, in_shape x F -> List.length cells = List.length saxes ->
      bloch_wave ls (map la_basis saxes) data s m (ravel F (moved F (fundamental_shape saxes) cells x)) =
      cis (cells_phase saxes (wave_vector B (nth s (win_points win) [])) cells) *
      bloch_wave ls (map la_basis saxes) data s m (ravel F x).
Proof. exact win_bloch. Qed.
Print Assumptions C113_bloch_waves.

(** The samples are the points of the grid given by mp_grid, each exactly once. *)
Theorem C113_grid :
  forall same bands ls saxes setup o, identity_test same -> (0 < List.length saxes <= 3)%nat ->
  List.length ls = List.length saxes -> in_space (List.length saxes) saxes -> Forall (fun n => (0 < n)%nat) ls ->
  exists win, build_win_file same bands (map BFundT ls) saxes setup o = Some win /\
    win_grid win = (ls ++ repeat 1%nat (3 - List.length ls))%list /\
    forall m : nat -> Z, exists j, (j < nprod ls)%nat /\ is_grid_point ls m (nth j (win_points win) []) /\
      forall j', (j' < nprod ls)%nat -> is_grid_point ls m (nth j' (win_points win) []) -> j' = j.
Proof. exact win_grid_points. Qed.
Print Assumptions C113_grid.

(** A truncated list basis: the file is written all the same, and no sample is at the second
    point of the grid it announces. *)
Theorem C113_truncated_grid_refuted :
  forall same bands d n setup o, identity_test same ->
  exists win, build_win_file same bands [BTrans 2 5] [position_axis_of [d] n] setup o = Some win /\
    win_grid win = [2; 1; 1]%nat /\ List.length (win_points win) = 2%nat /\
    forall j, (j < 2)%nat -> ~ is_grid_point [2%nat] (fun _ => 1%Z) (nth j (win_points win) []).
Proof. exact truncated_grid. Qed.
Print Assumptions C113_truncated_grid_refuted.

Example ex_C113_block : (0 < List.length [[1; 2; 3]; [4; 5; 6]]%R)%nat /\ Forall (fun v => List.length v = 3%nat) [[1; 2; 3]; [4; 5; 6]]%R.
Proof. split; [cbn; lia|repeat constructor]. Qed.

(** When the cell can be written. *)
Theorem C113_cell_raises :
  forall delta m, (0 < List.length delta)%nat -> Forall (fun v => List.length v = m) delta ->
  (build_real_lattice_block delta = None <-> (3 < List.length delta)%nat \/ (m <> List.length delta /\ m <> 1%nat)).
Proof. exact lattice_block_none. Qed.
Print Assumptions C113_cell_raises.

Example ex_C113_flat : (1 < List.length [[1]; [2]]%R <= 3)%nat /\ Forall (fun v => List.length v = 1%nat) [[1]; [2]]%R.
Proof. split; [cbn; lia|repeat constructor]. Qed.

(** Several vectors along one line: a cell is written although there is none. *)
Theorem C113_flat_cell :
  forall delta, (1 < List.length delta <= 3)%nat -> Forall (fun v => List.length v = 1%nat) delta ->
  exists A, build_real_lattice_block delta = Some A /\ forall B, ~ reciprocal A B.
Proof. exact lattice_block_flat. Qed.
Print Assumptions C113_flat_cell.

(** The files of the second run: the overlaps and the projections of the given states. *)
Theorem C113_files :
  forall same, identity_test same ->
  forall bands laxes saxes data, let ns := nprod (map bsize laxes) in
  (0 < bsize bands)%nat -> (0 < List.length saxes <= 3)%nat -> List.length laxes = List.length saxes ->
  in_space (List.length saxes) saxes -> bwf (BTuple laxes) -> Forall (fun b => is_transformed b = true) laxes ->
  bwf (stacked saxes) -> explicit_orthonormal (stacked saxes) ->
  nprod (ashape data) = (bsize bands * ns * bsize (stacked saxes))%nat ->
  forall o ignore n_tot entries nnkp, w_ignore o = map Z.of_nat ignore -> Forall (fun a => (a < 3)%nat) ignore ->
  w_symmetry o = None -> nnkp_file n_tot entries nnkp -> Forall (neighbour ns) entries ->
  (forall pb states, w_states o = Some (pb, states) -> exists paxes, pb = BTuple paxes /\ bwf pb /\ explicit_orthonormal pb /\
     map bfund paxes = supercell (map bsize laxes) (fundamental_shape saxes) /\
     nprod (ashape states) = (bsize (w_projections o) * bsize pb)%nat) ->
  exists win blocks amn, write_localization_files same bands laxes saxes data nnkp o = Some (win, (bsize bands, ns, n_tot, blocks), amn) /\
    build_win_file same bands laxes saxes false o = Some win /\
    Forall2 (overlap_block (bsize bands) (map la_basis saxes) ns data ignore) entries blocks /\
    (win_projections win = true <-> amn <> None) /\
    forall nw nk np lines, amn = Some (nw, nk, np, lines) ->
      nw = bsize bands /\ nk = ns /\ np = bsize (w_projections o) /\
      exists paxes states, w_states o = Some (BTuple paxes, states) /\
        projection_lines (map bsize laxes) (map la_basis saxes) data (bsize bands) np paxes states lines.
Proof. exact files_written. Qed.
Print Assumptions C113_files.

(** The operator: the matrices Wannier90 returns. *)
Theorem C113_operator :
  forall same, identity_test same ->
  forall bands laxes saxes data, let ns := nprod (map bsize laxes) in
  (0 < bsize bands)%nat -> (0 < List.length saxes <= 3)%nat -> List.length laxes = List.length saxes ->
  in_space (List.length saxes) saxes -> bwf (BTuple laxes) -> Forall (fun b => is_transformed b = true) laxes ->
  bwf (stacked saxes) -> explicit_orthonormal (stacked saxes) ->
  nprod (ashape data) = (bsize bands * ns * bsize (stacked saxes))%nat ->
  forall float nnkp u_mat U, answers_setup ns nnkp -> answers_files float ns (bsize bands) U u_mat ->
  forall o ignore, w_ignore o = map Z.of_nat ignore -> Forall (fun a => (a < 3)%nat) ignore -> w_symmetry o = None ->
  (forall pb states, w_states o = Some (pb, states) -> exists paxes, pb = BTuple paxes /\ bwf pb /\ explicit_orthonormal pb /\
     map bfund paxes = supercell (map bsize laxes) (fundamental_shape saxes) /\
     nprod (ashape states) = (bsize (w_projections o) * bsize pb)%nat) ->
  exists op, get_localization_operator_wannier90 same float nnkp u_mat bands laxes saxes data (Some o) =
      Some (BTuple laxes, w_projections o, bands, op) /\ ashape op = [(ns * bsize bands * bsize bands)%nat] /\
    forall s i j, (s < ns)%nat -> (i < bsize bands)%nat -> (j < bsize bands)%nat ->
      at_sample (bsize bands) (bsize bands) op s j i = U s i j.
Proof.
  intros. edestruct operator_read as [file [op [_ [_ R]]]]; try eassumption. exists op. exact R.
Qed.
Print Assumptions C113_operator.

(** As many projections as bands: the states are combined with them. *)
Theorem C113_localized :
  forall same, identity_test same ->
  forall bands laxes saxes data, let ns := nprod (map bsize laxes) in
  (0 < bsize bands)%nat -> (0 < List.length saxes <= 3)%nat -> List.length laxes = List.length saxes ->
  in_space (List.length saxes) saxes -> bwf (BTuple laxes) -> Forall (fun b => is_transformed b = true) laxes ->
  bwf (stacked saxes) -> explicit_orthonormal (stacked saxes) ->
  nprod (ashape data) = (bsize bands * ns * bsize (stacked saxes))%nat ->
  forall float nnkp u_mat U, answers_setup ns nnkp -> answers_files float ns (bsize bands) U u_mat ->
  forall o ignore, w_ignore o = map Z.of_nat ignore -> Forall (fun a => (a < 3)%nat) ignore -> w_symmetry o = None ->
  bsize (w_projections o) = bsize bands ->
  (forall pb states, w_states o = Some (pb, states) -> exists paxes, pb = BTuple paxes /\ bwf pb /\ explicit_orthonormal pb /\
     map bfund paxes = supercell (map bsize laxes) (fundamental_shape saxes) /\
     nprod (ashape states) = (bsize (w_projections o) * bsize pb)%nat) ->
  (0 < ns)%nat ->
  exists w, localize_wavepacket_wannier90 same float nnkp u_mat bands laxes saxes data o = Some w /\
    forall s i k, (s < ns)%nat -> (i < bsize bands)%nat -> (k < bsize (stacked saxes))%nat ->
      band_state ns (bsize (stacked saxes)) w s i k =
      csum (fun l => U s l i * band_state ns (bsize (stacked saxes)) data s l k) (bsize bands).
Proof. exact localized_states. Qed.
Print Assumptions C113_localized.

Example ex_C113_fewer : bsize (w_projections ex_options) <> bsize (BFund 2).
Proof. cbn. lia. Qed.

(** Another number of projections than bands: the call fails after Wannier90 has run. *)
Theorem C113_other_number_of_projections :
  forall same, identity_test same ->
  forall bands laxes saxes data, let ns := nprod (map bsize laxes) in
  (0 < bsize bands)%nat -> (0 < List.length saxes <= 3)%nat -> List.length laxes = List.length saxes ->
  in_space (List.length saxes) saxes -> bwf (BTuple laxes) -> Forall (fun b => is_transformed b = true) laxes ->
  bwf (stacked saxes) -> explicit_orthonormal (stacked saxes) ->
  nprod (ashape data) = (bsize bands * ns * bsize (stacked saxes))%nat ->
  forall float nnkp u_mat U, answers_setup ns nnkp -> answers_files float ns (bsize bands) U u_mat ->
  forall o ignore, w_ignore o = map Z.of_nat ignore -> Forall (fun a => (a < 3)%nat) ignore -> w_symmetry o = None ->
  bsize (w_projections o) <> bsize bands ->
  (forall pb states, w_states o = Some (pb, states) -> exists paxes, pb = BTuple paxes /\ bwf pb /\ explicit_orthonormal pb /\
     map bfund paxes = supercell (map bsize laxes) (fundamental_shape saxes) /\
     nprod (ashape states) = (bsize (w_projections o) * bsize pb)%nat) ->
  (0 < ns)%nat ->
  localize_wavepacket_wannier90 same float nnkp u_mat bands laxes saxes data o = None.
Proof. exact other_projections_raise. Qed.
Print Assumptions C113_other_number_of_projections.

(** Symmetry operations are not supported, whatever they are. *)
Theorem C113_symmetry_raises :
  forall same float nnkp u_mat bands laxes saxes data o l, w_symmetry o = Some l ->
  get_localization_operator_wannier90 same float nnkp u_mat bands laxes saxes data (Some o) = None.
Proof. exact symmetry_raises. Qed.
Print Assumptions C113_symmetry_raises.
Example ex_C113_symmetry : exists o, w_symmetry o = Some [] /\ w_projections o = BFund 2.
Proof.
  exists {| w_projections := BFund 2; w_states := None; w_num_iter := 1%Z; w_window := 3%Z; w_tolerance := 0%R;
            w_symmetry := Some []; w_ignore := [] |}. split; reflexivity.
Qed.

(** Bands localised one at a time: every band is multiplied by its own phases. *)
Theorem C113_individual_bands :
  forall same float nnkp u_mat bands laxes saxes data (U : nat -> nat -> nat -> nat -> C), identity_test same ->
  let ns := nprod (map bsize laxes) in
  (0 < bsize bands)%nat -> (0 < List.length saxes <= 3)%nat -> List.length laxes = List.length saxes ->
  in_space (List.length saxes) saxes ->
  bwf (BTuple laxes) -> Forall (fun b => is_transformed b = true) laxes ->
  bwf (stacked saxes) -> explicit_orthonormal (stacked saxes) -> (0 < ns)%nat ->
  nprod (ashape data) = (bsize bands * ns * bsize (stacked saxes))%nat ->
  (forall b, (b < bsize bands)%nat -> answers_setup ns (nnkp b) /\ answers_files float ns 1 (U b) (u_mat b)) ->
  exists op w, localization_operator_individual_bands same float nnkp u_mat bands laxes saxes data = Some op /\
    localized_wavepackets (bsize bands) (bsize bands) ns op data = Some w /\
    forall s i k, (s < ns)%nat -> (i < bsize bands)%nat -> (k < bsize (stacked saxes))%nat ->
      band_state ns (bsize (stacked saxes)) w s i k = U i s 0%nat 0%nat * band_state ns (bsize (stacked saxes)) data s i k.
Proof. exact individual_run. Qed.
Print Assumptions C113_individual_bands.
