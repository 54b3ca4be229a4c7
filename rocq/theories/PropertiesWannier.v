(** Properties of the files exchanged with Wannier90 (C81, C82) and of the symmetry
    operations on samples (C83). *)
From Coq Require Import Reals Ascii String.
From Verif Require Import ZLib Csum DFT NumPy Index Spec Basis SpecBasis Operator SpecOperator Wavepacket SpecWavepacket
  SpecMatrix Localize SpecLocalize LocalizeFacts Wannier SpecWannier WannierProofs2 WannierProofs4 WannierProofs5 WannierProofs6 WannierFacts.
Local Open Scope R_scope.
Local Open Scope C_scope.

(** ** C81 *)
Example ex_C81_neighbours : nnkp_file 2 ex_neighbours ex_nnkp /\
  Forall (fun e => List.length e = 5%nat) ex_neighbours /\ Forall (neighbour 2) ex_neighbours.
Proof. split; [exact ex_nnkp_ok|exact ex_neighbours_ok]. Qed.
Example ex_C81_overlaps : Forall bwf ex_saxes /\ explicit_orthonormal (BTuple ex_saxes) /\ (List.length ex_saxes <= 3)%nat /\
  Forall (fun a => (a < 3)%nat) [1%nat] /\
  nprod (ashape ex_wave_data) = (bsize (BFund 1) * 2 * bsize (BTuple ex_saxes))%nat.
Proof. exact ex_wave_ok. Qed.
Example ex_C81_projections : bwf (BTuple ex_saxes) /\ List.length ex_laxes = List.length ex_saxes /\
  bwf (BTuple ex_paxes) /\ explicit_orthonormal (BTuple ex_paxes) /\
  map bfund ex_paxes = supercell (map bsize ex_laxes) (map bfund ex_saxes) /\
  nprod (ashape ex_wave_data) = (1 * nprod (map bsize ex_laxes) * bsize (BTuple ex_saxes))%nat /\
  nprod (ashape ex_points) = (2 * bsize (BTuple ex_paxes))%nat.
Proof. exact ex_projection_ok. Qed.

(** The list of neighbours is read exactly as listed, whatever surrounds it in the file. *)
Theorem C81_read_neighbours :
  forall n entries file, nnkp_file n entries file -> Forall (fun e => List.length e = 5%nat) entries ->
  parse_nnk_points_file file = Some (n, entries).
Proof. exact parse_nnkp. Qed.
Print Assumptions C81_read_neighbours.

(** The overlaps written for every entry are those of the given wavepackets, over the
    points of the unit cell, whatever basis each axis has and whichever axes are ignored. *)
Theorem C81_written_overlaps :
  forall same, identity_test same ->
  forall bands ns saxes data ignore, Forall bwf saxes -> explicit_orthonormal (BTuple saxes) ->
  forall n_tot entries file,
  (0 < bsize bands)%nat -> (List.length saxes <= 3)%nat -> Forall (fun a => (a < 3)%nat) ignore ->
  nprod (ashape data) = (bsize bands * ns * bsize (BTuple saxes))%nat ->
  nnkp_file n_tot entries file -> Forall (neighbour ns) entries ->
  exists blocks, write_mmn_file same bands ns saxes data (map Z.of_nat ignore) file = Some (bsize bands, ns, n_tot, blocks) /\
    Forall2 (overlap_block (bsize bands) saxes ns data ignore) entries blocks.
Proof. intros same H. intros. apply written_overlaps; assumption. Qed.
Print Assumptions C81_written_overlaps.

(** A sample and itself: the inner products of the bands. *)
Theorem C81_overlaps_of_a_sample_with_itself :
  forall saxes ns data s m n ignore, bwf (BTuple saxes) -> explicit_orthonormal (BTuple saxes) ->
  bloch_overlap saxes ns data (kept_axes ignore [0%Z; 0%Z; 0%Z]) s m s n =
  inner_product (bsize (BTuple saxes)) (band_state ns (bsize (BTuple saxes)) data s m) (band_state ns (bsize (BTuple saxes)) data s n).
Proof. intros saxes ns data s m n ignore Hw Ho. rewrite kept_zero. exact (overlap_same saxes ns data s m n Hw Ho). Qed.
Print Assumptions C81_overlaps_of_a_sample_with_itself.

(** The opposite neighbour: the conjugate transpose. *)
Theorem C81_opposite_neighbour :
  forall saxes ns data ignore g s m t n,
  bloch_overlap saxes ns data (kept_axes ignore (map Z.opp g)) t n s m =
  Cconj (bloch_overlap saxes ns data (kept_axes ignore g) s m t n).
Proof. intros. rewrite kept_opp. apply overlap_reverse. Qed.
Print Assumptions C81_opposite_neighbour.

(** The projections written are the inner products over the supercell of the Bloch waves
    with the given states. *)
Theorem C81_written_projections :
  forall same, identity_test same ->
  forall laxes saxes paxes, bwf (BTuple saxes) -> explicit_orthonormal (BTuple saxes) -> List.length laxes = List.length saxes ->
  bwf (BTuple paxes) -> explicit_orthonormal (BTuple paxes) ->
  map bfund paxes = supercell (map bsize laxes) (map bfund saxes) ->
  forall nb np data projections,
  nprod (ashape data) = (nb * nprod (map bsize laxes) * bsize (BTuple saxes))%nat ->
  nprod (ashape projections) = (np * bsize (BTuple paxes))%nat ->
  exists lines, build_amn_file same nb np laxes saxes (BTuple paxes) data projections = Some (nb, nprod (map bsize laxes), np, lines) /\
    List.length lines = (np * nb * nprod (map bsize laxes))%nat /\
    forall k m n, (k < nprod (map bsize laxes))%nat -> (m < nb)%nat -> (n < np)%nat ->
      nth ((k * nb + m) * np + n) lines (0%nat, 0%nat, 0%nat, RtoC 0) =
      ((m + 1)%nat, (n + 1)%nat, (k + 1)%nat,
       csum (fun x => Cconj (bloch_wave (map bsize laxes) saxes data k m x) *
         amplitude (BTuple paxes) (row (bsize (BTuple paxes)) (aflat projections) n) x)
         (nprod (supercell (map bsize laxes) (map bfund saxes)))).
Proof. exact amn_spec. Qed.
Print Assumptions C81_written_projections.

(** ** C82 *)
Example ex_C82_file : u_mat_file integer_float 1 2 ex_U ex_u_mat /\ unitary 2 (ex_U 0) /\
  nprod (ashape ex_bands) = (2 * 1 * 2)%nat /\
  forall l m, (l < 2)%nat -> (m < 2)%nat ->
    inner_product 2 (band_state 1 2 ex_bands 0 l) (band_state 1 2 ex_bands 0 m) = cdelta l m.
Proof. split; [exact ex_u_mat_ok|]. split; [exact ex_U_unitary|]. split; [reflexivity|exact ex_bands_orthonormal]. Qed.

(** The operator read from the result. *)
Theorem C82_read_operator :
  forall float nk nw U file, u_mat_file float nk nw U file -> (0 < nw)%nat ->
  exists op, localization_operator_from_u_mat_file float file = Some op /\ ashape op = [(nk * nw * nw)%nat] /\
    forall s i j, (s < nk)%nat -> (i < nw)%nat -> (j < nw)%nat -> at_sample nw nw op s j i = U s i j.
Proof. exact u_mat_spec. Qed.
Print Assumptions C82_read_operator.

(** The states localised with it: the combinations Wannier90 asks for, orthonormal when the
    matrices are unitary. *)
Theorem C82_localized_states :
  forall float nk nw U n file data, u_mat_file float nk nw U file -> (0 < nw)%nat -> (0 < nk)%nat ->
  nprod (ashape data) = (nw * nk * n)%nat ->
  exists op w, localization_operator_from_u_mat_file float file = Some op /\
    localized_wavepackets nw nw nk op data = Some w /\
    (forall s i k, (s < nk)%nat -> (i < nw)%nat -> (k < n)%nat ->
       band_state nk n w s i k = csum (fun l => U s l i * band_state nk n data s l k) nw) /\
    forall s, (s < nk)%nat -> unitary nw (U s) ->
      (forall l m, (l < nw)%nat -> (m < nw)%nat ->
         inner_product n (band_state nk n data s l) (band_state nk n data s m) = cdelta l m) ->
      forall i j, (i < nw)%nat -> (j < nw)%nat ->
        inner_product n (band_state nk n w s i) (band_state nk n w s j) = cdelta i j.
Proof. exact read_localized. Qed.
Print Assumptions C82_localized_states.

(** Two bands localised separately, at two samples. *)
Example ex_C82_individual :
  let ops := [{| ashape := [2%nat]; aflat := fun _ => Ci |}; {| ashape := [2%nat]; aflat := fun s => RtoC (INR s) |}] in
  List.length ops = 2%nat /\ Forall (fun o => ashape o = [2%nat]) ops.
Proof. split; [reflexivity|]. repeat constructor. Qed.

(** Bands localised one at a time: no mixing, each band multiplied by its own phases. *)
Theorem C82_individual_bands :
  forall nb ns n ops data, List.length ops = nb -> (0 < nb)%nat -> (0 < ns)%nat ->
  Forall (fun o => ashape o = [ns]) ops -> nprod (ashape data) = (nb * ns * n)%nat ->
  exists op w, individual_bands_operator nb ns ops = Some op /\ localized_wavepackets nb nb ns op data = Some w /\
    forall s i k, (s < ns)%nat -> (i < nb)%nat -> (k < n)%nat ->
      band_state ns n w s i k = aflat (nth i ops {| ashape := []; aflat := fun _ => 0 |}) s * band_state ns n data s i k.
Proof. exact individual_localized. Qed.
Print Assumptions C82_individual_bands.

(** ** C83 *)
Example ex_C83_axis : names_axis (List.length [3%nat; 5%nat]) (-1)%Z 1 /\ (7 < nprod [3%nat; 5%nat])%nat.
Proof. repeat split; cbn; lia. Qed.

(** Reversal of an axis: the component changes sign modulo the length of the axis; twice is
    nothing. *)
Theorem C83_reversal :
  forall shape axis a i, names_axis (List.length shape) axis a -> (i < nprod shape)%nat ->
  exists j, x0_symmetry_op (Z.of_nat i) shape axis = Some j /\ (j < nprod shape)%nat /\
    unravel shape j = reversed shape a (unravel shape i) /\ x0_symmetry_op (Z.of_nat j) shape axis = Some i.
Proof. exact x0_involution. Qed.
Print Assumptions C83_reversal.

(** Exchange of two axes; twice is nothing when the axes have the same length. *)
Theorem C83_exchange :
  forall shape axis0 axis1 a b i,
  names_axis (List.length shape) axis0 a -> names_axis (List.length shape) axis1 b -> (i < nprod shape)%nat ->
  exists j, x0x1_symmetry_op (Z.of_nat i) shape (axis0, axis1) = Some j /\ (j < nprod shape)%nat /\
    unravel shape j = exchanged shape a b (unravel shape i) /\
    (nth a shape 0%nat = nth b shape 0%nat -> x0x1_symmetry_op (Z.of_nat j) shape (axis0, axis1) = Some i).
Proof. exact x0x1_reads. Qed.
Print Assumptions C83_exchange.

Example ex_C83_lengths : Forall (fun n => (0 < n)%nat) [2%nat; 3%nat] /\ nth 0 [2%nat; 3%nat] 0%nat <> nth 1 [2%nat; 3%nat] 0%nat.
Proof. split; [repeat constructor|discriminate]. Qed.

(** Axes of different lengths: no error, and two samples share an image. *)
Theorem C83_exchange_merges :
  forall shape axis0 axis1 a b, Forall (fun n => (0 < n)%nat) shape ->
  names_axis (List.length shape) axis0 a -> names_axis (List.length shape) axis1 b -> nth a shape 0%nat <> nth b shape 0%nat ->
  exists i j, (i < nprod shape)%nat /\ (j < nprod shape)%nat /\ i <> j /\
    x0x1_symmetry_op (Z.of_nat i) shape (axis0, axis1) = x0x1_symmetry_op (Z.of_nat j) shape (axis0, axis1).
Proof. exact x0x1_collision_lt. Qed.
Print Assumptions C83_exchange_merges.

(** The representative of a sample is not larger and is reached from it. *)
Theorem C83_representative_equivalent :
  forall shape ops i,
  (forall op j, In op ops -> (j < nprod shape)%nat -> exists g, op (Z.of_nat j) shape = Some g) -> (i < nprod shape)%nat ->
  exists f, get_fundamental_k_point shape ops i = Some f /\ (f <= i)%nat /\ reached shape ops i f.
Proof. exact representative_reached. Qed.
Print Assumptions C83_representative_equivalent.

(** One operation that undoes itself: equivalent samples have one representative. *)
Theorem C83_representative_of_one_operation :
  forall shape (op : operation) i j, op (Z.of_nat i) shape = Some j -> op (Z.of_nat j) shape = Some i ->
  get_fundamental_k_point shape [op] i = Some (Nat.min i j) /\ get_fundamental_k_point shape [op] j = Some (Nat.min i j) /\
  get_fundamental_k_point shape [op] (Nat.min i j) = Some (Nat.min i j).
Proof. exact representative_one. Qed.
Print Assumptions C83_representative_of_one_operation.

(** Several operations: equivalent samples may have different representatives. *)
Theorem C83_representative_unique_refuted :
  exists i j f g, reached [5%nat; 5%nat] square_symmetry i j /\ reached [5%nat; 5%nat] square_symmetry j i /\
    get_fundamental_k_point [5%nat; 5%nat] square_symmetry i = Some f /\
    get_fundamental_k_point [5%nat; 5%nat] square_symmetry j = Some g /\ f <> g.
Proof. exact representatives_differ. Qed.
Print Assumptions C83_representative_unique_refuted.
