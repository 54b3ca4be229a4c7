(** Properties C01-C08, C19, C20: index arithmetic and data movement. *)
From Coq Require Import Reals Lra.
From Verif Require Import ZLib NumPy Interp Index Spec Csum SpecReal Lattice.
From Verif Require InterpProofs2 IndexProofs AxesProofs LatticeProofs.
Local Open Scope nat_scope.

(** C01: every new slot holds the amplitude of the old slot of the same
    frequency, or zero when there is none; any number of axes, any sizes, any
    element type. *)
Theorem C01_pad_ft_points_frequencies :
  forall (A : Type) (zero : A) (shape : list nat) (array : list nat -> A) (s axes : list nat)
         (resize : nat -> option nat),
  NoDup axes -> length axes = length s -> Forall (fun a => a < length shape) axes ->
  resizes axes s resize ->
  exists shape' padded,
    pad_ft_points zero shape array s axes = Some (shape', padded) /\
    resized_shape resize shape shape' /\
    forall new, in_shape new shape' ->
      (forall old, in_shape old shape -> same_slots resize 0 shape old new ->
         padded new = array old) /\
      ((forall old, in_shape old shape -> ~ same_slots resize 0 shape old new) ->
         padded new = zero).
Proof. exact @InterpProofs2.pad_ft_points_frequencies. Qed.
Print Assumptions C01_pad_ft_points_frequencies.

(** C01: it raises only when [zip(strict=True)] or the axis numbers are bad. *)
Theorem C01_pad_ft_points_raises :
  forall (A : Type) (zero : A) (shape : list nat) (array : list nat -> A) (s axes : list nat),
  pad_ft_points zero shape array s axes = None <->
  length axes <> length s \/ ~ Forall (fun a => a < length shape) axes.
Proof. exact @InterpProofs2.pad_ft_points_raises. Qed.
Print Assumptions C01_pad_ft_points_raises.

(** C02: resizing and resizing back keeps the representable frequencies and
    zeroes the others. *)
Theorem C02_pad_ft_points_round_trip :
  forall (A : Type) (zero : A) shape array s axes (resize : nat -> option nat) n shape' p,
  NoDup axes -> length axes = length s -> Forall (fun a => a < length shape) axes ->
  resizes axes s resize -> n = map (fun a => nth a shape 0) axes ->
  pad_ft_points zero shape array s axes = Some (shape', p) ->
  exists q, pad_ft_points zero shape' p n axes = Some (shape, q) /\
    forall idx, in_shape idx shape ->
      (representable resize shape idx -> q idx = array idx) /\
      (~ representable resize shape idx -> q idx = zero).
Proof. exact @InterpProofs2.pad_ft_points_round_trip. Qed.
Print Assumptions C02_pad_ft_points_round_trip.

(** C02: enlarging then truncating back is the identity. *)
Theorem C02_pad_then_truncate_identity :
  forall (A : Type) (zero : A) shape array s axes n shape' p,
  NoDup axes -> length axes = length s -> Forall (fun a => a < length shape) axes ->
  n = map (fun a => nth a shape 0) axes ->
  (forall j, j < length axes -> nth j n 0 <= nth j s 0) ->
  pad_ft_points zero shape array s axes = Some (shape', p) ->
  exists q, pad_ft_points zero shape' p n axes = Some (shape, q) /\
    forall idx, in_shape idx shape -> q idx = array idx.
Proof. exact @InterpProofs2.pad_then_truncate_identity. Qed.
Print Assumptions C02_pad_then_truncate_identity.

(** A concrete case for C01 and C02: axes 2 and 0 of a (4,2,3) array resized to
    5 and 7; the slot (3,1,2) (frequencies -1 and -1) moves to (6,1,4). *)
Example C01_example :
  NoDup [2; 0] /\ Forall (fun a => a < length [4; 2; 3]) [2; 0] /\
  resizes [2; 0] [5; 7] (axis_target [2; 0] [5; 7]) /\
  same_slots (axis_target [2; 0] [5; 7]) 0 [4; 2; 3] [3; 1; 2] [6; 1; 4] /\
  match pad_ft_points 0 [4; 2; 3] (fun idx => match idx with [a; b; c] => 100 * a + 10 * b + c | _ => 0 end) [5; 7] [2; 0] with
  | Some (sh, p) => sh = [7; 2; 5] /\ p [6; 1; 4] = 312 /\ p [2; 1; 2] = 0
  | None => False
  end.
Proof.
  split; [repeat constructor; simpl; intuition discriminate|].
  split; [repeat constructor|].
  split; [apply InterpProofs2.axis_target_resizes; [repeat constructor; simpl; intuition discriminate|reflexivity]|].
  split; [|vm_compute; repeat split; reflexivity].
  vm_compute. repeat split.
  - exists (-1)%Z. repeat split; try (intros; discriminate); [exists (-1)%Z|exists (-1)%Z]; reflexivity.
  - exists (-1)%Z. repeat split; try (intros; discriminate); [exists (-1)%Z|exists (-1)%Z]; reflexivity.
Qed.

(** C03 *)
Theorem C03_nk_points :
  forall n, nk_points_len n = n /\ (forall i, i < n -> is_freq n i (nk_points n i)).
Proof. exact IndexProofs.nk_points_table. Qed.
Print Assumptions C03_nk_points.

Theorem C03_nk_points_each_once :
  forall n f, 0 < n -> (- (Z.of_nat n / 2) <= f <= (Z.of_nat n - 1) / 2)%Z ->
  exists i, i < n /\ nk_points n i = f /\ forall i', i' < n -> nk_points n i' = f -> i' = i.
Proof. exact IndexProofs.nk_points_each_once. Qed.
Print Assumptions C03_nk_points_each_once.

Example C03_example : map (nk_points 5) (seq 0 5) = [0; 1; 2; -2; -1]%Z /\
                      map (nk_points 4) (seq 0 4) = [0; 1; -2; -1]%Z.
Proof. split; reflexivity. Qed.

(** C04: flat -> stacked -> flat, and the stacked index is in range. *)
Theorem C04_flat_of_stacked :
  forall shape i, (0 <= i < Z.of_nat (nprod shape))%Z ->
  exists idx, get_stacked_index shape i = Some idx /\ in_shape idx shape /\
    get_flat_index shape (map Z.of_nat idx) MRaise = Some (Z.to_nat i).
Proof. exact IndexProofs.flat_of_stacked. Qed.
Print Assumptions C04_flat_of_stacked.

(** C04: stacked -> flat -> stacked. *)
Theorem C04_stacked_of_flat :
  forall shape idx i, get_flat_index shape idx MRaise = Some i ->
  i < nprod shape /\
  exists l, get_stacked_index shape (Z.of_nat i) = Some l /\ map Z.of_nat l = idx.
Proof. exact IndexProofs.stacked_of_flat. Qed.
Print Assumptions C04_stacked_of_flat.

(** C04: mode="raise" raises exactly on out-of-range indices. *)
Theorem C04_flat_index_raises_iff :
  forall shape idx, get_flat_index shape idx MRaise <> None <->
  Forall2 (fun i n => 0 <= i < Z.of_nat n)%Z idx shape.
Proof. exact IndexProofs.flat_index_raise_iff. Qed.
Print Assumptions C04_flat_index_raises_iff.

(** C04: mode="wrap" depends on the index modulo the shape only, and gives the
    flat index of the reduced index. *)
Theorem C04_flat_index_wrap :
  forall shape idx, Forall (fun n => 0 < n) shape -> length idx = length shape ->
  exists l, in_shape l shape /\
    Forall2 (fun i p => Zcong (Z.of_nat (fst p)) (Z.of_nat (snd p)) i) idx (combine shape l) /\
    get_flat_index shape idx MWrap = Some (ravel shape l).
Proof. exact IndexProofs.flat_index_wrap. Qed.
Print Assumptions C04_flat_index_wrap.

Theorem C04_flat_index_wrap_periodic :
  forall shape idx idx', Forall (fun n => 0 < n) shape -> length idx = length shape ->
  Forall2 (fun p n => Zcong (Z.of_nat n) (fst p) (snd p)) (combine idx idx') shape ->
  length idx' = length shape ->
  get_flat_index shape idx MWrap = get_flat_index shape idx' MWrap.
Proof. exact IndexProofs.flat_index_wrap_periodic. Qed.
Print Assumptions C04_flat_index_wrap_periodic.

(** C04: mode="clip" gives the flat index of the nearest index in range. *)
Theorem C04_flat_index_clip :
  forall shape idx, Forall (fun n => 0 < n) shape -> length idx = length shape ->
  exists l, in_shape l shape /\
    Forall2 (fun i p => (i < 0 -> snd p = 0%nat) /\
                        (0 <= i < Z.of_nat (fst p) -> Z.of_nat (snd p) = i) /\
                        (Z.of_nat (fst p) <= i -> snd p = pred (fst p)))%Z idx (combine shape l) /\
    get_flat_index shape idx MClip = Some (ravel shape l).
Proof. exact IndexProofs.flat_index_clip. Qed.
Print Assumptions C04_flat_index_clip.

(** C04: the tables of stacked points agree with get_stacked_index. *)
Theorem C04_stacked_nx_points :
  forall shape ax i, i < nprod shape -> ax < length shape ->
  exists idx, get_stacked_index shape (Z.of_nat i) = Some idx /\
    nth_error idx ax = Some (Z.to_nat (stacked_nx_points shape ax i)) /\
    (0 <= stacked_nx_points shape ax i)%Z.
Proof. exact IndexProofs.stacked_nx_points_spec. Qed.
Print Assumptions C04_stacked_nx_points.

Theorem C04_stacked_nk_points :
  forall shape ax i, i < nprod shape -> ax < length shape ->
  exists idx, get_stacked_index shape (Z.of_nat i) = Some idx /\
    is_freq (nth ax shape 0) (nth ax idx 0) (stacked_nk_points shape ax i).
Proof. exact IndexProofs.stacked_nk_points_spec. Qed.
Print Assumptions C04_stacked_nk_points.

Example C04_example :
  get_stacked_index [3; 4; 5] 37 = Some [1; 3; 2] /\
  get_flat_index [3; 4; 5] [1; 3; 2]%Z MRaise = Some 37 /\
  get_flat_index [3; 4; 5] [-2; 7; -3]%Z MWrap = Some 37 /\
  get_flat_index [3; 4; 5] [1; 4; 2]%Z MRaise = None.
Proof. repeat split; reflexivity. Qed.

(** C05 *)
Theorem C05_wrap_index_around_origin :
  forall shape idx origin axes,
  Forall (fun n => 0 < n) shape -> length idx = length shape ->
  (forall o, origin = Some o -> length o = length shape) ->
  let r := wrap_index_around_origin shape idx origin axes in
  length r = length shape /\
  forall ax, ax < length shape ->
    let o := match origin with Some o => nth ax o 0%Z | None => 0%Z end in
    let n := Z.of_nat (nth ax shape 0) in
    (wrapped axes ax ->
       Zcong n (nth ax r 0%Z) (nth ax idx 0%Z) /\ (o - n / 2 <= nth ax r 0 < o - n / 2 + n)%Z) /\
    (~ wrapped axes ax -> nth ax r 0%Z = nth ax idx 0%Z).
Proof. exact IndexProofs.wrap_index_around_origin_spec. Qed.
Print Assumptions C05_wrap_index_around_origin.

Theorem C05_wrap_periodic :
  forall shape idx idx' origin axes,
  Forall (fun n => 0 < n) shape -> length idx = length shape -> length idx' = length shape ->
  (forall o, origin = Some o -> length o = length shape) ->
  (forall ax, ax < length shape ->
     (wrapped axes ax -> Zcong (Z.of_nat (nth ax shape 0)) (nth ax idx 0%Z) (nth ax idx' 0%Z)) /\
     (~ wrapped axes ax -> nth ax idx 0%Z = nth ax idx' 0%Z)) ->
  wrap_index_around_origin shape idx origin axes = wrap_index_around_origin shape idx' origin axes.
Proof. exact IndexProofs.wrap_index_around_origin_periodic. Qed.
Print Assumptions C05_wrap_periodic.

Theorem C05_wrap_idempotent :
  forall shape idx origin axes,
  Forall (fun n => 0 < n) shape -> length idx = length shape ->
  (forall o, origin = Some o -> length o = length shape) ->
  wrap_index_around_origin shape (wrap_index_around_origin shape idx origin axes) origin axes
  = wrap_index_around_origin shape idx origin axes.
Proof. exact IndexProofs.wrap_index_around_origin_idempotent. Qed.
Print Assumptions C05_wrap_idempotent.

Example C05_example :
  wrap_index_around_origin [5; 4; 3] [8; -9; 7]%Z (Some [2; 1; 0]%Z) (Some [0; 1]) = [3; -1; 7]%Z.
Proof. reflexivity. Qed.

(** C06 *)
Theorem C06_wrap_x_point :
  forall nd delta inv (point : nat -> R) (origin : option (nat -> R)),
  is_inverse nd delta inv ->
  let o := match origin with None => fun _ => 0%R | Some o => o end in
  let r := wrap_x_point_around_origin nd delta inv point origin in
  (exists z : nat -> Z, forall c, c < nd ->
     r c = (point c + rsum (fun a => IZR (z a) * delta a c) nd)%R) /\
  (exists f : nat -> R,
     (forall a, a < nd -> (-(1/2) <= f a < 1/2)%R) /\
     forall c, c < nd -> (r c - o c = rsum (fun a => f a * delta a c) nd)%R).
Proof. exact LatticeProofs.wrap_x_point_spec. Qed.
Print Assumptions C06_wrap_x_point.

(** C06: it is the only lattice image in that cell. *)
Theorem C06_wrap_x_point_unique :
  forall nd delta inv point (origin : option (nat -> R)) (z : nat -> Z) (q f : nat -> R),
  is_inverse nd delta inv ->
  let o := match origin with None => fun _ => 0%R | Some o => o end in
  (forall c, c < nd -> q c = (point c + rsum (fun a => IZR (z a) * delta a c) nd)%R) ->
  (forall a, a < nd -> (-(1/2) <= f a < 1/2)%R) ->
  (forall c, c < nd -> (q c - o c = rsum (fun a => f a * delta a c) nd)%R) ->
  forall c, c < nd -> wrap_x_point_around_origin nd delta inv point origin c = q c.
Proof. exact LatticeProofs.wrap_x_point_unique. Qed.
Print Assumptions C06_wrap_x_point_unique.

(** An oblique lattice and its inverse meet the hypothesis of C06. *)
Example C06_example :
  let delta a c := match a, c with 0, 0 => 2 | 1, 0 => 1 | 1, 1 => 1 | _, _ => 0 end%R in
  let inv a c := match a, c with 0, 0 => 1/2 | 1, 0 => -(1/2) | 1, 1 => 1 | _, _ => 0 end%R in
  is_inverse 2 delta inv.
Proof.
  split; intros [|[|a]] [|[|b]] Ha Hb; try lia; unfold rsum, rdelta; simpl; lra.
Qed.

(** C07 *)
Theorem C07_get_data_in_axes :
  forall (A : Type) (data : list nat -> A) ndim axes idx out full,
  NoDup axes -> Forall (fun a => a < ndim) axes ->
  length full = ndim -> length out = length axes ->
  (forall j, j < length axes -> nth (nth j axes 0) full 0 = nth j out 0) ->
  map (fun k => nth k full 0) (other_axes ndim axes) = idx ->
  get_data_in_axes data axes idx out = data full.
Proof. exact @AxesProofs.get_data_in_axes_spec. Qed.
Print Assumptions C07_get_data_in_axes.

(** C07: the requested coordinates and the fixed ones always name a position. *)
Theorem C07_position_exists :
  forall ndim axes idx out, NoDup axes -> Forall (fun a => a < ndim) axes ->
  length out = length axes -> length idx + length axes = ndim ->
  exists full, length full = ndim /\
    (forall j, j < length axes -> nth (nth j axes 0) full 0 = nth j out 0) /\
    map (fun k => nth k full 0) (other_axes ndim axes) = idx.
Proof. exact AxesProofs.full_index_exists. Qed.
Print Assumptions C07_position_exists.

Example C07_example :
  get_data_in_axes (fun l => l) [4; 1; 3] [7; 8] [10; 11; 12] = [7; 11; 8; 12; 10] /\
  NoDup [4; 1; 3] /\ other_axes 5 [4; 1; 3] = [0; 2] /\ get_position_in_sorted [2; 4; 1; 3] = [1; 3; 0; 2].
Proof. repeat split; try reflexivity. repeat constructor; simpl; intuition discriminate. Qed.

(** C08 *)
Theorem C08_pad_sample_axis :
  forall (A : Type) (zero : A) n step offset (v : nat -> A), 0 < n -> 0 < step ->
  (forall k, k < n -> pad_sample_axis zero n step offset v (sample_pos n step offset k) = v k) /\
  (forall j, j < n * step -> (forall k, k < n -> sample_pos n step offset k <> j) ->
     pad_sample_axis zero n step offset v j = zero).
Proof. exact @IndexProofs.pad_sample_axis_full. Qed.
Print Assumptions C08_pad_sample_axis.

Theorem C08_truncate_sample_axis :
  forall (A : Type) n step offset (v : nat -> A) k, 0 < n -> 0 < step -> k < n ->
  truncate_sample_axis n step offset v k = v (sample_pos n step offset k).
Proof. exact @IndexProofs.truncate_sample_axis_spec. Qed.
Print Assumptions C08_truncate_sample_axis.

Theorem C08_sample_round_trip :
  forall (A : Type) (zero : A) n step offset v k, 0 < n -> 0 < step -> k < n ->
  truncate_sample_axis n step offset (pad_sample_axis zero n step offset v) k = v k.
Proof. exact @IndexProofs.sample_round_trip. Qed.
Print Assumptions C08_sample_round_trip.

Theorem C08_sample_projection :
  forall (A : Type) (zero : A) n step offset (w : nat -> A) j,
  0 < n -> 0 < step -> j < n * step ->
  ((exists k, k < n /\ sample_pos n step offset k = j) ->
     pad_sample_axis zero n step offset (truncate_sample_axis n step offset w) j = w j) /\
  ((forall k, k < n -> sample_pos n step offset k <> j) ->
     pad_sample_axis zero n step offset (truncate_sample_axis n step offset w) j = zero).
Proof. exact @IndexProofs.sample_projection. Qed.
Print Assumptions C08_sample_projection.

Theorem C08_samples_distinct :
  forall n step offset k k', 0 < n -> 0 < step -> k < n -> k' < n ->
  sample_pos n step offset k = sample_pos n step offset k' -> k = k'.
Proof. exact IndexProofs.sample_pos_inj. Qed.
Print Assumptions C08_samples_distinct.

Example C08_example :
  map (pad_sample_axis 0 3 4 (-3)%Z (fun k => S k)) (seq 0 12) = [0; 2; 0; 0; 0; 3; 0; 0; 0; 1; 0; 0].
Proof. reflexivity. Qed.

(** C19 *)
Theorem C19_displacements_matrix_nx :
  forall n i j, 0 < n ->
  Zcong (Z.of_nat n) (displacements_matrix_nx n i j) (Z.of_nat i - Z.of_nat j) /\
  (- (Z.of_nat n / 2) <= displacements_matrix_nx n i j < - (Z.of_nat n / 2) + Z.of_nat n)%Z.
Proof. exact IndexProofs.displacements_matrix_nx_spec. Qed.
Print Assumptions C19_displacements_matrix_nx.

Theorem C19_displacements_symmetric :
  forall n i j, 0 < n ->
  Z.abs (displacements_matrix_nx n i j) = Z.abs (displacements_matrix_nx n j i).
Proof. exact IndexProofs.displacements_matrix_nx_abs. Qed.
Print Assumptions C19_displacements_symmetric.

Theorem C19_displacements_matrix_nx_stacked :
  forall shape ax i j, i < nprod shape -> j < nprod shape -> ax < length shape ->
  let n := Z.of_nat (nth ax shape 0) in
  Zcong n (displacements_matrix_nx_stacked shape ax i j)
    (Z.of_nat (nth ax (unravel shape i) 0) - Z.of_nat (nth ax (unravel shape j) 0)) /\
  (- (n / 2) <= displacements_matrix_nx_stacked shape ax i j < - (n / 2) + n)%Z.
Proof. exact IndexProofs.displacements_stacked_spec. Qed.
Print Assumptions C19_displacements_matrix_nx_stacked.

Example C19_example :
  map (fun i => map (displacements_matrix_nx 4 i) (seq 0 4)) (seq 0 4)
  = [[0; -1; -2; 1]; [1; 0; -1; -2]; [-2; 1; 0; -1]; [-1; -2; 1; 0]]%Z.
Proof. reflexivity. Qed.

(** C20 *)
Theorem C20_wrap_displacements :
  forall d m : R, (0 < m)%R ->
  (- m <= wrap_displacements d m < m)%R /\
  exists z : Z, wrap_displacements d m = (d + IZR z * (2 * m))%R.
Proof. exact LatticeProofs.wrap_displacements_spec. Qed.
Print Assumptions C20_wrap_displacements.

Theorem C20_displacements_x :
  forall (len : R) n origin i, len <> 0%R ->
  (- (Rabs len / 2) <= displacements_x len n origin i < Rabs len / 2)%R /\
  exists z : Z, displacements_x len n origin i = (len / INR n * INR i - origin + IZR z * len)%R.
Proof. exact LatticeProofs.displacements_x_spec. Qed.
Print Assumptions C20_displacements_x.

Theorem C20_displacements_x_along_axis :
  forall nd (delta : nat -> nat -> R) shape idx origin axis, (0 < norm nd (delta axis))%R ->
  let L := norm nd (delta axis) in
  let d := displacements_x_along_axis nd delta shape idx origin axis in
  (- (L / 2) <= d < L / 2)%R /\
  exists z : Z, d =
    (rsum (fun a => INR (idx a) / INR (shape a) * delta a axis) nd - origin + IZR z * L)%R.
Proof. exact LatticeProofs.origin_displacements_along_axis_spec. Qed.
Print Assumptions C20_displacements_x_along_axis.

Theorem C20_displacements_matrix_x_along_axis :
  forall nd (delta : nat -> nat -> R) shape idx idx' origin axis, (0 < norm nd (delta axis))%R ->
  let L := norm nd (delta axis) in
  let d := displacements_matrix_x_along_axis nd delta shape idx idx' origin axis in
  (- (L / 2) <= d < L / 2)%R /\
  exists z : Z, d =
    (rsum (fun a => (INR (idx a) - INR (idx' a)) / INR (shape a) * delta a axis) nd - origin + IZR z * L)%R.
Proof. exact LatticeProofs.displacements_along_axis_spec. Qed.
Print Assumptions C20_displacements_matrix_x_along_axis.

(** C46 (finding): on a skew lattice the stacked displacement is not periodic. *)
Theorem C46_skew_displacements_periodic_refuted :
  exists (delta : nat -> nat -> R) (shape i j i' j' : nat -> nat),
    (forall a, a < 2 -> i a < shape a /\ j a < shape a /\ i' a < shape a /\ j' a < shape a) /\
    (forall a, a < 2 -> Zcong (Z.of_nat (shape a)) (Z.of_nat (i a) - Z.of_nat (j a)) (Z.of_nat (i' a) - Z.of_nat (j' a))) /\
    (delta 0%nat 0%nat * delta 1%nat 1%nat - delta 0%nat 1%nat * delta 1%nat 0%nat <> 0)%R /\
    Rabs (displacements_matrix_x_along_axis 2 delta shape i j 0 0)
      <> Rabs (displacements_matrix_x_along_axis 2 delta shape i' j' 0 0).
Proof. exact LatticeProofs.displacements_skew_not_periodic. Qed.
Print Assumptions C46_skew_displacements_periodic_refuted.

(** C47 (finding): get_displacements_matrix_x has n entries instead of n*n, all
    equal, and never positive. *)
Theorem C47_displacements_matrix_x_refuted :
  forall (len : R) n origin, (0 < len)%R -> 1 < n ->
  fold_right Nat.mul 1 (displacements_matrix_x_shape n) = n /\ n <> n * n /\
  forall k k', displacements_matrix_x len n origin k = displacements_matrix_x len n origin k' /\
    (- (len / 2) <= displacements_matrix_x len n origin k < 0)%R.
Proof. exact LatticeProofs.displacements_matrix_x_wrong. Qed.
Print Assumptions C47_displacements_matrix_x_refuted.

Example C20_example : (0 < norm 2 (LatticeProofs.skew_delta 0))%R.
Proof. rewrite LatticeProofs.skew_norm. lra. Qed.
