(** Bases with given shapes and lattice vectors (C110). *)
From Coq Require Import Reals Psatz.
From Verif Require Import ZLib Csum DFT NumPy Index IndexProofs AxesProofs Spec Basis SpecBasis BasisProofs BasisProofs2
  BasisProofs3 BasisFacts Lattice SpecReal LatticeProofs Operator Hamiltonian SpecHamiltonian HamiltonianProofs HamiltonianProofs3
  Brillouin Paths VolumeBasis SpecVolumeBasis VolumeBasisProofs.
Local Open Scope R_scope.
Local Open Scope C_scope.

Lemma zip_strict_some ds : forall shape, length ds = length shape -> zip_strict ds shape = Some (combine ds shape).
Proof. induction ds as [|d ds IH]; intros [|n shape] H; cbn in *; try discriminate; [reflexivity|]. rewrite IH by congruence. reflexivity. Qed.
Lemma zip_strict_none ds : forall shape, length ds <> length shape -> zip_strict ds shape = None.
Proof. induction ds as [|d ds IH]; intros [|n shape] H; cbn in *; try reflexivity; [congruence|]. rewrite IH by congruence. reflexivity. Qed.
Lemma map_fst_combine {A B} (l : list A) : forall (m : list B), length l = length m -> map fst (combine l m) = l.
Proof. induction l as [|a l IH]; intros [|b m] H; cbn in *; try discriminate; [reflexivity|]. f_equal. apply IH. congruence. Qed.
Lemma map_snd_combine {A B} (l : list A) : forall (m : list B), length l = length m -> map snd (combine l m) = m.
Proof. induction l as [|a l IH]; intros [|b m] H; cbn in *; try discriminate; [reflexivity|]. f_equal. apply IH. congruence. Qed.

Lemma from_shape shape delta :
  (length delta = length shape -> exists axes, position_basis_from_shape shape (Some delta) = Some axes /\
     map la_delta axes = delta /\ stacked axes = BTuple (map BFund shape)) /\
  (length delta <> length shape -> position_basis_from_shape shape (Some delta) = None).
Proof.
  unfold position_basis_from_shape. split; intros H.
  - rewrite (zip_strict_some _ _ H). eexists. split; [reflexivity|]. rewrite map_map. split; [exact (map_fst_combine _ _ H)|].
    unfold stacked. rewrite map_map. f_equal. cbn [la_basis position_axis_of].
    rewrite <- (map_map (@snd (list R) nat) BFund). f_equal. exact (map_snd_combine _ _ H).
  - rewrite (zip_strict_none _ _ H). reflexivity.
Qed.
Lemma np_eye_length n : length (np_eye n) = n.
Proof. unfold np_eye. rewrite map_length, seq_length. reflexivity. Qed.
Lemma np_eye_entry n i j : (i < n)%nat -> (j < n)%nat -> nth j (nth i (np_eye n) []) 0%R = rdelta i j.
Proof.
  intros Hi Hj. unfold np_eye.
  rewrite (nth_indep _ [] (map (fun j => if Nat.eqb 0 j then 1%R else 0%R) (seq 0 n))) by (rewrite map_length, seq_length; exact Hi).
  rewrite (map_nth (fun i => map (fun j => if Nat.eqb i j then 1%R else 0%R) (seq 0 n)) (seq 0 n) 0%nat i), seq_nth by exact Hi.
  cbn [Nat.add]. rewrite (nth_indep _ 0%R (if Nat.eqb i 0 then 1%R else 0%R)) by (rewrite map_length, seq_length; exact Hj).
  rewrite (map_nth (fun j => if Nat.eqb i j then 1%R else 0%R) (seq 0 n) 0%nat j), seq_nth by exact Hj. reflexivity.
Qed.
Lemma from_shape_default shape : exists axes, position_basis_from_shape shape None = Some axes /\
  stacked axes = BTuple (map BFund shape) /\ in_space (length shape) axes /\
  forall x c, (x < nprod shape)%nat -> (c < length shape)%nat ->
    fundamental_x_points shape (lattice_of axes) x c = (INR (nth c (unravel shape x) 0%nat) / INR (nth c shape 0%nat))%R.
Proof.
  destruct (proj1 (from_shape shape (np_eye (length shape))) (np_eye_length _)) as [axes [E [D B]]].
  exists axes. split; [exact E|]. split; [exact B|]. split.
  - apply Forall_forall. intros a Ha. assert (In (la_delta a) (np_eye (length shape))) as W by (rewrite <- D; apply in_map; exact Ha).
    unfold np_eye in W. apply in_map_iff in W. destruct W as [i [<- _]]. rewrite map_length, seq_length. reflexivity.
  - intros x c Hx Hc. unfold fundamental_x_points, lattice_of, dx_stacked. rewrite D.
    transitivity (rsum (fun a => rdelta a c * (INR (nth a (unravel shape x) 0%nat) / INR (nth a shape 0%nat)))%R (length shape)).
    + apply rsum_ext. intros a Ha. rewrite np_eye_entry by assumption.
      change (stacked_nx_points shape a x) with (Z.of_nat (nth a (unravel shape x) 0%nat)). rewrite <- INR_IZR_INZ. unfold Rdiv. ring.
    + apply rsum_delta. exact Hc.
Qed.

Lemma compatible_points_shape axes shape : compatible (stacked axes) (BTuple (map BFund shape)) <-> shape = fundamental_shape axes.
Proof.
  unfold stacked, fundamental_shape. split.
  - intros H. apply compatible_tuple_inv, compatible_axes_fund in H. revert shape H.
    induction axes as [|a axes IH]; intros [|n shape] H; inversion H; subst; [reflexivity|]. cbn [map]. f_equal; [symmetry; assumption|]. apply IH. assumption.
  - intros ->. rewrite <- (map_map la_basis bfund). apply LocalizeProofs4.compatible_position.
Qed.
Lemma from_parent parent resolution :
  ((exists child, position_basis_3d_from_parent parent resolution = Some child) <-> (3 <= length parent)%nat /\ (3 <= length resolution)%nat) /\
  (length parent = 3%nat -> length resolution = 3%nat -> exists child, position_basis_3d_from_parent parent resolution = Some child /\
     map la_delta child = map la_delta parent /\ stacked child = BTuple (map BFund resolution) /\
     forall same, (exists G, convert same (stacked parent) (stacked child) = Some G) <-> resolution = fundamental_shape parent).
Proof.
  split.
  - destruct parent as [|a [|b [|c parent]]]; destruct resolution as [|l [|m [|n resolution]]]; cbn [position_basis_3d_from_parent length];
      split; intros H; try (destruct H as [? H]; discriminate); try (exfalso; lia); try (split; lia). eexists; reflexivity.
  - intros Hp Hr. destruct parent as [|a [|b [|c [|]]]]; try discriminate. destruct resolution as [|l [|m [|n [|]]]]; try discriminate.
    eexists. split; [reflexivity|]. split; [reflexivity|]. split; [reflexivity|]. intros same.
    rewrite convert_some_iff. exact (compatible_points_shape [a; b; c] [l; m; n]).
Qed.
Lemma momentum_resolution resolution delta :
  ((exists axes, momentum_basis_3d_from_resolution resolution (Some delta) = Some axes) <-> (3 <= length delta)%nat /\ (3 <= length resolution)%nat) /\
  (length delta = 3%nat -> length resolution = 3%nat -> exists axes, momentum_basis_3d_from_resolution resolution (Some delta) = Some axes /\
     map la_delta axes = delta /\ stacked axes = BTuple (map BFundT resolution)) /\
  momentum_basis_3d_from_resolution resolution None = momentum_basis_3d_from_resolution resolution (Some [[1; 0; 0]; [0; 1; 0]; [0; 0; 1]]%R).
Proof.
  split; [|split].
  - destruct delta as [|a [|b [|c delta]]]; destruct resolution as [|l [|m [|n resolution]]]; cbn [momentum_basis_3d_from_resolution length];
      split; intros H; try (destruct H as [? H]; discriminate); try (exfalso; lia); try (split; lia). eexists; reflexivity.
  - intros Hp Hr. destruct delta as [|a [|b [|c [|]]]]; try discriminate. destruct resolution as [|l [|m [|n [|]]]]; try discriminate.
    eexists. split; [reflexivity|]. split; reflexivity.
  - reflexivity.
Qed.
Lemma with_shape axes shape : (axes <> [] -> stacked_basis_as_fundamental_with_shape axes shape = None) /\
  (shape <> [] -> stacked_basis_as_fundamental_with_shape axes shape = None) /\
  stacked_basis_as_fundamental_with_shape [] [] = Some [].
Proof.
  unfold stacked_basis_as_fundamental_with_shape. split; [|split].
  - intros N. destruct axes as [|a axes]; [congruence|]. cbn [delta_x_stacked]. destruct (forallb _ _); [|reflexivity]. destruct shape; reflexivity.
  - intros N. destruct (delta_x_stacked axes) as [ds|]; [|reflexivity]. destruct shape as [|n shape]; [congruence|]. destruct ds; reflexivity.
  - reflexivity.
Qed.
Lemma single_points d axes : in_space d axes ->
  map la_delta (get_single_point_basis axes) = map la_delta axes /\
  stacked (get_single_point_basis axes) = BTuple (map (fun _ => BFund 1) axes) /\
  bsize (stacked (get_single_point_basis axes)) = 1%nat /\ in_space d (get_single_point_basis axes) /\
  forall a, In a axes -> basis_as_single_point_basis a = None.
Proof.
  intros H. unfold get_single_point_basis, stacked. rewrite !map_map. split; [reflexivity|]. split; [reflexivity|]. split; [|split; [|reflexivity]].
  - cbn [bsize la_basis position_axis_of]. rewrite map_map. cbn [bsize]. clear H. induction axes as [|a axes IH]; [reflexivity|]. cbn. cbn in IH. rewrite IH. reflexivity.
  - apply Forall_map. eapply Forall_impl; [|exact H]. intros a Ha. exact Ha.
Qed.

(** ** A skew lattice: a truncated axis of 3 points and momenta of 2 *)
Definition ex_skew : list length_axis :=
  [{| la_basis := BTrunc 2 3; la_delta := [1; 0]%R |}; {| la_basis := BFundT 2; la_delta := [1; 2]%R |}].
Definition ex_skew_inverse (c a : nat) : R := nth a (nth c [[1; 0]; [-1/2; 1/2]]%R []) 0%R.
Lemma ex_skew_ok : in_space 2 ex_skew /\ bwf (stacked ex_skew) /\ explicit_orthonormal (stacked ex_skew) /\
  is_inverse (length ex_skew) (lattice_of ex_skew) ex_skew_inverse.
Proof.
  split; [repeat constructor|]. split; [cbn; repeat split; lia|]. split; [cbn; repeat split|].
  split; intros a b Ha Hb; cbn in Ha, Hb; destruct a as [|[|a]]; try lia; destruct b as [|[|b]]; try lia; cbn; field.
Qed.
