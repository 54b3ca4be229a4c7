(** Proofs about the momentum basis Hamiltonian. *)
From Coq Require Import Reals Psatz.
From Verif Require Import ZLib Csum DFT NumPy Interp Spec InterpProofs Index IndexProofs SpecReal Lattice LatticeProofs
  Basis SpecBasis BasisProofs BasisProofs2 BasisProofs3 BasisFacts Operator SpecOperator OperatorProofs OperatorProofs2
  Wavepacket SpecWavepacket WavepacketProofs2 Hamiltonian SpecHamiltonian.
Local Open Scope R_scope.
Local Open Scope C_scope.

(** ** The fundamental position basis *)

Definition points (axes : list basis) : basis := as_fundamental_position axes.

Lemma points_state axes k x : bwf (BTuple axes) -> (x < nprod (map bfund axes))%nat -> (k < nprod (map bfund axes))%nat ->
  bstate (points axes) k x = cdelta k x.
Proof.
  unfold points, as_fundamental_position. rewrite bwf_tuple. intros Hw. revert k x.
  induction Hw as [|b axes Hb Hw IH]; intros k x Hx Hk.
  - simpl in *. assert (k = 0)%nat by lia. assert (x = 0)%nat by lia. subst. reflexivity.
  - cbn [bstate map product_states]. cbn [bstate map] in IH.
    assert (E : forall l, map (fun t : nat * nat * (nat -> nat -> C) => fst (fst t))
       (map (fun c => (bsize c, bfund c, bstate c)) (map (fun b => BFund (bfund b)) l)) = map bfund l)
      by (intros l; rewrite !map_map; reflexivity).
    assert (E' : forall l, map (fun t : nat * nat * (nat -> nat -> C) => snd (fst t))
       (map (fun c => (bsize c, bfund c, bstate c)) (map (fun b => BFund (bfund b)) l)) = map bfund l)
      by (intros l; rewrite !map_map; reflexivity).
    rewrite E, E'.
    assert (Hp : (0 < nprod (map bfund axes))%nat).
    { apply nprod_pos. apply fund_shape_pos. rewrite bwf_tuple. assumption. }
    rewrite IH by (apply Nat.mod_upper_bound; lia). cbn [bstate].
    apply cdelta_div_mod. assumption.
Qed.

Lemma points_size axes : bsize (points axes) = nprod (map bfund axes).
Proof. unfold points, as_fundamental_position. cbn [bsize]. rewrite map_map. reflexivity. Qed.
Lemma points_fund axes : bfund (points axes) = nprod (map bfund axes).
Proof. unfold points, as_fundamental_position. cbn [bfund]. rewrite map_map. reflexivity. Qed.
Lemma points_wf axes : bwf (BTuple axes) -> bwf (points axes).
Proof.
  unfold points, as_fundamental_position. rewrite !bwf_tuple. intros H.
  apply Forall_map. eapply Forall_impl; [|exact H]. intros b Hb. simpl. apply bfund_pos. assumption.
Qed.
Lemma points_full axes : full (points axes).
Proof. unfold points, as_fundamental_position. rewrite full_tuple. apply Forall_map. apply Forall_forall. intros. reflexivity. Qed.

Lemma compatible_points axes : compatible (BTuple axes) (points axes) /\ compatible (points axes) (BTuple axes).
Proof.
  assert (A : forall b, compatible b (BFund (bfund b))).
  { intros b. apply compatible_other; [intros la lb [_ H]; discriminate|reflexivity]. }
  assert (B : forall b, compatible (BFund (bfund b)) b).
  { intros b. apply compatible_other; [intros la lb [H _]; discriminate|reflexivity]. }
  unfold points, as_fundamental_position. split; apply compatible_stacked.
  - cbn [bfund]. rewrite map_map. reflexivity.
  - induction axes; constructor; auto.
  - cbn [bfund]. rewrite map_map. reflexivity.
  - induction axes; constructor; auto.
Qed.

Lemma compatible_momenta' axes : compatible (momenta (map bfund axes)) (BTuple axes).
Proof.
  assert (B : forall b, compatible (BFundT (bfund b)) b).
  { intros b. apply compatible_other; [intros la lb [H _]; discriminate|reflexivity]. }
  unfold momenta. apply compatible_stacked.
  - cbn [bfund]. rewrite !map_map. reflexivity.
  - induction axes; constructor; auto.
Qed.

Lemma overlap_points axes x i : bwf (BTuple axes) -> (x < bfund (BTuple axes))%nat ->
  overlap (points axes) (BTuple axes) x i = bstate (BTuple axes) i x.
Proof.
  intros Hw Hx. unfold overlap. change (bfund (BTuple axes)) with (nprod (map bfund axes)) in *.
  rewrite (csum_ext _ (fun y => cdelta x y * bstate (BTuple axes) i y)).
  - apply csum_delta_l. assumption.
  - intros y Hy. rewrite points_state by assumption. f_equal.
    unfold cdelta. destruct (Nat.eqb x y); unfold Cconj, RtoC; simpl; f_equal; ring.
Qed.

(** ** Potential part *)

Section Ham.
  Variable same : basis -> basis -> bool.
  Hypothesis Hs : identity_test same.
  Variable axes : list basis.
  Hypothesis Hw : bwf (BTuple axes).
  Hypothesis Ho : explicit_orthonormal (BTuple axes).
  Let B := BTuple axes.
  Let n := bsize B.
  Let N := nprod (map bfund axes).
  Let M := momenta (map bfund axes).

  Lemma convert_potential_points data :
    exists d, convert_potential_to_basis same axes (points axes) data = Some d /\ ashape d = [N] /\
      forall x, (x < N)%nat -> aflat d x = amplitude B data x.
  Proof.
    destruct (proj2 (convert_some_iff same B (points axes)) (proj1 (compatible_points axes))) as [F HF].
    unfold convert_potential_to_basis. unfold B in HF. rewrite HF. eexists. split; [reflexivity|]. cbn [ashape aflat].
    split; [rewrite points_size; reflexivity|]. intros x Hx.
    rewrite (convert_orthonormal same Hs B (points axes) F Hw (points_wf axes Hw) Ho HF) by (rewrite points_size; assumption).
    unfold amplitude. apply csum_ext. intros k Hk. unfold B. rewrite overlap_points by assumption. ring.
  Qed.

  Lemma potential_hamiltonian_spec data :
    exists H, hamiltonian_from_potential same axes data = Some H /\ square n H /\ orow H = B /\ ocol H = B /\
      ashape (odata H) = [(n * n)%nat] /\
      forall i j, (i < n)%nat -> (j < n)%nat ->
        op_entry H i j = csum (fun x => Cconj (bstate B i x) * amplitude B data x * bstate B j x) N.
  Proof.
    destruct (convert_potential_points data) as [d [Hd [Sd Ed]]].
    unfold hamiltonian_from_potential. fold (points axes). rewrite Hd. unfold np_diag. rewrite Sd.
    set (o := {| orow := points axes; ocol := points axes; odata := _ |}).
    assert (Wo : op_wf o).
    { unfold op_wf, o. cbn [odata orow ocol ravel_array ashape array2]. rewrite points_size. fold N. cbn [nprod]. ring. }
    destruct (convert_operator_spec same o B B Wo (proj2 (compatible_points axes)) (proj2 (compatible_points axes)))
      as [F [r [HF [Hr [Wr [Rr [Cr Er]]]]]]].
    assert (Sr : ashape (odata r) = [(n * n)%nat]).
    { unfold convert_operator_to_basis in Hr. rewrite (op_reshape o Wo) in Hr.
      destruct (convert_matrix same (orow o) B (ocol o) B) in Hr; [|discriminate].
      injection Hr as <-. cbn [odata ravel_array array2 ashape nprod]. unfold B. cbn [bsize]. change (nprod (map bsize axes)) with n. f_equal. ring. }
    exists r. split; [exact Hr|]. split; [split; [assumption|rewrite Rr, Cr; split; reflexivity]|].
    split; [assumption|]. split; [assumption|]. split; [assumption|]. intros i j Hi Hj.
    rewrite Er by assumption.
    assert (Op : explicit_orthonormal (points axes)) by (apply full_bases; [apply points_wf, Hw|apply points_full]).
    rewrite (convert_matrix_sum same Hs (points axes) B (points axes) B F (points_wf axes Hw) Hw (points_wf axes Hw) Hw Op Op HF _ i j Hi Hj).
    rewrite points_size. fold N. apply csum_ext. intros x Hx.
    assert (P : (0 < N)%nat) by lia.
    rewrite (csum_ext _ (fun y => cdelta x y * (Cconj (bstate B i x) * amplitude B data x * bstate B j y))).
    { rewrite csum_delta_l by assumption. reflexivity. }
    intros y Hy. rewrite overlap_points by assumption.
    rewrite <- (overlap_conj B (points axes)) by (rewrite points_fund; reflexivity).
    unfold B. rewrite (overlap_points axes x i Hw Hx). fold B.
    unfold op_entry, o. cbn [odata ocol ravel_array aflat]. rewrite points_size. fold N.
    rewrite (array2_flat N N) by assumption.
    destruct (Nat.eqb_spec x y) as [->|Hne].
    - rewrite Ed, cdelta_refl by assumption. ring.
    - rewrite cdelta_neq by assumption. ring.
  Qed.

  (** ** Kinetic part *)
  Variable hbar mass : R.
  Variable inv : nat -> nat -> R.
  Variable frac : option (nat -> R).
  Let E := mass_energy hbar (map bfund axes) inv mass frac.

  Lemma kinetic_hamiltonian_spec :
    exists H, hamiltonian_from_mass_in_basis same hbar axes inv mass frac = Some H /\ square n H /\
      orow H = B /\ ocol H = B /\ ashape (odata H) = [(n * n)%nat] /\
      forall i j, (i < n)%nat -> (j < n)%nat ->
        op_entry H i j = csum (fun k => overlap B M i k * RtoC (E k) * overlap M B k j) N.
  Proof.
    unfold hamiltonian_from_mass_in_basis, as_operator, hamiltonian_from_mass.
    cbn [odata np_diag ashape orow ocol]. rewrite as_fundamental_transformed_momenta. fold M. fold N.
    set (o := {| orow := M; ocol := M; odata := _ |}).
    assert (PM : Forall (fun n => (0 < n)%nat) (map bfund axes)) by (apply fund_shape_pos; assumption).
    assert (SM : bsize M = N) by apply momenta_size.
    assert (WM : bwf M) by (apply momenta_wf; assumption).
    assert (Wo : op_wf o).
    { unfold op_wf, o. cbn [odata orow ocol ashape array2]. rewrite SM. cbn [nprod]. ring. }
    assert (CM : compatible M B) by apply compatible_momenta'.
    destruct (convert_operator_spec same o B B Wo CM CM)
      as [F [r [HF [Hr [Wr [Rr [Cr Er]]]]]]].
    assert (Sr : ashape (odata r) = [(n * n)%nat]).
    { unfold convert_operator_to_basis in Hr. rewrite (op_reshape o Wo) in Hr.
      destruct (convert_matrix same (orow o) B (ocol o) B) in Hr; [|discriminate].
      injection Hr as <-. cbn [odata ravel_array array2 ashape nprod]. unfold B. cbn [bsize]. change (nprod (map bsize axes)) with n. f_equal. ring. }
    exists r. split; [exact Hr|]. split; [split; [assumption|rewrite Rr, Cr; split; reflexivity]|].
    split; [assumption|]. split; [assumption|]. split; [assumption|]. intros i j Hi Hj.
    rewrite Er by assumption.
    assert (OM : explicit_orthonormal M) by (apply full_bases; [assumption|apply momenta_full]).
    rewrite (convert_matrix_sum same Hs M B M B F WM Hw WM Hw OM OM HF _ i j Hi Hj).
    rewrite SM. apply csum_ext. intros x Hx.
    rewrite (csum_ext _ (fun y => cdelta x y * (overlap B M i x * RtoC (E x) * overlap M B y j))).
    { rewrite csum_delta_l by assumption. reflexivity. }
    intros y Hy. unfold op_entry, o. cbn [odata ocol]. rewrite SM, (array2_flat N N) by assumption. cbn [aflat]. fold E.
    destruct (Nat.eqb_spec x y) as [->|Hne]; [rewrite cdelta_refl|rewrite cdelta_neq by assumption]; ring.
  Qed.

  Lemma total_hamiltonian_spec data :
    exists H, total_surface_hamiltonian same hbar axes inv data mass frac = Some H /\ square n H /\
      orow H = B /\ ocol H = B /\
      forall i j, (i < n)%nat -> (j < n)%nat ->
        op_entry H i j = csum (fun x => Cconj (bstate B i x) * amplitude B data x * bstate B j x) N +
                         csum (fun k => overlap B M i k * RtoC (E k) * overlap M B k j) N.
  Proof.
    destruct (potential_hamiltonian_spec data) as [V [HV [SV [RV [CV [AV EV]]]]]].
    destruct kinetic_hamiltonian_spec as [T [HT [ST [RT [CT [AT ET]]]]]].
    destruct (add_operator_spec n T V ST SV) as [H [HH [SH [RH [CH EH]]]]]; [congruence|].
    exists H. unfold total_surface_hamiltonian. rewrite HV, HT. split; [assumption|]. split; [assumption|].
    split; [congruence|]. split; [congruence|]. intros i j Hi Hj. rewrite EH, EV, ET by assumption. ring.
  Qed.
End Ham.

(** ** Kinetic energies *)

Lemma nk_freq shape a i : (i < nprod shape)%nat -> (a < length shape)%nat ->
  stacked_nk_points shape a i = freq (nth a shape 0%nat) (nth a (unravel shape i) 0%nat).
Proof.
  intros Hi Ha. destruct (stacked_nk_points_spec shape a i Hi Ha) as [idx [H1 H2]].
  assert (idx = unravel shape i).
  { unfold get_stacked_index in H1. destruct (_ && _)%bool in H1; [|discriminate].
    injection H1 as <-. rewrite Nat2Z.id. reflexivity. }
  subst idx. eapply is_freq_unique; [exact H2|]. apply freq_is_freq.
  apply in_shape_nth; [apply unravel_in_shape; assumption|assumption].
Qed.

Lemma k_point_wave shape delta inv i (f : nat -> R) : is_inverse (length shape) delta inv -> (i < nprod shape)%nat ->
  wave_vector shape delta (unravel shape i) f
    (fun c => fundamental_stacked_k_points shape inv c i + tensordot00 (length shape) (dk_stacked inv) f c)%R.
Proof.
  intros [Hinv _] Hi a Ha. unfold dot, fundamental_stacked_k_points, tensordot00.
  set (nd := length shape) in *.
  rewrite (rsum_ext _ (fun c => rsum (fun d => 2 * PI * (IZR (stacked_nk_points shape d i) + f d) * (delta a c * inv c d)) nd)%R).
  2:{ intros c Hc. rewrite <- rsum_plus, <- rsum_scal_r. apply rsum_ext. intros d Hd. unfold dk_stacked. ring. }
  rewrite rsum_swap.
  rewrite (rsum_ext _ (fun d => rdelta a d * (2 * PI * (IZR (stacked_nk_points shape d i) + f d)))%R).
  2:{ intros d Hd. rewrite rsum_scal_l, Hinv by assumption. ring. }
  rewrite rsum_delta' by assumption. rewrite nk_freq by assumption. reflexivity.
Qed.


Lemma mass_energy_wave hbar shape inv mass frac i :
  mass_energy hbar shape inv mass frac i =
  (let q := fun c => (fundamental_stacked_k_points shape inv c i
                      + tensordot00 (length shape) (dk_stacked inv) (fraction frac) c) in
   hbar * hbar * dot (length shape) q q / (2 * mass))%R.
Proof.
  unfold mass_energy. fold (fraction frac). cbv zeta. unfold dot.
  unfold Rdiv. rewrite (Rmult_comm (hbar * hbar)), <- rsum_scal_r, <- rsum_scal_r.
  apply rsum_ext. intros c Hc. ring.
Qed.

Lemma rsum_sqr_zero (f : nat -> R) n : rsum (fun c => f c * f c)%R n = 0%R -> forall c, (c < n)%nat -> f c = 0%R.
Proof.
  intros H c Hc. assert (f c * f c = 0)%R.
  { apply (rsum_zero_nonneg (fun c => f c * f c)%R n); try assumption. intros i Hi. apply Rle_0_sqr. }
  apply Rmult_integral in H0. tauto.
Qed.

Lemma wave_unique shape delta inv idx f q q' : is_inverse (length shape) delta inv ->
  wave_vector shape delta idx f q -> wave_vector shape delta idx f q' ->
  forall c, (c < length shape)%nat -> q c = q' c.
Proof.
  intros [Hinv Hinv'] H H' c Hc. set (nd := length shape) in *.
  assert (G : forall q, wave_vector shape delta idx f q ->
    q c = rsum (fun a => inv c a * (2 * PI * (IZR (freq (nth a shape 0%nat) (nth a idx 0%nat)) + f a)))%R nd).
  { intros r Hr. rewrite (rsum_ext _ (fun a => rsum (fun d => r d * (inv c a * delta a d))%R nd)).
    2:{ intros a Ha. rewrite <- (Hr a Ha). unfold dot. fold nd. rewrite <- rsum_scal_l. apply rsum_ext. intros; ring. }
    rewrite rsum_swap. rewrite (rsum_ext _ (fun d => rdelta c d * r d)%R).
    2:{ intros d Hd. rewrite rsum_scal_l, Hinv' by assumption. ring. }
    symmetry. apply rsum_delta'. assumption. }
  rewrite (G q H), (G q' H'). reflexivity.
Qed.
