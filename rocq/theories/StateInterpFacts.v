(** Concrete cases for the interpolation of a state vector. *)
From Coq Require Import Reals Lra.
From Verif Require Import ZLib Csum DFT NumPy Index IndexProofs Spec Basis SpecBasis BasisProofs
  Operator SpecOperator Wavepacket SpecWavepacket IndexSum StateList SpecFourier StateInterp SpecStateInterp StateInterpProofs.
Local Open Scope R_scope.
Local Open Scope C_scope.

Definition ex_interp_axes : list basis := [BFund 2; BTrans 3 4; BFundT 3].
Definition ex_interp_data : ndarray := {| ashape := [2%nat; 9%nat]; aflat := fun t => RtoC (INR t) |}.
Definition ex_resize (k : nat) : option nat := if (k =? 1)%nat then Some 6%nat else None.
Lemma ex_interp_ok : bwf (BTuple ex_interp_axes) /\ explicit_orthonormal (BTuple ex_interp_axes) /\
  nprod (ashape ex_interp_data) = bsize (BTuple ex_interp_axes) /\ nth_error [5%nat; 6%nat] 1 = Some 6%nat /\
  given_points 6 [1%Z] ex_resize /\ not_shorter ex_resize (map bfund ex_interp_axes).
Proof.
  split; [cbn; repeat split; lia|]. split; [cbn; tauto|]. split; [reflexivity|]. split; [reflexivity|]. split.
  - split; intros k H; unfold ex_resize; destruct (Nat.eqb_spec k 1) as [E|E]; try reflexivity.
    + cbn in H. destruct H as [H|[]]. lia.
    + exfalso. apply H. cbn. left. lia.
  - intros k m Hk. unfold ex_resize. destruct (Nat.eqb_spec k 1) as [->|E]; [|discriminate]. intros Q. injection Q as <-. cbn. lia.
Qed.

(** Two by four points asked for, four by four obtained, and the values are scaled. *)
Definition square_axes : list basis := [BFund 2; BFund 2].
Definition square_data : ndarray := {| ashape := [4%nat]; aflat := fun t => cdelta 0 t |}.
Lemma square_interp same : identity_test same ->
  exists v, interpolate_state_vector_momentum same {| vbasis := BTuple square_axes; vdata := square_data |} [2%nat; 4%nat] [0; 1]%Z = Some v /\
    vbasis v = BTuple [BTrans 2 4; BTrans 2 4] /\
    amplitude (BTuple square_axes) (aflat square_data) 0 = 1 /\
    amplitude (vbasis v) (aflat (vdata v)) 0 = RtoC (sqrt (/ 2)).
Proof.
  intros Hs. set (rz := fun k : nat => if (k <? 2)%nat then Some 4%nat else None).
  assert (W : bwf (BTuple square_axes)) by (cbn; repeat split; lia).
  assert (O1 : explicit_orthonormal (BTuple square_axes)) by (cbn; tauto).
  assert (G : given_points 4 [0; 1]%Z rz).
  { split; intros k H; unfold rz; destruct (Nat.ltb_spec k 2) as [E|E]; try reflexivity.
    - cbn in H. lia.
    - exfalso. apply H. cbn. lia. }
  assert (NS : not_shorter rz (map bfund square_axes)).
  { intros k m Hk. unfold rz. destruct (Nat.ltb_spec k 2) as [E|E]; [|discriminate]. intros Q. injection Q as <-.
    cbn in Hk. destruct k as [|[|k]]; cbn; lia. }
  destruct (interpolate_spec same Hs square_axes W O1 square_data eq_refl [2; 4]%nat [0; 1]%Z 4%nat rz eq_refl G NS) as [l [out [E [S1 [S2 _]]]]].
  destruct (interpolate_common same Hs square_axes W O1 square_data eq_refl [2; 4]%nat [0; 1]%Z 4%nat rz _ eq_refl G NS E) as [l' [El' H]].
  cbn [vbasis] in El'. injection El' as <-.
  assert (El : l = [BTrans 2 4; BTrans 2 4]).
  { assert (E2 := E). unfold interpolate_state_vector_momentum in E2. cbn [vbasis] in E2.
    destruct (convert_vector_to _ _ _); [|discriminate]. cbn in E2. injection E2 as E2 _. symmetry. exact E2. }
  assert (A0 : amplitude (BTuple square_axes) (aflat square_data) 0 = 1).
  { unfold amplitude, square_axes, square_data. cbn. ring. }
  eexists. split; [exact E|]. cbn [vbasis]. split; [rewrite El; reflexivity|]. split; [exact A0|].
  subst l. specialize (H [0; 0]%nat [0; 0]%nat). cbn [vbasis] in H. change (ravel (map bfund [BTrans 2 4; BTrans 2 4]) [0%nat; 0%nat]) with 0%nat in H.
  change (ravel (map bfund square_axes) [0%nat; 0%nat]) with 0%nat in H. rewrite H.
  - rewrite A0. rewrite Cmult_1_r. f_equal. f_equal. cbn. lra.
  - repeat constructor.
  - repeat constructor.
  - intros k Hk. cbn in Hk. destruct k as [|[|k]]; [cbn; lia|cbn; lia|lia].
Qed.

(** On one axis there is no second entry to read. *)
Lemma single_axis same b d m : identity_test same -> bwf (BTuple [b]) -> explicit_orthonormal (BTuple [b]) ->
  nprod (ashape d) = bsize (BTuple [b]) ->
  interpolate_state_vector_momentum same {| vbasis := BTuple [b]; vdata := d |} [m] [0%Z] = None.
Proof.
  intros Hs W O1 Hd. apply interpolate_raises; try assumption. exists 0%nat. split; [cbn; lia|]. split; [cbn; left; reflexivity|]. discriminate.
Qed.
