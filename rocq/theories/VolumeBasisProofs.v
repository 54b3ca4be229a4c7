(** Bases with lattice vectors (C110). *)
From Coq Require Import Reals Psatz.
From Verif Require Import ZLib Csum DFT NumPy Index IndexProofs AxesProofs Spec Basis SpecBasis BasisProofs BasisProofs2
  BasisProofs3 BasisFacts Lattice SpecReal Operator Wavepacket SpecWavepacket WavepacketProofs WavepacketProofs2 Hamiltonian SpecHamiltonian HamiltonianProofs HamiltonianProofs3
  Brillouin LocalizeProofs4 Paths VolumeBasis SpecVolumeBasis.
Local Open Scope R_scope.
Local Open Scope C_scope.

Lemma delta_x_stacked_some d axes : in_space d axes -> delta_x_stacked axes = Some (map la_delta axes).
Proof.
  intros H. destruct axes as [|a axes]; [reflexivity|]. cbn [delta_x_stacked]. inversion H as [|? ? Ha Hr]; subst.
  replace (forallb _ axes) with true; [reflexivity|]. symmetry. apply forallb_forall. intros b Hb.
  apply Nat.eqb_eq. exact (proj1 (Forall_forall _ _) Hr b Hb).
Qed.
Lemma delta_x_stacked_none axes : (exists a b, In a axes /\ In b axes /\ length (la_delta a) <> length (la_delta b)) -> delta_x_stacked axes = None.
Proof.
  intros [a [b [Ha [Hb N]]]]. destruct axes as [|c axes]; [destruct Ha|]. cbn [delta_x_stacked].
  destruct (forallb _ axes) eqn:E; [|reflexivity]. exfalso.
  assert (W : forall x, In x (c :: axes) -> length (la_delta x) = length (la_delta c)).
  { intros x [<-|Hx]; [reflexivity|]. apply Nat.eqb_eq. exact (proj1 (forallb_forall _ _) E x Hx). }
  apply N. rewrite (W a Ha), (W b Hb). reflexivity.
Qed.
Lemma combine_map {A B D} (f : A -> B) (g : A -> D) l : combine (map f l) (map g l) = map (fun a => (f a, g a)) l.
Proof. induction l as [|a l IH]; [reflexivity|]. cbn. f_equal. exact IH. Qed.
Lemma as_position d axes : in_space d axes ->
  stacked_basis_as_fundamental_position_basis axes = Some (map basis_as_fundamental_position_basis axes).
Proof.
  intros H. unfold stacked_basis_as_fundamental_position_basis, fundamental_shape. rewrite (delta_x_stacked_some d axes H).
  rewrite combine_map, map_map. reflexivity.
Qed.
Lemma as_momentum d axes : in_space d axes ->
  stacked_basis_as_fundamental_momentum_basis axes = Some (map basis_as_fundamental_momentum_basis axes).
Proof.
  intros H. unfold stacked_basis_as_fundamental_momentum_basis, fundamental_shape. rewrite (delta_x_stacked_some d axes H).
  rewrite combine_map, map_map. reflexivity.
Qed.
Lemma in_space_map d axes (f : length_axis -> length_axis) : (forall a, la_delta (f a) = la_delta a) -> in_space d axes -> in_space d (map f axes).
Proof. intros Hf H. apply Forall_map. eapply Forall_impl; [|exact H]. intros a Ha. rewrite Hf. exact Ha. Qed.
Lemma stacked_map axes (f : length_axis -> length_axis) (g : nat -> basis) : (forall a, la_basis (f a) = g (bfund (la_basis a))) ->
  stacked (map f axes) = BTuple (map g (fundamental_shape axes)).
Proof. intros H. unfold stacked, fundamental_shape. rewrite !map_map. f_equal. apply map_ext. exact H. Qed.

Lemma fundamental_forms d axes : in_space d axes ->
  exists P M, stacked_basis_as_fundamental_position_basis axes = Some P /\ stacked_basis_as_fundamental_momentum_basis axes = Some M /\
    map la_delta P = map la_delta axes /\ map la_delta M = map la_delta axes /\
    stacked P = stacked_basis_as_fundamental_basis axes /\ stacked M = stacked_basis_as_fundamental_transformed_basis axes /\
    map (fun a => bsize (la_basis a)) P = fundamental_shape axes /\ map (fun a => bsize (la_basis a)) M = fundamental_shape axes /\
    fundamental_shape P = fundamental_shape axes /\ fundamental_shape M = fundamental_shape axes /\
    stacked_basis_as_fundamental_position_basis P = Some P /\ stacked_basis_as_fundamental_position_basis M = Some P /\
    stacked_basis_as_fundamental_momentum_basis P = Some M /\ stacked_basis_as_fundamental_momentum_basis M = Some M.
Proof.
  intros H. exists (map basis_as_fundamental_position_basis axes), (map basis_as_fundamental_momentum_basis axes).
  assert (HP : in_space d (map basis_as_fundamental_position_basis axes)) by (apply in_space_map; [reflexivity|exact H]).
  assert (HM : in_space d (map basis_as_fundamental_momentum_basis axes)) by (apply in_space_map; [reflexivity|exact H]).
  split; [exact (as_position d axes H)|]. split; [exact (as_momentum d axes H)|].
  split; [rewrite map_map; reflexivity|]. split; [rewrite map_map; reflexivity|].
  split; [apply stacked_map; reflexivity|]. split; [apply stacked_map; reflexivity|].
  unfold fundamental_shape. rewrite !map_map. do 4 (split; [reflexivity|]).
  rewrite (as_position d _ HP), (as_position d _ HM), (as_momentum d _ HP), (as_momentum d _ HM), !map_map. auto.
Qed.
Lemma fundamental_forms_raise axes : (exists a b, In a axes /\ In b axes /\ length (la_delta a) <> length (la_delta b)) ->
  stacked_basis_as_fundamental_position_basis axes = None /\ stacked_basis_as_fundamental_momentum_basis axes = None.
Proof.
  intros H. unfold stacked_basis_as_fundamental_position_basis, stacked_basis_as_fundamental_momentum_basis.
  rewrite (delta_x_stacked_none axes H). auto.
Qed.

(** ** Waves *)
Lemma k_dot_x_turns shape delta inv j x : is_inverse (length shape) delta inv -> (j < nprod shape)%nat -> (x < nprod shape)%nat ->
  isqrt (nprod shape) * cis (k_dot_x shape delta inv j x) = axis_states (map BFundT shape) (unravel shape j) (unravel shape x).
Proof.
  intros Hi Hj Hx.
  rewrite axis_states_turns by (apply unravel_in_shape; assumption). f_equal. f_equal. unfold k_dot_x.
  apply (phase_turns shape delta inv j (fundamental_x_points shape delta x)
    (fun a => INR (nth a (unravel shape x) 0%nat) / INR (nth a shape 0%nat))%R Hi Hj).
  intros c Hc. unfold fundamental_x_points. apply rsum_ext. intros a Ha. unfold dx_stacked.
  change (stacked_nx_points shape a x) with (Z.of_nat (nth a (unravel shape x) 0%nat)). rewrite <- INR_IZR_INZ. unfold Rdiv. ring.
Qed.
Lemma momentum_state shape delta inv j x : is_inverse (length shape) delta inv -> (j < nprod shape)%nat -> (x < nprod shape)%nat ->
  bstate (BTuple (map BFundT shape)) j x = isqrt (nprod shape) * cis (k_dot_x shape delta inv j x).
Proof.
  intros Hi Hj Hx. rewrite (k_dot_x_turns shape delta inv j x Hi Hj Hx).
  assert (B := bstate_ravel (map BFundT shape) (unravel shape j) (unravel shape x)).
  rewrite map_bsize_FundT, map_bfund_FundT in B. specialize (B (unravel_in_shape shape j Hj) (unravel_in_shape shape x Hx)).
  rewrite !ravel_unravel in B by assumption. exact B.
Qed.
Lemma shape_bases axes : map bfund (map la_basis axes) = fundamental_shape axes.
Proof. unfold fundamental_shape. apply map_map. Qed.

Lemma waves same d axes inv : identity_test same -> in_space d axes -> bwf (stacked axes) -> explicit_orthonormal (stacked axes) ->
  is_inverse (length axes) (lattice_of axes) inv ->
  let F := fundamental_shape axes in let N := nprod F in
  let wave j x := isqrt N * cis (k_dot_x F (lattice_of axes) inv j x) in
  exists P M G H, stacked_basis_as_fundamental_position_basis axes = Some P /\ stacked_basis_as_fundamental_momentum_basis axes = Some M /\
    convert same (stacked axes) (stacked P) = Some G /\ convert same (stacked axes) (stacked M) = Some H /\
    (forall v x, (x < N)%nat -> G v x = amplitude (stacked axes) v x) /\
    (forall v j, (j < N)%nat -> H v j = inner_product N (wave j) (G v)) /\
    (forall v x, (x < N)%nat -> G v x = csum (fun j => H v j * wave j x) N).
Proof.
  intros Hs Hd Hw He Hi F N wave.
  destruct (fundamental_forms d axes Hd) as [P [M [EP [EM [_ [_ [SP [SM _]]]]]]]].
  assert (Hi' : is_inverse (length F) (lattice_of axes) inv) by (unfold F, fundamental_shape; rewrite map_length; exact Hi).
  assert (FT : map bfund (map la_basis axes) = F) by apply shape_bases.
  assert (HF : Forall (fun n => (0 < n)%nat) F).
  { rewrite <- FT. apply Forall_forall. intros n Hn. apply in_map_iff in Hn. destruct Hn as [b [<- Hb]].
    apply (bfund_pos b). exact (proj1 (Forall_forall _ _) (proj1 (bwf_tuple _) Hw) b Hb). }
  assert (CP : compatible (stacked axes) (stacked P)).
  { rewrite SP. unfold stacked_basis_as_fundamental_basis. fold F. rewrite <- FT. apply compatible_position. }
  assert (CM : compatible (stacked axes) (stacked M)).
  { rewrite SM. unfold stacked_basis_as_fundamental_transformed_basis. fold F. rewrite <- FT. apply compatible_momenta. }
  destruct (proj2 (convert_some_iff same _ _) CP) as [G EG]. destruct (proj2 (convert_some_iff same _ _) CM) as [H EH].
  exists P, M, G, H. do 4 (split; [assumption|]).
  rewrite SP in EG. rewrite SM in EH. unfold stacked_basis_as_fundamental_basis, stacked_basis_as_fundamental_transformed_basis in EG, EH. fold F in EG, EH.
  assert (NF : forall g : nat -> basis, (forall n, bfund (g n) = n) -> bfund (BTuple (map g F)) = N).
  { intros g Hg. cbn [bfund]. rewrite map_map. unfold N. f_equal. rewrite <- (map_id F) at 2. apply map_ext. exact Hg. }
  assert (NS : forall g : nat -> basis, (forall n, bsize (g n) = n) -> bsize (BTuple (map g F)) = N).
  { intros g Hg. cbn [bsize]. rewrite map_map. unfold N. f_equal. rewrite <- (map_id F) at 2. apply map_ext. exact Hg. }
  assert (WP := position_wf F HF). assert (FP := position_full F). assert (WM : bwf (BTuple (map BFundT F))) by exact (momenta_wf F HF). assert (FM : full (BTuple (map BFundT F))) by apply momenta_full.
  assert (GV : forall v x, (x < N)%nat -> G v x = amplitude (stacked axes) v x).
  { intros v x Hx. assert (A := convert_amplitude same _ _ G Hs Hw WP He (proj1 (full_bases _ WP FP)) EG v x ltac:(rewrite NF; [exact Hx|reflexivity])).
    rewrite <- A. rewrite <- (ravel_unravel F x Hx) at 2. rewrite amplitude_position by (apply unravel_in_shape; exact Hx).
    rewrite ravel_unravel by exact Hx. reflexivity. }
  split; [exact GV|]. split.
  - intros v j Hj. rewrite (convert_orthonormal same Hs _ _ H Hw WM He EH v j) by (rewrite NS; [exact Hj|reflexivity]).
    unfold inner_product.
    transitivity (csum (fun k => csum (fun x => Cconj (bstate (BTuple (map BFundT F)) j x) * bstate (stacked axes) k x * v k) N) (bsize (stacked axes))).
    { apply csum_ext. intros k Hk. unfold overlap.
      replace (bfund (stacked axes)) with N by (unfold N, F, stacked, fundamental_shape; cbn [bfund]; rewrite map_map; reflexivity).
      try (replace (bfund (BTuple (map BFundT F))) with N by (symmetry; apply NF; reflexivity)).
      rewrite <- csum_scal_r. reflexivity. }
    rewrite csum_swap. apply csum_ext. intros x Hx. rewrite (GV v x Hx). unfold amplitude.
    rewrite <- csum_scal_l. apply csum_ext. intros k Hk. rewrite (momentum_state F (lattice_of axes) inv j x Hi' Hj Hx). unfold wave, N. ring.
  - intros v x Hx. rewrite (GV v x Hx).
    rewrite <- (convert_amplitude same _ _ H Hs Hw WM He (proj1 (full_bases _ WM FM)) EH v x) by (rewrite NF; [exact Hx|reflexivity]).
    unfold amplitude. rewrite NS by reflexivity. apply csum_ext. intros j Hj.
    rewrite (momentum_state F (lattice_of axes) inv j x Hi' Hj Hx). reflexivity.
Qed.
