(** Localisation: consequences stated without the sections of the proofs, and the
    counterexamples. *)
From Coq Require Import Reals Psatz.
From Verif Require Import ZLib Csum DFT NumPy Interp Index IndexProofs AxesProofs Spec Basis SpecBasis BasisProofs BasisProofs2
  BasisProofs3 BasisFacts Operator SpecOperator OperatorProofs Reduce ReduceProofs IndexSum Wavepacket SpecWavepacket WavepacketProofs
  WavepacketProofs2 WavepacketProofs3 SpecMatrix LinAlg Polar Localize SpecLocalize LocalizeProofs LocalizeProofs2.
Local Open Scope R_scope.
Local Open Scope C_scope.

(** A rotation of two bands by a unitary matrix with entries 3/5 and 4i/5. *)
Definition ex_rotation : ndarray :=
  {| ashape := [1%nat; 2%nat; 2%nat];
     aflat := fun t => match t with 0%nat | 3%nat => RtoC (3 / 5)%R | _ => (0, 4 / 5)%R end |}.
Definition ex_bands : ndarray :=
  {| ashape := [2%nat; 1%nat; 2%nat]; aflat := fun t => match t with 0%nat | 3%nat => RtoC 1%R | _ => RtoC 0%R end |}.
Definition ex_energies : ndarray :=
  {| ashape := [2%nat; 1%nat]; aflat := fun t => match t with 1%nat => RtoC 1%R | _ => RtoC 0%R end |}.

Ltac two i Hi := destruct i as [|[|i]]; [| |exfalso; lia].
Ltac c_eq := unfold cdelta; cbn; apply injective_projections; cbn; field.

Lemma ex_rotation_unitary : unitary 2 (at_sample 2 2 ex_rotation 0).
Proof.
  assert (H : orthonormal_rows 2 2 (at_sample 2 2 ex_rotation 0)).
  { intros i j Hi Hj. two i Hi; two j Hj; unfold csum, at_sample; c_eq. }
  split; [exact H|]. apply orthonormal_square. exact H.
Qed.
Lemma ex_bands_orthonormal : forall l m, (l < 2)%nat -> (m < 2)%nat ->
  inner_product 2 (band_state 1 2 ex_bands 0 l) (band_state 1 2 ex_bands 0 m) = cdelta l m.
Proof. intros l m Hl Hm. two l Hl; two m Hm; unfold inner_product, csum, band_state, row; c_eq. Qed.

(** The statement with <w_i|H|w_j> is false. *)
Lemma hamiltonian_elements_refuted : exists op data ham out w,
  nprod (ashape op) = 4%nat /\ nprod (ashape data) = 4%nat /\ nprod (ashape ham) = 2%nat /\
  unitary 2 (at_sample 2 2 op 0) /\
  (forall l m, (l < 2)%nat -> (m < 2)%nat ->
     inner_product 2 (band_state 1 2 data 0 l) (band_state 1 2 data 0 m) = cdelta l m) /\
  localized_hamiltonian 2 2 1 op ham = Some out /\ localized_wavepackets 2 2 1 op data = Some w /\
  at_sample 2 2 out 0 0 1 <>
    csum (fun c => aflat ham (c * 1 + 0) *
      (inner_product 2 (band_state 1 2 w 0 0) (band_state 1 2 data 0 c) *
       inner_product 2 (band_state 1 2 data 0 c) (band_state 1 2 w 0 1))) 2.
Proof.
  exists ex_rotation, ex_bands, ex_energies.
  destruct (hamiltonian_spec 2 2 1 ex_rotation eq_refl ex_energies eq_refl) as [out [E [_ S]]].
  destruct (localized_spec 2 2 1 2 ex_rotation ex_bands eq_refl eq_refl ltac:(lia)) as [w [Ew [_ Sw]]].
  exists out, w. repeat (split; [reflexivity|]). split; [exact ex_rotation_unitary|].
  split; [exact ex_bands_orthonormal|]. split; [exact E|]. split; [exact Ew|].
  rewrite S by lia. unfold inner_product. unfold csum at 2 3 4. rewrite !Sw by lia.
  unfold csum, at_sample, band_state, row. cbn. intros H. apply (f_equal snd) in H. cbn in H. lra.
Qed.

(** More projections than bands. *)
Lemma projections_too_many same svd nb np laxes saxes data pb projections op :
  (nb < np)%nat ->
  localization_operator_for_projections same svd nb np laxes saxes data pb projections = Some op ->
  forall s, (s < bsize (BTuple laxes))%nat -> ~ orthonormal_rows np nb (at_sample np nb op s).
Proof. intros H _ s _ O. apply orthonormal_rows_le in O. lia. Qed.

Lemma hamiltonian_hermitian_exists nw nb ns op : nprod (ashape op) = (ns * nw * nb)%nat ->
  forall ham, nprod (ashape ham) = (nb * ns)%nat ->
  (forall t, (t < nb * ns)%nat -> snd (aflat ham t) = 0%R) ->
  exists out, localized_hamiltonian nw nb ns op ham = Some out /\ ashape out = [(ns * nw * nw)%nat] /\
    forall s, (s < ns)%nat -> hermitian nw (at_sample nw nw out s).
Proof.
  intros Hop ham Hh Hr. destruct (hamiltonian_spec nw nb ns op Hop ham Hh) as [out [E [S _]]].
  exists out. split; [exact E|]. split; [exact S|]. exact (hamiltonian_hermitian nw nb ns op Hop ham Hh out E Hr).
Qed.

Lemma projections_exist same laxes saxes paxes : length laxes = length saxes ->
  map bfund paxes = supercell (map bsize laxes) (map bfund saxes) ->
  forall np projections, nprod (ashape projections) = (np * bsize (BTuple paxes))%nat ->
  forall svd nb data, nprod (ashape data) = (nb * bsize (BTuple laxes) * bsize (BTuple saxes))%nat ->
  exists op, localization_operator_for_projections same svd nb np laxes saxes data (BTuple paxes) projections = Some op /\
    ashape op = [(bsize (BTuple laxes) * np * nb)%nat].
Proof.
  intros Hl Hp np projections Hpr svd nb data Hd.
  destruct (projections_spec same laxes saxes paxes Hl Hp np projections Hpr svd nb data Hd) as [op [E [S _]]].
  exists op. split; [exact E|exact S].
Qed.
