(** Concrete seed states. *)
From Coq Require Import Reals Lra Lia.
From Verif Require Import ZLib Csum DFT NumPy Spec Basis SpecBasis BasisProofs BasisProofs2 BasisProofs3 Operator Reduce Wavepacket SpecWavepacket WavepacketProofs2 Localize
  StateList SpecStateList SeedStates SpecSeed SeedProofs SeedProofs2 SeedProofs3 SeedProofs4.
Local Open Scope R_scope.
Local Open Scope C_scope.

Definition sd_laxes : list basis := [BFundT 2; BFundT 1].
Definition sd_saxes : list basis := [BTrans 3 4; BFund 3].

Lemma sd_single : (length sd_laxes <= length sd_saxes)%nat /\
  (bsize (BTuple sd_saxes) <= nprod (supercell (map bfund sd_laxes) (map bfund sd_saxes)))%nat /\ bsize (BTuple sd_saxes) = 9%nat.
Proof. vm_compute. repeat split; lia. Qed.

(** Two bands on nine states raise; four bands leave the last one empty. *)
Lemma sd_two_bands : single_point_states sd_laxes sd_saxes 2 = None.
Proof.
  apply (single_states_none sd_laxes sd_saxes 2); [vm_compute; lia..|]. right. vm_compute. lia.
Qed.
Lemma sd_four_bands : exists s, single_point_states sd_laxes sd_saxes 4 = Some s /\ ~ orthonormal_list s.
Proof.
  destruct (single_point_states sd_laxes sd_saxes 4) as [s|] eqn:E.
  - exists s. split; [reflexivity|]. intros H. apply (single_states_orthonormal sd_laxes sd_saxes 4) in H; [vm_compute in H; lia|vm_compute; lia|vm_compute; lia|exact E].
  - apply (single_states_none sd_laxes sd_saxes 4) in E; [vm_compute in E; lia|vm_compute; lia|vm_compute; lia].
Qed.

Lemma sd_free : Forall (fun l => (0 < l)%nat) (map bfund sd_laxes) /\ Forall (fun l => (0 < l)%nat) [2; 3]%nat /\ Forall (fun l => (0 < l)%nat) [2; 1]%nat /\
  [2; 3]%nat <> [] /\ length sd_laxes = length [2; 3]%nat /\ length sd_saxes = length [2; 3]%nat /\ length [2; 1]%nat = length [2; 3]%nat /\
  Forall2 le [2; 3]%nat (map bfund sd_saxes) /\ map bfund sd_saxes = supercell [2; 3]%nat [2; 1]%nat /\
  in_shape [1; 2]%nat [2; 3]%nat /\ band_centre [2; 3]%nat [2; 1]%nat [1; 2]%nat = [-2; -1]%Z.
Proof. repeat split; try discriminate; repeat constructor. Qed.

(** One band on a grid of two points, occupying both momenta. *)
Definition sd_data : ndarray := {| ashape := [2%nat]; aflat := fun t => match t with O => RtoC 2 | _ => RtoC 1 end |}.
Definition sd_fractions : list (list R) := [[1 / 2]%R].
Lemma sd_probability same : identity_test same ->
  exists u, unfurl_wavepacket same [BFundT 1] [BFundT 2] {| ashape := [2%nat]; aflat := fun t => aflat sd_data (0 * 2 + t) |} = Some u /\
    (0 < rsum (fun k => rsum (fun _ => Cnorm2 (aflat u k)) 1 / INR 1)%R 2)%R /\
    nprod (ashape sd_data) = (1 * 2)%nat /\ length sd_fractions = 1%nat /\ Forall (fun f => length f = 1%nat) sd_fractions /\
    (nth 0 (nth 0 sd_fractions []) 0 * INR (bfund (nth 0 [BFundT 2] (BFund 0))))%R = IZR (nth 0 [1%Z] 0%Z).
Proof.
  intros Hs. set (d := {| ashape := [2%nat]; aflat := fun t => aflat sd_data (0 * 2 + t) |}).
  assert (Hls : Forall (fun n => (0 < n)%nat) [1%nat]) by (repeat constructor).
  assert (Hw : bwf (BTuple [BFundT 2])) by (cbn; lia).
  assert (He : explicit_orthonormal (BTuple [BFundT 2])) by (cbn; tauto).
  assert (Sd : nprod (ashape d) = (nprod [1] * bsize (BTuple [BFundT 2]))%nat) by reflexivity.
  destruct (unfurl_wavepacket_amplitude same Hs [1%nat] [BFundT 2] Hls Hw He eq_refl d Sd) as [u [Eu _]].
  exists u. split; [exact Eu|].
  assert (I := unfurl_wavepacket_inner same Hs [1%nat] [BFundT 2] Hls Hw He eq_refl d d u u Sd Sd Eu Eu).
  split; [|repeat split; try reflexivity; [repeat constructor|cbn; lra]].
  unfold inner_product in I. rewrite csum_norm2 in I.
  rewrite (rsum_ext _ (fun k => Cnorm2 (aflat u k))) by (intros; cbn; field).
  assert (E : RtoC (rsum (fun k => Cnorm2 (aflat u k)) 2) = RtoC 5).
  { etransitivity; [exact I|]. cbn. unfold row. cbn. apply injective_projections; cbn; field. }
  apply (f_equal fst) in E. unfold RtoC in E. cbn [fst] in E. rewrite E. lra.
Qed.
