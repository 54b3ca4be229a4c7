(** Concrete cases for symmetries of the energies. *)
From Coq Require Import Reals Psatz.
From Verif Require Import ZLib Csum DFT NumPy Basis SpecBasis SpecReal Lattice SpecWavepacket Hamiltonian SpecHamiltonian HamiltonianFacts HamiltonianProofs2
  SpecSeed SeedProofs SpecSymmetry.
Local Open Scope R_scope.
Local Open Scope C_scope.

Lemma odd_3_5 : Nat.Odd 3 /\ Nat.Odd 5.
Proof. split; [exists 1%nat|exists 2%nat]; reflexivity. Qed.
Lemma ex_cos_odd : Forall plane_wave_axis cos_axes /\ is_inverse (length cos_axes) (fun _ _ => 1%R) (fun _ _ => 1%R) /\
  Forall Nat.Odd (map bsize cos_axes) /\ real_valued (BTuple cos_axes) cos_data /\
  amplitude (BTuple cos_axes) cos_data 0 <> amplitude (BTuple cos_axes) cos_data 1 /\
  Forall plane_wave_axis [BTrans 3 4; BFundT 5] /\ Forall Nat.Odd (map bsize [BTrans 3 4; BFundT 5]).
Proof.
  destruct odd_3_5 as [O3 O5].
  split; [constructor; [cbn; lia|constructor]|]. split; [exact unit_inverse|]. split; [constructor; [exact O3|constructor]|].
  split; [exact cos_real|]. split; [exact cos_nonconstant|]. split.
  - constructor; [cbn; lia|constructor; [cbn; lia|constructor]].
  - constructor; [exact O3|constructor; [exact O5|constructor]].
Qed.

Definition cos_moved (t : nat) : C := cos_data t * plane [5%nat] (sample_freqs [3%nat] (unravel [3%nat] t)) [(-2)%Z].
Lemma ex_cos_moved : Forall plane_wave_axis cos_axes /\ real_valued (BTuple cos_axes) cos_data /\
  forall x, in_shape x (map bfund cos_axes) ->
    amplitude (BTuple cos_axes) cos_moved (ravel (map bfund cos_axes) x) =
    amplitude (BTuple cos_axes) cos_data (ravel (map bfund cos_axes) (displaced (map bfund cos_axes) [2%Z] x)).
Proof.
  split; [constructor; [cbn; lia|constructor]|]. split; [exact cos_real|]. intros x Hx.
  apply (cut_translate [3%nat] [5%nat] ltac:(repeat constructor) eq_refl cos_data _ [2%Z] x Hx eq_refl). intros t _. reflexivity.
Qed.

Definition ramp (x : nat) : C := RtoC (INR x + 1).
Lemma ex_ramp : (forall x, snd (ramp x) = 0%R) /\ exists w, normalize_potential 6 ramp = Some w /\ w 0%nat <> w 1%nat.
Proof.
  split; [intros x; reflexivity|]. eexists. split; [reflexivity|]. intros K. apply (f_equal fst) in K. unfold ramp in K.
  cbn [fst RtoC Cminus Cplus Copp] in K. cbn [INR] in K. lra.
Qed.
Lemma ex_cos_waves : exists Q, waves (map bsize cos_axes) (fun _ _ => 1%R) (Some (fun _ => / 4)%R) Q.
Proof. eexists. apply (waves_exist _ _ (fun _ _ => 1%R)). exact unit_inverse. Qed.
Lemma ex_cos_scaled : forall x, (x < 5)%nat ->
  amplitude (BTuple cos_axes) (fun t => RtoC 3 * cos_data t) x = RtoC 3 * amplitude (BTuple cos_axes) cos_data x.
Proof. intros x _. unfold amplitude. rewrite <- csum_scal_l. apply csum_ext. intros t _. ring. Qed.
