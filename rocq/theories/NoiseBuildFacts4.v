(** The effective gaussian noise of a Hamiltonian, and a transition which is missing. *)
From Coq Require Import Reals Lra Lia Psatz.
From Verif Require Import ZLib Csum DFT NumPy Spec Index IndexProofs Lattice LatticeProofs Basis SpecBasis BasisProofs BasisProofs2 BasisProofs3
  Operator SpecOperator OperatorProofs OperatorProofs2 Wavepacket SpecWavepacket Kernel SpecKernel KernelProofs KernelProofs2 KernelProofs3 KernelProofs5
  Hamiltonian HamiltonianProofs SpecKernelConvert KernelConvert KernelConvertProofs Correlation SpecCorrelation CorrelationProofs CorrelationProofs2 CorrelationProofs3 CorrelationProofs4
  Localize LocalizeProofs4
  NoiseBuild SpecNoiseBuild NoiseBuildProofs NoiseBuildFacts NoiseBuildFacts2 NoiseBuildFacts3.
Local Open Scope R_scope.
Local Open Scope C_scope.

Lemma effective_parameters boltzmann hbar delta nd eta temperature : aligned nd delta -> (0 < nd)%nat ->
  (0 < eta * boltzmann * temperature)%R -> hbar <> 0%R ->
  exists a lambda L, get_effective_gaussian_parameters boltzmann hbar delta nd eta temperature (2 * sqrt 2)%R = Some (a, lambda) /\
    a <> 0%R /\ lambda <> 0%R /\ shortest nd delta L /\ (0 < L)%R /\
    forall r, (a ^ 2 * exp (- r ^ 2 / (2 * lambda ^ 2)) =
      2 * (eta * boltzmann * temperature) / hbar ^ 2 * (L ^ 2 / 8) * exp (- 4 * r ^ 2 / L ^ 2))%R.
Proof.
  intros Ha Hl Hp Hh.
  assert (Hs2 : (2 * sqrt 2)%R <> 0%R). { assert (A := sqrt_lt_R0 2 ltac:(lra)). lra. }
  destruct (gaussian_parameters_spec boltzmann hbar delta nd eta temperature (2 * sqrt 2) Hl ltac:(lra) Hh Hs2) as [a [lambda [L [HP [SL [El Ea]]]]]].
  assert (HL := shortest_pos _ _ _ Ha SL). assert (Hlam : lambda <> 0%R) by (intros ->; lra).
  assert (Hh2 : (0 < hbar ^ 2)%R) by (rewrite <- Rsqr_pow2; apply Rsqr_pos_lt; exact Hh).
  assert (Hc : (0 < 2 * (eta * boltzmann * temperature) / hbar ^ 2)%R). { apply Rmult_lt_0_compat; [lra|]. apply Rinv_0_lt_compat. exact Hh2. }
  assert (Hza := nonzero_a _ _ _ Hc Hlam Ea).
  assert (El2 : (lambda ^ 2 = L ^ 2 / 8)%R).
  { rewrite <- El. rewrite !Rpow_mult_distr. replace (sqrt 2 ^ 2)%R with 2%R; [field|]. rewrite <- Rsqr_pow2. symmetry. apply Rsqr_sqrt. lra. }
  exists a, lambda, L. split; [exact HP|]. split; [exact Hza|]. split; [exact Hlam|]. split; [exact SL|]. split; [exact HL|].
  intros r. rewrite Ea, El2. f_equal. f_equal. field. lra.
Qed.

Lemma effective_rates same argsort boltzmann hbar axes h delta eta temperature : identity_test same -> is_argsort argsort ->
  (0 < length axes)%nat -> bwf (BTuple axes) -> explicit_orthonormal (BTuple axes) -> op_wf h -> orow h = BTuple axes -> ocol h = BTuple axes ->
  aligned (length axes) delta -> hermitian (bsize (BTuple axes)) (op_entry h) ->
  (0 < eta * boltzmann * temperature)%R -> (boltzmann * temperature)%R <> 0%R -> hbar <> 0%R ->
  exists r L, get_temperature_corrected_effective_gaussian_noise_operators same argsort boltzmann hbar h delta eta temperature None = Some r /\
    noise_wf r /\ lrow (nops r) = BTuple axes /\ lcol (nops r) = BTuple axes /\ shortest (length axes) delta L /\
    forall d u v E E', distances delta (map bfund axes) d ->
      eigenvector (bsize (BTuple axes)) (op_entry h) u E -> eigenvector (bsize (BTuple axes)) (op_entry h) v E' ->
      transition (bsize (BTuple axes)) r u v = RtoC ((1 - (E - E') / (4 * (boltzmann * temperature))) ^ 2) *
        overlap_rate (BTuple axes) (fun x y => RtoC (2 * (eta * boltzmann * temperature) / hbar ^ 2 * (L ^ 2 / 8) * exp (- 4 * d x y ^ 2 / L ^ 2))) u v.
Proof.
  intros Hsame Hsort Hnd Hw Ho Wh Rh Ch Hal Hh Hp Hkt Hhb.
  destruct (effective_parameters boltzmann hbar delta (length axes) eta temperature Hal Hnd Hp Hhb) as [a [lambda [L [EP [Ha [Hlam [SL [_ V]]]]]]]].
  destruct (gaussian_rates same Hsame argsort Hsort axes h delta Hnd Hw Ho Wh Rh Ch Hal Hh a lambda (boltzmann * temperature) Ha Hlam Hkt)
    as [r [Er [Wr [R1 [R2 X]]]]].
  exists r, L. split; [unfold get_temperature_corrected_effective_gaussian_noise_operators; rewrite Rh, EP; exact Er|].
  split; [exact Wr|]. split; [exact R1|]. split; [exact R2|]. split; [exact SL|]. intros d u v E E' Hd Hu Hv. rewrite (X d u v E E' Hd Hu Hv). f_equal.
  apply overlap_rate_ext. intros x y _ _. rewrite V. reflexivity.
Qed.

(** Two wells with the tunnelling energy 2 kT. *)
Definition wells (kt : R) : operator :=
  {| orow := BTuple [BFund 2]; ocol := BTuple [BFund 2];
     odata := {| ashape := [4%nat]; aflat := fun i => if ((i =? 0)%nat || (i =? 3)%nat)%bool then RtoC (2 * kt) else RtoC (- (2 * kt)) |} |}.
Definition even_state (i : nat) : C := 1.
Definition odd_state (i : nat) : C := if (i =? 0)%nat then 1 else - (1).

Lemma wells_wf kt : op_wf (wells kt).
Proof. unfold op_wf, wells; cbn; repeat split; repeat constructor; lia. Qed.

Lemma missing_transition same argsort delta a lambda kt : identity_test same -> is_argsort argsort -> aligned 1 delta ->
  a <> 0%R -> lambda <> 0%R -> (0 < kt)%R ->
  exists r w, get_temperature_corrected_gaussian_noise_operators same argsort (wells kt) delta a lambda kt None = Some r /\
    hermitian 2 (op_entry (wells kt)) /\ eigenvector 2 (op_entry (wells kt)) odd_state (4 * kt) /\ eigenvector 2 (op_entry (wells kt)) even_state 0 /\
    transition 2 r odd_state even_state = 0 /\ transition 2 r even_state odd_state = RtoC w /\ (0 < w)%R.
Proof.
  intros Hsame Hsort Hal Ha Hlam Hkt.
  assert (Hw : bwf (BTuple [BFund 2])) by (apply bwf_tuple; constructor; [cbn; lia|constructor]).
  assert (Ho : explicit_orthonormal (BTuple [BFund 2])) by (cbn; tauto).
  assert (Hh : hermitian 2 (op_entry (wells kt))).
  { intros i j Hi Hj. unfold adjoint, op_entry. cbn.
    assert (i = 0%nat \/ i = 1%nat) as [-> | ->] by lia; assert (j = 0%nat \/ j = 1%nat) as [-> | ->] by lia; cbn; unfold Cconj, RtoC; cbn; f_equal; ring. }
  assert (Hu : eigenvector 2 (op_entry (wells kt)) odd_state (4 * kt)).
  { intros i Hi. unfold op_entry, odd_state. cbn. assert (i = 0%nat \/ i = 1%nat) as [-> | ->] by lia; cbn; unfold RtoC, Cmult, Cplus, Copp; cbn; f_equal; ring. }
  assert (Hv : eigenvector 2 (op_entry (wells kt)) even_state 0).
  { intros i Hi. unfold op_entry, even_state. cbn. assert (i = 0%nat \/ i = 1%nat) as [-> | ->] by lia; cbn; unfold RtoC, Cmult, Cplus, Copp; cbn; f_equal; ring. }
  destruct (gaussian_rates same Hsame argsort Hsort [BFund 2] (wells kt) delta ltac:(cbn; lia) Hw Ho (wells_wf kt) eq_refl eq_refl Hal Hh a lambda kt Ha Hlam ltac:(lra))
    as [r [Er [_ [_ [_ X]]]]].
  destruct (exists_distances delta [2%nat] ltac:(repeat constructor) Hal) as [d Hd].
  pose (L := Rabs (delta 0%nat 0%nat)). assert (HL : (0 < L)%R) by (apply Rabs_pos_lt; apply Hal; lia).
  pose (g := fun s => (a ^ 2 * exp (- s ^ 2 / (2 * lambda ^ 2)))%R).
  assert (in2 : forall i, (i < 2)%nat -> in_shape [i] [2%nat]) by (intros i Hi; apply Forall2_cons; [exact Hi|apply Forall2_nil]).
  assert (V : forall i j m, (i < 2)%nat -> (j < 2)%nat -> (2 * m <= 2)%nat ->
     Zcong 2 (Z.of_nat i - Z.of_nat j) (Z.of_nat m) \/ Zcong 2 (Z.of_nat j - Z.of_nat i) (Z.of_nat m) -> d i j = (INR m / INR 2 * L)%R).
  { intros i j m Hi Hj Hm Hz. assert (D1 := Hd [i] [j] (in2 i Hi) (in2 j Hj)). assert (D2 := distance_1d_value delta 2 i j m Hal ltac:(lia) Hm Hz).
    assert (E := periodic_distance_unique _ _ _ _ _ _ D1 D2). cbn [ravel nprod fold_right] in E. rewrite !Nat.mul_1_r, !Nat.add_0_r in E. exact E. }
  assert (V0 : forall i, (i < 2)%nat -> d i i = 0%R).
  { intros i Hi. rewrite (V i i 0%nat Hi Hi ltac:(lia)); [cbn; field|]. left. exists 0%Z. lia. }
  assert (V1 : d 0%nat 1%nat = (L / 2)%R).
  { rewrite (V 0%nat 1%nat 1%nat); [cbn; field|lia|lia|lia|]. right. exists 0%Z. reflexivity. }
  assert (V2 : d 1%nat 0%nat = (L / 2)%R).
  { rewrite (V 1%nat 0%nat 1%nat); [cbn; field|lia|lia|lia|]. left. exists 0%Z. reflexivity. }
  assert (A : forall u x, (x < 2)%nat -> amplitude (BTuple [BFund 2]) u x = u x).
  { intros u x Hx. unfold amplitude. change (bsize (BTuple [BFund 2])) with 2%nat.
    assert (x = 0%nat \/ x = 1%nat) as [-> | ->] by lia; cbn; unfold cdelta; cbn; ring. }
  exists r, (4 * (2 * (a ^ 2 * (1 - exp (- (L / 2) ^ 2 / (2 * lambda ^ 2))))))%R.
  split; [exact Er|]. split; [exact Hh|]. split; [exact Hu|]. split; [exact Hv|].
  split.
  { change (transition 2) with (transition (bsize (BTuple [BFund 2]))). rewrite (X d odd_state even_state (4 * kt)%R 0%R Hd Hu Hv). replace (1 - (4 * kt - 0) / (4 * kt))%R with 0%R by (field; lra).
    replace (0 ^ 2)%R with 0%R by ring. ring. }
  split.
  { change (transition 2) with (transition (bsize (BTuple [BFund 2]))). rewrite (X d even_state odd_state 0%R (4 * kt)%R Hd Hv Hu). replace (1 - (0 - 4 * kt) / (4 * kt))%R with 2%R by (field; lra).
    unfold overlap_rate. change (bfund (BTuple [BFund 2])) with 2%nat.
    cbn [csum]. rewrite !A by lia. rewrite (V0 0%nat), (V0 1%nat), V1, V2 by lia.
    replace (- 0 ^ 2 / (2 * lambda ^ 2))%R with 0%R by (field; exact Hlam). rewrite exp_0. unfold even_state, odd_state. cbn [Nat.eqb].
    set (e := exp _). unfold RtoC, Cmult, Cplus, Copp, Cconj; cbn [fst snd]. f_equal; ring. }
  assert (0 < a ^ 2)%R by (rewrite <- Rsqr_pow2; apply Rsqr_pos_lt; exact Ha).
  assert (exp (- (L / 2) ^ 2 / (2 * lambda ^ 2)) < 1)%R; [|nra].
  rewrite <- exp_0. apply exp_increasing. unfold Rdiv. assert (0 < lambda ^ 2)%R by (rewrite <- Rsqr_pow2; apply Rsqr_pos_lt; exact Hlam).
  assert (0 < / (2 * lambda ^ 2))%R by (apply Rinv_0_lt_compat; lra). assert (0 < (L * / 2) ^ 2)%R by (apply pow_lt; lra). nra.
Qed.

Lemma wells_meet_hypotheses : (0 < length [BFund 2])%nat /\ bwf (BTuple [BFund 2]) /\ explicit_orthonormal (BTuple [BFund 2]) /\ op_wf (wells 1) /\
  orow (wells 1) = BTuple [BFund 2] /\ ocol (wells 1) = BTuple [BFund 2] /\ aligned 1 square_delta /\ hermitian 2 (op_entry (wells 1)) /\
  eigenvector 2 (op_entry (wells 1)) odd_state (4 * 1) /\ eigenvector 2 (op_entry (wells 1)) even_state 0 /\
  exists d, distances square_delta [2%nat] d.
Proof.
  split; [cbn; lia|]. split; [apply bwf_tuple; constructor; [cbn; lia|constructor]|]. split; [cbn; tauto|]. split; [apply wells_wf|].
  split; [reflexivity|]. split; [reflexivity|]. split; [apply square_aligned|].
  split.
  { intros i j Hi Hj. unfold adjoint, op_entry. cbn.
    assert (i = 0%nat \/ i = 1%nat) as [-> | ->] by lia; assert (j = 0%nat \/ j = 1%nat) as [-> | ->] by lia; cbn; unfold Cconj, RtoC; cbn; f_equal; ring. }
  split.
  { intros i Hi. unfold op_entry, odd_state. cbn. assert (i = 0%nat \/ i = 1%nat) as [-> | ->] by lia; cbn; unfold RtoC, Cmult, Cplus, Copp; cbn; f_equal; ring. }
  split.
  { intros i Hi. unfold op_entry, even_state. cbn. assert (i = 0%nat \/ i = 1%nat) as [-> | ->] by lia; cbn; unfold RtoC, Cmult, Cplus, Copp; cbn; f_equal; ring. }
  apply exists_distances; [repeat constructor|apply square_aligned].
Qed.
