(** With an even number of plane waves time reversal fails (C143). *)
From Coq Require Import Reals Psatz.
From Verif Require Import ZLib Csum DFT NumPy Spec SpecReal Index Basis SpecBasis BasisProofs Operator SpecOperator
  OperatorProofs Wavepacket SpecWavepacket Hamiltonian SpecHamiltonian HamiltonianProofs2 EigenBasis SpecEigenBasis SpecLocalize Localize
  SpecSymmetry SymmetryProofs SymmetryProofs2 HamiltonianFacts KernelPlotsFacts2 FreeParticle Dynamics.
Local Open Scope R_scope.
Local Open Scope C_scope.

Definition second_wave (t : nat) : C := if (t =? 1)%nat then 1 else 0.

Lemma two_state k x : bstate (BTuple two_axes) k x = plane_wave 2 (freq 2 k) x.
Proof. cbn [bstate two_axes map product_states fst snd bsize bfund nprod]. rewrite !Nat.div_1_r. ring. Qed.

Lemma even_reversal same eigh : identity_test same -> eigh_ok eigh ->
  exists H H' out out' t,
    total_surface_hamiltonian same 1 two_axes (fun _ _ => 1%R) (fun _ => 0) (/ 2) (Some (fun _ => / 4)%R) = Some H /\
    total_surface_hamiltonian same 1 two_axes (fun _ _ => 1%R) (fun _ => 0) (/ 2) (Some (fun _ => - / 4)%R) = Some H' /\
    real_valued (BTuple two_axes) second_wave /\
    solve_schrodinger_equation_decomposition eigh 1 second_wave 1 (fun _ => t) H = Some out /\
    solve_schrodinger_equation_decomposition eigh 1 second_wave 1 (fun _ => (- t)%R) H' = Some out' /\
    amplitude (BTuple two_axes) (at2 out' 0) 0 <> Cconj (amplitude (BTuple two_axes) (at2 out 0) 0).
Proof.
  intros Hs He. assert (P := PI_RGT_0). assert (HP : Forall plane_wave_axis two_axes) by (repeat constructor).
  assert (Hc : forall x, (x < bfund (BTuple two_axes))%nat -> amplitude (BTuple two_axes) (fun _ => 0) x = RtoC 0).
  { intros x _. unfold amplitude. apply csum_zero_ext. intros. ring. }
  assert (Q : forall fr, waves (map bsize two_axes) (fun _ _ => 1%R) (Some (fun _ => fr)) (fun k _ => (2 * PI * (IZR (freq 2 k) + fr))%R)).
  { intros fr k Hk a Ha. cbn in Hk, Ha. assert (a = 0%nat) by lia. subst a. unfold dot, fraction.
    destruct k as [|[|k]]; [| |lia]; cbn -[PI]; ring. }
  destruct (free_particle same 1 (/ 2) two_axes (fun _ _ => 1%R) (fun _ _ => 1%R) Hs HP unit_inverse eigh (fun _ => 0) 0 (Some (fun _ => / 4)%R) _ He Hc (Q (/ 4)%R))
    as [H [e [v [HH [_ [_ [_ [_ K]]]]]]]].
  destruct (free_particle same 1 (/ 2) two_axes (fun _ _ => 1%R) (fun _ _ => 1%R) Hs HP unit_inverse eigh (fun _ => 0) 0 (Some (fun _ => - / 4)%R) _ He Hc (Q (- / 4)%R))
    as [H' [e' [v' [HH' [_ [_ [_ [_ K']]]]]]]].
  pose (t := (/ (4 * PI))%R).
  destruct (K R1_neq_R0 second_wave 1%nat (fun _ => t)) as [out [X [_ Z]]].
  destruct (K' R1_neq_R0 second_wave 1%nat (fun _ => (- t)%R)) as [out' [X' [_ Z']]].
  exists H, H', out, out', t. split; [exact HH|]. split; [exact HH'|]. split.
  { intros x Hx. unfold amplitude. change (bsize (BTuple two_axes)) with 2%nat. unfold csum, second_wave. cbn [Nat.eqb]. rewrite !two_state.
    cbn in Hx. change (freq 2 1) with (-1)%Z. unfold plane_wave, omega, cis, isqrt.
    assert (S : (sin (2 * PI * IZR (-1 * Z.of_nat x) / INR 2) = 0)%R).
    { destruct x as [|[|x]]; [| |lia]; cbn -[PI].
      - replace (2 * PI * 0 / (1 + 1))%R with 0%R by field. apply sin_0.
      - replace (2 * PI * -1 / (1 + 1))%R with (- PI)%R by field. rewrite sin_neg, sin_PI. ring. }
    cbn [fst snd Cmult Cplus RtoC]. cbn [fst snd Cmult Cplus RtoC]. rewrite S. ring. }
  split; [exact X|]. split; [exact X'|].
  assert (A : forall o (z : C), at2 o 0 0 = 0 -> at2 o 0 1 = z -> amplitude (BTuple two_axes) (at2 o 0) 0 = z * RtoC (/ sqrt 2)).
  { intros o z O0 O1. unfold amplitude. change (bsize (BTuple two_axes)) with 2%nat. unfold csum. rewrite O0, O1, !two_state.
    unfold plane_wave. change (freq 2 1 * Z.of_nat 0)%Z with 0%Z. change (freq 2 0 * Z.of_nat 0)%Z with 0%Z. rewrite !omega_0. unfold isqrt. replace (INR 2) with 2%R by (simpl; ring). ring. }
  assert (O0 : at2 out 0 0 = 0) by (rewrite (Z 0%nat 0%nat); [unfold second_wave; cbn [Nat.eqb]; ring|lia|cbn; lia]).
  assert (O0' : at2 out' 0 0 = 0) by (rewrite (Z' 0%nat 0%nat); [unfold second_wave; cbn [Nat.eqb]; ring|lia|cbn; lia]).
  assert (O1 := Z 0%nat 1%nat ltac:(lia) ltac:(cbn; lia)). assert (O1' := Z' 0%nat 1%nat ltac:(lia) ltac:(cbn; lia)).
  rewrite (A out _ O0 O1), (A out' _ O0' O1'). unfold second_wave. cbn [Nat.eqb]. change (freq 2 1) with (-1)%Z. unfold dot. cbn [length two_axes rsum].
  assert (B : forall fr s, cexp (- Ci * RtoC (0 + 1 * 1 * (0 + 2 * PI * (-1 + fr) * (2 * PI * (-1 + fr))) / (2 * / 2)) * RtoC s / RtoC 1) =
    cis (- (4 * PI * PI * ((-1 + fr) * (-1 + fr)) * s))).
  { intros fr s. unfold cexp, Cdiv. rewrite <- RtoC_inv by exact R1_neq_R0.
    match goal with |- RtoC (exp (fst ?w)) * _ = _ => replace w with ((0, - (4 * PI * PI * ((-1 + fr) * (-1 + fr)) * s))%R : C) end.
    - cbn [fst snd]. rewrite exp_0. ring.
    - apply injective_projections; cbn -[PI]; field. }
  rewrite !B. unfold t. intros F.
  assert (S2 : (0 < / sqrt 2)%R) by (apply Rinv_0_lt_compat, sqrt_lt_R0; lra).
  replace (- (4 * PI * PI * ((-1 + - / 4) * (-1 + - / 4)) * - / (4 * PI)))%R with (9 / 16 * PI + PI)%R in F by (field; lra).
  replace (- (4 * PI * PI * ((-1 + / 4) * (-1 + / 4)) * / (4 * PI)))%R with (- (9 / 16 * PI))%R in F by (field; lra).
  assert (SP : (0 < sin (9 / 16 * PI))%R) by (apply sin_gt_0; lra).
  apply (f_equal snd) in F. unfold cis in F. cbn [fst snd Cmult Cconj RtoC] in F. cbn [fst snd Cmult Cconj RtoC] in F.
  rewrite neg_sin, sin_neg in F. nra.
Qed.
