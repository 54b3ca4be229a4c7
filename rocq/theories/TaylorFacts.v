(** Consequences and examples for C57 and C58. *)
From Coq Require Import Reals Lra Lia List Arith ZArith Psatz.
From Coquelicot Require Import Coquelicot.
From Verif Require Import ZLib Csum DFT NumPy Interp InterpProofs Index Spec SpecBasis BasisProofs3 Basis Operator SpecOperator Kernel SpecKernel KernelProofs KernelProofs2 KernelProofs3 KernelFacts
  IndexProofs OperatorProofs BasisProofs BasisProofs2 LatticeProofs Dynamics SpecDynamics Spectral Taylor SpecTaylor TaylorProofs TaylorProofs3 TaylorProofs4 TaylorProofs5 ChebyshevProofs ChebyshevProofs2 ChebyshevProofs3.
Import ListNotations.
Local Open Scope R_scope.
Local Open Scope C_scope.

Lemma lorentzian_exists solve : solve_ok solve -> exists o, get_lorentzian_operators_explicit_taylor solve 1 1 (2 * PI) 4 None = Some o.
Proof.
  intros Hs. unfold get_lorentzian_operators_explicit_taylor, get_periodic_noise_operators_explicit_taylor_expansion, get_periodic_coefficients_for_taylor_series.
  change (4 / 2)%nat with 2%nat. set (p := get_explicit_taylor_coefficients_lorentzian _ _ _).
  destruct (periodic_operators_exist (BTuple [BFund 4]) 2) as [L ->]; [cbn; lia|].
  assert (E : p = [1; -1; 1]%R).
  { unfold p, get_explicit_taylor_coefficients_lorentzian. pose proof PI_RGT_0. replace (2 * PI * 1 / (2 * PI))%R with 1%R by (field; lra). cbn. repeat f_equal; field. }
  destruct (cos_coefficients solve p None 3 Hs) as [c [-> _]]; [|cbn [terms]; rewrite E; cbn; lia|eexists; reflexivity].
  rewrite E. exists 1%R. split; [now left|]. split; [intros x [<-|[<-|[<-|[]]]]; lra|]. split; [cbn; lia|]. split; [|cbn; lia].
  assert (H8 : (/ 10 ^ 8 * 1 < 1)%R) by lra.
  intros [|[|[|m]]] Hm; cbn [nth]; [| | |lia]; [rewrite Rabs_R1; exact H8|rewrite Rabs_left by lra; lra|rewrite Rabs_R1; exact H8].
Qed.

Lemma fit_symmetric fit b N k : fit_ok fit -> bfund b = N -> (0 < N)%nat -> ashape k = [N] ->
  (forall i j, (i < N)%nat -> (j < N)%nat -> Zcong (Z.of_nat N) (Z.of_nat i) (- Z.of_nat j) -> aflat k i = aflat k j) ->
  exists o D, get_periodic_noise_operators_real_isotropic_taylor_expansion fit b k None = Some o /\
    get_diagonal_kernel_from_diagonal_operators o = Some D /\ ashape D = [(N * N)%nat] /\
    forall x y i, (x < N)%nat -> (y < N)%nat -> (i < N)%nat ->
      Zcong (Z.of_nat N) (Z.of_nat i) (Z.of_nat x - Z.of_nat y) -> entry2 N D x y = aflat k i.
Proof.
  intros Hf Hb HN Hk Hs. destruct (fit_kernel fit b N k None Hf Hb HN Hk) as [o [D [Eo [ED [SD V]]]]]. exists o, D. repeat (split; [assumption|]).
  intros x y i Hx Hy Hi Ci. rewrite (V x y i (mirror N i) (slot_freq N i) Hx Hy Hi (mirror_lt N i Hi) Ci).
  - rewrite <- (Hs i (mirror N i) Hi (mirror_lt N i Hi)); [transitivity (aflat k i * (RtoC (/ 2) + RtoC (/ 2))); [ring|rewrite RtoC_half; ring]|].
    destruct (mirror_cong N i Hi) as [q Hq]. exists q. lia.
  - destruct (mirror_cong N i Hi) as [q Hq], Ci as [q' Hq']. exists (q - q')%Z. lia.
  - destruct (slot_freq_ok N i Hi) as [[q Hq] _], Ci as [q' Hq']. exists (q + q')%Z. lia.
  - cbn [fit_size]. pose proof (freq_slot N i Hi) as [_ H]. pose proof (Nat2Z.inj_div (N + 1) 2). lia.
Qed.

Definition symmetric_example : ndarray := {| ashape := [4%nat]; aflat := fun t => RtoC (nth t [5; 2; 1; 2]%R 0%R) |}.
Lemma symmetric_example_ok i j : (i < 4)%nat -> (j < 4)%nat -> Zcong 4 (Z.of_nat i) (- Z.of_nat j) -> aflat symmetric_example i = aflat symmetric_example j.
Proof.
  intros Hi Hj [q Hq]. destruct i as [|[|[|[|i]]]], j as [|[|[|[|j]]]]; try lia; reflexivity.
Qed.

Definition asymmetric_example : ndarray := {| ashape := [3%nat]; aflat := fun t => RtoC (nth t [5; 2; 1]%R 0%R) |}.
Lemma fit_asymmetric fit : fit_ok fit ->
  exists o D, get_periodic_noise_operators_real_isotropic_taylor_expansion fit (BFund 3) asymmetric_example None = Some o /\
    get_diagonal_kernel_from_diagonal_operators o = Some D /\ entry2 3 D 1 0 <> aflat asymmetric_example 1.
Proof.
  intros Hf. destruct (fit_kernel fit (BFund 3) 3 asymmetric_example None Hf eq_refl ltac:(lia) eq_refl) as [o [D [Eo [ED [_ V]]]]].
  exists o, D. split; [exact Eo|]. split; [exact ED|]. rewrite (V 1%nat 0%nat 1%nat 2%nat 1%Z); try lia.
  - cbn [asymmetric_example aflat nth]. rewrite <- RtoC_plus, <- RtoC_mult. intros E. apply RtoC_inj in E. lra.
  - exists 0%Z. lia.
  - exists 1%Z. lia.
  - exists 0%Z. lia.
  - cbn. lia.
Qed.

Definition symmetric_product : ndarray :=
  {| ashape := [6%nat]; aflat := fun t => RtoC (INR (1 + t / 3)) * RtoC (nth (t mod 3) [2; 7; 7]%R 0%R) |}.
Lemma symmetric_product_ok : product_kernel [2; 3]%nat symmetric_product /\ aflat symmetric_product 0 <> 0 /\ nprod (ashape symmetric_product) = nprod [2; 3]%nat /\
  forall ax i j, (ax < 2)%nat -> (i < nth ax [2; 3]%nat 0)%nat -> (j < nth ax [2; 3]%nat 0)%nat ->
    Zcong (Z.of_nat (nth ax [2; 3]%nat 0%nat)) (Z.of_nat i) (- Z.of_nat j) ->
    aflat symmetric_product (ravel [2; 3]%nat (axis_point 2 ax i)) = aflat symmetric_product (ravel [2; 3]%nat (axis_point 2 ax j)).
Proof.
  split; [|split; [|split; [reflexivity|]]].
  - exists (fun ax i => if Nat.eqb ax 0 then RtoC (INR (1 + i)) else RtoC (nth i [2; 7; 7]%R 0%R)).
    intros idx Hi. inversion Hi as [|x ? idx1 ? Hx Hi1]; subst. inversion Hi1 as [|y ? idx2 ? Hy Hi2]; subst.
    inversion Hi2; subst. unfold symmetric_product. cbn [aflat ravel nprod axis_product Nat.eqb].
    replace (x * (3 * 1) + (y * 1 + 0))%nat with (x * 3 + y)%nat by lia.
    rewrite div_add_small, mod_add_small by assumption. ring.
  - unfold symmetric_product. cbn [aflat]. intros E. rewrite <- RtoC_mult in E. apply RtoC_inj in E. cbn in E. lra.
  - intros [|[|ax]] i j Ha Hi Hj [q Hq]; cbn [nth] in *; [| |lia].
    + destruct i as [|[|i]], j as [|[|j]]; try lia; reflexivity.
    + destruct i as [|[|[|i]]], j as [|[|[|j]]]; try lia; reflexivity.
Qed.
