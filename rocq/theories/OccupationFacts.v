(** Facts about probabilities of bands and sites against time, and cases. *)
From Coq Require Import Reals Lra Lia Psatz.
From Verif Require Import ZLib Csum DFT NumPy Index IndexProofs Basis SpecBasis Operator SpecOperator Spec SpecReduce Reduce ReduceProofs ReduceProofs2 TimeBasis SpecMatrix SpecKernel KernelFacts Dynamics DynamicsProofs7 DynamicsProofs8 LatticeProofs TrajectoryProofs Plots SpecPlots PlotsProofs2 ValuePlots ValuePlotsProofs EffectiveMass Occupation SpecOccupation OccupationProofs OccupationProofs2 OccupationProofs3.
Local Open Scope R_scope.

Lemma time_lines t ts n data : times t = Some ts ->
  exists lines, plot_probability_against_time t n data = Some lines /\ length lines = n /\
    forall s, (s < n)%nat -> exists line, nth_error lines s = Some line /\ length line = tn t /\
      forall j, (j < tn t)%nat -> line_x line j = nth j ts 0 /\ line_y line j = fst (data (j * n + s)%nat).
Proof.
  intros H. unfold plot_probability_against_time. rewrite H. eexists. split; [reflexivity|]. split; [rewrite map_length, seq_length; reflexivity|].
  intros s Hs. eexists. split; [apply listed_error; exact Hs|]. cbv beta. split; [rewrite map_length, seq_length; reflexivity|].
  intros j Hj. unfold line_x, line_y. rewrite listed by exact Hj. split; reflexivity.
Qed.

Section Simulation.
Variables (t : time_basis) (ts : list R) (b0 b1 b2 : basis) (data : ndarray).
Notation n0 := (bsize b0).
Notation n1 := (bsize b1).
Notation n2 := (bsize b2).
Hypothesis Ht : times t = Some ts.
Hypothesis H0 : (0 < n0)%nat.
Hypothesis H1 : (0 < n1)%nat.
Hypothesis H2 : (0 < n2)%nat.
Hypothesis Hd : nprod (ashape data) = (tn t * (n0 * (n1 * n2)))%nat.

Lemma per_band : exists lines, plot_probability_per_band t [b0; b1; b2] data = Some lines /\ length lines = n2 /\
  forall k, (k < n2)%nat -> exists line, nth_error lines k = Some line /\ length line = tn t /\
    forall j, (j < tn t)%nat -> line_x line j = nth j ts 0 /\
      line_y line j = fst (csum (fun i0 => csum (fun i1 => aflat data (((j * n0 + i0) * n1 + i1) * n2 + k)%nat) n1) n0).
Proof using Ht H0 H1 H2 Hd.
  destruct (sum_probabilities_spec (BFund (tn t)) [b0; b1; b2] data [0; 1]%nat) as (d & E & _ & V & _).
  - repeat (constructor; [assumption|]). constructor.
  - cbn [bsize map nprod fold_right]. rewrite Hd. unfold nprod. cbn [fold_right]. ring.
  - split; [repeat constructor; cbn; lia|repeat constructor; cbn; lia].
  - unfold plot_probability_per_band, plot_probability_summed. change [0; 1]%Z with (map Z.of_nat [0; 1]%nat). rewrite E.
    change (remaining (BFund 1) [0; 1]%nat [b0; b1; b2]) with [b2] in *. cbn [map] in *.
    assert (N2 : nprod [n2] = n2) by (cbn; lia). rewrite N2 in *.
    destruct (time_lines t ts n2 (aflat d) Ht) as (lines & EL & L & P). exists lines. split; [exact EL|]. split; [exact L|].
    intros k Hk. destruct (P k Hk) as (line & E1 & E2 & Q). exists line. split; [exact E1|]. split; [exact E2|].
    intros j Hj. destruct (Q j Hj) as (X & Y). split; [exact X|]. rewrite Y.
    assert (W := V j [k] Hj ltac:(repeat constructor; exact Hk)). replace (ravel [n2] [k]) with k in W by (cbn; lia). rewrite W, matching_first_two by exact Hk.
    f_equal. apply csum_ext. intros i0 _. apply csum_ext. intros i1 _. apply (f_equal (aflat data)). change (nprod [n0; n1; n2]) with (n0 * (n1 * (n2 * 1)))%nat. ring.
Qed.

Lemma per_site : exists lines, plot_probability_per_site t [b0; b1; b2] data = Some lines /\ length lines = (n0 * n1)%nat /\
  forall i0 i1, (i0 < n0)%nat -> (i1 < n1)%nat -> exists line, nth_error lines (i0 * n1 + i1) = Some line /\ length line = tn t /\
    forall j, (j < tn t)%nat -> line_x line j = nth j ts 0 /\
      line_y line j = fst (csum (fun k => aflat data (((j * n0 + i0) * n1 + i1) * n2 + k)%nat) n2).
Proof using Ht H0 H1 H2 Hd.
  destruct (sum_probabilities_spec (BFund (tn t)) [b0; b1; b2] data [2]%nat) as (d & E & _ & V & _).
  - repeat (constructor; [assumption|]). constructor.
  - cbn [bsize map nprod fold_right]. rewrite Hd. unfold nprod. cbn [fold_right]. ring.
  - split; [repeat constructor; cbn; lia|repeat constructor; cbn; lia].
  - unfold plot_probability_per_site, plot_probability_summed. change [2]%Z with (map Z.of_nat [2]%nat). rewrite E.
    change (remaining (BFund 1) [2]%nat [b0; b1; b2]) with [b0; b1] in *. cbn [map] in *.
    assert (N2 : nprod [n0; n1] = (n0 * n1)%nat) by (cbn; ring). rewrite N2 in *.
    destruct (time_lines t ts (n0 * n1) (aflat d) Ht) as (lines & EL & L & P). exists lines. split; [exact EL|]. split; [exact L|].
    intros i0 i1 Hi0 Hi1. destruct (P (i0 * n1 + i1)%nat ltac:(nia)) as (line & E1 & E2 & Q). exists line. split; [exact E1|]. split; [exact E2|].
    intros j Hj. destruct (Q j Hj) as (X & Y). split; [exact X|]. rewrite Y.
    assert (W := V j [i0; i1] Hj ltac:(repeat (constructor; [assumption|]); constructor)). replace (ravel [n0; n1] [i0; i1]) with (i0 * n1 + i1)%nat in W by (cbn -[Nat.mul Nat.add]; ring). rewrite W, matching_last by assumption.
    f_equal. apply csum_ext. intros k _. apply (f_equal (aflat data)). change (nprod [n0; n1; n2]) with (n0 * (n1 * (n2 * 1)))%nat. ring.
Qed.
End Simulation.

(** ** The eigenvalues of the caller *)
Lemma caller_changed : exists line after, plot_eigenstate_occupations some_argsort 2 (fun i => INR (i + 1)) 1 = Some (line, after) /\ after 0%nat = 0 /\ after 1%nat = 1.
Proof.
  destruct (thermal_line some_argsort 2 (fun i => INR (i + 1)) 1 ltac:(lia) ltac:(lra)) as (line & after & E & _ & A & _). exists line, after. split; [exact E|].
  assert (M : np_min (fun i => INR (i + 1)) 2 = 1). { cbn [np_min]. cbn -[Rmin]. rewrite !Rmin_left by (rewrite ?Rmin_left; lra). reflexivity. }
  rewrite !A, M. cbn. lra.
Qed.

Lemma thermal_occupations argsort n energy kT ground : is_argsort argsort -> (0 < n)%nat -> kT <> 0 -> lowest n energy ground ->
  exists line after, plot_eigenstate_occupations argsort n energy kT = Some (line, after) /\
    length line = n /\ line_x line 0 = 0 /\
    (forall a b, (a <= b < n)%nat -> line_x line a <= line_x line b) /\
    (forall a, (a < n)%nat -> 0 < line_y line a) /\ rsum (line_y line) n = 1 /\
    (forall a b, (a < n)%nat -> (b < n)%nat -> line_y line b = line_y line a * exp (- (line_x line b - line_x line a) / kT)) /\
    (forall i, (i < n)%nat -> exists a, (a < n)%nat /\ line_x line a = energy i - ground) /\
    (forall i, after i = energy i - ground).
Proof.
  intros Hs Hn HkT Hg. destruct (thermal_line argsort n energy kT Hn HkT) as (line & after & E & _). exists line, after. split; [exact E|].
  rewrite <- (ground_min n energy ground Hn Hg). exact (thermal_facts argsort n energy kT Hs Hn HkT line after E).
Qed.
