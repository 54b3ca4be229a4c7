(** Examples for time bases and for the choice of localised states. *)
From Coq Require Import Reals Lra Lia Psatz List.
From Verif Require Import ZLib Csum DFT NumPy Index Spec Basis SpecBasis BasisProofs3 Operator SpecOperator SpecMatrix Localize SpecLocalize
  Spectral3 StateList SpecWavepacket SpecStateList StateListProofs StateListProofs3 TimeBasis TimeProofs LocalizedSSE SpecLocalized LocalizedProofs LocalizedProofs2.
Import ListNotations.
Local Open Scope R_scope.
Local Open Scope C_scope.

Definition ex_times : time_basis := {| tn := 4; tstep := 3; toffset := 1; tspan := 2%R |}.
Lemma ex_times_ok : (1 < tn ex_times)%nat /\ (0 < tstep ex_times)%nat /\ (1 < tfund ex_times)%nat /\ (0 < tspan ex_times)%R /\
  times ex_times <> None.
Proof. repeat split; try (cbn; lia); try (cbn; lra). rewrite times_raise. cbn. lia. Qed.
(** The last time is 5/3; the same sample of [fundamental_times] is 20/11. *)
Lemma ex_times_differ : exists l, times ex_times = Some l /\ nth 3 l 0%R = (5 / 3)%R /\ nth 10 (fundamental_times ex_times) 0%R = (20 / 11)%R.
Proof.
  destruct (times_spec ex_times ltac:(cbn; lia) ltac:(cbn; lia)) as [l [E [_ [V _]]]]. exists l. split; [exact E|]. split.
  - rewrite V by (cbn; lia). cbn [tn tstep toffset tspan ex_times INR]. field.
  - unfold fundamental_times. rewrite linspace_nth by (cbn; lia). cbn [tn tstep tspan ex_times tfund Nat.mul Nat.add Nat.sub INR]. field.
Qed.

(** The two basis states. *)
Definition ex_pair : state_list := get_basis_states (BFund 2).
Lemma ex_pair_ok : bwf (sbasis ex_pair) /\ explicit_orthonormal (sbasis ex_pair) /\ well_formed_list ex_pair /\ bsize (slist ex_pair) = 2%nat /\
  total_norm ex_pair = 2%R /\ (forall k, (k < 2)%nat -> norm2 2 (state_of ex_pair k) = 1%R) /\ (exists same, identity_test same) /\ exists eigh, eigh_ok eigh.
Proof.
  destruct (basis_states_spec (BFund 2) 0 ltac:(cbn; lia)) as [W [_ [_ _]]].
  assert (V : forall k t, (t < 2)%nat -> state_of ex_pair k t = cdelta k t).
  { intros k t Ht. exact (proj2 (proj2 (proj2 (basis_states_spec (BFund 2) k ltac:(cbn; lia)))) t Ht). }
  split; [cbn; lia|]. split; [cbn; tauto|]. split; [exact W|]. split; [reflexivity|].
  assert (N : forall k, (k < 2)%nat -> norm2 2 (state_of ex_pair k) = 1%R).
  { intros k Hk. unfold norm2. cbn [rsum]. rewrite !V by lia. destruct k as [|[|]]; [| |lia]; unfold cdelta, Cnorm2; cbn; ring. }
  split; [change (rsum (fun k => norm2 2 (state_of ex_pair k)) 2 = 2%R); cbn [rsum]; rewrite !N by lia; ring|]. split; [exact N|].
  split; [exists never; exact never_identity|exact eigh_exists].
Qed.

(** Each is chosen with probability one half, and the state has half the norm. *)
Lemma pair_choice same eigh : identity_test same -> eigh_ok eigh ->
  exists p u, selection same eigh ex_pair = Some (p, u) /\ forall k, (k < 2)%nat -> p k = (1 / 2)%R /\
    exists v, select_random_localized_state same eigh k ex_pair = Some v /\ calculate_normalization v = (1 / 2)%R.
Proof.
  intros Hs He. destruct ex_pair_ok as [B [O [W [L [T [N _]]]]]].
  destruct (choice_spec same eigh ex_pair Hs B O W ltac:(lia) He ltac:(lra)) as [p [u [E [PP [PS [phi [V [_ [_ [Nm [_ M]]]]]]]]]]].
  rewrite T in Nm, M. change (bsize (slist ex_pair)) with 2%nat in *. change (bsize (sbasis ex_pair)) with 2%nat in *.
  exists p, u. split; [exact E|].
  assert (VV : forall k t, (t < 2)%nat -> state_of ex_pair k t = cdelta k t).
  { intros k t Ht. exact (proj2 (proj2 (proj2 (basis_states_spec (BFund 2) k ltac:(cbn; lia)))) t Ht). }
  assert (Q : (p 0%nat * p 0%nat + p 1%nat * p 1%nat = 1 / 2)%R).
  { assert (M0 := M 0%nat 0%nat). assert (M1 := M 1%nat 1%nat). unfold sum_outer in M0, M1. change (bsize (slist ex_pair)) with 2%nat in *. cbn [csum] in M0, M1.
    rewrite !VV in M0, M1 by lia. apply (f_equal fst) in M0. apply (f_equal fst) in M1.
    assert (N0 := Nm 0%nat ltac:(lia)). assert (N1 := Nm 1%nat ltac:(lia)). unfold norm2 in N0, N1. cbn [rsum] in N0, N1.
    unfold Cnorm2 in N0, N1. unfold cdelta in M0, M1. cbn in M0, M1, N0, N1.
    set (a0 := fst (phi 0%nat 0%nat)) in *. set (a1 := fst (phi 0%nat 1%nat)) in *. set (b0 := fst (phi 1%nat 0%nat)) in *. set (b1 := fst (phi 1%nat 1%nat)) in *.
    set (c0 := snd (phi 0%nat 0%nat)) in *. set (c1 := snd (phi 0%nat 1%nat)) in *. set (d0 := snd (phi 1%nat 0%nat)) in *. set (d1 := snd (phi 1%nat 1%nat)) in *.
    assert (N0' : p 0%nat = (a0 * a0 + c0 * c0 + (a1 * a1 + c1 * c1))%R) by lra. assert (N1' : p 1%nat = (b0 * b0 + d0 * d0 + (b1 * b1 + d1 * d1))%R) by lra.
    rewrite N0' at 2. rewrite N1' at 2. field_simplify in M0. field_simplify in M1. nra. }
  cbn [rsum] in PS. assert (H : forall k, (k < 2)%nat -> p k = (1 / 2)%R).
  { assert (Z : ((p 0%nat - p 1%nat) * (p 0%nat - p 1%nat) = 0)%R) by nra. assert (Z' : (p 0%nat = p 1%nat)%R) by nra.
    intros [|[|]] Hk; [lra|lra|lia]. }
  intros k Hk. split; [apply H; exact Hk|]. destruct (V k Hk) as [v [Ev Hv]]. exists v. split; [exact Ev|].
  assert (K : calculate_normalization v = norm2 2 (phi k)).
  { destruct Hv as [_ [Sv Dv]]. unfold calculate_normalization. rewrite Sv. change (bsize (sbasis ex_pair)) with 2%nat in *. cbn [nprod]. rewrite Nat.mul_1_r. unfold norm2.
    apply rsum_ext. intros t Ht. rewrite Dv by exact Ht. rewrite Cnorm2_Cmod. ring. }
  rewrite K, Nm by exact Hk. rewrite H by exact Hk. field.
Qed.

(** A state and i times it. *)
Definition ex_turned : state_list := {| slist := BFund 2; sbasis := BFund 2;
  sdata := {| ashape := [4%nat]; aflat := fun t => nth t [RtoC (3 / 5); Cmult Ci (RtoC (4 / 5)); Cmult Ci (RtoC (3 / 5)); RtoC (- (4 / 5))] (RtoC 0) |} |}.
Lemma ex_turned_ok : bwf (sbasis ex_turned) /\ explicit_orthonormal (sbasis ex_turned) /\ well_formed_list ex_turned /\ bsize (slist ex_turned) = 2%nat /\
  Cnorm2 Ci = 1%R /\ (forall x, (x < 2)%nat -> state_of ex_turned 1 x = Ci * state_of ex_turned 0 x) /\ (0 < norm2 2 (state_of ex_turned 0))%R.
Proof.
  repeat split; try (cbn; lia); try (unfold Cnorm2; cbn; ring); try (unfold norm2, Cnorm2, state_of, row; cbn; nra).
  intros [|[|]] Hx; [| |lia]; unfold state_of, row; cbn; unfold Cmult, RtoC, Ci; cbn; f_equal; ring.
Qed.

(** A solver that turns the state by its time and sets the first coefficient. *)
Definition ex_solver : sse_solver := fun _ psi ts _ _ i x => if Nat.eqb x 0 then RtoC 1 else Cmult (cis (ts i)) (psi x).
Lemma ex_solver_ok : forall call psi ts small, exists i x, (i < 2)%nat /\ (x < bsize (BFund 2))%nat /\ ex_solver call psi ts small 1%nat i x <> 0.
Proof. intros. exists 0%nat, 0%nat. split; [lia|]. split; [cbn; lia|]. cbn. intros E. apply RtoC_inj in E. lra. Qed.
