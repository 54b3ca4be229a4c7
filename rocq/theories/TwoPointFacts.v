(** Concrete cases for the localisation about a largest value. *)
From Coq Require Import Reals Lra.
From Verif Require Import ZLib Csum DFT NumPy Index IndexProofs Spec SpecReal Basis SpecBasis BasisProofs BasisProofs2
  Operator SpecOperator OperatorProofs Wavepacket SpecWavepacket Localize SpecLocalize
  SpecBloch TightCell SpecTightCell Projections TwoPoint SpecTwoPoint TwoPointProofs TwoPointProofs2.
Local Open Scope R_scope.
Local Open Scope C_scope.

Definition ex_axes2 : list basis := [BFundT 3; BTrans 4 4].
Definition ex_matrix2 : ndarray := {| ashape := [6%nat; 12%nat]; aflat := fun t => RtoC (INR t) |}.
Lemma ex_two_point_ok : Forall (fun n => (0 < n)%nat) [2%nat; 3%nat] /\ bwf (BTuple ex_axes2) /\ explicit_orthonormal (BTuple ex_axes2) /\
  length [2%nat; 3%nat] = length ex_axes2 /\ two_or_three (length ex_axes2) /\ map bsize ex_axes2 = map bfund ex_axes2 /\
  ashape ex_matrix2 = [nprod [2%nat; 3%nat]; bsize (BTuple ex_axes2)].
Proof. split; [repeat constructor|]. split; [cbn; repeat split; lia|]. split; [cbn; tauto|]. repeat split. left. reflexivity. Qed.

(** One state, at the second of two points: the largest value is not at either point. *)
Definition few_axes : list basis := [BEven 1 2 1; BFund 1].
Definition few_data : ndarray := {| ashape := [1%nat; 1%nat]; aflat := fun _ => RtoC 1 |}.
Lemma few_points same : identity_test same ->
  get_wavepacket_two_points same (map BFundT [1%nat; 1%nat]) few_axes few_data (0, 0)%Z = Some ([0; 0]%Z, [0; 0]%Z) /\
  wave_at [1%nat; 1%nat] few_axes (aflat few_data) 0 [0; 0]%Z = 0 /\
  Cmod (wave_at [1%nat; 1%nat] few_axes (aflat few_data) 0 [1; 0]%Z) = 1%R.
Proof.
  intros Hs. split.
  - destruct (points_exist same Hs [1%nat; 1%nat] few_axes) with (d := few_data) (offset := (0, 0)%Z) as [t0 [r [m [V [_ [Em [_ [_ E]]]]]]]].
    + repeat constructor.
    + cbn. repeat split; lia.
    + cbn. tauto.
    + reflexivity.
    + left. reflexivity.
    + reflexivity.
    + cbv zeta in E. rewrite E. clear E V. revert Em.
      assert (L : length (map Z.of_nat (unravel (supercell [1%nat; 1%nat] (map bfund few_axes)) t0)) = 2%nat) by (rewrite map_length; apply IndexProofs.unravel_length).
      revert L. generalize (map Z.of_nat (unravel (supercell [1%nat; 1%nat] (map bfund few_axes)) t0)).
      intros [|a [|b [|? ?]]] L; try discriminate. cbn [few_axes map bsize].
      cbn [cell_corner app wrap_index_from fst snd map]. change (Z.of_nat 1) with 1%Z.
      assert (W : forall x, wrap_index x 1 (1 * 0) = 0%Z) by (intros x; unfold wrap_index; rewrite Z.mod_1_r; reflexivity).
      rewrite !W. intros Em. cbn in Em. injection Em as <-. cbn [wrap_index_from]. rewrite !W. reflexivity.
  - assert (A : forall x, (x < 2)%nat -> amplitude (BTuple few_axes) (row (bsize (BTuple few_axes)) (aflat few_data) 0) x = cdelta 1 x).
    { intros x Hx. unfold amplitude, row, few_axes, few_data. cbn [bsize map nprod aflat Nat.mul csum bstate product_states].
      destruct x as [|[|x]]; [| |lia]; cbn -[cdelta]; unfold cdelta; cbn; unfold sample_pos; cbn; change (Pos.to_nat 1) with 1%nat; cbn [Nat.eqb]; ring. }
    unfold wave_at. split.
    + change (ravel (map bfund few_axes) (cell_point (map bfund few_axes) [0; 0]%Z)) with 0%nat. rewrite A by lia. unfold cdelta. cbn. ring.
    + change (ravel (map bfund few_axes) (cell_point (map bfund few_axes) [1; 0]%Z)) with 1%nat. rewrite A by lia. unfold cdelta. cbn [Nat.eqb].
      rewrite Cmult_1_r. destruct (LocalizeProofs4.global_phase_spec same Hs [1%nat; 1%nat] few_axes) with (data := few_data) (p := Stacked [1; 0]%Z) (nx := [1; 0]%Z)
        as [g [_ Vg]].
      * repeat constructor.
      * cbn. repeat split; lia.
      * reflexivity.
      * reflexivity.
      * split; reflexivity.
      * specialize (Vg [0%nat; 0%nat] ltac:(repeat constructor)).
        change (unravel [1%nat; 1%nat] 0) with [0%nat; 0%nat]. rewrite <- Vg.
        unfold cis, Cmod. cbn [fst snd]. rewrite <- sqrt_1. f_equal. assert (T := sin2_cos2 (g (ravel [1%nat; 1%nat] [0%nat; 0%nat]))). unfold Rsqr in T. lra.
Qed.

Definition flat_few : ndarray := {| ashape := [72%nat]; aflat := fun t => RtoC (INR t) |}.
Lemma ex_flat_ok : ashape flat_few = [(nprod [2%nat; 3%nat] * bsize (BTuple ex_axes2))%nat] /\ (1 < nprod [2%nat; 3%nat])%nat /\ (0 < bsize (BTuple ex_axes2))%nat.
Proof. cbn. repeat split; lia. Qed.
