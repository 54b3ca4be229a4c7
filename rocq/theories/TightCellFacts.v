(** Examples for the states of the tight binding approximation. *)
From Coq Require Import Reals Lra.
From Verif Require Import ZLib Csum DFT NumPy Index Spec IndexProofs Basis SpecBasis Operator SpecOperator OperatorProofs
  StateList SpecStateList Wavepacket SpecWavepacket WavepacketProofs2 Localize SpecLocalize LocalizeProofs4 SpecBloch TightCell SpecTightCell TightCellProofs TightCellProofs2 TightCellProofs3.
Local Open Scope R_scope.
Local Open Scope C_scope.

(** Samples of a wavepacket whose states are at the last of three points. *)
Definition ex_last (n : nat) : ndarray := {| ashape := [(n * 3)%nat]; aflat := fun t => if Nat.eqb (t mod 3) 2 then 1 else 0 |}.
Definition ex_three : list basis := [BFund 3].
Lemma ex_three_fact : bwf (BTuple ex_three) /\ explicit_orthonormal (BTuple ex_three) /\ map bsize ex_three = map bfund ex_three /\
  valid_origin (map bfund ex_three) (Some (Stacked [5%Z])) /\ valid_origin (map bfund ex_three) None /\
  nprod (ashape (ex_last 4)) = (nprod [4%nat] * bsize (BTuple ex_three))%nat /\ (hd 1%nat (map bfund ex_three) <= nprod [4%nat])%nat /\
  inner_product 3 (row 3 (aflat (ex_last 4)) 1) (row 3 (aflat (ex_last 4)) 1) = 1 /\
  in_cell_around (map bfund ex_three) (supercell [4%nat] (map bfund ex_three)) [0%Z] [11%nat] /\
  ~ in_cell_around (map bfund ex_three) (supercell [4%nat] (map bfund ex_three)) [0%Z] [2%nat].
Proof.
  split; [cbn; lia|]. split; [cbn; tauto|]. split; [reflexivity|]. split; [exists [5%Z]; split; reflexivity|]. split; [exact Logic.I|].
  split; [reflexivity|]. split; [cbn; lia|]. split; [|split].
  - unfold inner_product, row, ex_last. cbn -[Cconj]. apply injective_projections; cbn; ring.
  - exists [(-1)%Z]. cbn. split; [split; [|exact Logic.I]; cbv; split; congruence|]. split; [|exact Logic.I]. exists (-1)%Z. reflexivity.
  - intros [y [W S0]]. destruct y as [|y [|y' y2]]; [cbn in W; tauto| |cbn in W; tauto].
    assert (W' : (0 - Z.of_nat 3 / 2 <= y < 0 - Z.of_nat 3 / 2 + Z.of_nat 3)%Z) by exact (proj1 W).
    assert (C' : Zcong (Z.of_nat 12) y (Z.of_nat 2)) by exact (proj1 S0). destruct C' as [q C'].
    change (Z.of_nat 3 / 2)%Z with 1%Z in W'. lia.
Qed.

(** Two samples of these states: nothing is left of them. *)
Lemma ex_lost same origin : identity_test same -> valid_origin [3%nat] origin ->
  exists out, get_tight_binding_state same (map BFundT [2%nat]) ex_three (ex_last 2) 0 origin = Some (BTuple [BFund 6], out) /\
    ashape out = [6%nat] /\ forall t, (t < 6)%nat -> aflat out t = 0.
Proof.
  intros Hs Ho. destruct ex_three_fact as [W [E [Fu _]]].
  destruct (tight_spec same Hs [2%nat] ex_three ltac:(repeat constructor) W E eq_refl (or_introl eq_refl) Fu (ex_last 2) 0 origin) as [o [out [Eo [_ [_ [Sh Cu]]]]]];
    [reflexivity|cbn; lia|exact Ho|].
  exists out. split; [exact Eo|]. split; [exact Sh|]. intros t Ht.
  assert (Hx : in_shape [t] (supercell [2%nat] (map bfund ex_three))) by (constructor; [exact Ht|constructor]).
  pose proof (ravel_lt _ _ Hx) as _. replace t with (ravel (supercell [2%nat] (map bfund ex_three)) [t]) by (cbn; lia).
  destruct (Nat.le_gt_cases 2 (t mod 3)) as [H|H].
  - apply (cut_missing [2%nat] ex_three eq_refl (ex_last 2) 0 o (aflat out) [t] Cu Hx); [cbn [hd map bfund ex_three nprod] in *; lia|discriminate].
  - destruct (Cu [t] Hx) as [C1 C2].
    assert (B : bloch_wave [2%nat] ex_three (ex_last 2) 0 [t] = 0).
    { unfold bloch_wave. cbn [map bfund ex_three in_cell]. change (BTuple ex_three) with (BTuple (map BFund [3%nat])).
      change (map bfund ex_three) with [3%nat]. cbn [in_cell]. rewrite amplitude_position by (constructor; [apply Nat.mod_upper_bound; lia|constructor]).
      unfold row, ex_last. cbn [aflat].
      replace ((0 * bsize (BTuple (map BFund [3])) + ravel [3] [t mod 3]) mod 3)%nat with (t mod 3)%nat
        by (cbn [ravel nprod bsize map]; rewrite Nat.mul_0_l, Nat.add_0_l, Nat.mul_1_r, Nat.add_0_r, Nat.mod_mod by lia; reflexivity).
      replace (Nat.eqb (t mod 3) 2) with false by (symmetry; apply Nat.eqb_neq; lia). ring. }
    assert (D : in_cell_around (map bfund ex_three) (supercell [2%nat] (map bfund ex_three)) o [t] /\ first_below (map bfund ex_three) (nprod [2%nat]) [t] \/
      ~ (in_cell_around (map bfund ex_three) (supercell [2%nat] (map bfund ex_three)) o [t] /\ first_below (map bfund ex_three) (nprod [2%nat]) [t])).
    { destruct (Nat.eq_dec 0 0) as [_|]; [|congruence].
      assert (P : Forall (fun n => (0 < n)%nat) (supercell [2%nat] (map bfund ex_three))) by (repeat constructor).
      destruct o as [|a [|]].
      - right. intros [[y [W0 _]] _]. destruct y; cbn in W0; tauto.
      - pose proof (around_iff (map bfund ex_three) (supercell [2%nat] (map bfund ex_three)) [a] [t] eq_refl eq_refl eq_refl P) as R.
        destruct (around _ _ _ _); [left; split; [apply R; reflexivity|cbn; exact H]|right; intros [K _]; apply R in K; discriminate].
      - right. intros [[y [W0 _]] _]. destruct y as [|? [|]]; cbn in W0; tauto. }
    destruct D as [D|D]; [rewrite (C1 D); exact B|exact (C2 D)].
Qed.
