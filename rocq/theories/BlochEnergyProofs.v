(** Proofs: slices of bands. *)
From Coq Require Import Reals.
From Verif Require Import ZLib Csum DFT NumPy Index Spec Basis SpecBasis Operator SpecWavepacket SpecBloch BlochEnergies SpecBlochEnergy
  OperatorProofs BlochProofs.
Local Open Scope Z_scope.

Lemma progression_in (start step : Z) (len i : Z) : 0 <= len -> (forall j, 0 <= j < len -> 0 <= start + j * step) ->
  In (Z.to_nat i) (map (fun j => Z.to_nat (start + Z.of_nat j * step)) (seq 0 (Z.to_nat len))) -> 0 <= i ->
  exists j, 0 <= j < len /\ i = start + j * step.
Proof.
  intros Hl Hp H Hi. apply in_map_iff in H. destruct H as [j [E Hj]]. apply in_seq in Hj.
  exists (Z.of_nat j). split; [lia|]. specialize (Hp (Z.of_nat j) ltac:(lia)). lia.
Qed.
Lemma in_progression (start step : Z) (len j : Z) : 0 <= j < len ->
  In (Z.to_nat (start + j * step)) (map (fun j => Z.to_nat (start + Z.of_nat j * step)) (seq 0 (Z.to_nat len))).
Proof.
  intros Hj. apply in_map_iff. exists (Z.to_nat j). split; [rewrite Z2Nat.id by lia; reflexivity|]. apply in_seq. lia.
Qed.
Lemma nth_progression (start step : Z) (len : Z) a : (a < Z.to_nat len)%nat ->
  nth a (map (fun j => Z.to_nat (start + Z.of_nat j * step)) (seq 0 (Z.to_nat len))) 0%nat = Z.to_nat (start + Z.of_nat a * step).
Proof.
  intros Ha. rewrite nth_indep with (d' := Z.to_nat (start + Z.of_nat 0 * step)) by (rewrite map_length, seq_length; exact Ha).
  rewrite (map_nth (fun j => Z.to_nat (start + Z.of_nat j * step))), seq_nth by exact Ha. reflexivity.
Qed.

Lemma forward_rows (n start stop step : Z) : 0 <= n -> 0 < step -> 0 <= start <= n -> 0 <= stop <= n ->
  let len := if start <? stop then (stop - start - 1) / step + 1 else 0 in
  let rows := map (fun j => Z.to_nat (start + Z.of_nat j * step)) (seq 0 (Z.to_nat len)) in
  (forall i, In i rows <-> Z.of_nat i < n /\ start <= Z.of_nat i /\ Z.of_nat i < stop /\ Zcong step (Z.of_nat i) start) /\
  forall a b, (a < b < length rows)%nat -> (nth a rows 0 < nth b rows 0)%nat.
Proof.
  intros Hn Hs H1 H2 len rows.
  assert (Hlen : 0 <= len).
  { unfold len. destruct (Z.ltb_spec start stop); [|lia].
    pose proof (Z.div_pos (stop - start - 1) step ltac:(lia) Hs). lia. }
  assert (Hin : forall j, 0 <= j -> (j < len <-> start + j * step < stop)).
  { intros j Hj. unfold len. destruct (Z.ltb_spec start stop) as [L|L].
    - pose proof (Z.div_mod (stop - start - 1) step ltac:(lia)). pose proof (Z.mod_pos_bound (stop - start - 1) step Hs).
      set (q := (stop - start - 1) / step) in *. set (r := (stop - start - 1) mod step) in *. split; intros; nia.
    - split; intros; nia. }
  split.
  - intros i. split.
    + intros Hi. rewrite <- (Nat2Z.id i) in Hi. apply progression_in in Hi; [|exact Hlen|intros; nia|lia].
      destruct Hi as [j [Hj E]]. assert (start + j * step < stop) by (apply Hin; lia).
      split; [lia|]. split; [nia|]. split; [lia|]. exists j. lia.
    + intros [L1 [L2 [L3 [j E]]]]. rewrite <- (Nat2Z.id i).
      replace (Z.of_nat i) with (start + j * step) by lia. apply in_progression.
      assert (0 <= j) by nia. split; [assumption|]. apply Hin; lia.
  - intros a b [Hab Hb]. unfold rows in *. rewrite map_length, seq_length in Hb.
    rewrite !nth_progression by lia. apply Z2Nat.inj_lt; nia.
Qed.

Lemma backward_rows (n start stop step : Z) : 0 <= n -> step < 0 -> -1 <= start <= n - 1 -> -1 <= stop <= n - 1 ->
  let len := if stop <? start then (start - stop - 1) / (- step) + 1 else 0 in
  let rows := map (fun j => Z.to_nat (start + Z.of_nat j * step)) (seq 0 (Z.to_nat len)) in
  (forall i, In i rows <-> Z.of_nat i < n /\ Z.of_nat i <= start /\ stop < Z.of_nat i /\ Zcong (- step) (Z.of_nat i) start) /\
  forall a b, (a < b < length rows)%nat -> (nth b rows 0 < nth a rows 0)%nat.
Proof.
  intros Hn Hs H1 H2 len rows.
  assert (Hlen : 0 <= len).
  { unfold len. destruct (Z.ltb_spec stop start); [|lia].
    pose proof (Z.div_pos (start - stop - 1) (- step) ltac:(lia) ltac:(lia)). lia. }
  assert (Hin : forall j, 0 <= j -> (j < len <-> stop < start + j * step)).
  { intros j Hj. unfold len. destruct (Z.ltb_spec stop start) as [L|L].
    - pose proof (Z.div_mod (start - stop - 1) (- step) ltac:(lia)).
      pose proof (Z.mod_pos_bound (start - stop - 1) (- step) ltac:(lia)).
      set (q := (start - stop - 1) / - step) in *. set (r := (start - stop - 1) mod - step) in *. split; intros; nia.
    - split; intros; nia. }
  split.
  - intros i. split.
    + intros Hi. rewrite <- (Nat2Z.id i) in Hi. apply progression_in in Hi; [|exact Hlen| |lia].
      2:{ intros j Hj. assert (stop < start + j * step) by (apply Hin; lia). lia. }
      destruct Hi as [j [Hj E]]. assert (stop < start + j * step) by (apply Hin; lia).
      split; [nia|]. split; [nia|]. split; [lia|]. exists (- j). lia.
    + intros [L1 [L2 [L3 [j E]]]]. rewrite <- (Nat2Z.id i).
      replace (Z.of_nat i) with (start + (- j) * step) by lia. apply in_progression.
      assert (j <= 0) by nia. split; [lia|]. apply Hin; lia.
  - intros a b [Hab Hb]. unfold rows in *. rewrite map_length, seq_length in Hb.
    rewrite !nth_progression by lia.
    assert (stop < start + Z.of_nat b * step) by (apply Hin; lia). apply Z2Nat.inj_lt; nia.
Qed.

Lemma slice_rows_spec n start stop step : step <> Some 0 ->
  exists rows, slice_rows n start stop step = Some rows /\ selects n start stop step rows /\
    Forall (fun i => (i < n)%nat) rows.
Proof.
  intros Hs. unfold slice_rows. set (s := match step with Some s => s | None => 1 end).
  assert (Hs0 : s <> 0) by (unfold s; destruct step; [intros E; apply Hs; congruence|lia]).
  replace (s =? 0) with false by (symmetry; apply Z.eqb_neq; exact Hs0).
  destruct (Z.ltb_spec s 0) as [L|L]; cbv zeta.
  - set (st := match start with Some i => if i <? 0 then Z.max (i + Z.of_nat n) (-1) else Z.min i (Z.of_nat n - 1) | None => Z.of_nat n - 1 end).
    set (sp := match stop with Some i => if i <? 0 then Z.max (i + Z.of_nat n) (-1) else Z.min i (Z.of_nat n - 1) | None => -1 end).
    assert (H1 : -1 <= st <= Z.of_nat n - 1) by (unfold st; destruct start as [i|]; [destruct (Z.ltb_spec i 0)|]; lia).
    assert (H2 : -1 <= sp <= Z.of_nat n - 1) by (unfold sp; destruct stop as [i|]; [destruct (Z.ltb_spec i 0)|]; lia).
    destruct (backward_rows (Z.of_nat n) st sp s ltac:(lia) L H1 H2) as [B1 B2].
    eexists. split; [reflexivity|]. split.
    + right. fold s. split; [exact L|]. split; [|exact B2]. intros i. rewrite B1. unfold counted.
      set (hi := match start with Some i => Z.min (Z.of_nat n - 1) (if i <? 0 then i + Z.of_nat n else i) | None => Z.of_nat n - 1 end).
      assert (D : st = hi \/ (st = -1 /\ hi < 0)).
      { unfold st, hi. destruct start as [j|]; [destruct (Z.ltb_spec j 0)|]; lia. }
      assert (D2 : Z.of_nat i < Z.of_nat n -> (sp < Z.of_nat i <-> match stop with Some j => (if j <? 0 then j + Z.of_nat n else j) < Z.of_nat i | None => True end)).
      { unfold sp. destruct stop as [j|]; [destruct (Z.ltb_spec j 0)|]; lia. }
      assert (D3 : (Z.of_nat i < Z.of_nat n /\ Z.of_nat i <= st /\ sp < Z.of_nat i) <->
        (Z.of_nat i < Z.of_nat n /\ Z.of_nat i <= hi /\ match stop with Some j => (if j <? 0 then j + Z.of_nat n else j) < Z.of_nat i | None => True end)).
      { split; intros [X1 [X2 X3]]; apply D2 in X3; try exact X1; repeat split; try assumption; destruct D as [D|[D D']]; lia. }
      destruct D as [D|[D D']].
      * rewrite <- D in *. split; intros [X1 [X2 [X3 X4]]].
        -- destruct D3 as [D3 _]. destruct (D3 (conj X1 (conj X2 X3))) as [Y1 [Y2 Y3]]. repeat split; [lia|exact Y2|exact Y3|exact X4].
        -- assert (X0 : Z.of_nat i < Z.of_nat n) by lia. destruct D3 as [_ D3]. destruct (D3 (conj X0 (conj X2 X3))) as [Y1 [Y2 Y3]]. repeat split; [lia|exact Y2|exact Y3|exact X4].
      * split; intros [X1 [X2 [X3 X4]]]; exfalso; lia.
    + apply Forall_forall. intros i Hi. apply B1 in Hi. lia.
  - assert (L' : 0 < s) by lia.
    set (st := match start with Some i => if i <? 0 then Z.max (i + Z.of_nat n) 0 else Z.min i (Z.of_nat n) | None => 0 end).
    set (sp := match stop with Some i => if i <? 0 then Z.max (i + Z.of_nat n) 0 else Z.min i (Z.of_nat n) | None => Z.of_nat n end).
    assert (H1 : 0 <= st <= Z.of_nat n) by (unfold st; destruct start as [i|]; [destruct (Z.ltb_spec i 0)|]; lia).
    assert (H2 : 0 <= sp <= Z.of_nat n) by (unfold sp; destruct stop as [i|]; [destruct (Z.ltb_spec i 0)|]; lia).
    destruct (forward_rows (Z.of_nat n) st sp s ltac:(lia) L' H1 H2) as [B1 B2].
    eexists. split; [reflexivity|]. split.
    + left. fold s. split; [exact L'|]. split; [|exact B2]. intros i. rewrite B1. unfold counted.
      set (lo := match start with Some i => Z.max 0 (if i <? 0 then i + Z.of_nat n else i) | None => 0 end).
      assert (D : st = lo \/ (st = Z.of_nat n /\ Z.of_nat n <= lo)).
      { unfold st, lo. destruct start as [j|]; [destruct (Z.ltb_spec j 0)|]; lia. }
      assert (D3 : (Z.of_nat i < Z.of_nat n /\ Z.of_nat i < sp) <->
        (Z.of_nat i < Z.of_nat n /\ match stop with Some j => Z.of_nat i < (if j <? 0 then j + Z.of_nat n else j) | None => True end)).
      { unfold sp. destruct stop as [j|]; [destruct (Z.ltb_spec j 0)|]; lia. }
      destruct D as [D|[D D']].
      * rewrite <- D in *. split; intros [X1 [X2 [X3 X4]]].
        -- destruct D3 as [D3 _]. destruct (D3 (conj X1 X3)) as [Y1 Y3]. repeat split; [lia|exact X2|exact Y3|exact X4].
        -- assert (X0 : Z.of_nat i < Z.of_nat n) by lia. destruct D3 as [_ D3]. destruct (D3 (conj X0 X3)) as [Y1 Y3]. repeat split; [lia|exact X2|exact Y3|exact X4].
      * split; intros [X1 [X2 [X3 X4]]]; exfalso; lia.
    + apply Forall_forall. intros i Hi. apply B1 in Hi. lia.
Qed.
Lemma slice_rows_zero n start stop : slice_rows n start stop (Some 0) = None.
Proof. reflexivity. Qed.

Lemma take_rows_spec n m a rows : (0 < n)%nat -> nprod (ashape a) = (n * m)%nat ->
  exists out, take_rows n a rows = Some out /\ ashape out = [(length rows * m)%nat] /\
    forall k j, (k < length rows)%nat -> (j < m)%nat -> aflat out (k * m + j)%nat = aflat a (nth k rows 0 * m + j)%nat.
Proof.
  intros Hn Ha. unfold take_rows. rewrite Ha.
  replace (n =? 0)%nat with false by (symmetry; apply Nat.eqb_neq; lia).
  replace ((n * m) mod n)%nat with 0%nat by (rewrite Nat.mul_comm, Nat.mod_mul by lia; reflexivity). rewrite Nat.eqb_refl.
  replace (n * m / n)%nat with m by (rewrite Nat.mul_comm, Nat.div_mul by lia; reflexivity).
  eexists. split; [reflexivity|]. split; [reflexivity|]. intros k j Hk Hj. cbn [aflat].
  rewrite div_add_small, mod_add_small by exact Hj. reflexivity.
Qed.
