(** Slices with eigenvalues; examples. *)
From Coq Require Import Reals Lra.
From Verif Require Import ZLib Csum DFT NumPy Index Spec Basis SpecBasis Operator SpecOperator OperatorProofs Wavepacket SpecWavepacket
  BlochBasis SpecBloch BlochFacts BlochEnergies SpecBlochEnergy BlochEnergyProofs BlochEnergyProofs2.
Local Open Scope R_scope.
Local Open Scope C_scope.

Lemma slice_with_eigenvalues nb ns m d eig start stop step : (0 < nb)%nat -> step <> Some 0%Z ->
  nprod (ashape d) = (nb * (ns * m))%nat -> nprod (ashape eig) = (nb * ns)%nat ->
  exists rows d' eig', get_wavepackets_with_eigenvalues nb d eig start stop step = Some (length rows, d', eig') /\
    selects nb start stop step rows /\
    ashape d' = [(length rows * (ns * m))%nat] /\ ashape eig' = [(length rows * ns)%nat] /\
    forall k s, (k < length rows)%nat -> (s < ns)%nat ->
      (forall j, (j < m)%nat -> aflat d' ((k * ns + s) * m + j)%nat = aflat d ((nth k rows 0 * ns + s) * m + j)%nat) /\
      aflat eig' (k * ns + s)%nat = aflat eig (nth k rows 0 * ns + s)%nat.
Proof.
  intros Hn Hs Hd He. destruct (slice_rows_spec nb start stop step Hs) as [rows [E [Hsel _]]].
  destruct (take_rows_spec nb (ns * m) d rows Hn Hd) as [d' [Ed [Sd Hd']]].
  destruct (take_rows_spec nb ns eig rows Hn He) as [e' [Ee [Se He']]].
  exists rows, d', e'. unfold get_wavepackets_with_eigenvalues. rewrite E, Ed, Ee. split; [reflexivity|].
  split; [exact Hsel|]. split; [exact Sd|]. split; [exact Se|]. intros k s Hk Hs'. split; [|apply He'; assumption].
  intros j Hj. replace ((k * ns + s) * m + j)%nat with (k * (ns * m) + (s * m + j))%nat by ring.
  rewrite Hd' by nia. f_equal. ring.
Qed.
Lemma slice_zero_step nb d eig start stop : get_wavepackets_with_eigenvalues nb d eig start stop (Some 0%Z) = None.
Proof. reflexivity. Qed.

Lemma at_band_spec nb ns m d eig idx : (0 < nb)%nat ->
  nprod (ashape d) = (nb * (ns * m))%nat -> nprod (ashape eig) = (nb * ns)%nat ->
  ((- Z.of_nat nb <= idx < Z.of_nat nb)%Z ->
   exists b d' eig', get_wavepacket_at_band nb d eig idx = Some (d', eig') /\ (b < nb)%nat /\ Z.of_nat b = counted nb idx /\
     ashape d' = [(ns * m)%nat] /\ ashape eig' = [ns] /\
     forall s, (s < ns)%nat ->
       (forall j, (j < m)%nat -> aflat d' (s * m + j)%nat = aflat d ((b * ns + s) * m + j)%nat) /\
       aflat eig' s = aflat eig (b * ns + s)%nat) /\
  (~ (- Z.of_nat nb <= idx < Z.of_nat nb)%Z -> get_wavepacket_at_band nb d eig idx = None).
Proof.
  intros Hn Hd He. unfold get_wavepacket_at_band, python_index. split.
  - intros Hi.
    assert (X : exists b, (b < nb)%nat /\ Z.of_nat b = counted nb idx /\
      (if (0 <=? idx)%Z && (idx <? Z.of_nat nb)%Z then Some (Z.to_nat idx)
       else if (- Z.of_nat nb <=? idx)%Z && (idx <? 0)%Z then Some (Z.to_nat (idx + Z.of_nat nb)) else None) = Some b).
    { unfold counted. destruct (Z.leb_spec 0 idx); destruct (Z.ltb_spec idx (Z.of_nat nb)); destruct (Z.leb_spec (- Z.of_nat nb) idx);
        destruct (Z.ltb_spec idx 0); cbn [andb]; try lia;
        [exists (Z.to_nat idx)|exists (Z.to_nat (idx + Z.of_nat nb))]; repeat split; lia. }
    destruct X as [b [Hb [Eb X]]]. rewrite X.
    destruct (take_rows_spec nb (ns * m) d [b] Hn Hd) as [d' [Ed [Sd Hd']]].
    destruct (take_rows_spec nb ns eig [b] Hn He) as [e' [Ee [Se He']]]. rewrite Ed, Ee.
    exists b, d', e'. split; [reflexivity|]. split; [exact Hb|]. split; [exact Eb|].
    cbn [length] in *. rewrite Sd, Se. split; [f_equal; lia|]. split; [f_equal; lia|]. intros s Hs. split.
    + intros j Hj. specialize (Hd' 0%nat (s * m + j)%nat ltac:(lia) ltac:(nia)). cbn [nth] in Hd'.
      replace (0 * (ns * m) + (s * m + j))%nat with (s * m + j)%nat in Hd' by lia. rewrite Hd'. f_equal. ring.
    + specialize (He' 0%nat s ltac:(lia) Hs). cbn [nth] in He'. exact He'.
  - intros Hi. destruct (Z.leb_spec 0 idx); destruct (Z.ltb_spec idx (Z.of_nat nb)); destruct (Z.leb_spec (- Z.of_nat nb) idx);
      destruct (Z.ltb_spec idx 0); cbn [andb]; try reflexivity; exfalso; apply Hi; lia.
Qed.

(** ** Examples *)
(** Rows 4, 2 of five for [4:0:-2] and rows 1, 3 for [1:-1:2]. *)
Lemma ex_slices : slice_rows 5 (Some 4%Z) (Some 0%Z) (Some (-2)%Z) = Some [4%nat; 2%nat] /\
  slice_rows 5 (Some 1%Z) (Some (-1)%Z) (Some 2%Z) = Some [1%nat; 3%nat].
Proof. split; reflexivity. Qed.

Definition ex_energies : ndarray := {| ashape := [4%nat]; aflat := fun t => RtoC (INR t) |}.
Lemma ex_energies_fact : nprod (ashape ex_energies) = (2 * nprod [2%nat])%nat /\
  (forall r, (r < 2 * nprod [2%nat])%nat -> exists e, aflat ex_energies r = RtoC e /\ (0 <= e <= 3)%R) /\
  2%nat = nprod (map bfund ex_bloch_axes) /\ bwf (BFund 4) /\
  bfund (BFund 4) = nprod (supercell [2%nat] (map bfund ex_bloch_axes)) /\
  inner_product 4 (amplitude (BFund 4) (fun k => if Nat.eqb k 1 then 1 else 0)) (amplitude (BFund 4) (fun k => if Nat.eqb k 1 then 1 else 0)) = 1.
Proof.
  split; [reflexivity|]. split.
  - intros r Hr. exists (INR r). split; [reflexivity|]. split; [apply pos_INR|]. replace 3%R with (INR 3) by (cbn; lra). apply le_INR. cbn in Hr. lia.
  - split; [reflexivity|]. split; [cbn; lia|]. split; [reflexivity|].
    unfold inner_product, amplitude. cbn -[Cconj]. unfold cdelta. cbn -[Cconj].
    apply injective_projections; cbn; ring.
Qed.
