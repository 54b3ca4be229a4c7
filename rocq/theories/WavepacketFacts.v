(** Unfurling and Bloch states in the form in which the properties state them. *)
From Coq Require Import Reals.
From Verif Require Import ZLib Csum DFT NumPy Interp Index IndexProofs AxesProofs Spec Basis SpecBasis BasisProofs BasisProofs2
  BasisProofs3 BasisFacts Operator SpecOperator OperatorProofs Reduce ReduceProofs IndexSum Wavepacket SpecWavepacket WavepacketProofs
  WavepacketProofs2 WavepacketProofs3.
Local Open Scope R_scope.
Local Open Scope C_scope.

Lemma tuple_momenta_wf ss : Forall (fun n => (0 < n)%nat) ss -> bwf (BTuple (map BFundT ss)).
Proof. exact (momenta_wf ss). Qed.

Lemma explicit_momenta ss : explicit_orthonormal (BTuple (map BFundT ss)).
Proof. apply full_explicit_orthonormal. apply (momenta_full ss). Qed.

Lemma unfurl_placement same ls ss d : identity_test same -> Forall (fun n => (0 < n)%nat) ls -> Forall (fun n => (0 < n)%nat) ss ->
  length ls = length ss -> nprod (ashape d) = (nprod ls * nprod ss)%nat ->
  exists out, unfurl_wavepacket same (map BFundT ls) (map BFundT ss) d = Some out /\
    ashape out = [nprod (supercell ls ss)] /\
    forall s k f, in_shape s ls -> in_shape k ss -> supercell_slot ls ss s k f ->
      aflat out (ravel (supercell ls ss) f) = isqrt (nprod ls) * aflat d (ravel ls s * nprod ss + ravel ss k).
Proof.
  intros Hs Hls Hss Hl Hd.
  destruct (convert_wavepacket_rows same Hs ls (map BFundT ss) Hls (tuple_momenta_wf ss Hss) (explicit_momenta ss) d) as [d' [G [E [HG [Hd' Hr]]]]].
  { rewrite Hd. fold (momenta ss). rewrite momenta_size. reflexivity. }
  rewrite map_bfund_FundT in HG, Hd', Hr.
  unfold unfurl_wavepacket. rewrite E, !map_bfund_FundT.
  destruct (unfurl_momentum_spec ls ss d' Hl Hd') as [out [Eo [So Ho]]].
  exists out. split; [exact Eo|]. split; [exact So|]. intros s k f Is Ik Hf.
  apply (unfurl_slot_iff ls ss s k f Hl Is Ik) in Hf. subst f. rewrite Ho by assumption. f_equal.
  assert (Rs := ravel_lt ls s Is). assert (Rk := ravel_lt ss k Ik).
  specialize (Hr (ravel ls s) (ravel ss k) Rs Rk). unfold row at 1 in Hr. rewrite Hr.
  destruct (convert_momenta_self same ss Hs Hss) as [G' [HG' IG]]. fold (momenta ss) in HG. rewrite HG in HG'. injection HG' as <-.
  rewrite IG by assumption. fold (momenta ss). rewrite momenta_size. reflexivity.
Qed.

Lemma supercell_slot_once ls ss f : length ls = length ss -> in_shape f (supercell ls ss) ->
  exists s k, in_shape s ls /\ in_shape k ss /\ supercell_slot ls ss s k f /\
    forall s' k', in_shape s' ls -> in_shape k' ss -> supercell_slot ls ss s' k' f -> s' = s /\ k' = k.
Proof.
  intros Hl Hf. destruct (unfurl_once ls ss f Hl Hf) as [s [k [Hs [Hk [E U]]]]]. exists s, k.
  split; [exact Hs|]. split; [exact Hk|]. split; [apply unfurl_slot_iff; auto|].
  intros s' k' Hs' Hk' H. apply U; auto. symmetry. apply unfurl_slot_iff; auto.
Qed.
Lemma supercell_slot_exists ls ss s k : length ls = length ss -> in_shape s ls -> in_shape k ss ->
  exists f, in_shape f (supercell ls ss) /\ supercell_slot ls ss s k f.
Proof.
  intros Hl Hs Hk. exists (unfurl_slot ls ss s k). split; [apply unfurl_slot_in; auto|apply unfurl_slot_iff; auto].
Qed.

Lemma unfurl_norm same ls saxes d out : identity_test same -> Forall (fun n => (0 < n)%nat) ls -> bwf (BTuple saxes) ->
  explicit_orthonormal (BTuple saxes) -> length ls = length saxes -> nprod (ashape d) = (nprod ls * bsize (BTuple saxes))%nat ->
  unfurl_wavepacket same (map BFundT ls) saxes d = Some out ->
  (forall s, (s < nprod ls)%nat -> inner_product (bsize (BTuple saxes)) (row (bsize (BTuple saxes)) (aflat d) s) (row (bsize (BTuple saxes)) (aflat d) s) = 1) ->
  inner_product (nprod (supercell ls (map bfund saxes))) (aflat out) (aflat out) = 1.
Proof.
  intros Hs Hls Hw He Hl Hd E Hn.
  rewrite (unfurl_wavepacket_inner same Hs ls saxes Hls Hw He Hl d d out out Hd Hd E E).
  rewrite (csum_ext _ (fun _ => 1)) by exact Hn.
  rewrite csum_const. rewrite Cmult_1_r, <- RtoC_mult, Rinv_l; [reflexivity|].
  assert (0 < nprod ls)%nat by (apply nprod_pos; exact Hls). apply not_0_INR. lia.
Qed.

(** The unfurled state is the sum of the Bloch states over all samples. *)
Lemma unfurl_sum_bloch same ls saxes d : identity_test same -> Forall (fun n => (0 < n)%nat) ls -> bwf (BTuple saxes) ->
  explicit_orthonormal (BTuple saxes) -> length ls = length saxes ->
  nprod (ashape d) = (nprod ls * bsize (BTuple saxes))%nat ->
  exists out st, unfurl_wavepacket same (map BFundT ls) saxes d = Some out /\
    get_bloch_states same (BFund 1) (map BFundT ls) saxes d = Some st /\
    forall x, in_shape x (supercell ls (map bfund saxes)) ->
      amplitude (momenta (supercell ls (map bfund saxes))) (aflat out) (ravel (supercell ls (map bfund saxes)) x) =
      isqrt (nprod ls) * csum (fun s => amplitude (momenta (supercell ls (map bfund saxes)))
          (row (nprod (supercell ls (map bfund saxes))) (aflat st) s) (ravel (supercell ls (map bfund saxes)) x)) (nprod ls).
Proof.
  intros Hs Hls Hw He Hl Hd.
  destruct (unfurl_wavepacket_amplitude same Hs ls saxes Hls Hw He Hl d Hd) as [out [E [_ A]]].
  assert (Hd1 : nprod (ashape d) = (bsize (BFund 1) * nprod ls * bsize (BTuple saxes))%nat) by (cbn [bsize]; rewrite Hd; cbn [bsize]; lia).
  destruct (bloch_states_spec same Hs (BFund 1) ls saxes Hls Hw He Hl d Hd1) as [st [G [Es _]]].
  exists out, st. split; [exact E|]. split; [exact Es|]. intros x Hx. rewrite A by exact Hx.
  rewrite <- !csum_scal_l. apply csum_ext. intros s Hs'.
  assert (B := bloch_states_amplitude same Hs (BFund 1) ls saxes Hls Hw He Hl d st Hd1 Es 0%nat s x ltac:(cbn [bsize]; lia) Hs' Hx).
  rewrite Nat.mul_0_l, Nat.add_0_l in B. rewrite B. rewrite inv_isqrt by (apply nprod_pos; exact Hls). ring.
Qed.

(** A list basis of position type is transformed first. *)
Lemma unfurl_position_list same : identity_test same -> exists out,
  unfurl_wavepacket same [BFund 2] [BFundT 1] {| ashape := [2%nat]; aflat := fun t => if Nat.eqb t 0 then 1 else 0 |} = Some out /\
  aflat out 1%nat = RtoC (/ 2).
Proof.
  intros Hs. unfold unfurl_wavepacket, convert_wavepacket.
  assert (W1 : bwf (BTuple [BFund 2])) by (cbn; repeat split; lia).
  assert (W2 : bwf (momenta [2%nat])) by (cbn; repeat split; lia).
  assert (W3 : bwf (momenta [1%nat])) by (cbn; repeat split; lia).
  change (as_fundamental_transformed [BFund 2]) with (momenta [2%nat]).
  change (as_fundamental_transformed [BFundT 1]) with (momenta [1%nat]).
  change (BTuple [BFundT 1]) with (momenta [1%nat]).
  rewrite reshape_some by reflexivity.
  destruct (proj2 (convert_some_iff same (BTuple [BFund 2]) (momenta [2%nat])) (compatible_momenta [BFund 2])) as [F HF]. rewrite HF.
  destruct (convert_momenta_self same [1%nat] Hs ltac:(repeat constructor)) as [G [HG IG]]. rewrite HG.
  assert (EF := convert_orthonormal same Hs _ _ F W1 W2 ltac:(cbn; auto) HF).
  set (d := ravel_array _).
  destruct (unfurl_momentum_spec [2%nat] [1%nat] d eq_refl eq_refl) as [out [Eo [So Ho]]].
  exists out. split; [exact Eo|].
  assert (H1 : in_shape [1%nat] [2%nat]) by (constructor; [lia|constructor]).
  assert (H0 : in_shape [0%nat] [1%nat]) by (constructor; [lia|constructor]).
  specialize (Ho [1%nat] [0%nat] H1 H0).
  change (ravel (supercell [2%nat] [1%nat]) (unfurl_slot [2%nat] [1%nat] [1%nat] [0%nat])) with 1%nat in Ho. rewrite Ho.
  change (ravel [2%nat] [1%nat] * nprod [1%nat] + ravel [1%nat] [0%nat])%nat with 1%nat.
  unfold d. cbn [ravel_array array2 aflat momenta bsize map nprod Nat.div Nat.modulo fst snd Nat.divmod Nat.mul Nat.sub].
  rewrite IG by (cbn; lia). rewrite EF by (cbn; lia). cbn [bsize map nprod Nat.mul bfund].
  unfold csum, at2. cbn [aflat ashape]. cbn [Nat.eqb Nat.add Nat.mul nth nprod]. unfold overlap. cbn [bfund map nprod Nat.mul Nat.add csum].
  change (1 mod 1 =? 0)%nat with true. change (1 / 1)%nat with 1%nat. cbn [bstate momenta map product_states].
  change (0 / nprod [])%nat with 0%nat. change (1 / nprod [])%nat with 1%nat.
  rewrite !cdelta_refl. rewrite (cdelta_neq 0 1) by lia. unfold plane_wave. rewrite Z.mul_0_r, omega_0.
  rewrite !Cmult_1_r, isqrt_conj. change 2%R with (INR 2). rewrite inv_isqrt by lia. ring.
Qed.

Lemma bloch_states_exist same bb ls saxes d : identity_test same -> Forall (fun n => (0 < n)%nat) ls -> bwf (BTuple saxes) ->
  explicit_orthonormal (BTuple saxes) -> length ls = length saxes ->
  nprod (ashape d) = (bsize bb * nprod ls * bsize (BTuple saxes))%nat ->
  exists out, get_bloch_states same bb (map BFundT ls) saxes d = Some out /\
    ashape out = [(bsize bb * nprod ls * nprod (supercell ls (map bfund saxes)))%nat].
Proof.
  intros Hs Hls Hw He Hl Hd. destruct (bloch_states_spec same Hs bb ls saxes Hls Hw He Hl d Hd) as [out [G [E [_ [Sh _]]]]].
  exists out. split; [exact E|exact Sh].
Qed.
