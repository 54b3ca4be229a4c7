(** Properties of wavepackets: unfurling (C28) and Bloch states (C61). *)
From Coq Require Import Reals.
From Verif Require Import ZLib Csum DFT NumPy Spec Basis SpecBasis Operator Wavepacket SpecWavepacket WavepacketProofs2
  WavepacketProofs3 WavepacketFacts.
Local Open Scope R_scope.
Local Open Scope C_scope.

(** Samples 3 x 2 and states: two frequencies of three, and two points of four. *)
Definition ex_ls : list nat := [3%nat; 2%nat].
Definition ex_saxes : list basis := [BTrans 2 3; BEven 2 2 1].
Definition ex_data : ndarray := {| ashape := [6%nat; 4%nat]; aflat := fun t => RtoC (INR t) |}.
Example ex_wavepacket_ok :
  identity_test (fun _ _ => false) /\ Forall (fun n => (0 < n)%nat) ex_ls /\ bwf (BTuple ex_saxes) /\
  explicit_orthonormal (BTuple ex_saxes) /\ length ex_ls = length ex_saxes /\
  nprod (ashape ex_data) = (nprod ex_ls * bsize (BTuple ex_saxes))%nat /\
  supercell ex_ls (map bfund ex_saxes) = [9%nat; 8%nat].
Proof. split; [intros a b H; discriminate|]. split; [repeat constructor|]. cbn. repeat split; lia. Qed.
(** Sample 2 of 3 (frequency -1) and slot 1 of 3 (frequency 1) have slot 2 of 9. *)
Example ex_supercell_slot : supercell_slot [3%nat] [3%nat] [2%nat] [1%nat] [2%nat].
Proof.
  split; [|exact I]. exists (-1)%Z, 1%Z. split; [split; [exists (-1)%Z; reflexivity|lia]|].
  split; [split; [exists 0%Z; reflexivity|lia]|]. split; [lia|]. exists 0%Z. reflexivity.
Qed.

(** ** C28 *)

(** The coefficient of sample [s] and in-cell frequency [k] goes to their frequency in
    the supercell, divided by the square root of the number of samples. *)
Theorem C28_unfurl_places_components :
  forall same ls ss d, identity_test same -> Forall (fun n => (0 < n)%nat) ls -> Forall (fun n => (0 < n)%nat) ss ->
  length ls = length ss -> nprod (ashape d) = (nprod ls * nprod ss)%nat ->
  exists out, unfurl_wavepacket same (map BFundT ls) (map BFundT ss) d = Some out /\
    ashape out = [nprod (supercell ls ss)] /\
    forall s k f, in_shape s ls -> in_shape k ss -> supercell_slot ls ss s k f ->
      aflat out (ravel (supercell ls ss) f) = isqrt (nprod ls) * aflat d (ravel ls s * nprod ss + ravel ss k).
Proof. exact unfurl_placement. Qed.
Print Assumptions C28_unfurl_places_components.

(** Every slot of the supercell belongs to exactly one sample and in-cell frequency, and
    every sample and in-cell frequency has a slot. *)
Theorem C28_every_slot_once :
  forall ls ss f, length ls = length ss -> in_shape f (supercell ls ss) ->
  exists s k, in_shape s ls /\ in_shape k ss /\ supercell_slot ls ss s k f /\
    forall s' k', in_shape s' ls -> in_shape k' ss -> supercell_slot ls ss s' k' f -> s' = s /\ k' = k.
Proof. exact supercell_slot_once. Qed.
Print Assumptions C28_every_slot_once.

Theorem C28_every_component_has_a_slot :
  forall ls ss s k, length ls = length ss -> in_shape s ls -> in_shape k ss ->
  exists f, in_shape f (supercell ls ss) /\ supercell_slot ls ss s k f.
Proof. exact supercell_slot_exists. Qed.
Print Assumptions C28_every_component_has_a_slot.

(** In position space, for any basis of the states: a sum of Bloch waves. *)
Theorem C28_unfurl_is_sum_of_bloch_waves :
  forall same ls saxes d, identity_test same -> Forall (fun n => (0 < n)%nat) ls -> bwf (BTuple saxes) ->
  explicit_orthonormal (BTuple saxes) -> length ls = length saxes ->
  nprod (ashape d) = (nprod ls * bsize (BTuple saxes))%nat ->
  exists out, unfurl_wavepacket same (map BFundT ls) saxes d = Some out /\
    ashape out = [nprod (supercell ls (map bfund saxes))] /\
    forall x, in_shape x (supercell ls (map bfund saxes)) ->
      amplitude (momenta (supercell ls (map bfund saxes))) (aflat out) (ravel (supercell ls (map bfund saxes)) x) =
      RtoC (/ INR (nprod ls)) * csum (fun s =>
        plane (supercell ls (map bfund saxes)) (sample_freqs ls (unravel ls s)) (map Z.of_nat x) *
        amplitude (BTuple saxes) (row (bsize (BTuple saxes)) (aflat d) s)
          (ravel (map bfund saxes) (in_cell (map bfund saxes) x))) (nprod ls).
Proof. exact (fun same ls saxes d Hs Hls Hw He Hl => unfurl_wavepacket_amplitude same Hs ls saxes Hls Hw He Hl d). Qed.
Print Assumptions C28_unfurl_is_sum_of_bloch_waves.

(** Inner products are averaged over the samples. *)
Theorem C28_unfurl_inner_product :
  forall same ls saxes u v u' v', identity_test same -> Forall (fun n => (0 < n)%nat) ls -> bwf (BTuple saxes) ->
  explicit_orthonormal (BTuple saxes) -> length ls = length saxes ->
  nprod (ashape u) = (nprod ls * bsize (BTuple saxes))%nat -> nprod (ashape v) = (nprod ls * bsize (BTuple saxes))%nat ->
  unfurl_wavepacket same (map BFundT ls) saxes u = Some u' -> unfurl_wavepacket same (map BFundT ls) saxes v = Some v' ->
  inner_product (nprod (supercell ls (map bfund saxes))) (aflat u') (aflat v') =
  RtoC (/ INR (nprod ls)) * csum (fun s => inner_product (bsize (BTuple saxes))
     (row (bsize (BTuple saxes)) (aflat u) s) (row (bsize (BTuple saxes)) (aflat v) s)) (nprod ls).
Proof. exact (fun same ls saxes u v u' v' Hs Hls Hw He Hl => unfurl_wavepacket_inner same Hs ls saxes Hls Hw He Hl u v u' v'). Qed.
Print Assumptions C28_unfurl_inner_product.

Theorem C28_unfurl_normalised :
  forall same ls saxes d out, identity_test same -> Forall (fun n => (0 < n)%nat) ls -> bwf (BTuple saxes) ->
  explicit_orthonormal (BTuple saxes) -> length ls = length saxes ->
  nprod (ashape d) = (nprod ls * bsize (BTuple saxes))%nat ->
  unfurl_wavepacket same (map BFundT ls) saxes d = Some out ->
  (forall s, (s < nprod ls)%nat ->
     inner_product (bsize (BTuple saxes)) (row (bsize (BTuple saxes)) (aflat d) s) (row (bsize (BTuple saxes)) (aflat d) s) = 1) ->
  inner_product (nprod (supercell ls (map bfund saxes))) (aflat out) (aflat out) = 1.
Proof. exact unfurl_norm. Qed.
Print Assumptions C28_unfurl_normalised.
(** Every sample in the first state: all rows normalised. *)
Example C28_unfurl_normalised_case : forall s, (s < nprod ex_ls)%nat ->
  let v := row 4 (fun t => if Nat.eqb (t mod 4) 0 then 1 else 0) s in inner_product 4 v v = 1.
Proof.
  intros s Hs v. unfold v, row, inner_product. cbn [csum].
  do 6 (destruct s as [|s]; [cbn -[Cconj]; rewrite Cconj_1, Cconj_0; ring|]). cbn in Hs. lia.
Qed.

(** With a list basis of position type the samples are mixed: only the first of two
    samples is non-zero here, yet the frequency of the second one is occupied. *)
Theorem C28_position_list_basis_refuted :
  forall same, identity_test same -> exists out,
  unfurl_wavepacket same [BFund 2] [BFundT 1] {| ashape := [2%nat]; aflat := fun t => if Nat.eqb t 0 then 1 else 0 |} = Some out /\
  aflat out 1%nat = RtoC (/ 2).
Proof. exact unfurl_position_list. Qed.
Print Assumptions C28_position_list_basis_refuted.

(** ** C61 *)

(** The state vector of one sample is its Bloch wave in the supercell. *)
Theorem C61_state_vector_is_bloch_wave :
  forall same ls saxes d idx, identity_test same -> Forall (fun n => (0 < n)%nat) ls -> bwf (BTuple saxes) ->
  explicit_orthonormal (BTuple saxes) -> length ls = length saxes ->
  nprod (ashape d) = (nprod ls * bsize (BTuple saxes))%nat -> (0 <= idx < Z.of_nat (nprod ls))%Z ->
  exists b v, get_wavepacket_state_vector same (map BFundT ls) saxes d idx = Some (b, v) /\
    map bfund b = supercell ls (map bfund saxes) /\ ashape v = [bsize (BTuple b)] /\
    forall x, in_shape x (supercell ls (map bfund saxes)) ->
      amplitude (BTuple b) (aflat v) (ravel (supercell ls (map bfund saxes)) x) =
      isqrt (nprod ls) *
      plane (supercell ls (map bfund saxes)) (sample_freqs ls (unravel ls (Z.to_nat idx))) (map Z.of_nat x) *
      amplitude (BTuple saxes) (row (bsize (BTuple saxes)) (aflat d) (Z.to_nat idx))
        (ravel (map bfund saxes) (in_cell (map bfund saxes) x)).
Proof. exact (fun same ls saxes d idx Hs Hls Hw He Hl => state_vector_spec same Hs ls saxes Hls Hw He Hl d idx). Qed.
Print Assumptions C61_state_vector_is_bloch_wave.

(** Flat indices outside the range, negative ones included, raise. *)
Theorem C61_state_vector_index_raises :
  forall same ls saxes, length ls = length saxes -> forall d idx, ~ (0 <= idx < Z.of_nat (nprod ls))%Z ->
  get_wavepacket_state_vector same (map BFundT ls) saxes d idx = None.
Proof. exact state_vector_out_of_range. Qed.
Print Assumptions C61_state_vector_index_raises.

(** Band [b] and sample [s] of [get_bloch_states] is the Bloch wave of that row. *)
Theorem C61_bloch_states_are_bloch_waves :
  forall same bb ls saxes d out, identity_test same -> Forall (fun n => (0 < n)%nat) ls -> bwf (BTuple saxes) ->
  explicit_orthonormal (BTuple saxes) -> length ls = length saxes ->
  nprod (ashape d) = (bsize bb * nprod ls * bsize (BTuple saxes))%nat ->
  get_bloch_states same bb (map BFundT ls) saxes d = Some out ->
  forall b s x, (b < bsize bb)%nat -> (s < nprod ls)%nat -> in_shape x (supercell ls (map bfund saxes)) ->
    amplitude (momenta (supercell ls (map bfund saxes)))
      (row (nprod (supercell ls (map bfund saxes))) (aflat out) (b * nprod ls + s)) (ravel (supercell ls (map bfund saxes)) x) =
    isqrt (nprod ls) * plane (supercell ls (map bfund saxes)) (sample_freqs ls (unravel ls s)) (map Z.of_nat x) *
    amplitude (BTuple saxes) (row (bsize (BTuple saxes)) (aflat d) (b * nprod ls + s))
      (ravel (map bfund saxes) (in_cell (map bfund saxes) x)).
Proof. exact (fun same bb ls saxes d out Hs Hls Hw He Hl => bloch_states_amplitude same Hs bb ls saxes Hls Hw He Hl d out). Qed.
Print Assumptions C61_bloch_states_are_bloch_waves.

Theorem C61_bloch_states_exist :
  forall same bb ls saxes d, identity_test same -> Forall (fun n => (0 < n)%nat) ls -> bwf (BTuple saxes) ->
  explicit_orthonormal (BTuple saxes) -> length ls = length saxes ->
  nprod (ashape d) = (bsize bb * nprod ls * bsize (BTuple saxes))%nat ->
  exists out, get_bloch_states same bb (map BFundT ls) saxes d = Some out /\
    ashape out = [(bsize bb * nprod ls * nprod (supercell ls (map bfund saxes)))%nat].
Proof. exact bloch_states_exist. Qed.
Print Assumptions C61_bloch_states_exist.

(** Different samples are orthogonal; within a sample inner products are kept. *)
Theorem C61_bloch_states_inner_products :
  forall same bb ls saxes d out, identity_test same -> Forall (fun n => (0 < n)%nat) ls -> bwf (BTuple saxes) ->
  explicit_orthonormal (BTuple saxes) -> length ls = length saxes ->
  nprod (ashape d) = (bsize bb * nprod ls * bsize (BTuple saxes))%nat ->
  get_bloch_states same bb (map BFundT ls) saxes d = Some out ->
  forall b s b' s', (b < bsize bb)%nat -> (b' < bsize bb)%nat -> (s < nprod ls)%nat -> (s' < nprod ls)%nat ->
    inner_product (nprod (supercell ls (map bfund saxes)))
      (row (nprod (supercell ls (map bfund saxes))) (aflat out) (b * nprod ls + s))
      (row (nprod (supercell ls (map bfund saxes))) (aflat out) (b' * nprod ls + s')) =
    cdelta s s' * inner_product (bsize (BTuple saxes)) (row (bsize (BTuple saxes)) (aflat d) (b * nprod ls + s))
      (row (bsize (BTuple saxes)) (aflat d) (b' * nprod ls + s')).
Proof. exact (fun same bb ls saxes d out Hs Hls Hw He Hl => bloch_states_inner same Hs bb ls saxes Hls Hw He Hl d out). Qed.
Print Assumptions C61_bloch_states_inner_products.

(** Unfurling a wavepacket adds up its Bloch states. *)
Theorem C61_unfurl_adds_bloch_states :
  forall same ls saxes d, identity_test same -> Forall (fun n => (0 < n)%nat) ls -> bwf (BTuple saxes) ->
  explicit_orthonormal (BTuple saxes) -> length ls = length saxes ->
  nprod (ashape d) = (nprod ls * bsize (BTuple saxes))%nat ->
  exists out st, unfurl_wavepacket same (map BFundT ls) saxes d = Some out /\
    get_bloch_states same (BFund 1) (map BFundT ls) saxes d = Some st /\
    forall x, in_shape x (supercell ls (map bfund saxes)) ->
      amplitude (momenta (supercell ls (map bfund saxes))) (aflat out) (ravel (supercell ls (map bfund saxes)) x) =
      isqrt (nprod ls) * csum (fun s => amplitude (momenta (supercell ls (map bfund saxes)))
          (row (nprod (supercell ls (map bfund saxes))) (aflat st) s) (ravel (supercell ls (map bfund saxes)) x)) (nprod ls).
Proof. exact unfurl_sum_bloch. Qed.
Print Assumptions C61_unfurl_adds_bloch_states.
