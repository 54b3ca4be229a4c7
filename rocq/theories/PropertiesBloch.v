(** Properties of BlochBasis (C98). *)
From Coq Require Import Reals.
From Verif Require Import ZLib Csum DFT NumPy Index Spec Basis SpecBasis Operator SpecOperator Wavepacket SpecWavepacket
  BlochBasis SpecBloch BlochProofs2 BlochProofs3 BlochFacts.
Local Open Scope R_scope.
Local Open Scope C_scope.

(** ** C98 *)

(** Two bands, two samples and two points per cell meet the hypotheses below. *)
Example C98_nonvacuous : let d := ex_bloch_data in
  nprod (ashape d) = (2 * nprod [2%nat] * bsize (BTuple ex_bloch_axes))%nat /\ bwf (BTuple ex_bloch_axes) /\
  explicit_orthonormal (BTuple ex_bloch_axes) /\ map bsize ex_bloch_axes = map bfund ex_bloch_axes /\
  bands_orthonormal 2 [2%nat] ex_bloch_axes d /\ aflat d 0%nat <> aflat d 1%nat.
Proof. exact ex_bloch_fact. Qed.
Example C98_nonvacuous_truncated :
  bsize (BTuple [BTrans 2 3]) <> nprod (map bfund [BTrans 2 3]) /\ bwf (BTuple [BTrans 2 3]).
Proof. exact ex_truncated_fact. Qed.

(** Into the points of the supercell: the superposition of the Bloch waves with the given
    coefficients. *)
Theorem C98_into_is_superposition :
  forall (same : basis -> basis -> bool), identity_test same ->
  forall (nb : nat) (ls : list nat) (saxes : list basis) (d : ndarray) (v : nat -> C),
    Forall (fun n => (0 < n)%nat) ls -> bwf (BTuple saxes) -> explicit_orthonormal (BTuple saxes) ->
    length ls = length saxes ->
    nprod (ashape d) = (nb * nprod ls * bsize (BTuple saxes))%nat ->
    map bsize saxes = map bfund saxes ->
    exists out, bloch_into_fundamental same nb ls saxes d v = Some out /\
      forall x, in_shape x (supercell ls (map bfund saxes)) ->
        out (ravel (supercell ls (map bfund saxes)) x) =
        csum (fun r => v r * bloch_wave ls saxes d r x) (nb * nprod ls).
Proof. exact (fun same Hs nb ls saxes d v Hls Hw He Hl => bloch_into_waves same Hs nb ls saxes Hls Hw He Hl d v). Qed.
Print Assumptions C98_into_is_superposition.

(** From the points of the supercell: the inner products with the Bloch waves, for
    truncated state bases too. *)
Theorem C98_from_is_projection :
  forall (same : basis -> basis -> bool), identity_test same ->
  forall (nb : nat) (ls : list nat) (saxes : list basis) (d : ndarray) (v : nat -> C),
    Forall (fun n => (0 < n)%nat) ls -> bwf (BTuple saxes) -> explicit_orthonormal (BTuple saxes) ->
    length ls = length saxes ->
    nprod (ashape d) = (nb * nprod ls * bsize (BTuple saxes))%nat ->
    let F := supercell ls (map bfund saxes) in
    exists out, bloch_from_fundamental same nb ls saxes d v = Some out /\
      forall r, (r < nb * nprod ls)%nat ->
        out r = csum (fun t => Cconj (bloch_wave ls saxes d r (unravel F t)) * v t) (nprod F).
Proof. exact (fun same Hs nb ls saxes d v Hls Hw He Hl => bloch_from_waves same Hs nb ls saxes Hls Hw He Hl d v). Qed.
Print Assumptions C98_from_is_projection.

(** The comparison with the explicit basis of the Bloch states that the methods make for
    small bases would succeed for every size. *)
Theorem C98_agrees_with_explicit_states :
  forall (same : basis -> basis -> bool), identity_test same ->
  forall (bb : basis) (ls : list nat) (saxes : list basis) (d states : ndarray) (v : nat -> C),
    Forall (fun n => (0 < n)%nat) ls -> bwf (BTuple saxes) -> explicit_orthonormal (BTuple saxes) ->
    length ls = length saxes ->
    nprod (ashape d) = (bsize bb * nprod ls * bsize (BTuple saxes))%nat ->
    get_bloch_states same bb (map BFundT ls) saxes d = Some states ->
    (map bsize saxes = map bfund saxes ->
     exists out, bloch_into_fundamental same (bsize bb) ls saxes d v = Some out /\
       forall x, (x < nprod (supercell ls (map bfund saxes)))%nat ->
         out x = into_fundamental (explicit_bloch_basis (bsize bb) ls saxes states) v x) /\
    (exists out, bloch_from_fundamental same (bsize bb) ls saxes d v = Some out /\
       forall r, (r < bsize bb * nprod ls)%nat ->
         out r = from_fundamental (explicit_bloch_basis (bsize bb) ls saxes states) v r).
Proof.
  intros same Hs bb ls saxes d st v Hls Hw He Hl Hd E. split.
  - intros Hf. exact (bloch_into_explicit same Hs bb ls saxes Hls Hw He Hl d st v Hd Hf E).
  - exact (bloch_from_explicit same Hs bb ls saxes Hls Hw He Hl d st v Hd E).
Qed.
Print Assumptions C98_agrees_with_explicit_states.

(** With bands orthonormal at every sample, converting to points and back gives the
    coefficients. *)
Theorem C98_round_trip :
  forall (same : basis -> basis -> bool), identity_test same ->
  forall (nb : nat) (ls : list nat) (saxes : list basis) (d : ndarray) (v out : nat -> C),
    Forall (fun n => (0 < n)%nat) ls -> bwf (BTuple saxes) -> explicit_orthonormal (BTuple saxes) ->
    length ls = length saxes ->
    nprod (ashape d) = (nb * nprod ls * bsize (BTuple saxes))%nat -> bands_orthonormal nb ls saxes d ->
    bloch_into_fundamental same nb ls saxes d v = Some out -> map bsize saxes = map bfund saxes ->
    exists back, bloch_from_fundamental same nb ls saxes d out = Some back /\
      forall r, (r < nb * nprod ls)%nat -> back r = v r.
Proof. exact (fun same Hs nb ls saxes d v out Hls Hw He Hl => bloch_round_trip same Hs nb ls saxes Hls Hw He Hl d v out). Qed.
Print Assumptions C98_round_trip.

(** With as many bands as states of the cell, converting from points and back gives the
    function on the supercell. *)
Theorem C98_all_bands_are_complete :
  forall (same : basis -> basis -> bool), identity_test same ->
  forall (nb : nat) (ls : list nat) (saxes : list basis) (d : ndarray) (v : nat -> C),
    Forall (fun n => (0 < n)%nat) ls -> bwf (BTuple saxes) -> explicit_orthonormal (BTuple saxes) ->
    length ls = length saxes ->
    nprod (ashape d) = (nb * nprod ls * bsize (BTuple saxes))%nat -> bands_orthonormal nb ls saxes d ->
    map bsize saxes = map bfund saxes -> nb = bsize (BTuple saxes) ->
    exists comps out, bloch_from_fundamental same nb ls saxes d v = Some comps /\
      bloch_into_fundamental same nb ls saxes d comps = Some out /\
      forall t, (t < nprod (supercell ls (map bfund saxes)))%nat -> out t = v t.
Proof. exact (fun same Hs nb ls saxes d v Hls Hw He Hl => bloch_resolution same Hs nb ls saxes Hls Hw He Hl d v). Qed.
Print Assumptions C98_all_bands_are_complete.

(** With a truncated state basis the conversion into points raises, whatever the
    wavefunctions. *)
Theorem C98_into_raises_when_truncated :
  forall (same : basis -> basis -> bool) (nb : nat) (ls : list nat) (saxes : list basis) (d : ndarray) (v : nat -> C),
    Forall (fun n => (0 < n)%nat) ls -> length ls = length saxes ->
    bsize (BTuple saxes) <> nprod (map bfund saxes) ->
    bloch_into_fundamental same nb ls saxes d v = None.
Proof. exact (fun same nb ls saxes d v Hls Hl => bloch_into_truncated same nb ls saxes Hls Hl d v). Qed.
Print Assumptions C98_into_raises_when_truncated.

(** The states at a tuple of integers are those of the sample congruent to it. *)
Theorem C98_states_at_momentum :
  forall (nb : nat) (ls : list nat) (saxes : list basis) (d : ndarray) (idx : list Z),
    (0 < nb)%nat -> Forall (fun n => (0 < n)%nat) ls -> length idx = length ls ->
    nprod (ashape d) = (nb * nprod ls * bsize (BTuple saxes))%nat ->
    exists s out, vectors_at_bloch_k nb ls saxes d idx = Some out /\ in_shape s ls /\
      Forall2 (fun n p => Zcong (Z.of_nat n) (Z.of_nat (fst p)) (snd p)) ls (combine s idx) /\
      ashape out = [(nb * bsize (BTuple saxes))%nat] /\
      forall b k, (b < nb)%nat -> (k < bsize (BTuple saxes))%nat ->
        aflat out (b * bsize (BTuple saxes) + k)%nat =
        row (bsize (BTuple saxes)) (aflat d) (b * nprod ls + ravel ls s) k.
Proof. exact vectors_at_spec. Qed.
Print Assumptions C98_states_at_momentum.
