(** Properties of the states of the tight binding approximation (C100). *)
From Coq Require Import Reals.
From Verif Require Import ZLib Csum DFT NumPy Index Spec Basis SpecBasis BasisProofs2 Operator SpecOperator StateList SpecStateList Wavepacket SpecWavepacket
  Localize SpecLocalize SpecBloch TightCell SpecTightCell TightCellProofs TightCellProofs2 TightCellProofs3 TightCellFacts.
Local Open Scope R_scope.
Local Open Scope C_scope.

(** ** C100 *)

(** Four samples of states on three points: point 11 of 12 lies in the cell around point 0,
    point 2 does not. *)
Example C100_nonvacuous : bwf (BTuple ex_three) /\ explicit_orthonormal (BTuple ex_three) /\ map bsize ex_three = map bfund ex_three /\
  valid_origin (map bfund ex_three) (Some (Stacked [5%Z])) /\ valid_origin (map bfund ex_three) None /\
  nprod (ashape (ex_last 4)) = (nprod [4%nat] * bsize (BTuple ex_three))%nat /\ (hd 1%nat (map bfund ex_three) <= nprod [4%nat])%nat /\
  inner_product 3 (row 3 (aflat (ex_last 4)) 1) (row 3 (aflat (ex_last 4)) 1) = 1 /\
  in_cell_around (map bfund ex_three) (supercell [4%nat] (map bfund ex_three)) [0%Z] [11%nat] /\
  ~ in_cell_around (map bfund ex_three) (supercell [4%nat] (map bfund ex_three)) [0%Z] [2%nat].
Proof. exact ex_three_fact. Qed.

(** The state for one or two axes and every origin: the Bloch wave of the sample, cut to the
    points of the cell around the origin (by default around a point where the wave is
    largest) whose position along the first axis is below the number of samples. *)
Theorem C100_tight_binding_state :
  forall (same : basis -> basis -> bool), identity_test same ->
  forall (ls : list nat) (saxes : list basis) (d : ndarray) (idx : Z) (origin : option point),
    Forall (fun n => (0 < n)%nat) ls -> bwf (BTuple saxes) -> explicit_orthonormal (BTuple saxes) ->
    length ls = length saxes -> (length saxes = 1%nat \/ length saxes = 2%nat) -> map bsize saxes = map bfund saxes ->
    nprod (ashape d) = (nprod ls * bsize (BTuple saxes))%nat -> (0 <= idx < Z.of_nat (nprod ls))%Z ->
    valid_origin (map bfund saxes) origin ->
    let F := supercell ls (map bfund saxes) in
    exists o out, get_tight_binding_state same (map BFundT ls) saxes d idx origin = Some (BTuple (map BFund F), out) /\
      centre_of ls saxes d (Z.to_nat idx) origin o /\ length o = length (map bfund saxes) /\ ashape out = [nprod F] /\
      cut_wave ls saxes d (Z.to_nat idx) o (aflat out).
Proof. exact (fun same Hs ls saxes d idx origin Hls Hw He Hl Hn Hf => tight_spec same Hs ls saxes Hls Hw He Hl Hn Hf d idx origin). Qed.
Print Assumptions C100_tight_binding_state.

(** With at least as many samples as points along the first axis of the cell, it is the
    Bloch wave on the whole cell around the origin and zero elsewhere... *)
Theorem C100_whole_cell :
  forall (ls : list nat) (saxes : list basis) (d : ndarray) (r : nat) (o : list Z) (f : nat -> C),
    bwf (BTuple saxes) -> (hd 1%nat (map bfund saxes) <= nprod ls)%nat -> cut_wave ls saxes d r o f ->
    let F := supercell ls (map bfund saxes) in
    forall x, in_shape x F ->
      (in_cell_around (map bfund saxes) F o x -> f (ravel F x) = bloch_wave ls saxes d r x) /\
      (~ in_cell_around (map bfund saxes) F o x -> f (ravel F x) = 0).
Proof. exact (fun ls saxes d r o f Hw => cut_whole ls saxes Hw d r o f). Qed.
Print Assumptions C100_whole_cell.

(** ...where the cell around the origin has every point of the unit cell exactly once, *)
Theorem C100_each_point_once :
  forall (ls ss : list nat) (o : list Z) (c : list nat), length ls = length ss -> length o = length ss ->
    Forall (fun n => (0 < n)%nat) ls -> Forall (fun n => (0 < n)%nat) ss -> in_shape c ss ->
    exists x, in_shape x (supercell ls ss) /\ in_cell_around ss (supercell ls ss) o x /\ in_cell ss x = c /\
      forall x', in_shape x' (supercell ls ss) -> in_cell_around ss (supercell ls ss) o x' -> in_cell ss x' = c -> x' = x.
Proof. exact cell_once. Qed.
Print Assumptions C100_each_point_once.

(** and its squared norm is that of the sample divided by the number of samples: the state
    is not normalised. *)
Theorem C100_norm :
  forall (ls : list nat) (saxes : list basis) (d : ndarray) (r : nat) (o : list Z) (out : ndarray),
    Forall (fun n => (0 < n)%nat) ls -> bwf (BTuple saxes) -> orthonormal (BTuple saxes) -> length ls = length saxes ->
    length o = length (map bfund saxes) -> (r < nprod ls)%nat -> (hd 1%nat (map bfund saxes) <= nprod ls)%nat ->
    let F := supercell ls (map bfund saxes) in
    let N := bsize (BTuple saxes) in
    ashape out = [nprod F] -> cut_wave ls saxes d r o (aflat out) ->
    inner_product (nprod F) (aflat out) (aflat out) =
    inner_product N (row N (aflat d) r) (row N (aflat d) r) / RtoC (INR (nprod ls)).
Proof.
  exact (fun ls saxes d r o out Hls Hw Ho Hl Lo Hr Hh Sh Hc => tight_norm ls saxes Hls Hw Hl d r o out Lo Hr Ho Hh (conj Sh Hc)).
Qed.
Print Assumptions C100_norm.

(** With fewer samples, the points of the cell from the number of samples on along the first
    axis are lost, in every cell and for every origin. *)
Theorem C100_missing_points :
  forall (ls : list nat) (saxes : list basis) (d : ndarray) (r : nat) (o : list Z) (f : nat -> C) (x : list nat),
    length ls = length saxes -> saxes <> [] -> cut_wave ls saxes d r o f ->
    in_shape x (supercell ls (map bfund saxes)) -> (nprod ls <= hd 0%nat x mod hd 1%nat (map bfund saxes))%nat ->
    f (ravel (supercell ls (map bfund saxes)) x) = 0.
Proof. exact (fun ls saxes d r o f x Hl Hn Hc Hx Hm => cut_missing ls saxes Hl d r o f x Hc Hx Hm Hn). Qed.
Print Assumptions C100_missing_points.

(** Nothing is left of two samples of the state at the last of three points. *)
Theorem C100_whole_cell_for_every_sampling_refuted :
  forall (same : basis -> basis -> bool) (origin : option point), identity_test same -> valid_origin [3%nat] origin ->
    exists out, get_tight_binding_state same (map BFundT [2%nat]) ex_three (ex_last 2) 0 origin = Some (BTuple [BFund 6], out) /\
      ashape out = [6%nat] /\ forall t, (t < 6)%nat -> aflat out t = 0.
Proof. exact ex_lost. Qed.
Print Assumptions C100_whole_cell_for_every_sampling_refuted.

(** From the third axis on the function raises. *)
Theorem C100_three_axes_raise :
  forall (same : basis -> basis -> bool) (laxes saxes : list basis) (d : ndarray) (idx : Z) (origin : option point),
    (2 < length saxes)%nat -> get_tight_binding_state same laxes saxes d idx origin = None.
Proof. exact tight_raises. Qed.
Print Assumptions C100_three_axes_raise.

(** One such state per band, by default each around its own largest value. *)
Theorem C100_states_of_the_bands :
  forall (same : basis -> basis -> bool), identity_test same ->
  forall (bands : basis) (ls : list nat) (saxes : list basis) (d : ndarray) (idx : Z) (origin : option point),
    Forall (fun n => (0 < n)%nat) ls -> bwf (BTuple saxes) -> explicit_orthonormal (BTuple saxes) ->
    length ls = length saxes -> (length saxes = 1%nat \/ length saxes = 2%nat) -> map bsize saxes = map bfund saxes ->
    (0 < bsize bands)%nat -> nprod (ashape d) = (bsize bands * (nprod ls * bsize (BTuple saxes)))%nat ->
    (0 <= idx < Z.of_nat (nprod ls))%Z -> valid_origin (map bfund saxes) origin ->
    let F := supercell ls (map bfund saxes) in
    exists s, get_tight_binding_states same bands (map BFundT ls) saxes d idx origin = Some s /\
      slist s = bands /\ sbasis s = BTuple (map BFund F) /\ well_formed_list s /\
      forall b, (b < bsize bands)%nat -> exists o,
        centre_of ls saxes d (b * nprod ls + Z.to_nat idx) origin o /\
        cut_wave ls saxes d (b * nprod ls + Z.to_nat idx) o (state_of s b).
Proof. exact (fun same Hs bands ls saxes d idx origin Hls Hw He Hl Hn Hf => tight_bands same Hs ls saxes Hls Hw He Hl Hn Hf bands d idx origin). Qed.
Print Assumptions C100_states_of_the_bands.
