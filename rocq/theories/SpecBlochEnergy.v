(** Vocabulary for the statements about Bloch states and their eigenvalues. *)
From Coq Require Import Reals.
From Verif Require Import ZLib Csum DFT NumPy Spec Basis SpecBasis Operator SpecWavepacket SpecBloch.
Local Open Scope R_scope.
Local Open Scope C_scope.

(** [rows] are the rows Python's [start:stop:step] selects from [n] rows: an index from the
    end has [n] added to it, and the rows are those from [start] on (from the first row if
    [start] lies before it, from the last one if a step backwards starts after it) in steps
    of [step] as long as [stop] is not reached, in that order. *)
Definition counted (n : nat) (i : Z) : Z := if (i <? 0)%Z then (i + Z.of_nat n)%Z else i.
Definition selects_forward (n : nat) (start stop : option Z) (step : Z) (rows : list nat) : Prop :=
  let lo := match start with Some i => Z.max 0 (counted n i) | None => 0%Z end in
  let before i := match stop with Some j => (i < counted n j)%Z | None => True end in
  (forall i, In i rows <-> (i < n)%nat /\ (lo <= Z.of_nat i)%Z /\ before (Z.of_nat i) /\ Zcong step (Z.of_nat i) lo) /\
  forall a b, (a < b < length rows)%nat -> (nth a rows 0 < nth b rows 0)%nat.
Definition selects_backward (n : nat) (start stop : option Z) (step : Z) (rows : list nat) : Prop :=
  let hi := match start with Some i => Z.min (Z.of_nat n - 1) (counted n i) | None => (Z.of_nat n - 1)%Z end in
  let after i := match stop with Some j => (counted n j < i)%Z | None => True end in
  (forall i, In i rows <-> (i < n)%nat /\ (Z.of_nat i <= hi)%Z /\ after (Z.of_nat i) /\ Zcong (- step) (Z.of_nat i) hi) /\
  forall a b, (a < b < length rows)%nat -> (nth b rows 0 < nth a rows 0)%nat.
Definition selects (n : nat) (start stop step : option Z) (rows : list nat) : Prop :=
  let s := match step with Some s => s | None => 1%Z end in
  ((0 < s)%Z /\ selects_forward n start stop s rows) \/ ((s < 0)%Z /\ selects_backward n start stop s rows).

(** Component along Bloch state [r] of the function with the values [f] on the supercell. *)
Definition bloch_component (ls : list nat) (saxes : list basis) (d : ndarray) (f : nat -> C) (r : nat) : C :=
  let F := supercell ls (map bfund saxes) in
  csum (fun t => Cconj (bloch_wave ls saxes d r (unravel F t)) * f t) (nprod F).
