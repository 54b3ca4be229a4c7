(** Concrete Wannier states (C109): two cells and two bands, the operator of localisation
    exchanging the bands. *)
From Coq Require Import Reals Psatz.
From Verif Require Import ZLib Csum DFT NumPy Index IndexProofs AxesProofs Spec Basis SpecBasis BasisProofs Operator SpecOperator
  StateList Wavepacket SpecWavepacket SpecMatrix Localize SpecLocalize WannierBasis SpecWannierBasis.
Local Open Scope R_scope.
Local Open Scope C_scope.

Definition ex_exchange : ndarray :=
  {| ashape := [8%nat]; aflat := fun t => if Nat.eqb ((t / 2) mod 2) (t mod 2) then RtoC 0%R else Ci |}.
Definition ex_plane_bands : ndarray :=
  {| ashape := [8%nat]; aflat := fun t => if Nat.eqb (t / 4) (t mod 2) then RtoC 1%R else RtoC 0%R |}.
Definition ex_energies : ndarray := {| ashape := [4%nat]; aflat := fun t => RtoC (INR (t * t)) |}.
Lemma ex_exchange_ok : Forall (fun n => (0 < n)%nat) [2%nat] /\ bwf (BTuple [BFundT 2]) /\ explicit_orthonormal (BTuple [BFundT 2]) /\
  nprod (ashape ex_exchange) = (nprod [2%nat] * 2 * 2)%nat /\ nprod (ashape ex_plane_bands) = (2 * nprod [2%nat] * bsize (BTuple [BFundT 2]))%nat /\
  nprod (ashape ex_energies) = (2 * nprod [2%nat])%nat /\
  map bsize [BFundT 2] = map bfund [BFundT 2] /\
  (forall s, (s < 2)%nat -> orthonormal_rows 2 2 (at_sample 2 2 ex_exchange s)) /\
  (forall s, (s < 2)%nat -> orthonormal_columns 2 2 (at_sample 2 2 ex_exchange s)) /\
  (forall s l m, (s < 2)%nat -> (l < 2)%nat -> (m < 2)%nat -> inner_product 2 (band_state 2 2 ex_plane_bands s l) (band_state 2 2 ex_plane_bands s m) = cdelta l m).
Proof.
  split; [repeat constructor|]. split; [cbn; repeat split; lia|]. split; [cbn; repeat split|]. do 4 (split; [reflexivity|]).
  split; [|split].
  - intros s Hs i j Hi Hj. destruct s as [|[|s]]; [| |lia]; destruct i as [|[|i]]; try lia; destruct j as [|[|j]]; try lia;
      unfold csum, at_sample; cbn; apply injective_projections; cbn; ring.
  - intros s Hs i j Hi Hj. destruct s as [|[|s]]; [| |lia]; destruct i as [|[|i]]; try lia; destruct j as [|[|j]]; try lia;
      unfold csum, at_sample; cbn; apply injective_projections; cbn; ring.
  - intros s i j Hs Hi Hj. destruct s as [|[|s]]; [| |lia]; destruct i as [|[|i]]; try lia; destruct j as [|[|j]]; try lia;
      unfold inner_product, csum, band_state, row; cbn; apply injective_projections; cbn; ring.
Qed.
Definition ex_phases : diagonal_localization :=
  {| dl_samples := BTuple [BFundT 2]; dl_bands := BFund 2; dl_data := {| ashape := [4%nat]; aflat := fun t => if Nat.even t then Ci else RtoC 1%R |} |}.
