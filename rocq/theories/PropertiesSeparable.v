(** Potentials which are sums over two groups of axes (C139). *)
From Coq Require Import Reals.
From Verif Require Import ZLib Csum DFT NumPy Spec SpecReal Basis SpecBasis Operator SpecOperator Wavepacket SpecWavepacket Hamiltonian SpecHamiltonian
  Localize SpecLocalize Dynamics SeparableProofs SeparableProofs2 SeparableProofs3 SeparableFacts.
Local Open Scope R_scope.
Local Open Scope C_scope.

(** Two skew axes and one perpendicular to both, and a potential which is a sum. *)
Example C139_case :
  bwf (BTuple [BFund 2; BFund 2]) /\ bwf (BTuple [BFund 3]) /\
  explicit_orthonormal (BTuple [BFund 2; BFund 2]) /\ explicit_orthonormal (BTuple [BFund 3]) /\
  is_inverse (2 + 1) slab_lattice slab_inverse /\
  (forall a c, (a < 2)%nat -> (2 <= c < 2 + 1)%nat -> slab_lattice a c = 0%R /\ slab_lattice c a = 0%R) /\
  (forall x1 x2, (x1 < bfund (BTuple [BFund 2; BFund 2]))%nat -> (x2 < bfund (BTuple [BFund 3]))%nat ->
    amplitude (BTuple ([BFund 2; BFund 2] ++ [BFund 3])) both (x1 * bfund (BTuple [BFund 3]) + x2)
    = amplitude (BTuple [BFund 2; BFund 2]) in_plane x1 + amplitude (BTuple [BFund 3]) upwards x2).
Proof.
  split; [cbn; lia|]. split; [cbn; lia|]. split; [cbn; auto|]. split; [cbn; auto|]. split; [exact slab_inverse_ok|].
  split; [exact slab_block|exact both_separable].
Qed.

(** If the lattice vectors of the first axes are perpendicular to those of the last ones and the
    potential is a sum of a function of the first and one of the last coordinates, the Hamiltonian
    is the Hamiltonian of the first axes times one, plus one times that of the last axes. *)
Theorem C139_elements :
  forall same la lb delta inv hbar mass frac,
  identity_test same -> bwf (BTuple la) -> bwf (BTuple lb) -> explicit_orthonormal (BTuple la) -> explicit_orthonormal (BTuple lb) ->
  let d := length la in
  is_inverse (d + length lb) delta inv ->
  (forall a c, (a < d)%nat -> (d <= c < d + length lb)%nat -> delta a c = 0%R /\ delta c a = 0%R) ->
  let inv' a c := inv (d + a)%nat (d + c)%nat in
  let frac' := match frac with None => None | Some f => Some (fun a => f (d + a)%nat) end in
  let n := bsize (BTuple la) in let m := bsize (BTuple lb) in
  forall data data1 data2,
  (forall x y, (x < bfund (BTuple la))%nat -> (y < bfund (BTuple lb))%nat ->
     amplitude (BTuple (la ++ lb)) data (x * bfund (BTuple lb) + y) = amplitude (BTuple la) data1 x + amplitude (BTuple lb) data2 y) ->
  exists H H1 H2, total_surface_hamiltonian same hbar (la ++ lb) inv data mass frac = Some H /\
    total_surface_hamiltonian same hbar la inv data1 mass frac = Some H1 /\
    total_surface_hamiltonian same hbar lb inv' data2 mass frac' = Some H2 /\
    square (n * m) H /\ square n H1 /\ square m H2 /\
    forall i1 i2 j1 j2, (i1 < n)%nat -> (i2 < m)%nat -> (j1 < n)%nat -> (j2 < m)%nat ->
      op_entry H (i1 * m + i2) (j1 * m + j2) = op_entry H1 i1 j1 * cdelta i2 j2 + cdelta i1 j1 * op_entry H2 i2 j2.
Proof.
  intros same la lb delta inv hbar mass frac Hs WA WB OA OB d Hi Hb inv' frac' n m.
  exact (separable_elements same la lb delta inv hbar mass frac Hs WA WB OA OB Hi Hb).
Qed.
Print Assumptions C139_elements.

(** Its energies are all the sums of one energy of each, every pair once; the lowest is the sum of
    the lowest. *)
Theorem C139_energies :
  forall same la lb delta inv hbar mass frac,
  identity_test same -> bwf (BTuple la) -> bwf (BTuple lb) -> explicit_orthonormal (BTuple la) -> explicit_orthonormal (BTuple lb) ->
  let d := length la in
  is_inverse (d + length lb) delta inv ->
  (forall a c, (a < d)%nat -> (d <= c < d + length lb)%nat -> delta a c = 0%R /\ delta c a = 0%R) ->
  let inv' a c := inv (d + a)%nat (d + c)%nat in
  let frac' := match frac with None => None | Some f => Some (fun a => f (d + a)%nat) end in
  let n := bsize (BTuple la) in let m := bsize (BTuple lb) in
  forall data data1 data2 E E1 E2 H H1 H2,
  (forall x y, (x < bfund (BTuple la))%nat -> (y < bfund (BTuple lb))%nat ->
     amplitude (BTuple (la ++ lb)) data (x * bfund (BTuple lb) + y) = amplitude (BTuple la) data1 x + amplitude (BTuple lb) data2 y) ->
  total_surface_hamiltonian same hbar (la ++ lb) inv data mass frac = Some H ->
  total_surface_hamiltonian same hbar la inv data1 mass frac = Some H1 ->
  total_surface_hamiltonian same hbar lb inv' data2 mass frac' = Some H2 ->
  ascending_spectrum (n * m) (op_entry H) E -> ascending_spectrum n (op_entry H1) E1 -> ascending_spectrum m (op_entry H2) E2 ->
  (exists a b : nat -> nat, (forall k, (k < n * m)%nat -> (a k < n)%nat /\ (b k < m)%nat /\ E k = (E1 (a k) + E2 (b k))%R) /\
    (forall k l, (k < n * m)%nat -> (l < n * m)%nat -> a k = a l -> b k = b l -> k = l)) /\
  E 0%nat = (E1 0%nat + E2 0%nat)%R.
Proof.
  intros same la lb delta inv hbar mass frac Hs WA WB OA OB d Hi Hb inv' frac' n m.
  exact (separable_energies same la lb delta inv hbar mass frac Hs WA WB OA OB Hi Hb).
Qed.
Print Assumptions C139_energies.

(** Evolving a product of a state of the first axes and one of the last gives at every time the
    product of the two evolved states. *)
Theorem C139_evolution :
  forall same la lb delta inv hbar mass frac,
  identity_test same -> bwf (BTuple la) -> bwf (BTuple lb) -> explicit_orthonormal (BTuple la) -> explicit_orthonormal (BTuple lb) ->
  let d := length la in
  is_inverse (d + length lb) delta inv ->
  (forall a c, (a < d)%nat -> (d <= c < d + length lb)%nat -> delta a c = 0%R /\ delta c a = 0%R) ->
  let inv' a c := inv (d + a)%nat (d + c)%nat in
  let frac' := match frac with None => None | Some f => Some (fun a => f (d + a)%nat) end in
  let n := bsize (BTuple la) in let m := bsize (BTuple lb) in
  forall data data1 data2, real_valued (BTuple la) data1 -> real_valued (BTuple lb) data2 ->
  (forall x y, (x < bfund (BTuple la))%nat -> (y < bfund (BTuple lb))%nat ->
     amplitude (BTuple (la ++ lb)) data (x * bfund (BTuple lb) + y) = amplitude (BTuple la) data1 x + amplitude (BTuple lb) data2 y) ->
  exists H H1 H2, total_surface_hamiltonian same hbar (la ++ lb) inv data mass frac = Some H /\
    total_surface_hamiltonian same hbar la inv data1 mass frac = Some H1 /\
    total_surface_hamiltonian same hbar lb inv' data2 mass frac' = Some H2 /\
    forall eigh psi u w nt times, eigh_ok eigh -> hbar <> 0%R ->
    (forall i j, (i < n)%nat -> (j < m)%nat -> psi (i * m + j)%nat = u i * w j) ->
    exists out out1 out2,
      solve_schrodinger_equation_decomposition eigh hbar psi nt times H = Some out /\ ashape out = [nt; (n * m)%nat] /\
      solve_schrodinger_equation_decomposition eigh hbar u nt times H1 = Some out1 /\ ashape out1 = [nt; n] /\
      solve_schrodinger_equation_decomposition eigh hbar w nt times H2 = Some out2 /\ ashape out2 = [nt; m] /\
      forall s i j, (s < nt)%nat -> (i < n)%nat -> (j < m)%nat ->
        at2 out s (i * m + j) = at2 out1 s i * at2 out2 s j.
Proof. exact separable_evolution. Qed.
Print Assumptions C139_evolution.
Example C139_real : real_valued (BTuple [BFund 2; BFund 2]) in_plane /\ real_valued (BTuple [BFund 3]) upwards.
Proof. split; [exact in_plane_real|exact upwards_real]. Qed.
