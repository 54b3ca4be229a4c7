(** C133 and C134: energies in a smaller basis bound those in a larger one; how energies depend
    on the potential and the mass.
    Each theorem is closed by the proof of the named lemma. *)
From Coq Require Import Reals.
From Verif Require Import ZLib Csum DFT NumPy Basis SpecBasis Operator SpecOperator SpecMatrix OperatorProofs Localize SpecLocalize Spectral3
  EigenBasis SpecInterlace InterlaceProofs InterlaceProofs2 InterlaceProofs3 EigenBasisFacts
  SpecReal Lattice SpecWavepacket Hamiltonian SpecHamiltonian HamiltonianFacts InterlaceFacts.
Local Open Scope R_scope.

(** A Hermitian operator converted to fewer states: each of its energies, counted from the
    lowest, is an upper bound of the energy of the same number, and counted from the highest a
    lower bound. *)
Theorem C133_fewer_states :
  forall same eigh o a b, identity_test same -> eigh_ok eigh ->
  orow o = a -> ocol o = a -> op_wf o -> hermitian (bsize a) (op_entry o) ->
  bwf a -> explicit_orthonormal a -> bwf b -> explicit_orthonormal b -> compatible a b -> states_within b a ->
  exists o', convert_operator_to_basis same o b b = Some o' /\ (bsize b <= bsize a)%nat /\
  (forall lo hi, (lo <= hi)%nat -> (hi < bsize b)%nat -> exists e v e' v',
    eigenstates_hermitian eigh o (Some (Z.of_nat lo, Z.of_nat hi)) = Some ((hi - lo + 1)%nat, e, v) /\
    eigenstates_hermitian eigh o' (Some (Z.of_nat lo, Z.of_nat hi)) = Some ((hi - lo + 1)%nat, e', v') /\
    forall k, (k < hi - lo + 1)%nat -> e k <= e' k) /\
  exists e v e' v', eigenstates_hermitian eigh o None = Some (bsize a, e, v) /\
    eigenstates_hermitian eigh o' None = Some (bsize b, e', v') /\
    forall k, (k < bsize b)%nat -> e k <= e' k /\ e' k <= e (k + (bsize a - bsize b))%nat.
Proof. exact energies_bound. Qed.
Print Assumptions C133_fewer_states.

(** The same for one operator converted to two bases, the states of [c] being combinations of
    those of [b]: adding states to a basis lowers every energy or leaves it. *)
Theorem C133_nested_bases :
  forall same eigh o a b c, identity_test same -> eigh_ok eigh ->
  orow o = a -> ocol o = a -> op_wf o -> hermitian (bsize a) (op_entry o) ->
  bwf a -> explicit_orthonormal a -> bwf b -> explicit_orthonormal b -> bwf c -> explicit_orthonormal c ->
  compatible a b -> compatible a c -> compatible b c -> states_within c b ->
  exists ob oc, convert_operator_to_basis same o b b = Some ob /\ convert_operator_to_basis same o c c = Some oc /\ (bsize c <= bsize b)%nat /\
  (forall lo hi, (lo <= hi)%nat -> (hi < bsize c)%nat -> exists e v e' v',
    eigenstates_hermitian eigh ob (Some (Z.of_nat lo, Z.of_nat hi)) = Some ((hi - lo + 1)%nat, e, v) /\
    eigenstates_hermitian eigh oc (Some (Z.of_nat lo, Z.of_nat hi)) = Some ((hi - lo + 1)%nat, e', v') /\
    forall k, (k < hi - lo + 1)%nat -> e k <= e' k) /\
  exists e v e' v', eigenstates_hermitian eigh ob None = Some (bsize b, e, v) /\
    eigenstates_hermitian eigh oc None = Some (bsize c, e', v') /\
    forall k, (k < bsize c)%nat -> e k <= e' k /\ e' k <= e (k + (bsize b - bsize c))%nat.
Proof. exact nested_energies. Qed.
Print Assumptions C133_nested_bases.

(** Hamiltonians of one potential built in two bases on the same grid, one within the other:
    the energies in the smaller basis lie between those of the larger basis counted from the
    lowest and from the highest. *)
Theorem C133_hamiltonian :
  forall same eigh hbar mass axes axes' delta inv frac data data', identity_test same -> eigh_ok eigh ->
  bwf (BTuple axes) -> explicit_orthonormal (BTuple axes) -> bwf (BTuple axes') -> explicit_orthonormal (BTuple axes') ->
  is_inverse (length axes) delta inv -> map bfund axes' = map bfund axes -> states_within (BTuple axes') (BTuple axes) ->
  real_valued (BTuple axes) data ->
  (forall x, (x < nprod (map bfund axes))%nat -> amplitude (BTuple axes') data' x = amplitude (BTuple axes) data x) ->
  let n := bsize (BTuple axes) in let n' := bsize (BTuple axes') in
  exists H H', total_surface_hamiltonian same hbar axes inv data mass frac = Some H /\
    total_surface_hamiltonian same hbar axes' inv data' mass frac = Some H' /\ (n' <= n)%nat /\
  forall lo hi, (lo <= hi)%nat -> (hi < n')%nat -> exists e v e' v' f w,
    eigenstates_hermitian eigh H (Some (Z.of_nat lo, Z.of_nat hi)) = Some ((hi - lo + 1)%nat, e, v) /\
    eigenstates_hermitian eigh H' (Some (Z.of_nat lo, Z.of_nat hi)) = Some ((hi - lo + 1)%nat, e', v') /\
    eigenstates_hermitian eigh H (Some (Z.of_nat (lo + (n - n')), Z.of_nat (hi + (n - n')))) = Some ((hi - lo + 1)%nat, f, w) /\
    forall k, (k < hi - lo + 1)%nat -> e k <= e' k /\ e' k <= f k.
Proof. exact hamiltonian_nested. Qed.
Print Assumptions C133_hamiltonian.

(** Bases within others: any basis within a complete one, combinations of the states of a
    basis, and plane waves truncated to a smaller number along every axis. *)
Theorem C133_within_complete : forall a b, bfund b = bfund a -> complete a -> states_within b a.
Proof. exact within_complete. Qed.
Print Assumptions C133_within_complete.
Theorem C133_within_explicit : forall n v a, states_within (BExpl n v a) a.
Proof. exact within_explicit. Qed.
Print Assumptions C133_within_explicit.
Theorem C133_within_truncated :
  forall sizes, Forall (fun s => (0 < fst (fst s) <= snd (fst s))%nat /\ (snd (fst s) <= snd s)%nat) sizes ->
  states_within (BTuple (map (fun s => BTrans (fst (fst s)) (snd s)) sizes)) (BTuple (map (fun s => BTrans (snd (fst s)) (snd s)) sizes)).
Proof. exact within_momenta. Qed.
Print Assumptions C133_within_truncated.

(** The hop between two plane waves, in both of them and in one of them. *)
Example C133_case : op_wf hop /\ hermitian (bsize (orow hop)) (op_entry hop) /\ bwf (orow hop) /\ explicit_orthonormal (orow hop) /\
  bwf both /\ explicit_orthonormal both /\ bwf one /\ explicit_orthonormal one /\
  compatible (orow hop) both /\ compatible (orow hop) one /\ compatible both one /\ states_within one both /\ states_within one (orow hop) /\
  bsize one = 1%nat /\ bsize both = 2%nat.
Proof. exact ex_one. Qed.
Example C133_eigh_case : exists eigh, eigh_ok eigh.
Proof. exact eigh_exists. Qed.
Example C133_hamiltonian_case : bwf (BTuple all_axes) /\ explicit_orthonormal (BTuple all_axes) /\ bwf (BTuple cos_axes) /\ explicit_orthonormal (BTuple cos_axes) /\
  is_inverse (length all_axes) (fun _ _ => 1) (fun _ _ => 1) /\ map bfund cos_axes = map bfund all_axes /\
  states_within (BTuple cos_axes) (BTuple all_axes) /\ real_valued (BTuple all_axes) all_data /\ real_valued (BTuple cos_axes) cos_data /\
  (forall x, amplitude (BTuple cos_axes) cos_data x = amplitude (BTuple all_axes) all_data x) /\
  bsize (BTuple cos_axes) = 3%nat /\ bsize (BTuple all_axes) = 5%nat.
Proof. exact ex_cos_nested. Qed.

(** ** C134 *)

(** Where one potential exceeds another by at most [d] and its mass is not smaller, every energy
    exceeds the other by at most [d]: raising a potential or lowering the mass lowers no energy. *)
Theorem C134_order :
  forall same eigh hbar mass mass' axes delta inv frac data data' d, identity_test same -> eigh_ok eigh ->
  bwf (BTuple axes) -> explicit_orthonormal (BTuple axes) -> is_inverse (length axes) delta inv ->
  real_valued (BTuple axes) data -> real_valued (BTuple axes) data' -> 0 < mass' -> mass' <= mass ->
  (forall x, (x < nprod (map bfund axes))%nat -> fst (amplitude (BTuple axes) data x) <= fst (amplitude (BTuple axes) data' x) + d) ->
  let n := bsize (BTuple axes) in
  exists H H', total_surface_hamiltonian same hbar axes inv data mass frac = Some H /\
    total_surface_hamiltonian same hbar axes inv data' mass' frac = Some H' /\
  forall lo hi, (lo <= hi)%nat -> (hi < n)%nat -> exists e v e' v',
    eigenstates_hermitian eigh H (Some (Z.of_nat lo, Z.of_nat hi)) = Some ((hi - lo + 1)%nat, e, v) /\
    eigenstates_hermitian eigh H' (Some (Z.of_nat lo, Z.of_nat hi)) = Some ((hi - lo + 1)%nat, e', v') /\
    forall k, (k < hi - lo + 1)%nat -> e k <= e' k + d.
Proof. exact hamiltonian_compare. Qed.
Print Assumptions C134_order.

(** Potentials that differ by at most [d] on the grid have energies that differ by at most [d]. *)
Theorem C134_stability :
  forall same eigh hbar mass axes delta inv frac data data' d, identity_test same -> eigh_ok eigh ->
  bwf (BTuple axes) -> explicit_orthonormal (BTuple axes) -> is_inverse (length axes) delta inv ->
  real_valued (BTuple axes) data -> real_valued (BTuple axes) data' -> 0 < mass ->
  (forall x, (x < nprod (map bfund axes))%nat -> Rabs (fst (amplitude (BTuple axes) data x) - fst (amplitude (BTuple axes) data' x)) <= d) ->
  let n := bsize (BTuple axes) in
  exists H H', total_surface_hamiltonian same hbar axes inv data mass frac = Some H /\
    total_surface_hamiltonian same hbar axes inv data' mass frac = Some H' /\
  forall lo hi, (lo <= hi)%nat -> (hi < n)%nat -> exists e v e' v',
    eigenstates_hermitian eigh H (Some (Z.of_nat lo, Z.of_nat hi)) = Some ((hi - lo + 1)%nat, e, v) /\
    eigenstates_hermitian eigh H' (Some (Z.of_nat lo, Z.of_nat hi)) = Some ((hi - lo + 1)%nat, e', v') /\
    forall k, (k < hi - lo + 1)%nat -> Rabs (e k - e' k) <= d.
Proof. exact hamiltonian_stable. Qed.
Print Assumptions C134_stability.
(** The cosine potential, which is not constant (C33), differs from zero by less than two. *)
Example C134_case : real_valued (BTuple cos_axes) cos_data /\ real_valued (BTuple cos_axes) (fun _ => RtoC 0) /\
  forall x, Rabs (fst (amplitude (BTuple cos_axes) cos_data x) - fst (amplitude (BTuple cos_axes) (fun _ => RtoC 0) x)) <= 2.
Proof. exact ex_cos_zero. Qed.
