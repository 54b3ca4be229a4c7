(** Model of wavepacket generation and localisation: wavepacket/wavepacket.py,
    wavepacket/localization_operator.py, wavepacket/localization/_projection.py,
    wavepacket/localization/_tight_binding.py and the Wannier states of
    wavepacket/get_eigenstate.py.  No proofs here.

    Identity checks between basis objects (asserts) appear as equality of sizes. *)
From Coq Require Import Reals.
From Verif Require Import ZLib Csum DFT NumPy Interp Index Basis Operator Reduce Wavepacket.
Local Open Scope nat_scope.

(** ** wavepacket/wavepacket.py *)

(** 190-215 [get_wavepacket_sample_fractions]: fraction of sample [i] along axis [ax].
    [astype(np.float64)] keeps the real part. *)
Definition sample_fractions (same : basis -> basis -> bool) (laxes : list basis)
  : option (nat -> nat -> R) :=
  let shape := map bfund laxes in
  match convert same (as_fundamental_transformed laxes) (BTuple laxes) with
  | Some F =>
      Some (fun ax i =>
        fst (F (fun t => RtoC (IZR (stacked_nk_points shape ax t) / INR (nth ax shape 0%nat))%R) i))
  | None => None
  end.

(** state_vector/eigenstate_calculation.py:51-67 [calculate_eigenvectors_hermitian] with
    [subset_by_index]; [eigh n A lo hi] stands for scipy.linalg.eigh: eigenvalues and, in
    columns, eigenvectors.  scipy raises for an empty or out of range subset.  The rows of
    the result are the eigenvectors. *)
Definition eigh_fn := nat -> (nat -> nat -> C) -> nat -> nat -> (nat -> R) * (nat -> nat -> C).
Definition calculate_eigenvectors_hermitian (eigh : eigh_fn) (n : nat) (A : nat -> nat -> C)
    (lo hi : Z) : option ((nat -> R) * (nat -> nat -> C)) :=
  if (0 <=? lo)%Z && (lo <=? hi)%Z && (hi <? Z.of_nat n)%Z then
    let (e, v) := eigh n A (Z.to_nat lo) (Z.to_nat hi) in
    Some (e, fun k i => v i k)
  else None.

(** 241-294 [generate_uneven_wavepacket]: [frac i] is the tuple of fractions of sample
    [i] of [ns], the Hamiltonian has [n] states at every fraction, the band basis has
    [nb] states and is evenly spaced with [step] and [offset] (1 and 0 for other bases). *)
Definition generate_uneven_wavepacket (eigh : eigh_fn) (ns : nat) (frac : nat -> list R)
    (n : nat) (ham : list R -> nat -> nat -> C) (nb : nat) (step offset : Z)
  : option (ndarray * ndarray) :=
  if ns =? 0 then None (* bloch_fractions[:, 0] *)
  else
    let hi := (offset + step * (Z.of_nat nb - 1))%Z in
    match all_some (map (fun i => calculate_eigenvectors_hermitian eigh n (ham (frac i)) offset hi) (seq 0 ns)) with
    | None => None
    | Some l =>
        let state i := nth i l (fun _ => 0%R, fun _ _ => RtoC 0%R) in
        let count := Z.to_nat (hi - offset + 1) in
        match all_some (map (fun b => python_index count (step * Z.of_nat b)) (seq 0 nb)) with
        | None => None
        | Some idx =>
            Some (ravel_array (array3 nb ns n (fun b i k => snd (state i) (nth b idx 0) k)),
                  ravel_array (array2 nb ns (fun b i => RtoC (fst (state i) (nth b idx 0)))))
        end
    end.

(** 297-325 [generate_wavepacket]. *)
Definition generate_wavepacket (same : basis -> basis -> bool) (eigh : eigh_fn) (laxes : list basis)
    (n : nat) (ham : list R -> nat -> nat -> C) (nb : nat) (step offset : Z)
  : option (ndarray * ndarray) :=
  match sample_fractions same laxes with
  | Some f =>
      generate_uneven_wavepacket eigh (bsize (BTuple laxes))
        (fun i => map (fun ax => f ax i) (seq 0 (length laxes))) n ham nb step offset
  | None => None
  end.

(** 346-366 [get_wavepacket]. *)
Definition get_wavepacket (bands : basis) (data : ndarray) (idx : Z) : option ndarray :=
  if bsize bands =? 0 then None
  else if nprod (ashape data) mod bsize bands =? 0 then
    match python_index (bsize bands) idx with
    | Some i => Some (select_row {| ashape := [bsize bands; nprod (ashape data) / bsize bands]; aflat := aflat data |} i)
    | None => None
    end
  else None.

(** 475-492 [wavepacket_list_into_iter]. *)
Definition wavepacket_list_into_iter (bands : basis) (data : ndarray) : option (list ndarray) :=
  if bsize bands =? 0 then None
  else if nprod (ashape data) mod bsize bands =? 0 then
    let a := {| ashape := [bsize bands; nprod (ashape data) / bsize bands]; aflat := aflat data |} in
    Some (map (select_row a) (seq 0 (bsize bands)))
  else None.

(** 450-472 [as_wavepacket_list].  A list can be iterated twice; an iterator passed in has
    lost its first element when the data are collected.  The arrays must have one shape. *)
Inductive iterable := AList (l : list ndarray) | AnIterator (l : list ndarray).
Definition same_shape (s s' : list nat) : bool := if list_eq_dec Nat.eq_dec s s' then true else false.
Definition as_wavepacket_list (w : iterable) : option (nat * ndarray) :=
  let collect l :=
    match l with
    | [] => Some (0, {| ashape := [0]; aflat := fun _ => RtoC 0%R |})
    | a :: _ =>
        if forallb (fun b => same_shape (ashape b) (ashape a)) l then
          let n := nprod (ashape a) in
          Some (length l, {| ashape := [length l * n];
                             aflat := fun t => aflat (nth (t / n) l a) (t mod n) |})
        else None
    end in
  match w with
  | AList [] | AnIterator [] => None (* StopIteration *)
  | AList l => collect l
  | AnIterator (_ :: l) => collect l
  end.

(** wavepacket/conversion.py:279-310 [convert_wavepacket_to_shape]: every
    (old // new)-th sample along each axis; [n] states per sample. *)
Fixpoint divisible (old new : list nat) : bool :=
  match old, new with
  | [], [] => true
  | a :: old, b :: new => negb (b =? 0) && (negb (a / b =? 0)) && (a / b * b =? a) && divisible old new
  | _, _ => false
  end.
Definition convert_wavepacket_to_shape (old new : list nat) (n : nat) (data : ndarray) : option ndarray :=
  if divisible old new then
    match reshape data [nprod old; n] with
    | Some d => Some (array2 (nprod new) n (fun i k =>
        at2 d (ravel old (map2 (fun x p => x * p) (unravel new i) (map2 Nat.div old new))) k))
    | None => None
    end
  else None.

(** ** wavepacket/localization_operator.py *)

(** 82-118 [get_localized_wavepackets]: [ns] samples, [nb] bands, [nw] localised bands.
    einsum("jil,ljk->ijk"). *)
Definition localized_wavepackets (nw nb ns : nat) (op data : ndarray) : option ndarray :=
  match reshape op [ns; nw; nb] with
  | None => None
  | Some o =>
      if nb * ns =? 0 then None
      else if nprod (ashape data) mod (nb * ns) =? 0 then
        let n := nprod (ashape data) / (nb * ns) in
        let v := {| ashape := [nb; ns; n]; aflat := aflat data |} in
        Some (ravel_array (array3 nw ns n (fun i j k => csum (fun l => Cmult (at3 o j i l) (at3 v l j k)) nb)))
      else None
  end.

(** 121-153 [get_localized_hamiltonian_from_eigenvalues]: einsum("dic,cd,djc->dij").
    The number of samples of the operator is inferred in the code (-1) and taken from the
    Hamiltonian here. *)
Definition localized_hamiltonian (nw nb ns : nat) (op ham : ndarray) : option ndarray :=
  match reshape op [ns; nw; nb], reshape ham [nb; ns] with
  | Some o, Some h =>
      Some (ravel_array (array3 ns nw nw (fun d i j =>
        csum (fun c => Cmult (Cmult (at3 o d i c) (at2 h c d)) (Cconj (at3 o d j c))) nb)))
  | _, _ => None
  end.

(** 156-189 [get_diagonal_localized_wavepackets]: einsum("ji,ijk->ijk"). *)
Definition diagonal_localized_wavepackets (nb ns : nat) (op data : ndarray) : option ndarray :=
  match reshape op [ns; nb] with
  | None => None
  | Some o =>
      if nb * ns =? 0 then None
      else if nprod (ashape data) mod (nb * ns) =? 0 then
        let n := nprod (ashape data) / (nb * ns) in
        let v := {| ashape := [nb; ns; n]; aflat := aflat data |} in
        Some (ravel_array (array3 nb ns n (fun i j k => Cmult (at2 o j i) (at3 v i j k))))
      else None
  end.

(** 192-211 [get_identity_operator]: the row basis has as many states as there are
    samples. *)
Definition identity_operator (bands samples : basis) : option operator_list :=
  diagonal_operator_list_as_full
    {| lbasis := samples; lrow := BFund (bsize samples); lcol := bands;
       ldata := {| ashape := [bsize bands * bsize samples]; aflat := fun _ => RtoC 1%R |} |}.

(** ** wavepacket/localization/_projection.py *)

(** wavepacket/get_eigenstate.py:358-400 [get_states_at_bloch_idx] on a list basis of
    [nb] bands and samples [laxes] with a flat index: the bases of the states and their
    data. *)
Definition states_at_bloch_idx (same : basis -> basis -> bool) (nb : nat) (laxes saxes : list basis)
    (data : ndarray) (idx : Z) : option (list basis * ndarray) :=
  let ls := map bsize laxes in
  let ss := map bfund saxes in
  match reshape data [nb * nprod ls; bsize (BTuple saxes)],
        convert same (BTuple saxes) (as_fundamental_transformed saxes),
        get_stacked_index ls idx with
  | Some d, Some G, Some offset =>
      match sampled_basis ls ss (map Z.of_nat offset), python_index (nprod ls) idx with
      | Some b, Some i =>
          Some (b, ravel_array (array2 nb (nprod ss) (fun l k => G (at2 d (l * nprod ls + i)) k)))
      | _, _ => None
      end
  | _, _, _ => None
  end.

(** state_vector/state_vector_list.py:182-206 [calculate_inner_products] with the second
    list converted to the basis of the first; entry (i, j). *)
Definition inner_products (same : basis -> basis -> bool) (n0 n1 : nat) (b0 b1 : basis) (d0 d1 : ndarray)
  : option (nat -> nat -> C) :=
  match reshape d0 [n0; bsize b0], reshape d1 [n1; bsize b1], convert same b1 b0 with
  | Some a0, Some a1, Some F =>
      Some (fun i j => csum (fun k => Cmult (Cconj (at2 a0 i k)) (F (at2 a1 j) k)) (bsize b0))
  | _, _, _ => None
  end.

(** 98-116 [_get_orthogonal_projected_states_many_band] and 119-146
    [get_localization_operator_for_projections].  [svd m n A] stands for
    scipy.linalg.svd(full_matrices=False): u (m x r), s, v_dagger (r x n), r = min m n.
    The data are (u v_dagger) transposed, one matrix per sample.  The projections are
    converted twice to the basis of the states, the second time from that very basis, and
    the states twice to the momentum basis; one conversion of each appears here. *)
Definition svd_fn := nat -> nat -> (nat -> nat -> C) -> (nat -> nat -> C) * (nat -> R) * (nat -> nat -> C).
Definition orthogonal_projected_states (svd : svd_fn) (nb np : nat) (A : nat -> nat -> C) : nat -> nat -> C :=
  let '(u, _, vd) := svd nb np A in
  fun p b => csum (fun r => Cmult (u b r) (vd r p)) (Nat.min nb np).
Definition localization_operator_for_projections (same : basis -> basis -> bool) (svd : svd_fn)
    (nb np : nat) (laxes saxes : list basis) (data : ndarray) (pb : basis) (projections : ndarray)
  : option ndarray :=
  let ns := bsize (BTuple laxes) in
  match all_some (map (fun i =>
      match states_at_bloch_idx same nb laxes saxes data (Z.of_nat i) with
      | Some (b, d) => inner_products same nb np (BTuple b) pb d projections
      | None => None
      end) (seq 0 ns)) with
  | None => None
  | Some l =>
      Some (ravel_array (array3 ns np nb (fun s p b =>
        orthogonal_projected_states svd nb np (nth s l (fun _ _ => RtoC 0%R)) p b)))
  end.

(** ** wavepacket/localization/_tight_binding.py *)

(** np.angle. *)
Definition np_angle (z : C) : R :=
  if Req_EM_T (Cmod z) 0%R then 0%R
  else if Rlt_dec (snd z) 0%R then (- acos (fst z / Cmod z))%R else acos (fst z / Cmod z)%R.

(** A point of the unit cell: a flat index, or one index per axis. *)
Inductive point := Flat (i : Z) | Stacked (l : list Z).

(** 78-109 [_get_global_phases] of sample [s]; [np.tensordot] over the axes. *)
Definition global_phase (same : basis -> basis -> bool) (laxes saxes : list basis) (p : point)
  : option (nat -> R) :=
  let shape := map bfund saxes in
  let nx := match p with
            | Stacked l => Some l
            | Flat i => match get_stacked_index shape i with Some l => Some (map Z.of_nat l) | None => None end
            end in
  match nx, sample_fractions same laxes with
  | Some nx, Some f =>
      if (length nx =? length shape) && (length laxes =? length shape) then
        Some (fun s => (2 * PI * rsum (fun ax => f ax s * (IZR (nth ax nx 0%Z) / INR (nth ax shape 0%nat))) (length shape))%R)
      else None
  | _, _ => None
  end.

(** 112-135 [_get_bloch_wavefunction_phases]. *)
Definition bloch_phase (same : basis -> basis -> bool) (laxes saxes : list basis)
    (data : ndarray) (p : point) : option (nat -> R) :=
  let shape := map bfund saxes in
  let flat := match p with
              | Stacked l => get_flat_index shape l MWrap
              | Flat i => python_index (nprod shape) i
              end in
  match convert_wavepacket same (BTuple laxes) (BTuple saxes) (BTuple laxes) (as_fundamental_position saxes) data, flat with
  | Some d, Some x => Some (fun s => np_angle (aflat d (s * nprod shape + x)))
  | _, _ => None
  end.

(** 138-171 [localize_tightly_bound_wavepacket_idx]. *)
Definition localize_tightly_bound (same : basis -> basis -> bool) (laxes saxes : list basis)
    (data : ndarray) (p : point) (alpha : R) : option ndarray :=
  match bloch_phase same laxes saxes data p, global_phase same laxes saxes p,
        reshape data [bsize (BTuple laxes); bsize (BTuple saxes)] with
  | Some b, Some g, Some d =>
      Some (ravel_array (array2 (bsize (BTuple laxes)) (bsize (BTuple saxes))
        (fun s k => Cmult (at2 d s k) (cis (- (b s + g s - alpha))%R))))
  | _, _, _ => None
  end.

(** ** Wannier states: wavepacket/get_eigenstate.py:880-926 [get_wannier_states] *)

(** eigenstate_conversion.py:122-153 [unfurl_wavepacket_list]: one row per band. *)
Definition unfurl_wavepacket_list (same : basis -> basis -> bool) (nw : nat) (laxes saxes : list basis)
    (data : ndarray) : option (list ndarray) :=
  match wavepacket_list_into_iter (BFund nw) data with
  | Some l => all_some (map (unfurl_wavepacket same laxes saxes) l)
  | None => None
  end.
(** The shift is by the number of basis states along each axis. *)
Definition wannier_states (same : basis -> basis -> bool) (nw nb : nat) (laxes saxes : list basis)
    (op data : ndarray) : option ndarray :=
  let F := map2 Nat.mul (map bfund laxes) (map bfund saxes) in
  let ls := map bsize laxes in
  match localized_wavepackets nw nb (bsize (BTuple laxes)) op data with
  | None => None
  | Some localized =>
      match unfurl_wavepacket_list same nw laxes saxes localized,
            convert same (BTuple (map BFundT F)) (BTuple (map BFund F)) with
      | Some states, Some P =>
          let translate w idx :=
            flatten F (roll_axes F (map2 (fun n o => (- (Z.of_nat n * Z.of_nat o))%Z) (map bsize saxes) (unravel ls idx))
                         (stack F (P (aflat (nth w states {| ashape := []; aflat := fun _ => RtoC 0%R |}))))) in
          Some (ravel_array (array3 nw (nprod ls) (nprod F) (fun w idx x => translate w idx x)))
      | _, _ => None
      end
  end.

(** [np.fft.ifftn(a, norm="ortho")] and [np.fft.fftn(a, norm="ortho")] over all axes: one
    axis after the other. *)
Fixpoint ifftn_ortho (shape : list nat) (v : list nat -> C) (x : list nat) : C :=
  match shape, x with
  | n :: shape, x1 :: x => idft n (fun k => ifftn_ortho shape (fun ks => v (k :: ks)) x) x1
  | _, _ => v []
  end.
Fixpoint fftn_ortho (shape : list nat) (v : list nat -> C) (x : list nat) : C :=
  match shape, x with
  | n :: shape, x1 :: x => dft n (fun k => fftn_ortho shape (fun ks => v (k :: ks)) x) x1
  | _, _ => v []
  end.

(** 969-1028 [get_full_wannier_hamiltonian]: the energies at the samples of shape [ls] are
    put on a diagonal, transformed back over the first samples and forth over the second
    ones; the final einsum("ijkl->ikjl") leaves the index order (sample, band, sample, band). *)
Definition full_wannier_hamiltonian (nw nb : nat) (ls : list nat) (op ham : ndarray) : option ndarray :=
  let ns := nprod ls in
  match localized_hamiltonian nw nb ns op ham with
  | None => None
  | Some h =>
      let data i j k l :=
        fftn_ortho ls (fun j' => ifftn_ortho ls (fun i' =>
          Cmult (aflat h ((ravel ls i' * nw + k) * nw + l)) (cdelta (ravel ls i') (ravel ls j'))) (unravel ls i)) (unravel ls j) in
      Some {| ashape := [ns * nw * ns * nw];
              aflat := fun t => data (t / (nw * ns * nw)) ((t / nw) mod ns) ((t / (ns * nw)) mod nw) (t mod nw) |}
  end.
