(** Model of the class BlochBasis of wavepacket/get_eigenstate.py:526-817.  No proofs here.

    Vectors are one-dimensional (the methods act on one axis of an array and treat the
    fibres along it separately).  The self-checks made when [vectors_basis.n < 9000]
    (lines 617-642 and 723-732) are not part of the functions: that they pass is one of the
    claims.  The constructor (539-549) replaces the list basis by the fundamental transformed
    one; the model starts from wavefunctions whose list basis has that form, of shape [ls].
    [nb] is the number of bands.  Different numbers of list and state axes are not
    modelled apart from giving [None]. *)
From Coq Require Import Reals.
From Verif Require Import ZLib Csum DFT NumPy Index Basis Operator Wavepacket.
Local Open Scope nat_scope.

(** [np.fft.ifftshift(a)]: every axis is rolled back by half its length. *)
Definition ifftshift_axes {A} (shape : list nat) (a : list nat -> A) : list nat -> A :=
  roll_axes shape (map (fun n => (- Z.of_nat (n / 2))%Z) shape) a.

(** wavepacket/wavepacket.py [get_wavepacket_basis] on the basis of the wavefunctions, and
    get_eigenstate.py:414-428 [_get_fundamental_wavepacket_basis]. *)
Definition wavepacket_basis (ls : list nat) (saxes : list basis) : basis :=
  BTuple [BTuple (map BFundT ls); BTuple saxes].
Definition fundamental_wavepacket_basis (ls : list nat) (saxes : list basis) : basis :=
  BTuple [as_fundamental_transformed (map BFundT ls); as_fundamental_transformed saxes].

(** wavepacket/wavepacket.py:161-187 [get_fundamental_unfurled_basis]. *)
Definition unfurled_basis (ls : list nat) (saxes : list basis) : basis :=
  BTuple (map BFundT (map2 Nat.mul ls (map bfund saxes))).

(** 669-740 [__into_fundamental__].  [k_shape] and [list_shape] are the [shape]s (702-703). *)
Definition bloch_into_fundamental (same : basis -> basis -> bool) (nb : nat) (ls : list nat) (saxes : list basis)
    (data : ndarray) (v : nat -> C) : option (nat -> C) :=
  let ns := nprod ls in
  let n := bsize (BTuple saxes) in
  let ks := map bsize saxes in
  let nd := length ks in
  if length ls =? nd then
    match reshape data [nb; ns; n],
          convert same (wavepacket_basis ls saxes) (fundamental_wavepacket_basis ls saxes) with
    | Some d, Some cv =>
        let in_basis := fun t => csum (fun i => Cmult (v (i * ns + t / n)) (at3 d i (t / n) (t mod n))) nb in
        match reshape {| ashape := [bsize (fundamental_wavepacket_basis ls saxes)]; aflat := cv in_basis |} (ls ++ ks) with
        | Some converted =>
            let shifted := fftshift_axes (ls ++ ks) (stack (ls ++ ks) (aflat converted)) in
            let perm := flat_map (fun i => [i + nd; i]) (seq 0 nd) in
            let transposed := transpose perm shifted in
            let transposed_shape := map (fun k => nth k (ls ++ ks) 0) perm in
            let final_shape := map2 Nat.mul ls ks in
            let shift := map2 (fun nl n_s => (- Z.of_nat (nl / 2 + nl * (n_s / 2)))%Z) ls ks in
            let unshifted := roll_axes final_shape shift (stack final_shape (flatten transposed_shape transposed)) in
            Some (into_fundamental (unfurled_basis ls saxes) (flatten final_shape unshifted))
        | None => None
        end
    | _, _ => None
    end
  else None.

(** 565-667 [__from_fundamental__].  [k_shape] and [list_shape] are the
    [fundamental_shape]s (580-581). *)
Definition bloch_from_fundamental (same : basis -> basis -> bool) (nb : nat) (ls : list nat) (saxes : list basis)
    (data : ndarray) (v : nat -> C) : option (nat -> C) :=
  let ns := nprod ls in
  let n := bsize (BTuple saxes) in
  let ks := map bfund saxes in
  let nd := length ks in
  if length ls =? nd then
    let in_basis := from_fundamental (unfurled_basis ls saxes) v in
    let outer_shape := map2 Nat.mul ks ls in
    let inner_shape := flat_map (fun p => [fst p; snd p]) (combine ks ls) in
    let shift := map2 (fun n_s nl => Z.of_nat (nl / 2 + nl * (n_s / 2))) ks ls in
    let shifted := stack inner_shape (flatten outer_shape (roll_axes outer_shape shift (stack outer_shape in_basis))) in
    let perm := map (fun i => 1 + 2 * i) (seq 0 nd) ++ map (fun i => 2 * i) (seq 0 nd) in
    let flipped := transpose perm shifted in
    let flipped_shape := map (fun k => nth k inner_shape 0) perm in
    let unshifted := ifftshift_axes flipped_shape flipped in
    match reshape data [nb; ns; n],
          convert same (fundamental_wavepacket_basis ls saxes) (wavepacket_basis ls saxes) with
    | Some d, Some cv =>
        let converted := cv (flatten flipped_shape unshifted) in
        Some (fun t => csum (fun k => Cmult (converted ((t mod ns) * n + k)) (Cconj (at3 d (t / ns) (t mod ns) k))) n)
    | _, _ => None
    end
  else None.

(** 790-807 [vectors_at_bloch_k] with a tuple of indices: the data of the states of the
    bands at that sample. *)
Definition vectors_at_bloch_k (nb : nat) (ls : list nat) (saxes : list basis) (data : ndarray) (idx : list Z)
  : option ndarray :=
  match get_flat_index ls idx MWrap with
  | Some i =>
      if nb * nprod ls =? 0 then None
      else if nprod (ashape data) mod (nb * nprod ls) =? 0 then
        let n := nprod (ashape data) / (nb * nprod ls) in
        Some {| ashape := [nb * n]; aflat := fun t => aflat data ((t / n * nprod ls + i) * n + t mod n) |}
      else None
  | None => None
  end.

(** explicit_basis.py: the explicit basis of the Bloch states, [ExplicitStackedBasisWithLength(self.vectors)],
    with the states ([get_bloch_states], lines 551-563) as flat data. *)
Definition explicit_bloch_basis (nb : nat) (ls : list nat) (saxes : list basis) (states : ndarray) : basis :=
  BExpl (nb * nprod ls)
    (fun k j => aflat states (k * bsize (unfurled_basis ls saxes) + j)) (unfurled_basis ls saxes).
