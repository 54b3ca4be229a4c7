(** Model of wavepacket/wavepacket.py, wavepacket/conversion.py,
    wavepacket/eigenstate_conversion.py and parts of wavepacket/get_eigenstate.py.
    No proofs here.

    A wavepacket has a list basis (the Bloch samples) and a state basis, both stacked;
    its data is an array with one row per sample.  Lengths ([delta_x]) do not appear. *)
From Coq Require Import Reals.
From Verif Require Import ZLib Csum DFT NumPy Interp Index Basis Operator Reduce.
Local Open Scope nat_scope.

(** [np.roll(a, shift, axes)] over all axes of an array of shape [shape]. *)
Fixpoint roll_indices (shape : list nat) (shift : list Z) (idx : list nat) : list nat :=
  match shape, shift, idx with
  | n :: shape, d :: shift, i :: idx =>
      Z.to_nat ((Z.of_nat i - d) mod Z.of_nat n) :: roll_indices shape shift idx
  | _, _, _ => []
  end.
Definition roll_axes {A} (shape : list nat) (shift : list Z) (a : list nat -> A) : list nat -> A :=
  fun idx => a (roll_indices shape shift idx).
(** [np.fft.fftshift(a)]: every axis is rolled by half its length. *)
Definition fftshift_axes {A} (shape : list nat) (a : list nat -> A) : list nat -> A :=
  roll_axes shape (map (fun n => Z.of_nat (n / 2)) shape) a.

Fixpoint map2 {A B D} (f : A -> B -> D) (l : list A) (l' : list B) : list D :=
  match l, l' with x :: l, y :: l' => f x y :: map2 f l l' | _, _ => [] end.

(** ** wavepacket/eigenstate_conversion.py *)

(** 51-90 [_unfurl_momentum_basis_wavepacket]; [ls] is the shape of the list basis, [ss]
    of the state basis.  The list [locations] is n, 0, n+1, 1, ... *)
Definition locations (nd : nat) : list nat :=
  flat_map (fun y => [fst y; snd y]) (combine (seq nd nd) (seq 0 nd)).
Definition unfurl_momentum (ls ss : list nat) (data : ndarray) : option ndarray :=
  if length ls =? length ss then
    let final_shape := map2 Nat.mul ls ss in
    match reshape data (ls ++ ss) with
    | None => None
    | Some d =>
        let shifted := fftshift_axes (ls ++ ss) (stack (ls ++ ss) (aflat d)) in
        let swapped := transpose (locations (length ls)) shifted in
        let swapped_shape := map (fun k => nth k (ls ++ ss) 0) (locations (length ls)) in
        let ravelled := stack final_shape (flatten swapped_shape swapped) in
        let shift := map2 (fun n m => (- Z.of_nat (n / 2 + n * (m / 2)))%Z) ls ss in
        let unshifted := roll_axes final_shape shift ravelled in
        Some {| ashape := [nprod final_shape];
                aflat := fun t => Cdiv (flatten final_shape unshifted t) (RtoC (sqrt (INR (nprod ls)))) |}
    end
  else None (* zip(strict=True) *).

(** wavepacket/conversion.py:89-123 [convert_wavepacket_to_basis]: the list axis, then the
    state axis. *)
Definition convert_wavepacket (same : basis -> basis -> bool) (lb sb lb' sb' : basis) (data : ndarray)
  : option ndarray :=
  match reshape data [bsize lb; bsize sb], convert same lb lb', convert same sb sb' with
  | Some d, Some F, Some G =>
      Some (ravel_array (array2 (bsize lb') (bsize sb')
              (fun i k => G (fun k' => F (fun i' => at2 d i' k') i) k)))
  | _, _, _ => None
  end.

(** stacked_basis/conversion.py:31-47 and 113-139: one transformed axis per axis, on its
    fundamental points. *)
Definition as_fundamental_transformed (axes : list basis) : basis :=
  BTuple (map (fun b => BFundT (bfund b)) axes).
Definition as_fundamental_position (axes : list basis) : basis :=
  BTuple (map (fun b => BFund (bfund b)) axes).

(** 93-119 [unfurl_wavepacket]: the two conversions
    (wavepacket/conversion.py:254-276 [convert_wavepacket_to_fundamental_momentum_basis])
    and the above. *)
Definition unfurl_wavepacket (same : basis -> basis -> bool) (laxes saxes : list basis) (data : ndarray)
  : option ndarray :=
  match convert_wavepacket same (BTuple laxes) (BTuple saxes)
          (as_fundamental_transformed laxes) (as_fundamental_transformed saxes) data with
  | Some d => unfurl_momentum (map bfund laxes) (map bfund saxes) d
  | None => None
  end.

(** ** wavepacket/get_eigenstate.py *)

(** 109-129 [_get_sampled_basis] on fundamental list and state axes: the offsets are
    wrapped around zero (stacked_basis/util.py [wrap_index_around_origin]). *)
Fixpoint sampled_basis (ls ss : list nat) (offset : list Z) : option (list basis) :=
  match ls, ss, offset with
  | [], [], [] => Some []
  | n :: ls, m :: ss, o :: offset =>
      match sampled_basis ls ss offset with
      | Some l => Some (BEvenT m n (wrap_index o (Z.of_nat n) 0) :: l)
      | None => None
      end
  | _, _, _ => None (* zip(strict=True) *)
  end.

(** 132-166 [get_wavepacket_state_vector] with a flat index: the basis of the state and
    its data. *)
Definition get_wavepacket_state_vector (same : basis -> basis -> bool) (laxes saxes : list basis)
    (data : ndarray) (idx : Z) : option (list basis * ndarray) :=
  let ls := map bfund laxes in
  let ss := map bfund saxes in
  match convert_wavepacket same (BTuple laxes) (BTuple saxes)
          (as_fundamental_transformed laxes) (as_fundamental_transformed saxes) data with
  | None => None
  | Some d =>
      match get_stacked_index ls idx with
      | None => None
      | Some offset =>
          match sampled_basis ls ss (map Z.of_nat offset), reshape d [nprod ls; nprod ss],
                python_index (nprod ls) idx with
          | Some b, Some d2, Some i => Some (b, select_row d2 i)
          | _, _, _ => None
          end
      end
  end.

(** 451-512 [get_bloch_states]: [bb] is the band basis; the state of band [b] and sample
    [s] in the momentum basis of the supercell.  [get_fundamental_wavepacket] (431-448)
    converts the list (band, sample) with the bands left alone; converting to the band
    basis object itself changes nothing. *)
Definition get_bloch_states (same : basis -> basis -> bool) (bb : basis) (laxes saxes : list basis)
    (data : ndarray) : option ndarray :=
  let ls := map bfund laxes in
  let ss := map bfund saxes in
  let decompressed := BTuple (map BFundT (map2 Nat.mul ls ss)) in
  if length ls =? length ss then
    match reshape data [bsize bb; bsize (BTuple laxes); bsize (BTuple saxes)],
          convert same (BTuple laxes) (as_fundamental_transformed laxes),
          convert same (BTuple saxes) (as_fundamental_transformed saxes) with
    | Some d, Some F, Some G =>
        let converted b s k := G (fun k' => F (fun s' => at3 d b s' k') s) k in
        let full s :=
          match sampled_basis ls ss (map Z.of_nat (unravel ls s)) with
          | Some l => convert same (BTuple l) decompressed
          | None => None
          end in
        match all_some (map full (seq 0 (nprod ls))) with
        | Some fs =>
            Some (ravel_array (array3 (bsize bb) (nprod ls) (bsize decompressed)
                    (fun b s f => nth s fs (fun v => v) (converted b s) f)))
        | None => None
        end
    | _, _, _ => None
    end
  else None.
