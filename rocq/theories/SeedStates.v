(** Model of state_vector/util.py: the states handed to a localisation routine as a first
    guess.  No proofs here. *)
From Coq Require Import Reals.
From Verif Require Import ZLib Csum DFT NumPy Index Basis Operator Reduce Wavepacket Localize StateList.
Local Open Scope nat_scope.

(** 62-68 [get_single_point_state_vector_excact]. *)
Definition single_point_exact (b : basis) (idx : Z) : option vector :=
  match python_index (bsize b) idx with
  | Some i => Some {| vbasis := b;
                      vdata := {| ashape := [bsize b]; aflat := fun t => if t =? i then RtoC 1%R else RtoC 0%R |} |}
  | None => None
  end.

(** wavepacket/wavepacket.py:161-187 [get_fundamental_unfurled_basis]: the numbers of points;
    a list basis with more axes than the states raises. *)
Definition unfurled_shape (laxes saxes : list basis) : option (list nat) :=
  if length laxes <=? length saxes then Some (map2 Nat.mul (map bfund laxes) (map bfund saxes)) else None.

(** [data[i, n] = 1] on an [nb] by [m] array. *)
Definition set_one (nb m : nat) (a : nat -> nat -> C) (i n : nat) : option (nat -> nat -> C) :=
  if (i <? nb) && (n <? m) then
    Some (fun i' n' => if (i' =? i) && (n' =? n) then RtoC 1%R else a i' n')
  else None.
(** [for i, n in enumerate(range(0, stop, nb))]: the loop from its [i]th turn on, [turns]
    turns before its end. *)
Fixpoint set_points (nb m : nat) (a : nat -> nat -> C) (i turns : nat) : option (nat -> nat -> C) :=
  match turns with
  | 0 => Some a
  | S turns =>
      match set_one nb m a i (i * nb) with
      | Some a => set_points nb m a (S i) turns
      | None => None
      end
  end.
(** 71-88 [get_single_point_state_vectors]; range raises for a step of zero and has
    ceil(stop / step) elements. *)
Definition single_point_states (laxes saxes : list basis) (nb : nat) : option state_list :=
  match unfurled_shape laxes saxes with
  | Some shape =>
      if nb =? 0 then None
      else
        match set_points nb (nprod shape) (fun _ _ => RtoC 0%R) 0 ((bsize (BTuple saxes) + nb - 1) / nb) with
        | Some a =>
            Some {| slist := BFund nb; sbasis := BTuple (map BFund shape);
                    sdata := ravel_array (array2 nb (nprod shape) a) |}
        | None => None
        end
  | None => None
  end.

(** 110-124: the axes of the sample basis.  The constructor of a truncated momentum axis
    asserts that it has no more states than points; a shape with too many axes raises. *)
Fixpoint free_axes (ls ss shape : list nat) : option (list basis) :=
  match shape with
  | [] => Some []
  | s :: shape =>
      match ls, ss with
      | l :: ls, n :: ss =>
          if l * s <=? l * n then
            match free_axes ls ss shape with
            | Some axes => Some (BTrans (l * s) (l * n) :: axes)
            | None => None
            end
          else None
      | _, _ => None
      end
  end.

(** [np.tensordot(f, x / n, axes=(0, 0))] times [-2j pi], exponentiated, for the rows [f] and
    [x / n] of [nd] axes. *)
Definition phase_factor (nd : nat) (f x : nat -> R) (n : nat -> nat) : C :=
  cis (- (2 * PI) * rsum (fun a => f a * (x a / INR (n a))) nd)%R.

(** [data /= np.sqrt(np.sum(np.abs(data) ** 2, axis=1))[:, np.newaxis]]. *)
Definition normalise_rows (m : nat) (a : nat -> nat -> C) (i k : nat) : C :=
  Cdiv (a i k) (RtoC (sqrt (rsum (fun j => Cmod (a i j) ^ 2) m)))%R.

(** 91-142 [get_most_localized_free_state_vectors].  Without axes the sum over axis 1 raises. *)
Definition free_states (laxes saxes : list basis) (shape : list nat) : option state_list :=
  match shape with
  | [] => None
  | _ =>
      match free_axes (map bfund laxes) (map bfund saxes) shape with
      | Some axes =>
          let n := map bsize axes in
          let data := fun b k =>
            phase_factor (length shape) (fun a => IZR (stacked_nk_points shape a b))
              (fun a => IZR (stacked_nx_points n a k)) (fun a => nth a n 0) in
          Some {| slist := BTuple (map BFund shape); sbasis := BTuple axes;
                  sdata := ravel_array (array2 (nprod shape) (nprod n) (normalise_rows (nprod n) data)) |}
      | None => None
      end
  end.

(** wavepacket/wavepacket.py:393-417 [get_wavepackets] with [slice(stop)]: the number of
    wavepackets and their data. *)
Definition first_wavepackets (total : nat) (data : ndarray) (stop : nat) : option (nat * ndarray) :=
  if total =? 0 then None
  else if nprod (ashape data) mod total =? 0 then
    let m := nprod (ashape data) / total in
    Some (Nat.min stop total, {| ashape := [Nat.min stop total * m]; aflat := aflat data |})
  else None.

(** The rows of a list of states of [m] coefficients each, one after the other. *)
Definition stack_rows (m : nat) (l : list ndarray) : ndarray :=
  {| ashape := [length l * m]; aflat := fun t => aflat (nth (t / m) l {| ashape := []; aflat := fun _ => RtoC 0%R |}) (t mod m) |}.

(** 145-194 [get_most_localized_state_vectors_from_probability]; [fractions] is a tuple of
    one array for every axis, the arrays must have one common length. *)
Definition states_from_probability (same : basis -> basis -> bool) (total : nat) (laxes saxes : list basis)
    (data : ndarray) (fractions : list (list R)) : option state_list :=
  match fractions with
  | [] => None
  | f0 :: _ =>
      let nb := length f0 in
      match first_wavepackets total data nb, unfurled_shape laxes saxes with
      | Some (nw, d), Some shape =>
          match unfurl_wavepacket_list same nw laxes saxes d with
          | Some us =>
              let m := nprod shape in
              match average_probabilities_all (BFund nw) (BTuple (map BFundT shape))
                      (probability_from_state (stack_rows m us)) with
              | Some (_, p) =>
                  if (length shape =? length laxes) && (length fractions =? length shape)
                     && forallb (fun f => length f =? nb) fractions then
                    let n := map bsize laxes in
                    let raw := fun b k =>
                      Cmult (phase_factor (length shape) (fun a => nth b (nth a fractions []) 0%R)
                               (fun a => IZR (stacked_nx_points shape a k)) (fun a => nth a n 0))
                            (RtoC (sqrt (fst (aflat p k)))) in
                    Some {| slist := BFund nb; sbasis := BTuple (map BFundT shape);
                            sdata := ravel_array (array2 nb m (normalise_rows m raw)) |}
                  else None
              | None => None
              end
          | None => None
          end
      | _, _ => None
      end
  end.
