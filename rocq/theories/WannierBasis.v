(** Model of the basis and the Hamiltonian of Wannier states of wavepacket/get_eigenstate.py,
    of wavepacket/localization_operator.py:53-77 and of the tight binding projections of
    wavepacket/localization/_projection.py:185-194.  No proofs here. *)
From Coq Require Import Reals.
From Verif Require Import ZLib Csum DFT NumPy Index Basis Operator StateList Wavepacket Localize TightCell.
Local Open Scope nat_scope.

(** get_eigenstate.py:929-946 [get_wannier_basis]: the explicit basis of the rows of
    [get_wannier_states], in the positions of the supercell. *)
Definition wannier_basis (same : basis -> basis -> bool) (nw nb : nat) (laxes saxes : list basis)
    (op data : ndarray) : option basis :=
  let F := map2 Nat.mul (map bfund laxes) (map bfund saxes) in
  match wannier_states same nw nb laxes saxes op data with
  | Some st => Some (BExpl (nw * bsize (BTuple laxes)) (fun i x => aflat st (i * nprod F + x)) (BTuple (map BFund F)))
  | None => None
  end.

(** 836-857 [get_bloch_hamiltonian]: one diagonal operator in the samples per band, whose data
    are the energies. *)
Definition bloch_hamiltonian (bands samples : basis) (energies : ndarray) : operator_list :=
  {| lbasis := bands; lrow := samples; lcol := samples; ldata := energies |}.

(** 949-966 [get_wannier_hamiltonian]. *)
Definition wannier_hamiltonian (wannier bands samples : basis) (op energies : ndarray) : option operator_list :=
  let ham := bloch_hamiltonian bands samples energies in
  match localized_hamiltonian (bsize wannier) (bsize (lbasis ham)) (bsize (lrow ham)) op (ldata ham) with
  | Some d => Some {| lbasis := lrow ham; lrow := wannier; lcol := wannier; ldata := d |}
  | None => None
  end.

(** localization_operator.py:50 [DiagonalLocalizationOperator]: a factor for every sample and
    band. *)
Record diagonal_localization := { dl_samples : basis; dl_bands : basis; dl_data : ndarray }.

(** 53-62 [localization_operator_as_diagonal]. *)
Definition localization_as_diagonal (same : basis -> basis -> bool) (o : operator_list) : option diagonal_localization :=
  match convert_operator_list_to_basis same o (lrow o) (lrow o) with
  | None => None
  | Some c =>
      match operator_list_as_diagonal c with
      | Some d => Some {| dl_samples := lbasis d; dl_bands := lrow d; dl_data := ldata d |}
      | None => None
      end
  end.

(** 65-77 [diagonal_localization_operator_as_full]. *)
Definition localization_as_full (d : diagonal_localization) : option operator_list :=
  diagonal_operator_list_as_full
    {| lbasis := dl_samples d; lrow := dl_bands d; lcol := dl_bands d; ldata := dl_data d |}.

(** _projection.py:185-194 [get_localization_operator_tight_binding_projections].  The states
    are those of [get_tight_binding_states] with its defaults, sample 0 and no origin. *)
Definition tight_binding_operator (same : basis -> basis -> bool) (svd : svd_fn) (bands : basis) (laxes saxes : list basis)
    (data : ndarray) : option ndarray :=
  match get_tight_binding_states same bands laxes saxes data 0%Z None with
  | None => None
  | Some s =>
      match convert_state_list same s (BTuple (map BFundT (map2 Nat.mul (map bfund laxes) (map bfund saxes)))) with
      | None => None
      | Some c => localization_operator_for_projections same svd (bsize bands) (bsize (slist c)) laxes saxes data (sbasis c) (sdata c)
      end
  end.
