(** Model of the bands of a tunnelling simulation taken from wavepackets
    (dynamics/tunnelling_basis.py).  No proofs here. *)
From Coq Require Import Reals.
From Verif Require Import ZLib Csum DFT NumPy Index Basis Operator Reduce Wavepacket Localize TwoPoint Dynamics.
Local Open Scope nat_scope.

(** tunnelling_basis.py:62-66: the points of every wavepacket, in the order of the bands; the
    first which raises ends the loop. *)
Fixpoint points_of_bands (same : basis -> basis -> bool) (laxes saxes : list basis) (ws : list ndarray)
  : option (list (list Z * list Z)) :=
  match ws with
  | [] => Some []
  | w :: ws =>
      match get_wavepacket_two_points same laxes saxes w (0, 0)%Z, points_of_bands same laxes saxes ws with
      | Some p, Some r => Some (p :: r)
      | _, _ => None
      end
  end.

(** tunnelling_basis.py:65 [np.average([idx0, idx1], axis=0)]. *)
Definition average_of_two (p : list Z * list Z) (ax : nat) : R :=
  ((IZR (nth ax (fst p) 0%Z) + IZR (nth ax (snd p) 0%Z)) / 2)%R.

(** tunnelling_basis.py:50-68 [TunnellingSimulationBandsBasis.from_wavepackets] of wavepackets on
    the lattice [delta]: the vectors of the cell, [delta_x_stacked[0:2, 0:2]], are read for two
    axes and components. *)
Definition from_wavepackets (same : basis -> basis -> bool) (nb : nat) (laxes saxes : list basis) (data : ndarray)
    (delta : nat -> nat -> R) : option bands :=
  match wavepacket_list_into_iter (BFund nb) data with
  | None => None
  | Some ws =>
      match points_of_bands same laxes saxes ws with
      | None => None
      | Some ps =>
          Some {| band_count := nb;
                  band_location := fun ax band => average_of_two (nth band ps ([], [])) ax;
                  band_cell := delta |}
      end
  end.
