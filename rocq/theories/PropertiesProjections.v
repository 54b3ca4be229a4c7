(** Properties of localisation by projections (C101). *)
From Coq Require Import Reals.
From Verif Require Import ZLib Csum DFT NumPy Index Spec Basis SpecBasis Operator SpecOperator StateList SpecStateList Wavepacket SpecWavepacket
  SpecMatrix Localize SpecLocalize SpecBloch SpecTightCell TightCell TightCellFacts Projections SpecProjections ProjectionsProofs ProjectionsProofs2 ProjectionsProofs3 ProjectionsFacts Spectral3 LocalizeFacts.
Local Open Scope R_scope.
Local Open Scope C_scope.

(** ** C101 *)

Example C101_nonvacuous : bwf (BTuple ex_three) /\ explicit_orthonormal (BTuple ex_three) /\ map bsize ex_three = map bfund ex_three /\
  bwf (BTuple [BFundT 12]) /\ explicit_orthonormal (BTuple [BFundT 12]) /\ map bfund [BFundT 12] = supercell [4%nat] (map bfund ex_three) /\
  vbasis ex_plane_point = BTuple [BFundT 12] /\ nprod (ashape (vdata ex_plane_point)) = bsize (BTuple [BFundT 12]) /\
  nprod (ashape (ex_last 4)) = (nprod [4%nat] * bsize (BTuple ex_three))%nat /\
  Forall2 le [2%nat; 3%nat] (supercell (map bfund [BFundT 2; BFundT 2]) (map bfund [BFund 2; BFund 3])) /\
  ~ Forall2 le [2%nat; 7%nat] (supercell (map bfund [BFundT 2; BFundT 2]) (map bfund [BFund 2; BFund 3])).
Proof. exact ex_projection_hyps. Qed.
Example C101_svd_exists : exists svd, svd_ok svd.
Proof. exact svd_exists. Qed.

(** Localised bands: at every sample the matrix of overlaps of the Bloch waves with the
    projections, as functions on the supercell, is hermitian and positive semidefinite. *)
Theorem C101_bands :
  forall (same : basis -> basis -> bool), identity_test same ->
  forall (laxes saxes paxes : list basis), bwf (BTuple saxes) -> explicit_orthonormal (BTuple saxes) -> length laxes = length saxes ->
    bwf (BTuple paxes) -> explicit_orthonormal (BTuple paxes) -> map bfund paxes = supercell (map bsize laxes) (map bfund saxes) ->
  forall svd, svd_ok svd ->
  forall (np nb : nat) (data projections : ndarray), nprod (ashape projections) = (np * bsize (BTuple paxes))%nat ->
    nprod (ashape data) = (nb * bsize (BTuple laxes) * bsize (BTuple saxes))%nat -> (0 < nb * bsize (BTuple laxes))%nat ->
    let ns := bsize (BTuple laxes) in
    exists op w, localization_operator_for_projections same svd nb np laxes saxes data (BTuple paxes) projections = Some op /\
      localized_wavepackets np nb ns op data = Some w /\
      forall s, (s < ns)%nat ->
        let M p q := wave_overlap (map bsize laxes) saxes w (p * ns + s)
          (amplitude (BTuple paxes) (row (bsize (BTuple paxes)) (aflat projections) q)) in
        (forall p q, (p < np)%nat -> (q < np)%nat -> M p q = Cconj (M q p)) /\ positive_semidefinite np M.
Proof. exact bands_overlap. Qed.
Print Assumptions C101_bands.

(** One band: every sample is multiplied by a phase, after which its overlap with the
    projection is real, not negative, and as large as it was. *)
Theorem C101_single_band :
  forall (same : basis -> basis -> bool), identity_test same -> forall svd, svd_ok svd ->
  forall (ls : list nat) (saxes : list basis) (d : ndarray), Forall (fun n => (0 < n)%nat) ls ->
    bwf (BTuple saxes) -> explicit_orthonormal (BTuple saxes) -> length ls = length saxes -> nprod (ashape d) = (nprod ls * bsize (BTuple saxes))%nat ->
  forall (paxes : list basis) (p : vector), bwf (BTuple paxes) -> explicit_orthonormal (BTuple paxes) ->
    map bfund paxes = supercell ls (map bfund saxes) -> vbasis p = BTuple paxes -> nprod (ashape (vdata p)) = bsize (BTuple paxes) ->
    let f := amplitude (BTuple paxes) (aflat (vdata p)) in
    exists w z, localize_single_band_projection same svd (map BFundT ls) saxes d p = Some w /\ phases_of (nprod ls) (bsize (BTuple saxes)) d w z /\
      forall s, (s < nprod ls)%nat -> wave_overlap ls saxes w s f = RtoC (Cmod (wave_overlap ls saxes d s f)).
Proof. exact final_single. Qed.
Print Assumptions C101_single_band.

(** On a point where the Bloch wave [idx] is largest: there the Bloch waves of all samples
    become real and not negative, so that no other choice of phases gives their sum, the
    Wannier function, a larger value at that point. *)
Theorem C101_single_point :
  forall (same : basis -> basis -> bool), identity_test same -> forall svd, svd_ok svd ->
  forall (ls : list nat) (saxes : list basis) (d : ndarray), Forall (fun n => (0 < n)%nat) ls ->
    bwf (BTuple saxes) -> explicit_orthonormal (BTuple saxes) -> length ls = length saxes -> nprod (ashape d) = (nprod ls * bsize (BTuple saxes))%nat ->
  forall idx, (0 <= idx < Z.of_nat (nprod ls))%Z ->
    let F := supercell ls (map bfund saxes) in
    exists w z t0, localize_single_point_projection same svd (map BFundT ls) saxes d idx = Some w /\ phases_of (nprod ls) (bsize (BTuple saxes)) d w z /\
      largest_at (nprod F) (fun t => bloch_wave ls saxes d (Z.to_nat idx) (unravel F t)) t0 /\
      (forall s, (s < nprod ls)%nat -> bloch_wave ls saxes w s (unravel F t0) = RtoC (Cmod (bloch_wave ls saxes d s (unravel F t0)))) /\
      forall z' : nat -> C, (forall s, (s < nprod ls)%nat -> Cmod (z' s) = 1%R) ->
        (Cmod (csum (fun s => (z' s * bloch_wave ls saxes d s (unravel F t0))%C) (nprod ls)) <=
         Cmod (csum (fun s => bloch_wave ls saxes w s (unravel F t0)) (nprod ls)))%R.
Proof. exact final_point. Qed.
Print Assumptions C101_single_point.

(** The state of a single point with a given origin. *)
Theorem C101_single_point_state :
  forall (same : basis -> basis -> bool), identity_test same ->
  forall (ls : list nat) (saxes : list basis), Forall (fun n => (0 < n)%nat) ls ->
    bwf (BTuple saxes) -> explicit_orthonormal (BTuple saxes) -> length ls = length saxes ->
  forall (d : ndarray) (idx : Z) (o : list Z), nprod (ashape d) = (nprod ls * bsize (BTuple saxes))%nat -> (0 <= idx < Z.of_nat (nprod ls))%Z -> length o = length ls ->
    let F := supercell ls (map bfund saxes) in
    exists p x0, single_point_state same (map BFundT ls) saxes d idx (Some o) = Some p /\ in_shape x0 F /\ stands_for F o x0 /\
      vbasis p = BTuple (map BFund F) /\ ashape (vdata p) = [nprod F] /\ delta_at (nprod F) (ravel F x0) (aflat (vdata p)).
Proof. exact point_given. Qed.
Print Assumptions C101_single_point_state.

(** On the state of the tight binding approximation (C100) of the first sample: the first
    sample keeps its phase unless that state is zero. *)
Theorem C101_tight_binding :
  forall (same : basis -> basis -> bool), identity_test same -> forall svd, svd_ok svd ->
  forall (ls : list nat) (saxes : list basis) (d : ndarray), Forall (fun n => (0 < n)%nat) ls ->
    bwf (BTuple saxes) -> explicit_orthonormal (BTuple saxes) -> length ls = length saxes -> nprod (ashape d) = (nprod ls * bsize (BTuple saxes))%nat ->
    (length saxes = 1%nat \/ length saxes = 2%nat) -> map bsize saxes = map bfund saxes ->
    let F := supercell ls (map bfund saxes) in
    exists w z o f, localize_tight_binding_projection same svd (map BFundT ls) saxes d = Some w /\ phases_of (nprod ls) (bsize (BTuple saxes)) d w z /\
      centre_of ls saxes d 0 None o /\ cut_wave ls saxes d 0 o f /\
      (forall s, (s < nprod ls)%nat -> wave_overlap ls saxes w s f = RtoC (Cmod (wave_overlap ls saxes d s f))) /\
      ((exists x, in_shape x F /\ f (ravel F x) <> 0) -> z 0%nat = 1).
Proof. exact final_tight. Qed.
Print Assumptions C101_tight_binding.

Theorem C101_tight_binding_three_axes_raise :
  forall (same : basis -> basis -> bool) (svd : svd_fn) (laxes saxes : list basis) (d : ndarray), (2 < length saxes)%nat ->
    localize_tight_binding_projection same svd laxes saxes d = None.
Proof. exact tight_projection_raises. Qed.
Print Assumptions C101_tight_binding_three_axes_raise.

(** The exponential states raise for every wavepacket, every sample and every origin. *)
Theorem C101_exponential_raises :
  forall (same : basis -> basis -> bool) (laxes saxes : list basis) (d : ndarray),
    (forall (idx : Z) (origin : option point), get_exponential_state same laxes saxes d idx origin = None) /\
    forall finish, localize_exponential_decay_projection same laxes saxes d finish = None.
Proof. exact (fun same laxes saxes d => conj (fun idx origin => exponential_raises same laxes saxes d idx origin) (fun finish => exponential_decay_raises same laxes saxes d finish)). Qed.
Print Assumptions C101_exponential_raises.

(** The gaussian state exists for two axes only... *)
Theorem C101_gaussian_raises :
  forall (laxes saxes : list basis), length saxes <> 2%nat ->
    (forall origin, get_gaussian_states laxes saxes origin = None) /\
    forall same svd d, localize_gaussian_projection same svd laxes saxes d = None.
Proof. exact (fun laxes saxes H => conj (fun origin => gaussian_raises laxes saxes origin H) (fun same svd d => gaussian_few same svd laxes saxes d H)). Qed.
Print Assumptions C101_gaussian_raises.

(** ...where it is normalised and positive; its widths are the number of samples and the
    number of states of the cell, and its centre is the origin taken modulo these numbers. *)
Theorem C101_gaussian :
  forall (laxes saxes : list basis), length laxes = 2%nat -> length saxes = 2%nat ->
    let F := supercell (map bfund laxes) (map bfund saxes) in
    let W := [bsize (BTuple laxes); bsize (BTuple saxes)] in
    Forall (fun n => (0 < n)%nat) F -> (0 < bsize (BTuple laxes))%nat -> (0 < bsize (BTuple saxes))%nat ->
  forall (origin : point) (o : list Z), point_at F origin o ->
    exists st p c, get_gaussian_states laxes saxes origin = Some st /\ slist st = BFund 1 /\ sbasis st = BTuple (map BFund F) /\ well_formed_list st /\
      wrapped_by W o p /\ (0 < c)%R /\ gaussian_around F W p c (aflat (sdata st)) /\
      inner_product (nprod F) (aflat (sdata st)) (aflat (sdata st)) = 1.
Proof. exact gaussian_spec. Qed.
Print Assumptions C101_gaussian.

(** So the state asked for around a point need not be centred there. *)
Theorem C101_gaussian_centred_at_origin_refuted :
  let laxes := [BFundT 2; BFundT 1] in let saxes := [BFund 2; BFund 2] in
  exists st, get_gaussian_states laxes saxes (Stacked [1%Z; 0%Z]) = Some st /\
    (Cmod (aflat (sdata st) (ravel [4%nat; 2%nat] [1%nat; 0%nat])) < Cmod (aflat (sdata st) (ravel [4%nat; 2%nat] [3%nat; 0%nat])))%R.
Proof. exact gaussian_misplaced. Qed.
Print Assumptions C101_gaussian_centred_at_origin_refuted.

Theorem C101_gaussian_projection :
  forall (same : basis -> basis -> bool), identity_test same -> forall svd, svd_ok svd ->
  forall (ls : list nat) (saxes : list basis) (d : ndarray), Forall (fun n => (0 < n)%nat) ls ->
    bwf (BTuple saxes) -> explicit_orthonormal (BTuple saxes) -> length ls = length saxes -> nprod (ashape d) = (nprod ls * bsize (BTuple saxes))%nat ->
    length saxes = 2%nat -> (0 < bsize (BTuple saxes))%nat ->
    exists w z c f, localize_gaussian_projection same svd (map BFundT ls) saxes d = Some w /\ phases_of (nprod ls) (bsize (BTuple saxes)) d w z /\
      (0 < c)%R /\ gaussian_around (supercell ls (map bfund saxes)) [nprod ls; bsize (BTuple saxes)] [0%Z; 0%Z] c f /\
      forall s, (s < nprod ls)%nat -> wave_overlap ls saxes w s f = RtoC (Cmod (wave_overlap ls saxes d s f)).
Proof. exact final_gaussian. Qed.
Print Assumptions C101_gaussian_projection.

(** Evenly spaced points: state [i] is the point at the fractions [i/shape] of the supercell
    rounded down... *)
Theorem C101_evenly_spaced :
  forall (laxes saxes : list basis), length laxes = length saxes ->
    let F := supercell (map bfund laxes) (map bfund saxes) in
    Forall (fun n => (0 < n)%nat) F -> forall shape : list nat, length shape = length saxes ->
    exists st, get_evenly_spaced_points laxes saxes shape = Some st /\
      slist st = BTuple (map BFund shape) /\ sbasis st = BTuple (map BFund F) /\ well_formed_list st /\
      forall i, in_shape i shape -> exists x, fraction_point F shape i x /\ in_shape x F /\ delta_at (nprod F) (ravel F x) (state_of st (ravel shape i)).
Proof. exact even_spec. Qed.
Print Assumptions C101_evenly_spaced.

(** ...orthonormal states if there are no more points than the grid has along any axis, *)
Theorem C101_evenly_spaced_orthonormal :
  forall (laxes saxes : list basis), length laxes = length saxes ->
    let F := supercell (map bfund laxes) (map bfund saxes) in
    Forall (fun n => (0 < n)%nat) F ->
  forall (shape : list nat) (st : state_list), length shape = length saxes -> get_evenly_spaced_points laxes saxes shape = Some st -> Forall2 le shape F ->
    forall i j, (i < nprod shape)%nat -> (j < nprod shape)%nat -> inner_product (nprod F) (state_of st i) (state_of st j) = cdelta i j.
Proof. exact even_orthonormal. Qed.
Print Assumptions C101_evenly_spaced_orthonormal.

(** and otherwise two of them are the same. *)
Theorem C101_evenly_spaced_repeated :
  forall (laxes saxes : list basis) (shape : list nat) (st : state_list), length laxes = length saxes ->
    let F := supercell (map bfund laxes) (map bfund saxes) in
    Forall (fun n => (0 < n)%nat) F -> length shape = length saxes -> Forall (fun s => (0 < s)%nat) shape -> ~ Forall2 le shape F ->
    get_evenly_spaced_points laxes saxes shape = Some st ->
    exists i j, (i < nprod shape)%nat /\ (j < nprod shape)%nat /\ i <> j /\
      inner_product (nprod F) (state_of st i) (state_of st j) = 1.
Proof. exact even_twice. Qed.
Print Assumptions C101_evenly_spaced_repeated.

Theorem C101_evenly_spaced_raises :
  forall (laxes saxes : list basis) (shape : list nat), length shape <> length saxes -> (0 < nprod shape)%nat ->
    get_evenly_spaced_points laxes saxes shape = None.
Proof. exact even_raises. Qed.
Print Assumptions C101_evenly_spaced_raises.
