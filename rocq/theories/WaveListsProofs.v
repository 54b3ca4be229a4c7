(** Collections of wavepackets with eigenvalues (C112). *)
From Coq Require Import Reals Psatz.
From Verif Require Import ZLib Csum DFT NumPy Index IndexProofs AxesProofs Spec Basis SpecBasis BasisProofs BasisProofs2
  BasisProofs3 BasisFacts IndexSum Lattice SpecReal Operator OperatorProofs Wavepacket SpecWavepacket WavepacketProofs WavepacketProofs2 Hamiltonian SpecHamiltonian
  HamiltonianProofs HamiltonianProofs3 LocalizeProofs4 VolumeBasis SpecVolumeBasis VolumeBasisProofs OperatorProofs2 WaveLists SpecWaveLists.
Local Open Scope R_scope.
Local Open Scope C_scope.

Notation conv := convert_wavepacket_with_eigenvalues_to_basis.

Lemma conv_some same nb lb sb (lo so : option basis) data ev : identity_test same ->
  let lb' := match lo with None => lb | Some b => b end in let sb' := match so with None => sb | Some b => b end in
  bwf lb -> bwf sb -> bwf lb' -> bwf sb' -> explicit_orthonormal lb -> explicit_orthonormal sb ->
  compatible lb lb' -> compatible sb sb' ->
  nprod (ashape data) = (nb * bsize lb * bsize sb)%nat -> nprod (ashape ev) = (nb * bsize lb)%nat ->
  exists d e, conv same nb lb sb lo so data ev = Some (d, e) /\
    ashape d = [(nb * bsize lb' * bsize sb')%nat] /\ ashape e = [nb; bsize lb'] /\
    (forall b s k, (b < nb)%nat -> (s < bsize lb')%nat -> (k < bsize sb')%nat ->
       band_state (bsize lb') (bsize sb') (aflat d) b s k =
       csum (fun s' => overlap lb' lb s s' * csum (fun k' => overlap sb' sb k k' * band_state (bsize lb) (bsize sb) (aflat data) b s' k') (bsize sb)) (bsize lb)) /\
    (forall b s, (b < nb)%nat -> (s < bsize lb')%nat ->
       band_value (bsize lb') (aflat e) b s = csum (fun s' => overlap lb' lb s s' * band_value (bsize lb) (aflat ev) b s') (bsize lb)).
Proof.
  intros Hs lb' sb' Wl Ws Wl' Ws' Ol Os Cl Cs Hd He. unfold conv. fold lb' sb'.
  destruct (proj2 (convert_some_iff same _ _) Cl) as [F EF]. destruct (proj2 (convert_some_iff same _ _) Cs) as [G EG].
  rewrite EF, EG. rewrite (reshape_some data) by (rewrite Hd; cbn [nprod]; lia). rewrite (reshape_some ev) by (rewrite He; cbn [nprod]; lia).
  eexists. eexists. split; [reflexivity|]. split; [cbn [ashape ravel_array array3 nprod]; f_equal; lia|]. split; [reflexivity|]. split.
  - intros b s k Hb Hs' Hk. unfold band_state at 1. cbn [ravel_array aflat]. rewrite array3_flat by assumption.
    rewrite (convert_orthonormal same Hs _ _ G Ws Ws' Os EG _ k Hk).
    transitivity (csum (fun k' => csum (fun s' => overlap lb' lb s s' * (overlap sb' sb k k' * band_state (bsize lb) (bsize sb) (aflat data) b s' k')) (bsize lb)) (bsize sb)).
    { apply csum_ext. intros k' Hk'. rewrite (convert_orthonormal same Hs _ _ F Wl Wl' Ol EF _ s Hs'). rewrite <- csum_scal_l. apply csum_ext. intros s' _.
      unfold at3, band_state. cbn [ashape aflat nth]. ring. }
    rewrite csum_swap. apply csum_ext. intros s' _. rewrite <- csum_scal_l. reflexivity.
  - intros b s Hb Hs'. unfold band_value at 1. rewrite array2_flat by assumption.
    rewrite (convert_orthonormal same Hs _ _ F Wl Wl' Ol EF _ s Hs'). apply csum_ext. intros s' _. unfold at2, band_value. cbn [ashape aflat nth]. reflexivity.
Qed.

Lemma conv_exists same nb lb sb lb' sb' data ev :
  (exists r, conv same nb lb sb (Some lb') (Some sb') data ev = Some r) <->
  compatible lb lb' /\ compatible sb sb' /\ nprod (ashape data) = (nb * bsize lb * bsize sb)%nat /\ nprod (ashape ev) = (nb * bsize lb)%nat.
Proof.
  unfold conv. rewrite <- !(convert_some_iff same). unfold reshape. cbn [nprod].
  destruct (Nat.eqb_spec (nprod (ashape data)) (nb * (bsize lb * (bsize sb * 1)))) as [E1|E1].
  2:{ split; [intros [r H]; discriminate|]. intros [_ [_ [H _]]]. exfalso. apply E1. rewrite H. lia. }
  destruct (convert same lb lb') as [F|].
  2:{ split; [intros [r H]; discriminate|]. intros [[F H] _]. discriminate. }
  destruct (convert same sb sb') as [G|].
  2:{ split; [intros [r H]; discriminate|]. intros [_ [[G H] _]]. discriminate. }
  destruct (Nat.eqb_spec (nprod (ashape ev)) (nb * (bsize lb * 1))) as [E2|E2].
  2:{ split; [intros [r H]; discriminate|]. intros [_ [_ [_ H]]]. exfalso. apply E2. rewrite H. lia. }
  split; [intros _|intros _; eexists; reflexivity]. split; [eexists; reflexivity|]. split; [eexists; reflexivity|]. split; [rewrite E1; lia|rewrite E2; lia].
Qed.

(** Values of a converted superposition of overlaps. *)
Lemma overlap_amplitude a b v x : bwf a -> bwf b -> explicit_orthonormal a -> full b -> compatible a b -> (x < bfund b)%nat ->
  amplitude b (fun k => csum (fun k' => overlap b a k k' * v k') (bsize a)) x = amplitude a v x.
Proof.
  intros Wa Wb Oa Fb Cab Hx. set (same := fun _ _ : basis => false). assert (Hs : identity_test same) by (intros ? ?; discriminate).
  destruct (proj2 (convert_some_iff same _ _) Cab) as [F EF].
  rewrite <- (convert_amplitude same a b F Hs Wa Wb Oa (proj1 (full_bases _ Wb Fb)) EF v x Hx).
  unfold amplitude. apply csum_ext. intros k Hk. rewrite (convert_orthonormal same Hs _ _ F Wa Wb Oa EF v k Hk). reflexivity.
Qed.

(** If the new list basis picks states of the old one, states keep their values and eigenvalues. *)
Lemma conv_picks same nb lb sb (lo so : option basis) data ev pick : identity_test same ->
  let lb' := match lo with None => lb | Some b => b end in let sb' := match so with None => sb | Some b => b end in
  bwf lb -> bwf sb -> bwf lb' -> bwf sb' -> explicit_orthonormal lb -> explicit_orthonormal sb -> full sb' ->
  compatible lb lb' -> compatible sb sb' -> picks lb lb' pick ->
  nprod (ashape data) = (nb * bsize lb * bsize sb)%nat -> nprod (ashape ev) = (nb * bsize lb)%nat ->
  exists d e, conv same nb lb sb lo so data ev = Some (d, e) /\
    forall b s, (b < nb)%nat -> (s < bsize lb')%nat ->
      band_value (bsize lb') (aflat e) b s = band_value (bsize lb) (aflat ev) b (pick s) /\
      forall x, (x < bfund sb')%nat ->
        amplitude sb' (band_state (bsize lb') (bsize sb') (aflat d) b s) x = amplitude sb (band_state (bsize lb) (bsize sb) (aflat data) b (pick s)) x.
Proof.
  intros Hs lb' sb' Wl Ws Wl' Ws' Ol Os Fs Cl Cs Hp Hd He.
  destruct (conv_some same nb lb sb lo so data ev Hs Wl Ws Wl' Ws' Ol Os Cl Cs Hd He) as [d [e [E [_ [_ [D V]]]]]]. fold lb' sb' in D, V.
  exists d, e. split; [exact E|]. intros b s Hb Hs'. destruct (Hp s Hs') as [Hq Hov]. split.
  - rewrite (V b s Hb Hs'). rewrite (csum_ext _ (fun s' => cdelta (pick s) s' * band_value (bsize lb) (aflat ev) b s')).
    + apply csum_delta_l with (f := fun s' => band_value (bsize lb) (aflat ev) b s'). exact Hq.
    + intros s' H'. rewrite Hov by exact H'. reflexivity.
  - intros x Hx. rewrite <- (overlap_amplitude sb sb' (band_state (bsize lb) (bsize sb) (aflat data) b (pick s)) x Ws Ws' Os Fs Cs Hx).
    unfold amplitude. apply csum_ext. intros k Hk. f_equal. rewrite (D b s k Hb Hs' Hk).
    set (g := fun s' => csum (fun k' => overlap sb' sb k k' * band_state (bsize lb) (bsize sb) (aflat data) b s' k') (bsize sb)).
    rewrite (csum_ext _ (fun s' => cdelta (pick s) s' * g s')).
    + apply (csum_delta_l g _ _ Hq).
    + intros s' H'. rewrite Hov by exact H'. reflexivity.
Qed.
Lemma picks_self lb : bwf lb -> explicit_orthonormal lb -> picks lb lb (fun s => s).
Proof. intros W O' s Hs. split; [exact Hs|]. intros s' Hs'. apply (explicit_orthonormal_sound lb W O' s s' Hs Hs'). Qed.
Lemma picks_truncated n N : (0 < n <= N)%nat -> picks (BFundT N) (BTrans n N) (fun s => slot N (freq n s)) /\ picks (BFund N) (BTrunc n N) (fun s => slot N (freq n s)).
Proof.
  intros Hn. split; intros s Hs; cbn [bsize] in *; (split; [apply slot_lt; lia|]); intros s' Hs'; unfold overlap; cbn [bstate bfund].
  - transitivity (overlap (BFundT N) (BFundT N) (slot N (freq n s)) s').
    + unfold overlap. cbn [bstate bfund]. apply csum_ext. intros x Hx. f_equal. f_equal.
      apply plane_wave_cong; [lia|]. assert (A := freq_cong N (slot N (freq n s)) (slot_lt N (freq n s) ltac:(lia))).
      assert (B := slot_cong N (freq n s) ltac:(lia)). destruct A as [q Hq]. destruct B as [r Hr]. 
      unfold Zcong in *. first [exists (q - r)%Z; lia|exists (r - q)%Z; lia|exists (q + r)%Z; lia|exists (- q - r)%Z; lia].
    + apply (explicit_orthonormal_sound (BFundT N)); [cbn; lia|exact I|cbn; apply slot_lt; lia|exact Hs'].
  - rewrite (csum_ext _ (fun x => cdelta (slot N (freq n s)) x * cdelta s' x)).
    + rewrite csum_delta_l by (apply slot_lt; lia). apply cdelta_sym.
    + intros x _. f_equal. unfold cdelta. destruct (_ =? _)%nat; unfold Cconj; cbn; rewrite Ropp_0; reflexivity.
Qed.

(** ** Position forms *)
Lemma potential_position same d axes data : identity_test same -> in_space d axes -> bwf (stacked axes) -> explicit_orthonormal (stacked axes) ->
  exists P G, stacked_basis_as_fundamental_position_basis axes = Some P /\ stacked P = stacked_basis_as_fundamental_basis axes /\
    convert same (stacked axes) (stacked P) = Some G /\ convert_potential_to_position_basis same axes data = Some (P, G data) /\
    forall v x, (x < nprod (fundamental_shape axes))%nat -> G v x = amplitude (stacked axes) v x.
Proof.
  intros Hs Hd Hw He. set (F := fundamental_shape axes).
  destruct (fundamental_forms d axes Hd) as [P [M [EP [EM [_ [_ [SP [SM _]]]]]]]].
  assert (FT : map bfund (map la_basis axes) = F) by apply shape_bases.
  assert (HF : Forall (fun n => (0 < n)%nat) F).
  { rewrite <- FT. apply Forall_forall. intros n Hn. apply in_map_iff in Hn. destruct Hn as [b [<- Hb]].
    apply (bfund_pos b). exact (proj1 (Forall_forall _ _) (proj1 (bwf_tuple _) Hw) b Hb). }
  assert (CP : compatible (stacked axes) (stacked P)).
  { rewrite SP. unfold stacked_basis_as_fundamental_basis. fold F. rewrite <- FT. apply compatible_position. }
  destruct (proj2 (convert_some_iff same _ _) CP) as [G EG].
  exists P, G. unfold convert_potential_to_position_basis. rewrite EP, EG. do 4 (split; [reflexivity || assumption|]).
  intros v x Hx. rewrite SP in EG. unfold stacked_basis_as_fundamental_basis in EG. fold F in EG.
  assert (WP := position_wf F HF). assert (FP := position_full F).
  assert (NF : bfund (BTuple (map BFund F)) = nprod F) by (cbn [bfund]; rewrite map_map; f_equal; rewrite <- (map_id F) at 2; apply map_ext; reflexivity).
  assert (A := convert_amplitude same _ _ G Hs Hw WP He (proj1 (full_bases _ WP FP)) EG v x ltac:(rewrite NF; exact Hx)).
  rewrite <- A. rewrite <- (ravel_unravel F x Hx) at 2. rewrite amplitude_position by (apply unravel_in_shape; exact Hx).
  rewrite ravel_unravel by exact Hx. reflexivity.
Qed.
Lemma wavepacket_position same d lb axes data : identity_test same -> in_space d axes -> bwf (stacked axes) -> explicit_orthonormal (stacked axes) ->
  bwf lb -> explicit_orthonormal lb -> nprod (ashape data) = (bsize lb * bsize (stacked axes))%nat ->
  let N := nprod (fundamental_shape axes) in
  exists P r, convert_wavepacket_to_position_basis same lb axes data = Some (P, r) /\ ashape r = [(bsize lb * N)%nat] /\
    forall i x, (i < bsize lb)%nat -> (x < N)%nat ->
      aflat r (i * N + x)%nat = amplitude (stacked axes) (fun k => aflat data (i * bsize (stacked axes) + k)%nat) x.
Proof.
  intros Hs Hd Hw He Wl Ol Hn N. destruct (potential_position same d axes (fun _ => 0) Hs Hd Hw He) as [P [G [EP [SP [EG [_ V]]]]]].
  assert (NS : bsize (stacked P) = N).
  { rewrite SP. unfold stacked_basis_as_fundamental_basis, N. cbn [bsize]. rewrite map_map. f_equal. rewrite <- (map_id (fundamental_shape axes)) at 2. apply map_ext. reflexivity. }
  destruct (proj2 (convert_some_iff same _ _) (compatible_refl lb)) as [F EF].
  unfold convert_wavepacket_to_position_basis, convert_wavepacket. rewrite EP, EG, EF.
  rewrite reshape_some by (rewrite Hn; cbn [nprod]; lia).
  eexists. eexists. split; [reflexivity|]. split; [cbn [ravel_array ashape array2 nprod]; rewrite NS; f_equal; lia|].
  intros i x Hi Hx. cbn [ravel_array aflat]. rewrite <- NS at 1. rewrite array2_flat by (rewrite NS; exact Hx). rewrite V by exact Hx.
  unfold amplitude. apply csum_ext. intros k Hk. f_equal. rewrite (convert_orthonormal same Hs _ _ F Wl Wl Ol EF _ i Hi).
  rewrite (csum_ext _ (fun i' => cdelta i i' * aflat data (i' * bsize (stacked axes) + k)%nat)).
  - apply csum_delta_l with (f := fun i' => aflat data (i' * bsize (stacked axes) + k)%nat). exact Hi.
  - intros i' Hi'. rewrite (explicit_orthonormal_sound lb Wl Ol i i' Hi Hi'). reflexivity.
Qed.
