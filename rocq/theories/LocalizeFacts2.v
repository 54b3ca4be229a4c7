(** Wannier states: consequences and counterexamples. *)
From Coq Require Import Reals Psatz.
From Verif Require Import ZLib Csum DFT NumPy Interp Index IndexProofs AxesProofs Spec InterpProofs Basis SpecBasis BasisProofs BasisProofs2
  BasisProofs3 BasisFacts Operator SpecOperator OperatorProofs Reduce ReduceProofs IndexSum Wavepacket SpecWavepacket WavepacketProofs
  WavepacketProofs2 WavepacketProofs3 WavepacketFacts SpecMatrix LinAlg Localize SpecLocalize LocalizeProofs LocalizeFacts LocalizeProofs3
  LocalizeProofs4 LocalizeProofs5 LocalizeProofs6.
Local Open Scope R_scope.
Local Open Scope C_scope.

Definition ones (shape : list nat) : ndarray := {| ashape := shape; aflat := fun _ => RtoC 1%R |}.

Lemma freq_values : freq 2 0 = 0%Z /\ freq 2 1 = (-1)%Z /\ freq 3 0 = 0%Z /\ freq 3 1 = 1%Z /\ freq 3 2 = (-1)%Z.
Proof. repeat split; reflexivity. Qed.

Lemma omega4 : omega 4 (-1) = (0, -1)%R.
Proof.
  unfold omega, cis. replace (2 * PI * -1 / INR 4)%R with (- (PI / 2))%R by (cbn; field).
  rewrite cos_neg, sin_neg, cos_PI2, sin_PI2. reflexivity.
Qed.

(** One band on two samples with a state axis of one plane wave on two points: the
    translated states overlap. *)
Lemma wannier_truncated_refuted same : identity_test same ->
  exists op data out, nprod (ashape op) = 2%nat /\ nprod (ashape data) = 2%nat /\
    (forall s, (s < 2)%nat -> orthonormal_rows 1 1 (at_sample 1 1 op s)) /\
    (forall s, (s < 2)%nat -> inner_product 1 (band_state 2 1 data s 0) (band_state 2 1 data s 0) = 1) /\
    wannier_states same 1 1 [BFundT 2] [BTrans 1 2] op data = Some out /\
    inner_product 4 (row 4 (aflat out) 0) (row 4 (aflat out) 1) <> 0.
Proof.
  intros Hs. exists (ones [2%nat]), (ones [2%nat]).
  assert (Hls : Forall (fun n => (0 < n)%nat) [2%nat]) by (repeat constructor).
  assert (Hw : bwf (BTuple [BTrans 1 2])) by (cbn; repeat split; lia).
  assert (He : explicit_orthonormal (BTuple [BTrans 1 2])) by (cbn; repeat split).
  destruct (wannier_spec same Hs [2%nat] [BTrans 1 2] Hls Hw He eq_refl 1 1 (ones [2%nat]) (ones [2%nat]) ltac:(lia) ltac:(lia) eq_refl eq_refl)
    as [loc [out [El [Eo [_ V]]]]].
  destruct (localized_spec 1 1 2 1 (ones [2%nat]) (ones [2%nat]) eq_refl eq_refl ltac:(lia)) as [loc' [El' [_ L]]].
  change (nprod [2%nat]) with 2%nat in El. rewrite El in El'. injection El' as <-.
  exists out. split; [reflexivity|]. split; [reflexivity|].
  split. { intros s _ i j Hi Hj. assert (i = 0%nat) by lia. assert (j = 0%nat) by lia. subst. cbn. rewrite Cconj_1. apply injective_projections; cbn; ring. }
  split. { intros s _. unfold inner_product, csum, band_state, row. cbn [ones aflat]. rewrite Cconj_1. ring. }
  split; [exact Eo|].
  assert (A : forall s y, (s < 2)%nat -> amplitude (BTuple [BTrans 1 2]) (band_state 2 1 loc s 0) y = isqrt 2).
  { intros s y Hss. rewrite (amplitude_ext _ _ (fun _ => 1)).
    - unfold amplitude. cbn [bsize map nprod]. unfold csum. cbn [Nat.mul Nat.add bstate]. cbn.
      unfold plane_wave. rewrite Z.mul_0_l, omega_0. ring.
    - intros k Hk. cbn in Hk. assert (k = 0%nat) by lia. subst k. rewrite L by lia. unfold csum, at_sample, band_state, row. cbn [ones aflat]. ring. }
  assert (W : forall R x, (R < 2)%nat -> (x < 4)%nat -> row 4 (aflat out) R x =
    RtoC (/ 2) * isqrt 2 * (1 + omega 4 (- (Z.of_nat x + Z.of_nat R)))).
  { intros R x HR Hx. assert (IR : in_shape [R] [2%nat]) by (constructor; [exact HR|constructor]).
    assert (IX : in_shape [x] [4%nat]) by (constructor; [exact Hx|constructor]).
    specialize (V 0%nat [R] [x] ltac:(lia) IR IX). cbn [map supercell bfund nprod ravel Nat.mul Nat.add] in V.
    replace (R * 1 + 0)%nat with R in V by lia. replace (x * 1 + 0)%nat with x in V by lia. rewrite V.
    unfold csum. rewrite !A by lia. cbn [unravel nprod sample_freqs moved map plane bsize].
    change (freq 2 (0 / 1)) with 0%Z. change (freq 2 (1 / 1)) with (-1)%Z.
    rewrite Z.mul_0_l, omega_0. change (INR 2) with (1 + 1)%R. replace (/ (1 + 1))%R with (/ 2)%R by lra.
    rewrite (omega_cong 4 (-1 * Z.of_nat ((x + 1 * R) mod 4)) (- (Z.of_nat x + Z.of_nat R))).
    - ring.
    - lia.
    - exists (Z.of_nat ((x + 1 * R) / 4)). rewrite Nat2Z.inj_mod, Nat2Z.inj_div. change (Z.of_nat 4) with 4%Z.
      assert (D := Z.div_mod (Z.of_nat (x + 1 * R)) 4 ltac:(lia)). rewrite Nat2Z.inj_add, Nat2Z.inj_mul in D |- *. lia. }
  assert (O : forall k, omega 4 (- k) = Cpow (0, -1)%R (Z.to_nat k) \/ (k < 0)%Z).
  { intros k. destruct (Z.ltb_spec k 0) as [|Hk]; [right; assumption|left].
    rewrite <- (Z2Nat.id k) at 1 by exact Hk. induction (Z.to_nat k) as [|m IH].
    - cbn. apply omega_0.
    - rewrite Nat2Z.inj_succ. replace (- Z.succ (Z.of_nat m))%Z with (-1 + - Z.of_nat m)%Z by lia.
      rewrite omega_add, IH, omega4. reflexivity. }
  assert (O' : forall k, omega 4 (- Z.of_nat k) = Cpow (0, -1)%R k).
  { intros k. destruct (O (Z.of_nat k)) as [E|E]; [rewrite Nat2Z.id in E; exact E|lia]. }
  unfold inner_product. rewrite (csum_ext _ (fun x => RtoC (/ 8) * (Cconj (1 + Cpow (0, -1)%R x) * (1 + Cpow (0, -1)%R (x + 1))))).
  - unfold csum. cbn. intros H. apply (f_equal fst) in H. cbn in H. lra.
  - intros x Hx. rewrite !W by lia. rewrite Nat2Z.inj_0, Z.add_0_r. change (Z.of_nat 1) with 1%Z.
    replace (Z.of_nat x + 1)%Z with (Z.of_nat (x + 1)) by lia. rewrite !O'.
    rewrite !Cconj_mult, isqrt_conj, Cconj_RtoC.
    replace (RtoC (/ 8)) with (RtoC (/ 2) * RtoC (/ 2) * (isqrt 2 * isqrt 2)); [ring|].
    rewrite <- inv_isqrt by lia. rewrite <- !RtoC_mult. f_equal. cbn. lra.
Qed.

(** Three samples, one band, energies 0, 1, 0. *)
Lemma full_hamiltonian_transposed_refuted same : identity_test same ->
  exists op data ham st out H, nprod (ashape op) = 3%nat /\ nprod (ashape data) = 3%nat /\ nprod (ashape ham) = 3%nat /\
    (forall s, (s < 3)%nat -> orthonormal_rows 1 1 (at_sample 1 1 op s)) /\
    (forall s, (s < 3)%nat -> inner_product 1 (band_state 3 1 data s 0) (band_state 3 1 data s 0) = 1) /\
    (forall t, snd (aflat ham t) = 0%R) /\
    get_bloch_states same (BFund 1) [BFundT 3] [BFundT 1] data = Some st /\
    wannier_states same 1 1 [BFundT 3] [BFundT 1] op data = Some out /\
    full_wannier_hamiltonian 1 1 [3%nat] op ham = Some H /\
    aflat H 1 <> csum (fun s => aflat ham s *
      (inner_product 3 (row 3 (aflat out) 0) (amplitude (momenta [3%nat]) (row 3 (aflat st) s)) *
       inner_product 3 (amplitude (momenta [3%nat]) (row 3 (aflat st) s)) (row 3 (aflat out) 1))) 3.
Proof.
  intros Hs. set (ham := {| ashape := [3%nat]; aflat := fun t => if Nat.eqb t 1 then RtoC 1%R else RtoC 0%R |}).
  exists (ones [3%nat]), (ones [3%nat]), ham.
  assert (Hls : Forall (fun n => (0 < n)%nat) [3%nat]) by (repeat constructor).
  assert (Hw : bwf (BTuple [BFundT 1])) by (cbn; repeat split; lia).
  assert (He : explicit_orthonormal (BTuple [BFundT 1])) by (cbn; repeat split).
  destruct (bloch_states_exist same (BFund 1) [3%nat] [BFundT 1] (ones [3%nat]) Hs Hls Hw He eq_refl eq_refl) as [st [Es _]].
  destruct (wannier_spec same Hs [3%nat] [BFundT 1] Hls Hw He eq_refl 1 1 (ones [3%nat]) (ones [3%nat]) ltac:(lia) ltac:(lia) eq_refl eq_refl)
    as [loc [out [_ [Eo _]]]].
  assert (Horth : forall s l m, (s < 3)%nat -> (l < 1)%nat -> (m < 1)%nat ->
    inner_product 1 (band_state 3 1 (ones [3%nat]) s l) (band_state 3 1 (ones [3%nat]) s m) = cdelta l m).
  { intros s l m _ Hl Hm. assert (l = 0%nat) by lia. assert (m = 0%nat) by lia. subst. unfold inner_product, csum, band_state, row.
    cbn [ones aflat]. rewrite Cconj_1, cdelta_refl. ring. }
  destruct (full_hamiltonian_spec same Hs [3%nat] [BFundT 1] Hls Hw He eq_refl 1 1 (ones [3%nat]) (ones [3%nat]) ham ltac:(lia) ltac:(lia)
    eq_refl eq_refl eq_refl eq_refl st out Es Eo Horth) as [H [EH [_ V]]].
  destruct (hamiltonian_spec 1 1 3 (ones [3%nat]) eq_refl ham eq_refl) as [h [Eh [_ Vh]]].
  destruct (full_hamiltonian_entry 1 1 [3%nat] (ones [3%nat]) ham h Hls Eh) as [H' [EH' [_ V']]].
  rewrite EH in EH'. injection EH' as <-.
  exists st, out, H. split; [reflexivity|]. split; [reflexivity|]. split; [reflexivity|].
  split. { intros s _ i j Hi Hj. assert (i = 0%nat) by lia. assert (j = 0%nat) by lia. subst. cbn. rewrite Cconj_1. apply injective_projections; cbn; ring. }
  split. { intros s Hss. rewrite Horth by lia. apply cdelta_refl. }
  split. { intros t. cbn [ham aflat]. destruct (Nat.eqb t 1); reflexivity. }
  split; [exact Es|]. split; [exact Eo|]. split; [exact EH|].
  specialize (V 0%nat 0%nat 1%nat 0%nat ltac:(cbn; lia) ltac:(lia) ltac:(cbn; lia) ltac:(lia)).
  specialize (V' 0%nat 0%nat 1%nat 0%nat ltac:(cbn; lia) ltac:(lia) ltac:(cbn; lia) ltac:(lia)).
  change (aflat H 1 = csum (fun s => aflat ham s *
      (inner_product 3 (row 3 (aflat out) 1) (amplitude (momenta [3%nat]) (row 3 (aflat st) s)) *
       inner_product 3 (amplitude (momenta [3%nat]) (row 3 (aflat st) s)) (row 3 (aflat out) 0))) 3) in V || (unfold csum at 1 in V; rewrite Cplus_0_l in V).
  change (aflat H 1 = RtoC (/ INR 3) * csum (fun s => at_sample 1 1 h s 0 0 *
     (plane [3%nat] (sample_freqs [3%nat] (unravel [3%nat] s)) [0%Z] * Cconj (plane [3%nat] (sample_freqs [3%nat] (unravel [3%nat] s)) [1%Z]))) 3) in V'.
  intros Hc.
  assert (Cj : csum (fun s => aflat ham s *
      (inner_product 3 (row 3 (aflat out) 0) (amplitude (momenta [3%nat]) (row 3 (aflat st) s)) *
       inner_product 3 (amplitude (momenta [3%nat]) (row 3 (aflat st) s)) (row 3 (aflat out) 1))) 3 = Cconj (aflat H 1)).
  { assert (E : aflat H 1 = csum (fun s => aflat ham s *
      (inner_product 3 (row 3 (aflat out) 1) (amplitude (momenta [3%nat]) (row 3 (aflat st) s)) *
       inner_product 3 (amplitude (momenta [3%nat]) (row 3 (aflat st) s)) (row 3 (aflat out) 0))) 3) by exact V.
    rewrite E, Cconj_csum. apply csum_ext. intros s _. rewrite !Cconj_mult, <- !inner_swap.
    replace (Cconj (aflat ham s)) with (aflat ham s); [ring|]. cbn [ham aflat]. destruct (Nat.eqb s 1); rewrite Cconj_RtoC; reflexivity. }
  rewrite Cj in Hc. rewrite V' in Hc. unfold csum in Hc. rewrite !Vh in Hc by lia. unfold csum, at_sample in Hc. cbn [ones ham aflat] in Hc.
  cbn [Nat.mul Nat.add Nat.eqb unravel nprod sample_freqs plane] in Hc.
  change (freq 3 (0 / 1)) with 0%Z in Hc. change (freq 3 (1 / 1)) with 1%Z in Hc. change (freq 3 (2 / 1)) with (-1)%Z in Hc.
  rewrite !Z.mul_0_r, !omega_0 in Hc. change (1 * 1)%Z with 1%Z in Hc.
  assert (Sn : (0 < sin (2 * PI * 1 / INR 3))%R).
  { assert (P := PI_RGT_0). change (INR 3) with (1 + 1 + 1)%R. apply sin_gt_0; lra. }
  apply (f_equal snd) in Hc. unfold omega, cis in Hc. cbn [fst snd Cmult Cplus Cconj RtoC] in Hc.
  change (INR 3) with (1 + 1 + 1)%R in *. set (x := sin _) in *. clearbody x.
  match type of Hc with ?l = _ => assert (E1 : l = (- x / 3)%R) by field end.
  rewrite E1 in Hc. match type of Hc with _ = ?r => assert (E2 : r = (x / 3)%R) by field end. rewrite E2 in Hc. lra.
Qed.

(** Two samples, two bands with energies 0 and 1 everywhere. *)
Lemma full_hamiltonian_order_refuted same : identity_test same ->
  exists op data ham st out H, nprod (ashape op) = 8%nat /\ nprod (ashape data) = 8%nat /\ nprod (ashape ham) = 4%nat /\
    (forall s, (s < 2)%nat -> orthonormal_rows 2 2 (at_sample 2 2 op s)) /\
    (forall s l m, (s < 2)%nat -> (l < 2)%nat -> (m < 2)%nat -> inner_product 2 (band_state 2 2 data s l) (band_state 2 2 data s m) = cdelta l m) /\
    get_bloch_states same (BFund 2) [BFundT 2] [BFundT 2] data = Some st /\
    wannier_states same 2 2 [BFundT 2] [BFundT 2] op data = Some out /\
    full_wannier_hamiltonian 2 2 [2%nat] op ham = Some H /\
    aflat H (1 * 4 + 1) <> csum (fun c => csum (fun s => aflat ham (c * 2 + s) *
      (inner_product 4 (row 4 (aflat out) 1) (amplitude (momenta [4%nat]) (row 4 (aflat st) (c * 2 + s))) *
       inner_product 4 (amplitude (momenta [4%nat]) (row 4 (aflat st) (c * 2 + s))) (row 4 (aflat out) 1))) 2) 2.
Proof.
  intros Hs.
  set (op := {| ashape := [8%nat]; aflat := fun t => if Nat.eqb ((t / 2) mod 2) (t mod 2) then RtoC 1%R else RtoC 0%R |}).
  set (data := {| ashape := [8%nat]; aflat := fun t => if Nat.eqb (t / 4) (t mod 2) then RtoC 1%R else RtoC 0%R |}).
  set (ham := {| ashape := [4%nat]; aflat := fun t => if Nat.leb 2 t then RtoC 1%R else RtoC 0%R |}).
  exists op, data, ham.
  assert (Hls : Forall (fun n => (0 < n)%nat) [2%nat]) by (repeat constructor).
  assert (Hw : bwf (BTuple [BFundT 2])) by (cbn; repeat split; lia).
  assert (He : explicit_orthonormal (BTuple [BFundT 2])) by (cbn; repeat split).
  destruct (bloch_states_exist same (BFund 2) [2%nat] [BFundT 2] data Hs Hls Hw He eq_refl eq_refl) as [st [Es _]].
  destruct (wannier_spec same Hs [2%nat] [BFundT 2] Hls Hw He eq_refl 2 2 op data ltac:(lia) ltac:(lia) eq_refl eq_refl) as [loc [out [_ [Eo _]]]].
  assert (Horth : forall s l m, (s < 2)%nat -> (l < 2)%nat -> (m < 2)%nat -> inner_product 2 (band_state 2 2 data s l) (band_state 2 2 data s m) = cdelta l m).
  { intros s l m Hss Hl Hm. two s Hss; two l Hl; two m Hm; unfold inner_product, csum, band_state, row; c_eq. }
  destruct (full_hamiltonian_spec same Hs [2%nat] [BFundT 2] Hls Hw He eq_refl 2 2 op data ham ltac:(lia) ltac:(lia)
    eq_refl eq_refl eq_refl eq_refl st out Es Eo Horth) as [H [EH [_ V]]].
  destruct (hamiltonian_spec 2 2 2 op eq_refl ham eq_refl) as [h [Eh [_ Vh]]].
  destruct (full_hamiltonian_entry 2 2 [2%nat] op ham h Hls Eh) as [H' [EH' [_ V']]].
  rewrite EH in EH'. injection EH' as <-.
  exists st, out, H. split; [reflexivity|]. split; [reflexivity|]. split; [reflexivity|].
  split. { intros s Hss i j Hi Hj. two s Hss; two i Hi; two j Hj; unfold csum, at_sample; c_eq. }
  split; [exact Horth|]. split; [exact Es|]. split; [exact Eo|]. split; [exact EH|].
  assert (E1 : aflat H (1 * 4 + 1) = 1).
  { assert (E := V' 0%nat 1%nat 0%nat 1%nat ltac:(cbn; lia) ltac:(lia) ltac:(cbn; lia) ltac:(lia)).
    change (((0 * 2 + 1) * nprod [2%nat] + 0) * 2 + 1)%nat with (1 * 4 + 1)%nat in E. rewrite E.
    change (nprod [2%nat]) with 2%nat. unfold csum. rewrite !Vh by lia. unfold csum, at_sample. cbn -[INR omega freq Cconj].
    rewrite !Z.mul_0_r, !omega_0. rewrite !Cconj_mult, !Cconj_1, !Cconj_0. change (INR 2) with 2%R. apply injective_projections; cbn; field. }
  assert (E0 : aflat H (2 * 4 + 2) = 0).
  { assert (E := V' 1%nat 0%nat 1%nat 0%nat ltac:(cbn; lia) ltac:(lia) ltac:(cbn; lia) ltac:(lia)).
    change (((1 * 2 + 0) * nprod [2%nat] + 1) * 2 + 0)%nat with (2 * 4 + 2)%nat in E. rewrite E.
    change (nprod [2%nat]) with 2%nat. unfold csum. rewrite !Vh by lia. unfold csum, at_sample. cbn -[INR omega freq Cconj plane sample_freqs]. ring. }
  assert (E := V 1%nat 0%nat 1%nat 0%nat ltac:(cbn; lia) ltac:(lia) ltac:(cbn; lia) ltac:(lia)).
  change (((1 * 2 + 0) * nprod [2%nat] + 1) * 2 + 0)%nat with (2 * 4 + 2)%nat in E. rewrite E0 in E.
  intros Hc. rewrite E1 in Hc. assert (Hb : (1 : C) = 0) by (rewrite Hc; symmetry; exact E).
  apply (f_equal fst) in Hb. cbn in Hb. lra.
Qed.

(** Evenly spaced position axis as list basis. *)
Lemma sample_fractions_position_refuted same : identity_test same ->
  exists fr, sample_fractions same [BFund 3] = Some fr /\ fr 0%nat 1%nat <> (IZR (freq 3 1) / 3)%R.
Proof.
  intros Hs. destruct (sample_fractions_position same 3 Hs ltac:(exists 1%nat; reflexivity)) as [fr [E V]].
  exists fr. split; [exact E|]. rewrite V by lia. change (freq 3 1) with 1%Z. lra.
Qed.

Lemma fractions_length ls : forall s, in_shape s ls -> length (fractions ls s) = length ls.
Proof. induction ls as [|n ls IH]; intros s H; inversion H; subst; cbn; [reflexivity|]. f_equal. apply IH. assumption. Qed.
Lemma fractions_nth ls : forall s ax, in_shape s ls -> (ax < length ls)%nat ->
  nth ax (fractions ls s) 0%R = (IZR (freq (nth ax ls 0%nat) (nth ax s 0%nat)) / INR (nth ax ls 0%nat))%R.
Proof.
  induction ls as [|n ls IH]; intros s ax H Ha; inversion H; subst; cbn in Ha; [lia|]. destruct ax as [|ax]; [reflexivity|].
  cbn [fractions nth]. apply IH; [assumption|lia].
Qed.

(** The Hamiltonian is diagonalised at the fractions of the samples. *)
Lemma generate_wavepacket_spec same eigh ls n nb step offset ham : identity_test same -> eigh_ok eigh ->
  Forall (fun m => (0 < m)%nat) ls -> (0 < nb)%nat -> (0 < step)%nat -> (offset + step * (nb - 1) < n)%nat ->
  (forall s, in_shape s ls -> hermitian n (ham (fractions ls s))) ->
  exists vectors energies,
    generate_wavepacket same eigh (map BFundT ls) n ham nb (Z.of_nat step) (Z.of_nat offset) = Some (vectors, energies) /\
    ashape vectors = [(nb * nprod ls * n)%nat] /\ ashape energies = [(nb * nprod ls)%nat] /\
    forall s, in_shape s ls ->
      (forall b, (b < nb)%nat -> exists e : R,
        aflat energies (b * nprod ls + ravel ls s) = RtoC e /\
        (forall E, ascending_spectrum n (ham (fractions ls s)) E -> e = E (offset + step * b)%nat) /\
        forall x, (x < n)%nat ->
          csum (fun y => ham (fractions ls s) x y * band_state (nprod ls) n vectors (ravel ls s) b y) n =
          RtoC e * band_state (nprod ls) n vectors (ravel ls s) b x) /\
      forall b c, (b < nb)%nat -> (c < nb)%nat ->
        inner_product n (band_state (nprod ls) n vectors (ravel ls s) b) (band_state (nprod ls) n vectors (ravel ls s) c) = cdelta b c.
Proof.
  intros Hs He Hls Hnb Hst Hoff Hh.
  destruct (sample_fractions_fundamental same ls Hs Hls) as [fr [Ef Vf]].
  unfold generate_wavepacket. rewrite Ef. fold (momenta ls). rewrite momenta_size, map_length.
  assert (EF : forall s, in_shape s ls -> map (fun ax => fr ax (ravel ls s)) (seq 0 (length ls)) = fractions ls s).
  { intros s Is. apply (nth_ext _ _ 0%R 0%R).
    - rewrite map_length, seq_length. symmetry. apply fractions_length. exact Is.
    - intros ax Ha. rewrite map_length, seq_length in Ha. rewrite fractions_nth by assumption.
      rewrite (nth_indep _ _ (fr 0%nat (ravel ls s))) by (rewrite map_length, seq_length; exact Ha).
      rewrite (map_nth (fun ax0 => fr ax0 (ravel ls s))), seq_nth by exact Ha. apply Vf; [exact Is|exact Ha|].
      apply freq_is_freq. apply in_shape_nth; assumption. }
  destruct (generate_spec eigh He (nprod ls) n nb step offset (fun i => map (fun ax => fr ax i) (seq 0 (length ls))) ham) as [v [e [E [S1 [S2 V]]]]];
    try assumption.
  - apply nprod_pos. exact Hls.
  - intros i Hi. rewrite <- (ravel_unravel ls i Hi), EF by (apply unravel_in_shape; exact Hi). apply Hh. apply unravel_in_shape. exact Hi.
  - exists v, e. split; [exact E|]. split; [exact S1|]. split; [exact S2|]. intros s Is.
    specialize (V (ravel ls s) (ravel_lt ls s Is)). cbv beta in V. rewrite EF in V by exact Is. exact V.
Qed.

Lemma sample_fractions_signed same l : identity_test same -> bwf (BTuple l) -> Forall (fun b => is_transformed b = true) l ->
  exists fr, sample_fractions same l = Some fr /\
    forall s ax, in_shape s (map bsize l) -> (ax < length l)%nat ->
    let b := nth ax l (BFund 0) in
    exists f, (- Z.of_nat (bfund b) <= 2 * f < Z.of_nat (bfund b))%Z /\
      (forall x, bstate b (nth ax s 0%nat) x = plane_wave (bfund b) f x) /\
      fr ax (ravel (map bsize l) s) = (IZR f / INR (bfund b))%R.
Proof.
  intros H1 H2 H3. destruct (sample_fractions_spec same l H1 H2 H3) as [fr [E V]]. exists fr. split; [exact E|].
  intros s ax Hs Ha b. destruct (V s ax Hs Ha) as [f [Hf [A B]]]. exists f. split; [|split; [exact A|exact B]].
  unfold is_freq in Hf. fold b in Hf. lia.
Qed.
