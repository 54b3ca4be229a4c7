(** Bases of samples, examples (C112). *)
From Coq Require Import Reals Psatz.
From Verif Require Import ZLib Csum DFT NumPy Index IndexProofs AxesProofs Spec Basis SpecBasis BasisProofs BasisProofs2
  BasisProofs3 BasisFacts IndexSum Lattice SpecReal Operator OperatorProofs Wavepacket SpecWavepacket WavepacketProofs WavepacketProofs2 Hamiltonian SpecHamiltonian
  HamiltonianProofs HamiltonianProofs3 LatticeProofs VolumeBasis SpecVolumeBasis VolumeBasisProofs WaveLists SpecWaveLists WaveListsProofs.
Local Open Scope R_scope.
Local Open Scope C_scope.

(** ** Frequencies *)
Lemma sample_basis_some axes : forall ls, length ls = length axes ->
  sample_basis_axes axes ls = Some (map (fun p => momentum_axis_of (scaled (snd p) (la_delta (fst p))) (snd p)) (combine axes ls)).
Proof.
  induction axes as [|a axes IH]; intros [|n ls] H; cbn in H; try discriminate; [reflexivity|].
  cbn [sample_basis_axes combine map]. rewrite IH by lia. reflexivity.
Qed.
Lemma nth_scaled n v c : nth c (scaled n v) 0%R = (nth c v 0 * INR n)%R.
Proof. unfold scaled. revert c. induction v as [|x v IH]; intros [|c]; cbn; try ring. apply IH. Qed.
Lemma sample_lattice axes : forall ls a c, length ls = length axes -> (a < length axes)%nat ->
  lattice_of (map (fun p => momentum_axis_of (scaled (snd p) (la_delta (fst p))) (snd p)) (combine axes ls)) a c = (lattice_of axes a c * INR (nth a ls 0%nat))%R.
Proof.
  induction axes as [|x axes IH]; intros [|n ls] a c H Ha; cbn in H, Ha; try lia. unfold lattice_of in *. cbn [combine map].
  destruct a as [|a]; cbn [nth]; [cbn [fst snd la_delta momentum_axis_of]; apply nth_scaled|]. apply IH; lia.
Qed.
Lemma lattice_ext (P Q : list length_axis) a c : map la_delta P = map la_delta Q -> lattice_of P a c = lattice_of Q a c.
Proof. intros E. unfold lattice_of. rewrite E. reflexivity. Qed.

Lemma sample_frequencies d axes ls : in_space d axes -> length ls = length axes -> Forall (fun n => (0 < n)%nat) ls ->
  exists B, get_fundamental_sample_basis axes ls = Some B /\ stacked B = BTuple (map BFundT ls) /\
    forall inv, is_inverse (length axes) (lattice_of B) inv ->
    forall b j, (b < length axes)%nat -> (j < nprod ls)%nat ->
      rsum (fun c => get_wavepacket_fundamental_sample_frequencies ls inv c j * lattice_of axes b c)%R (length axes) =
      (2 * PI * (IZR (freq (nth b ls 0%nat) (nth b (unravel ls j) 0%nat)) / INR (nth b ls 0%nat)))%R.
Proof.
  intros Hd Hl Hp. destruct (fundamental_forms d axes Hd) as [P [M [EP [EM [LP [LM _]]]]]].
  assert (LL : length M = length axes) by (rewrite <- (map_length la_delta M), LM; apply map_length).
  unfold get_fundamental_sample_basis. rewrite EM, sample_basis_some by lia. eexists. split; [reflexivity|].
  split. { unfold stacked. f_equal. rewrite map_map. cbn [la_basis momentum_axis_of]. clear -Hl LL. 
    revert ls Hl. rewrite <- LL. clear LL. induction M as [|m M IH]; intros [|n ls] H; cbn in H; try discriminate; [reflexivity|].
    cbn [combine map snd]. f_equal. apply IH. lia. }
  intros inv Hi b j Hb Hj. unfold get_wavepacket_fundamental_sample_frequencies. rewrite <- Hl in *.
  assert (B0 : (0 < nth b ls 0)%nat) by (exact (proj1 (Forall_forall _ _) Hp _ (nth_In _ _ Hb))).
  rewrite (phase_turns ls _ inv j (lattice_of axes b) (fun a => (rdelta b a / INR (nth b ls 0%nat))%R) Hi Hj).
  - f_equal. unfold HamiltonianProofs3.turns.
    transitivity (rsum (fun a => rdelta b a * (IZR (freq (nth a ls 0%nat) (nth a (unravel ls j) 0%nat)) / INR (nth b ls 0%nat)))%R (length ls)).
    + apply rsum_ext. intros a Ha. unfold Rdiv. ring.
    + apply (rsum_delta' (fun a => (IZR (freq (nth a ls 0%nat) (nth a (unravel ls j) 0%nat)) / INR (nth b ls 0%nat))%R)). exact Hb.
  - intros c Hc. transitivity (rsum (fun a => rdelta b a * (lattice_of axes a c * (INR (nth a ls 0%nat) / INR (nth b ls 0%nat))))%R (length ls)).
    + symmetry. rewrite (rsum_delta' (fun a => (lattice_of axes a c * (INR (nth a ls 0%nat) / INR (nth b ls 0%nat)))%R)) by exact Hb.
      field. apply not_0_INR. lia.
    + apply rsum_ext. intros a Ha. rewrite sample_lattice by lia. rewrite (lattice_ext M axes a c LM). unfold Rdiv. ring.
Qed.

(** ** States of a sample *)
Lemma even_bloch n L o k x t : (0 < n)%nat -> (0 < L)%nat ->
  bstate (BEvenT n L o) k ((x + n * t) mod (n * L)) = omega L (o * Z.of_nat t) * bstate (BEvenT n L o) k x.
Proof.
  intros Hn HL. cbn [bstate]. unfold plane_wave. set (p := sample_pos n L o k).
  assert (P : Zcong (Z.of_nat L) (Z.of_nat p) o).
  { unfold p, sample_pos. assert (B := Z.mod_pos_bound (Z.of_nat k * Z.of_nat L + o) (Z.of_nat n * Z.of_nat L) ltac:(nia)).
    rewrite Z2Nat.id by lia. assert (D := Z.div_mod (Z.of_nat k * Z.of_nat L + o) (Z.of_nat n * Z.of_nat L) ltac:(nia)).
    exists (Z.of_nat k - Z.of_nat n * ((Z.of_nat k * Z.of_nat L + o) / (Z.of_nat n * Z.of_nat L)))%Z. nia. }
  assert (D := Nat.div_mod (x + n * t) (n * L) ltac:(nia)). set (q := ((x + n * t) / (n * L))%nat) in *. set (m := ((x + n * t) mod (n * L))%nat) in *.
  rewrite (omega_cong (n * L) (Z.of_nat p * Z.of_nat m) (Z.of_nat p * Z.of_nat x + Z.of_nat p * Z.of_nat t * Z.of_nat n)).
  - rewrite omega_add. replace (n * L)%nat with (L * n)%nat at 3 by lia. rewrite omega_scale by lia.
    rewrite (omega_cong L (Z.of_nat p * Z.of_nat t) (o * Z.of_nat t)).
    + ring.
    + exact HL.
    + destruct P as [r ->]. exists (r * Z.of_nat t)%Z. ring.
  - nia.
  - exists (- (Z.of_nat p * Z.of_nat q))%Z. apply (f_equal Z.of_nat) in D. rewrite !Nat2Z.inj_add, !Nat2Z.inj_mul in D.
    rewrite Nat2Z.inj_mul. nia.
Qed.

Lemma sample_states axes : forall ls os B ss, sample_axes axes ls os = Some B -> length os = length ls -> length axes = length ls ->
  ss = map (fun a => bfund (la_basis a)) axes -> Forall (fun n => (0 < n)%nat) ss -> Forall (fun n => (0 < n)%nat) ls ->
  fundamental_shape B = map2 Nat.mul ss ls /\ map (fun a => bsize (la_basis a)) B = ss /\ map la_delta B = map2 scaled ls (map la_delta axes) /\
  forall k x cells, in_shape k ss -> in_shape x (fundamental_shape B) -> length cells = length ls ->
    axis_states (map la_basis B) k (moved_cells ss ls cells x) = plane ls os (map Z.of_nat cells) * axis_states (map la_basis B) k x.
Proof.
  induction axes as [|a axes IH]; intros [|n ls] [|o os] B ss E L1 L2 -> Hs Hl; cbn in L1, L2; try discriminate.
  - injection E as <-. do 3 (split; [reflexivity|]). intros k x cells Hk Hx Hc. inversion Hx; inversion Hk; subst. destruct cells; [|discriminate]. cbn. ring.
  - cbn [sample_axes] in E. destruct (sample_axes axes ls os) as [R|] eqn:ER; [|discriminate]. injection E as <-.
    inversion Hs; inversion Hl; subst. destruct (IH ls os R _ ER ltac:(lia) ltac:(lia) eq_refl ltac:(assumption) ltac:(assumption)) as [I1 [I2 [I3 I4]]].
    split; [unfold fundamental_shape in *; cbn [map map2 la_basis bfund]; f_equal; exact I1|].
    split; [cbn [map la_basis bsize]; f_equal; exact I2|]. split; [cbn [map map2 la_delta]; f_equal; exact I3|].
    intros k x cells Hk Hx Hc. destruct cells as [|t cells]; [discriminate|]. cbn [map] in Hk.
    inversion Hk as [|k1 ? k' ? K1 K2]; subst. inversion Hx as [|x1 ? x' ? X1 X2]; subst.
    cbn [map moved_cells axis_states plane la_basis]. rewrite even_bloch by assumption. rewrite I4 by (try assumption; cbn in Hc; lia). ring.
Qed.

Lemma sample_axes_exists axes : forall ls os, length axes = length ls ->
  ((exists B, sample_axes axes ls os = Some B) <-> (length os <= length ls)%nat) /\
  forall B, sample_axes axes ls os = Some B -> length B = length os.
Proof.
  induction axes as [|a axes IH]; intros [|n ls] [|o os] L; cbn in L; try discriminate; cbn [sample_axes length].
  - split; [split; [intros _; lia|intros _; eexists; reflexivity]|]. intros B H. injection H as <-. reflexivity.
  - split; [split; [intros [B H]; discriminate|lia]|]. intros B H. discriminate.
  - split; [split; [intros _; lia|intros _; eexists; reflexivity]|]. intros B H. injection H as <-. reflexivity.
  - destruct (IH ls os ltac:(lia)) as [I1 I2]. destruct (sample_axes axes ls os) as [R|] eqn:E.
    + split; [split; [intros _|intros _; eexists; reflexivity]|].
      * assert (length os <= length ls)%nat by (apply I1; eexists; reflexivity). lia.
      * intros B H. injection H as <-. cbn. f_equal. apply I2. reflexivity.
    + split; [split; [intros [B H]; discriminate|]|intros B H; discriminate].
      intros H. exfalso. assert (Q : (length os <= length ls)%nat) by lia. destruct (proj2 I1 Q) as [B HB]. discriminate.
Qed.

Lemma moved_in ss : forall ls cells x, Forall (fun n => (0 < n)%nat) ss -> Forall (fun n => (0 < n)%nat) ls -> length ls = length ss -> length cells = length ss ->
  in_shape x (map2 Nat.mul ss ls) -> in_shape (moved_cells ss ls cells x) (map2 Nat.mul ss ls).
Proof.
  induction ss as [|n ss IH]; intros [|l ls] [|t cells] x Hs Hl L1 L2 Hx; cbn in L1, L2; try discriminate; [inversion Hx; constructor|].
  inversion Hs; inversion Hl; subst. cbn [map2] in *. inversion Hx as [|x1 ? x' ? X1 X2]; subst. cbn [moved_cells]. constructor.
  - apply Nat.mod_upper_bound. nia.
  - apply IH; try assumption; lia.
Qed.

Lemma unfurled_sample d axes ls os : in_space d axes -> length ls = length axes -> length os = length axes -> bwf (stacked axes) ->
  Forall (fun n => (0 < n)%nat) ls ->
  let ss := fundamental_shape axes in
  exists B, get_fundamental_unfurled_sample_basis_momentum axes ls (Some os) = Some B /\
    map la_delta B = map2 scaled ls (map la_delta axes) /\ map (fun a => bsize (la_basis a)) B = ss /\
    fundamental_shape B = map2 Nat.mul ss ls /\
    forall k x cells, (k < nprod ss)%nat -> in_shape x (fundamental_shape B) -> length cells = length axes ->
      bstate (stacked B) k (ravel (fundamental_shape B) (moved_cells ss ls cells x)) =
      plane ls os (map Z.of_nat cells) * bstate (stacked B) k (ravel (fundamental_shape B) x).
Proof.
  intros Hd Hl Ho Hw Hp ss. destruct (fundamental_forms d axes Hd) as [P [M [EP [EM [LP [LM [SP [SM [ZP [ZM [FP FM]]]]]]]]]]].
  assert (LL : length P = length axes) by (rewrite <- (map_length la_delta P), LP; apply map_length).
  unfold get_fundamental_unfurled_sample_basis_momentum. rewrite EP.
  destruct (proj2 (proj1 (sample_axes_exists P ls os ltac:(lia))) ltac:(lia)) as [B EB]. rewrite EB. exists B. split; [reflexivity|].
  assert (Hs : Forall (fun n => (0 < n)%nat) ss).
  { unfold ss. rewrite <- shape_bases. apply Forall_forall. intros n Hn. apply in_map_iff in Hn. destruct Hn as [b [<- Hb]].
    apply (bfund_pos b). exact (proj1 (Forall_forall _ _) (proj1 (bwf_tuple _) Hw) b Hb). }
  assert (FS : ss = map (fun a => bfund (la_basis a)) P) by (symmetry; exact FP).
  destruct (sample_states P ls os B ss EB ltac:(lia) ltac:(lia) FS Hs Hp) as [I1 [I2 [I3 I4]]].
  split; [rewrite <- LP; exact I3|]. split; [exact I2|]. split; [exact I1|].
  intros k x cells Hk Hx Hc.
  assert (LS : length ss = length axes) by (unfold ss, fundamental_shape; apply map_length).
  assert (Hx' : in_shape (moved_cells ss ls cells x) (fundamental_shape B)) by (rewrite I1 in *; apply moved_in; try assumption; lia).
  assert (SB : map bsize (map la_basis B) = ss) by (rewrite map_map; exact I2).
  assert (FB : map bfund (map la_basis B) = fundamental_shape B) by apply shape_bases.
  assert (Q := fun y => bstate_ravel (map la_basis B) (unravel ss k) y). rewrite SB, FB in Q.
  assert (Hk' := unravel_in_shape ss k Hk). unfold stacked.
  rewrite <- (ravel_unravel ss k Hk). rewrite !Q by assumption. apply I4; try assumption. lia.
Qed.
Lemma unfurled_sample_offsets d axes ls os : in_space d axes -> length ls = length axes ->
  ((exists B, get_fundamental_unfurled_sample_basis_momentum axes ls (Some os) = Some B) <-> (length os <= length axes)%nat) /\
  (forall B, get_fundamental_unfurled_sample_basis_momentum axes ls (Some os) = Some B -> length B = length os) /\
  get_fundamental_unfurled_sample_basis_momentum axes ls None = get_fundamental_unfurled_sample_basis_momentum axes ls (Some (repeat 0%Z (length ls))).
Proof.
  intros Hd Hl. destruct (fundamental_forms d axes Hd) as [P [M [EP [EM [LP _]]]]].
  assert (LL : length P = length axes) by (rewrite <- (map_length la_delta P), LP; apply map_length).
  unfold get_fundamental_unfurled_sample_basis_momentum. rewrite EP. destruct (sample_axes_exists P ls os ltac:(lia)) as [A B]. rewrite Hl in A. auto.
Qed.

(** ** Examples *)
Definition ex_states : ndarray := array3 1 2 2 (fun _ s k => cdelta s k).
Definition ex_values : ndarray := {| ashape := [2%nat]; aflat := fun s => RtoC (INR s) |}.
Definition ex_levels (i j : nat) : C := cdelta i j * RtoC (INR i).
Lemma ex_states_ok : nprod (ashape ex_states) = (1 * bsize (BFund 2) * bsize (BFund 2))%nat /\ nprod (ashape ex_values) = (1 * bsize (BFund 2))%nat /\
  (forall s, (s < 2)%nat -> eigenpair 2 ex_levels (band_state 2 2 (aflat ex_states) 0 s) (band_value 2 (aflat ex_values) 0 s)).
Proof.
  split; [reflexivity|]. split; [reflexivity|]. intros s Hs i Hi. unfold band_state, band_value, ex_levels, ex_states.
  rewrite !csum_S. cbn [csum]. destruct s as [|[|s]]; try lia; destruct i as [|[|i]]; try lia; cbn; ring.
Qed.

Lemma eigenpairs_refuted same : identity_test same ->
  exists d e, conv same 1 (BFund 2) (BFund 2) (Some (BFundT 2)) None ex_states ex_values = Some (d, e) /\
    band_value 2 (aflat e) 0 0 = isqrt 2 /\ (forall k, (k < 2)%nat -> band_state 2 2 (aflat d) 0 0 k = isqrt 2) /\
    forall c, ~ eigenpair 2 ex_levels (band_state 2 2 (aflat d) 0 0) c.
Proof.
  intros Hs.
  destruct (conv_some same 1 (BFund 2) (BFund 2) (Some (BFundT 2)) None ex_states ex_values Hs) as [d [e [E [_ [_ [D V]]]]]];
    try (cbn; lia); try exact I; try reflexivity; try (apply compatible_other; [intros ? ? [? ?]; discriminate|reflexivity]).
  exists d, e. split; [exact E|]. cbn [bsize] in D, V.
  assert (O0 : forall j, (j < 2)%nat -> overlap (BFundT 2) (BFund 2) 0 j = isqrt 2).
  { intros j Hj. unfold overlap. cbn [bstate bfund].
    assert (P0 : forall x, Cconj (plane_wave 2 (freq 2 0) x) = isqrt 2).
    { intros x. change (freq 2 0) with 0%Z. rewrite plane_wave_conj. rewrite Z.mul_0_l. change (- 0)%Z with 0%Z. rewrite omega_0. ring. }
    rewrite !csum_S. cbn [csum]. rewrite !P0. destruct j as [|[|j]]; try lia; unfold cdelta; cbn; ring. }
  assert (OI : forall i j, (i < 2)%nat -> (j < 2)%nat -> overlap (BFund 2) (BFund 2) i j = cdelta i j).
  { intros i j Hi Hj. apply (explicit_orthonormal_sound (BFund 2)); [cbn; lia|exact I|exact Hi|exact Hj]. }
  assert (V0 : band_value 2 (aflat e) 0 0 = isqrt 2).
  { rewrite (V 0%nat 0%nat) by lia. rewrite !csum_S. cbn [csum]. rewrite !O0 by lia. unfold band_value, ex_values. cbn. ring. }
  assert (D0 : forall k, (k < 2)%nat -> band_state 2 2 (aflat d) 0 0 k = isqrt 2).
  { intros k Hk. rewrite (D 0%nat 0%nat k) by lia. rewrite !csum_S. cbn [csum]. rewrite !O0, !OI by lia. unfold band_state, ex_states.
    destruct k as [|[|k]]; try lia; cbn; ring. }
  split; [exact V0|]. split; [exact D0|]. intros c H.
  assert (NZ : isqrt 2 <> 0) by (unfold isqrt; intros Q; apply RtoC_inj in Q; revert Q; apply Rinv_neq_0_compat, Rgt_not_eq, sqrt_lt_R0; cbn; lra).
  assert (H0 := H 0%nat ltac:(lia)). assert (H1 := H 1%nat ltac:(lia)). rewrite !csum_S in H0, H1. cbn [csum] in H0, H1. rewrite !D0 in H0, H1 by lia.
  unfold ex_levels, cdelta in H0, H1. cbn [Nat.eqb INR] in H0, H1.
  assert (C0 : c = 0).
  { destruct (Ceq_dec c 0) as [|N]; [assumption|]. exfalso. apply (Cmult_neq_0 c (isqrt 2) N NZ). rewrite <- H0. ring. }
  subst c. apply NZ. transitivity (0 * isqrt 2); [|ring]. rewrite <- H1. change (INR 0) with 0%R. change (INR 1) with 1%R. ring.
Qed.
