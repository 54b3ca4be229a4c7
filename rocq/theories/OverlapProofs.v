(** Overlaps of wavepackets and of lists of states. *)
From Coq Require Import Reals Lra.
From Verif Require Import ZLib Csum DFT NumPy Interp Index IndexProofs AxesProofs Spec InterpProofs Basis SpecBasis BasisProofs BasisProofs2
  BasisProofs3 BasisFacts Operator SpecOperator OperatorProofs Reduce ReduceProofs IndexSum Wavepacket SpecWavepacket WavepacketProofs
  WavepacketProofs2 WavepacketProofs3 LocalizeProofs4 Lattice Overlap SpecOverlap.
Local Open Scope R_scope.
Local Open Scope C_scope.

Section Unfurled.
  Context (same : basis -> basis -> bool) (Hsame : identity_test same).
  Context (ls : list nat) (saxes : list basis).
  Context (Hls : Forall (fun n => (0 < n)%nat) ls) (Hw : bwf (BTuple saxes)) (He : explicit_orthonormal (BTuple saxes)).
  Context (Hl : length ls = length saxes).
  Let ss := map bfund saxes.
  Let N := bsize (BTuple saxes).
  Let sh := supercell ls ss.

  Lemma supercell_pos : Forall (fun n => (0 < n)%nat) sh.
  Proof using Hls Hw Hl.
    assert (P := fund_shape_pos saxes Hw). fold ss in P. assert (L : length ls = length ss) by (unfold ss; rewrite map_length; exact Hl).
    unfold sh. clear -P Hls L. revert ls Hls L. induction P as [|m ss Hm P IH]; intros [|n ls] Hls L; try discriminate; [constructor|].
    inversion Hls; subst. cbn [supercell]. constructor; [nia|]. apply IH; auto.
  Qed.

  Lemma to_position : exists F, convert same (BTuple (map BFundT sh)) (BTuple (map BFund sh)) = Some F /\
    forall v x, (x < nprod sh)%nat -> F v x = amplitude (momenta sh) v x.
  Proof using Hsame Hls Hw Hl.
    assert (P := supercell_pos).
    destruct (convert_position same (map BFundT sh) Hsame (momenta_wf sh P)) as [F [E V]].
    { apply explicit_orthonormal_tuple. apply Forall_forall. intros b Hb. apply in_map_iff in Hb. destruct Hb as [n [<- _]]. exact I. }
    rewrite as_fundamental_position_tuple, map_bfund_FundT in E. rewrite map_bfund_FundT in V. exists F. split; [exact E|exact V].
  Qed.

  Lemma unfurl_value d : nprod (ashape d) = (nprod ls * N)%nat ->
    exists out, unfurl_wavepacket same (map BFundT ls) saxes d = Some out /\ ashape out = [nprod sh] /\
      forall x, (x < nprod sh)%nat -> amplitude (momenta sh) (aflat out) x = unfurled_value ls saxes (aflat d) x.
  Proof using Hsame Hls Hw He Hl.
    intros Hd. destruct (unfurl_wavepacket_amplitude same Hsame ls saxes Hls Hw He Hl d Hd) as [out [E [Sh V]]].
    exists out. split; [exact E|]. split; [exact Sh|]. intros x Hx.
    rewrite <- (ravel_unravel sh x Hx) at 1. unfold sh, ss. rewrite V by (apply unravel_in_shape; exact Hx). reflexivity.
  Qed.

  Lemma unfurled_position_spec d : nprod (ashape d) = (nprod ls * N)%nat ->
    exists out, unfurled_position same (map BFundT ls) saxes d = Some out /\ ashape out = [nprod sh] /\
      forall x, (x < nprod sh)%nat -> aflat out x = unfurled_value ls saxes (aflat d) x.
  Proof using Hsame Hls Hw He Hl.
    intros Hd. destruct (unfurl_value d Hd) as [u [Eu [Su Vu]]]. destruct to_position as [F [EF VF]].
    unfold unfurled_position. rewrite Eu, map_bfund_FundT, map2_supercell. fold ss sh. rewrite EF.
    eexists. split; [reflexivity|]. split; [reflexivity|]. intros x Hx. cbn [aflat]. rewrite VF by exact Hx. apply Vu. exact Hx.
  Qed.
End Unfurled.

Lemma wavepacket_overlap same : identity_test same -> forall l0 s0 l1 s1 d0 d1,
  Forall (fun n => (0 < n)%nat) l0 -> bwf (BTuple s0) -> explicit_orthonormal (BTuple s0) -> length l0 = length s0 ->
  Forall (fun n => (0 < n)%nat) l1 -> bwf (BTuple s1) -> explicit_orthonormal (BTuple s1) -> length l1 = length s1 ->
  supercell l0 (map bfund s0) = supercell l1 (map bfund s1) ->
  nprod (ashape d0) = (nprod l0 * bsize (BTuple s0))%nat -> nprod (ashape d1) = (nprod l1 * bsize (BTuple s1))%nat ->
  exists out, calculate_wavepacket_overlap same (map BFundT l0) s0 d0 (map BFundT l1) s1 d1 = Some out /\
    ashape out = [nprod (supercell l0 (map bfund s0))] /\
    forall x, (x < nprod (supercell l0 (map bfund s0)))%nat ->
      aflat out x = Cconj (unfurled_value l0 s0 (aflat d0) x) * unfurled_value l1 s1 (aflat d1) x.
Proof.
  intros Hs l0 s0 l1 s1 d0 d1 P0 W0 O0 L0 P1 W1 O1 L1 E D0 D1.
  destruct (unfurled_position_spec same Hs l0 s0 P0 W0 O0 L0 d0 D0) as [u [Eu [Su Vu]]].
  destruct (unfurled_position_spec same Hs l1 s1 P1 W1 O1 L1 d1 D1) as [v [Ev [Sv Vv]]].
  unfold calculate_wavepacket_overlap. rewrite Eu, Ev. unfold product1. cbn [ashape aflat]. rewrite Su, Sv, <- E.
  rewrite Nat.eqb_refl. eexists. split; [reflexivity|]. cbn [ashape aflat nprod]. rewrite Nat.mul_1_r. split; [reflexivity|].
  intros x Hx. rewrite Vu by exact Hx. rewrite Vv by (rewrite <- E; exact Hx). reflexivity.
Qed.

(** Momentum coefficients and values at the points have the same inner product. *)
Lemma position_inner same sh (u v : nat -> C) : identity_test same -> Forall (fun n => (0 < n)%nat) sh ->
  csum (fun x => Cconj (amplitude (momenta sh) u x) * amplitude (momenta sh) v x) (nprod sh) = inner_product (nprod sh) u v.
Proof.
  intros Hs P. assert (W := momenta_wf sh P).
  assert (Ex : explicit_orthonormal (momenta sh))
    by (apply explicit_orthonormal_tuple, Forall_forall; intros b Hb; apply in_map_iff in Hb; destruct Hb as [n [<- _]]; exact I).
  assert (O := explicit_orthonormal_sound _ W Ex).
  transitivity (csum (fun x => csum (fun k => csum (fun j => (Cconj (u k) * v j) * (Cconj (bstate (momenta sh) k x) * bstate (momenta sh) j x)) (nprod sh)) (nprod sh)) (nprod sh)).
  - apply csum_ext. intros x Hx. unfold amplitude. rewrite momenta_size. rewrite Cconj_csum.
    rewrite <- csum_scal_r. apply csum_ext. intros k Hk. rewrite <- csum_scal_l. apply csum_ext. intros j Hj. rewrite Cconj_mult. ring.
  - rewrite csum_swap. unfold inner_product. apply csum_ext. intros k Hk. rewrite csum_swap.
    rewrite (csum_ext _ (fun j => Cconj (u k) * v j * cdelta k j)).
    + apply (csum_delta_r (fun j => Cconj (u k) * v j)). exact Hk.
    + intros j Hj. rewrite csum_scal_l. f_equal. assert (Q := O k j). rewrite momenta_size in Q. specialize (Q Hk Hj).
      unfold overlap in Q. rewrite momenta_fund in Q. exact Q.
Qed.

Lemma wavepacket_overlap_sum same : identity_test same -> forall ls saxes d0 d1 out,
  Forall (fun n => (0 < n)%nat) ls -> bwf (BTuple saxes) -> explicit_orthonormal (BTuple saxes) -> length ls = length saxes ->
  nprod (ashape d0) = (nprod ls * bsize (BTuple saxes))%nat -> nprod (ashape d1) = (nprod ls * bsize (BTuple saxes))%nat ->
  calculate_wavepacket_overlap same (map BFundT ls) saxes d0 (map BFundT ls) saxes d1 = Some out ->
  csum (aflat out) (nprod (supercell ls (map bfund saxes))) =
  RtoC (/ INR (nprod ls)) * csum (fun s => inner_product (bsize (BTuple saxes))
     (row (bsize (BTuple saxes)) (aflat d0) s) (row (bsize (BTuple saxes)) (aflat d1) s)) (nprod ls).
Proof.
  intros Hs ls saxes d0 d1 out P W O L D0 D1 E.
  destruct (wavepacket_overlap same Hs ls saxes ls saxes d0 d1 P W O L P W O L eq_refl D0 D1) as [o [Eo [_ V]]].
  rewrite E in Eo. injection Eo as <-. rewrite (csum_ext _ _ _ V).
  destruct (unfurl_value same Hs ls saxes P W O L d0 D0) as [u [Eu [_ Vu]]].
  destruct (unfurl_value same Hs ls saxes P W O L d1 D1) as [v [Ev [_ Vv]]].
  rewrite <- (unfurl_wavepacket_inner same Hs ls saxes P W O L d0 d1 u v D0 D1 Eu Ev).
  rewrite <- (position_inner same _ (aflat u) (aflat v) Hs (supercell_pos ls saxes P W L)).
  apply csum_ext. intros x Hx. rewrite Vu, Vv by exact Hx. reflexivity.
Qed.

(** ** Lists of states *)
Lemma list_overlap n shape data (s : Z) : nprod (ashape data) = (n * nprod shape)%nat ->
  exists out, calculate_state_vector_list_overlap n shape data (IFlat s) = Some out /\
    ashape out = [(nprod shape * n * n)%nat] /\
    forall x j i, (x < nprod shape)%nat -> (j < n)%nat -> (i < n)%nat ->
      overlap_at n (aflat out) x j i =
      Cconj (row (nprod shape) (aflat data) j x) *
      row (nprod shape) (aflat data) i (Z.to_nat ((Z.of_nat x - s) mod Z.of_nat (nprod shape))).
Proof.
  intros Hd. unfold calculate_state_vector_list_overlap. rewrite reshape_some by (rewrite Hd; cbn [nprod]; lia).
  eexists. split; [reflexivity|]. split; [cbn [ravel_array array3 ashape nprod]; f_equal; lia|].
  intros x j i Hx Hj Hi. unfold overlap_at. cbn [ravel_array aflat]. rewrite array3_flat by assumption. reflexivity.
Qed.

Lemma stacked_shift n shape data l : Forall (fun m => (0 < m)%nat) shape -> length l = length shape ->
  exists s, get_flat_index shape l MWrap = Some s /\ (s < nprod shape)%nat /\
    calculate_state_vector_list_overlap n shape data (IStacked l) =
    calculate_state_vector_list_overlap n shape data (IFlat (Z.of_nat s)).
Proof.
  intros P L. destruct (flat_index_wrap shape l P L) as [r [Hr [_ E]]]. exists (ravel shape r). split; [exact E|].
  split; [apply ravel_lt; exact Hr|]. unfold calculate_state_vector_list_overlap. rewrite E. reflexivity.
Qed.

(** A shift along the first axis is a translation of the states. *)
Lemma first_axis_shift n m rest data (s : Z) : Forall (fun m => (0 < m)%nat) (m :: rest) ->
  nprod (ashape data) = (n * nprod (m :: rest))%nat ->
  exists out, calculate_state_vector_list_overlap n (m :: rest) data (IStacked (s :: map (fun _ => 0%Z) rest)) = Some out /\
    forall x j i, (x < nprod (m :: rest))%nat -> (j < n)%nat -> (i < n)%nat ->
      overlap_at n (aflat out) x j i =
      Cconj (row (nprod (m :: rest)) (aflat data) j x) *
      row (nprod (m :: rest)) (aflat data) i (moved_back (m :: rest) s x).
Proof.
  intros P Hd. inversion P as [|? ? Hm Hr]; subst.
  assert (E : get_flat_index (m :: rest) (s :: map (fun _ => 0%Z) rest) MWrap = Some (Z.to_nat (s mod Z.of_nat m) * nprod rest)%nat).
  { unfold get_flat_index. cbn [indices_in_mode index_in_mode]. destruct (Nat.eqb_spec m 0) as [|_]; [lia|].
    assert (Q : indices_in_mode MWrap rest (map (fun _ => 0%Z) rest) = Some (map (fun _ => 0%nat) rest)).
    { clear -Hr. induction Hr as [|k rest Hk Hr IH]; [reflexivity|]. cbn [map indices_in_mode index_in_mode].
      destruct (Nat.eqb_spec k 0) as [|_]; [lia|]. rewrite IH. rewrite Z.mod_0_l by lia. reflexivity. }
    rewrite Q. f_equal. cbn [ravel].
    assert (Q2 : ravel rest (map (fun _ => 0%nat) rest) = 0%nat) by (clear; induction rest as [|k rest IH]; [reflexivity|]; cbn [map ravel]; rewrite IH; lia).
    rewrite Q2. lia. }
  destruct (stacked_shift n (m :: rest) data (s :: map (fun _ => 0%Z) rest) P) as [t [Et [_ EQ]]].
  { cbn [length]. rewrite map_length. reflexivity. }
  rewrite E in Et. injection Et as <-.
  destruct (list_overlap n (m :: rest) data (Z.of_nat (Z.to_nat (s mod Z.of_nat m) * nprod rest)) Hd) as [out [Eo [_ V]]].
  exists out. split; [rewrite EQ; exact Eo|]. intros x j i Hx Hj Hi. rewrite V by assumption. f_equal. f_equal.
  unfold moved_back. cbn [unravel ravel nprod] in *.
  assert (HR := nprod_pos rest Hr). set (R := nprod rest) in *.
  assert (Hxr : (x mod R < R)%nat) by (apply Nat.mod_upper_bound; lia).
  rewrite (ravel_unravel rest) by exact Hxr.
  assert (Bs := Z.mod_pos_bound s (Z.of_nat m) ltac:(lia)).
  assert (Bx : (x / R < m)%nat) by (apply Nat.div_lt_upper_bound; lia).
  assert (By := Z.mod_pos_bound (Z.of_nat (x / R) - s) (Z.of_nat m) ltac:(lia)).
  assert (Dx := Nat.div_mod x R ltac:(lia)).
  apply Nat2Z.inj. rewrite Z2Nat.id by (apply Z.mod_pos_bound; nia).
  rewrite Nat2Z.inj_add, Nat2Z.inj_mul, Z2Nat.id by lia.
  symmetry. rewrite Nat2Z.inj_mul, Nat2Z.inj_mul, Z2Nat.id by lia.
  set (a := (s mod Z.of_nat m)%Z) in *. set (y := ((Z.of_nat (x / R) - s) mod Z.of_nat m)%Z) in *.
  assert (Q : exists q, (y = Z.of_nat (x / R) - a + q * Z.of_nat m)%Z).
  { unfold y, a. exists (s / Z.of_nat m * (-1) - (Z.of_nat (x / R) - s) / Z.of_nat m)%Z.
    assert (D1 := Z.div_mod s (Z.of_nat m) ltac:(lia)). assert (D2 := Z.div_mod (Z.of_nat (x / R) - s) (Z.of_nat m) ltac:(lia)). lia. }
  destruct Q as [q Q]. apply (Z.mod_unique _ _ (- q)%Z).
  - left. nia.
  - rewrite Q. assert (Z.of_nat x = Z.of_nat R * Z.of_nat (x / R) + Z.of_nat (x mod R))%Z by lia. nia.
Qed.

(** Any other shift runs into the neighbouring rows. *)
Lemma second_axis_shift : exists data out,
  nprod (ashape data) = (1 * nprod [2%nat; 2%nat])%nat /\
  calculate_state_vector_list_overlap 1 [2%nat; 2%nat] data (IStacked [0%Z; 1%Z]) = Some out /\
  overlap_at 1 (aflat out) (ravel [2%nat; 2%nat] [1%nat; 0%nat]) 0 0 <>
  Cconj (row 4 (aflat data) 0 (ravel [2%nat; 2%nat] [1%nat; 0%nat])) * row 4 (aflat data) 0 (ravel [2%nat; 2%nat] [1%nat; 1%nat]).
Proof.
  set (data := {| ashape := [4%nat]; aflat := fun t => match t with 1%nat | 2%nat => RtoC 1 | _ => RtoC 0 end |}).
  destruct (stacked_shift 1 [2%nat; 2%nat] data [0%Z; 1%Z]) as [t [Et [_ EQ]]]; [repeat constructor; lia|reflexivity|].
  vm_compute in Et. injection Et as <-.
  destruct (list_overlap 1 [2%nat; 2%nat] data 1 eq_refl) as [out [E [_ V]]].
  exists data, out. split; [reflexivity|]. split; [rewrite EQ; exact E|].
  rewrite V by (cbn; lia).
  change (Z.to_nat ((Z.of_nat (ravel [2%nat; 2%nat] [1%nat; 0%nat]) - 1) mod Z.of_nat (nprod [2%nat; 2%nat]))) with 1%nat.
  unfold row, data. cbn [aflat ravel nprod Nat.mul Nat.add]. intros H. apply (f_equal fst) in H. cbn in H. lra.
Qed.

(** Without a shift: Hermitian at every point, the sum over the points is the matrix of
    inner products. *)
Lemma list_overlap_hermitian n shape data out : nprod (ashape data) = (n * nprod shape)%nat ->
  calculate_state_vector_list_overlap n shape data (IFlat 0) = Some out ->
  forall j i, (j < n)%nat -> (i < n)%nat ->
    (forall x, (x < nprod shape)%nat -> overlap_at n (aflat out) x i j = Cconj (overlap_at n (aflat out) x j i)) /\
    csum (fun x => overlap_at n (aflat out) x j i) (nprod shape) =
    inner_product (nprod shape) (row (nprod shape) (aflat data) j) (row (nprod shape) (aflat data) i).
Proof.
  intros Hd E j i Hj Hi. destruct (list_overlap n shape data 0 Hd) as [o [Eo [_ V]]]. rewrite E in Eo. injection Eo as <-.
  assert (M : forall x, (x < nprod shape)%nat -> Z.to_nat ((Z.of_nat x - 0) mod Z.of_nat (nprod shape)) = x)
    by (intros x Hx; rewrite Z.sub_0_r, Z.mod_small by lia; apply Nat2Z.id).
  split.
  - intros x Hx. rewrite !V by assumption. rewrite M by exact Hx. rewrite Cconj_mult, Cconj_conj. ring.
  - unfold inner_product. apply csum_ext. intros x Hx. rewrite V by assumption. rewrite M by exact Hx. reflexivity.
Qed.

(** The overlaps of a list of wavepackets. *)
Lemma wavepackets_overlap same : identity_test same -> forall nb ls saxes data (s : Z),
  Forall (fun n => (0 < n)%nat) ls -> bwf (BTuple saxes) -> explicit_orthonormal (BTuple saxes) -> length ls = length saxes ->
  (0 < nb)%nat -> nprod (ashape data) = (nb * (nprod ls * bsize (BTuple saxes)))%nat ->
  let sh := supercell ls (map bfund saxes) in
  exists out, calculate_wavepacket_list_overlap same nb (map BFundT ls) saxes data (IFlat s) = Some out /\
    forall x j i, (x < nprod sh)%nat -> (j < nb)%nat -> (i < nb)%nat ->
      overlap_at nb (aflat out) x j i =
      Cconj (unfurled_value ls saxes (row (nprod ls * bsize (BTuple saxes)) (aflat data) j) x) *
      unfurled_value ls saxes (row (nprod ls * bsize (BTuple saxes)) (aflat data) i) (Z.to_nat ((Z.of_nat x - s) mod Z.of_nat (nprod sh))).
Proof.
  intros Hs nb ls saxes data s P W O L Hnb Hd sh. set (M := (nprod ls * bsize (BTuple saxes))%nat) in *.
  unfold calculate_wavepacket_list_overlap. rewrite Hd. replace (nb * M / nb)%nat with M by (rewrite Nat.mul_comm, Nat.div_mul; lia).
  rewrite reshape_some by (rewrite Hd; cbn [nprod]; lia). destruct (Nat.eqb_spec nb 0) as [|_]; [lia|].
  set (st := {| ashape := _ |}). rewrite map_bfund_FundT, map2_supercell. fold sh.
  set (g := fun b => unfurl_wavepacket same (map BFundT ls) saxes (select_row st b)).
  assert (Hg : forall b, exists u, g b = Some u /\ forall x, (x < nprod sh)%nat ->
    amplitude (momenta sh) (aflat u) x = unfurled_value ls saxes (row M (aflat data) b) x).
  { intros b. destruct (unfurl_value same Hs ls saxes P W O L (select_row st b)) as [u [Eu [_ Vu]]].
    { unfold select_row, st. cbn [ashape tl nprod]. fold M. lia. }
    exists u. split; [exact Eu|]. intros x Hx. rewrite Vu by exact Hx. unfold unfurled_value. f_equal.
    apply csum_ext. intros t Ht. f_equal. unfold amplitude. apply csum_ext. intros k Hk. f_equal.
    unfold row, select_row, st. cbn [ashape tl nprod aflat]. rewrite Nat.mul_1_r. reflexivity. }
  destruct (WavepacketProofs3.all_some_map g data (seq 0 nb) 0%nat) as [r [Er [Lr Nr]]].
  { intros b _. destruct (Hg b) as [u [Eu _]]. exists u. exact Eu. }
  rewrite Er. destruct (to_position same Hs ls saxes P W L) as [F [EF VF]]. fold sh in EF, VF. rewrite EF.
  set (cd := ravel_array _).
  destruct (list_overlap nb sh cd s) as [out [Eo [_ V]]]; [unfold cd; cbn [ravel_array array2 ashape nprod]; lia|].
  exists out. split; [exact Eo|]. intros x j i Hx Hj Hi. rewrite V by assumption.
  assert (C : forall b y, (b < nb)%nat -> (y < nprod sh)%nat ->
    row (nprod sh) (aflat cd) b y = unfurled_value ls saxes (row M (aflat data) b) y).
  { intros b y Hb Hy. unfold row at 1, cd. cbn [ravel_array aflat]. rewrite array2_flat by exact Hy. rewrite VF by exact Hy.
    assert (Hn := Nr b ltac:(rewrite seq_length; exact Hb)). rewrite seq_nth in Hn by exact Hb. rewrite Nat.add_0_l in Hn.
    destruct (Hg b) as [u [Eu Vu]]. rewrite Eu in Hn. injection Hn as <-. apply Vu. exact Hy. }
  assert (By := Z.mod_pos_bound (Z.of_nat x - s) (Z.of_nat (nprod sh)) ltac:(lia)).
  rewrite !C by (try assumption; lia). reflexivity.
Qed.

(** ** Conversion and selection *)
Lemma convert_overlap same : identity_test same -> forall a b m data, bwf a -> bwf b -> explicit_orthonormal a -> complete b ->
  compatible a b -> nprod (ashape data) = (bsize a * m)%nat ->
  exists out, convert_overlap_to_basis same a b m data = Some out /\ ashape out = [(bsize b * m)%nat] /\
    forall c x, (c < m)%nat -> (x < bfund b)%nat ->
      amplitude b (fun k => aflat out (k * m + c)%nat) x = amplitude a (fun k => aflat data (k * m + c)%nat) x.
Proof.
  intros Hs a b m data Wa Wb Oa Cb Hc Hd. destruct (proj2 (convert_some_iff same a b) Hc) as [F HF].
  unfold convert_overlap_to_basis. rewrite reshape_some by (rewrite Hd; cbn [nprod]; lia). rewrite HF.
  eexists. split; [reflexivity|]. split; [cbn [ravel_array array2 ashape nprod]; f_equal; lia|].
  intros c x Hcm Hx. rewrite <- (convert_amplitude same a b F Hs Wa Wb Oa Cb HF) by exact Hx.
  unfold amplitude. apply csum_ext. intros k Hk. f_equal. cbn [ravel_array aflat]. rewrite array2_flat by exact Hcm. reflexivity.
Qed.

Lemma momentum_basis_raises same a rows cols data : convert_overlap_to_momentum_basis same a rows cols data = None.
Proof. reflexivity. Qed.

Lemma single_overlap n size data j i : (j < n)%nat -> (i < n)%nat -> nprod (ashape data) = (size * (n * n))%nat ->
  exists out, get_single_overlap size n n data (IStacked [Z.of_nat j; Z.of_nat i]) = Some out /\
    get_single_overlap size n n data (IFlat (Z.of_nat (j * n + i))) = Some out /\ ashape out = [size] /\
    forall x, (x < size)%nat -> aflat out x = overlap_at n (aflat data) x j i.
Proof.
  intros Hj Hi Hd. unfold get_single_overlap. rewrite reshape_some by (rewrite Hd; cbn [nprod]; lia).
  assert (E : get_flat_index [n; n] [Z.of_nat j; Z.of_nat i] MRaise = Some (j * n + i)%nat).
  { unfold get_flat_index. assert (Q := indices_raise_in_range [n; n] [j; i]). cbn [map] in Q. rewrite Q by (repeat constructor; assumption).
    cbn [ravel nprod]. f_equal. lia. }
  rewrite E. rewrite LocalizeProofs3.python_index_nat by nia.
  eexists. split; [reflexivity|]. split; [reflexivity|]. split; [reflexivity|]. intros x Hx. unfold overlap_at, at2. cbn [aflat ashape nth].
  f_equal. lia.
Qed.
