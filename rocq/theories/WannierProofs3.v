(** Overlaps between neighbouring samples. *)
From Coq Require Import Reals Ascii String.
From Verif Require Import ZLib Csum DFT NumPy Interp Index IndexProofs AxesProofs Spec Basis SpecBasis BasisProofs BasisProofs2
  BasisProofs3 BasisFacts Operator SpecOperator OperatorProofs IndexSum Reduce Wavepacket SpecWavepacket WavepacketProofs WavepacketProofs2
  Localize SpecLocalize Wannier SpecWannier WannierProofs WannierProofs2.
Local Open Scope R_scope.
Local Open Scope C_scope.

(** ** Three axes *)
Lemma nprod_ones ss n : nprod (ss ++ repeat 1%nat n) = nprod ss.
Proof.
  induction ss as [|m ss IH]; cbn [app nprod]; [|rewrite IH; reflexivity].
  induction n as [|n IH]; [reflexivity|]. cbn [repeat nprod]. rewrite IH. reflexivity.
Qed.


Lemma unravel_ones ss n : forall t, (t < nprod ss)%nat -> unravel (ss ++ repeat 1%nat n) t = (unravel ss t ++ repeat 0%nat n)%list.
Proof.
  induction ss as [|m ss IH]; intros t Ht.
  - cbn in Ht. assert (t = 0%nat) by lia. subst t. cbn [app unravel]. clear Ht.
    induction n as [|n IH]; [reflexivity|]. cbn [repeat unravel].
    assert (P := nprod_ones [] n). cbn [app nprod] in P. rewrite P. cbn. f_equal. exact IH.
  - cbn [app unravel nprod] in *. rewrite nprod_ones. cbn [app]. f_equal. apply IH. apply Nat.mod_upper_bound. nia.
Qed.

Lemma ravel_ones ss n : forall k, length k = length ss -> ravel (ss ++ repeat 1%nat n) (k ++ repeat 0%nat n) = ravel ss k.
Proof.
  induction ss as [|m ss IH]; intros k Hk; destruct k as [|i k]; try discriminate; cbn [app ravel].
  - clear Hk. induction n as [|n IH]; [reflexivity|]. cbn [repeat ravel]. rewrite IH. lia.
  - rewrite nprod_ones, IH by (cbn in Hk; lia). reflexivity.
Qed.

Lemma roll_ones ss n : forall g k, length k = length ss -> length g = (length ss + n)%nat ->
  roll_indices (ss ++ repeat 1%nat n) g (k ++ repeat 0%nat n) = (roll_indices ss g k ++ repeat 0%nat n)%list.
Proof.
  induction ss as [|m ss IH]; intros g k Hk Hg; destruct k as [|i k]; try discriminate; cbn [app].
  - clear Hk. cbn [roll_indices app]. revert g Hg. induction n as [|n IH]; intros g Hg; [destruct g; reflexivity|].
    destruct g as [|g1 g]; [discriminate|]. cbn [repeat roll_indices]. rewrite Z.mod_1_r. cbn. f_equal.
    apply IH. cbn in *. lia.
  - destruct g as [|g1 g]; [discriminate|]. cbn [roll_indices app]. f_equal. apply IH; cbn in *; lia.
Qed.

Lemma roll_length ss : forall g k, length k = length ss -> (length ss <= length g)%nat -> length (roll_indices ss g k) = length ss.
Proof.
  induction ss as [|m ss IH]; intros [|g1 g] [|i k] Hk Hg; cbn in *; try lia. rewrite IH by lia. reflexivity.
Qed.

(** The slot [k] moved by [g]. *)
Definition shifted (ss : list nat) (g : list Z) (k : list nat) : list nat := roll_indices ss (map Z.opp g) k.

Lemma shifted_in ss : forall g k, in_shape k ss -> (length ss <= length g)%nat -> in_shape (shifted ss g k) ss.
Proof.
  unfold shifted. induction ss as [|m ss IH]; intros [|g1 g] k Hk Hg; inversion Hk as [|i ? k' ? Hi Hk']; subst; cbn in *; try lia;
    constructor.
  - assert (0 <= (Z.of_nat i - - g1) mod Z.of_nat m < Z.of_nat m)%Z by (apply Z.mod_pos_bound; lia). lia.
  - apply IH; [assumption|lia].
Qed.

Lemma offset_state ss g v : (length ss <= 3)%nat -> length g = 3%nat ->
  exists r, get_offset_bloch_state ss g v = Some r /\
    forall t, (t < nprod ss)%nat -> r t = v (ravel ss (shifted ss g (unravel ss t))).
Proof.
  intros Hs Hg. unfold get_offset_bloch_state, padded_shape. rewrite (proj2 (Nat.leb_le _ _) Hs).
  eexists. split; [reflexivity|]. intros t Ht. unfold flatten, roll_axes, stack. rewrite unravel_ones by assumption.
  assert (L : length (unravel ss t) = length ss) by apply unravel_length.
  rewrite roll_ones by (auto; rewrite map_length; lia).
  rewrite ravel_ones by (apply roll_length; auto; rewrite map_length; lia). reflexivity.
Qed.

(** ** Ignored axes *)
Lemma set_zero_length i l : length (set_zero i l) = length l.
Proof. unfold set_zero. rewrite map_length, combine_length, seq_length. lia. Qed.
Lemma set_zero_nth i l a : (a < length l)%nat -> nth a (set_zero i l) 0%Z = if (a =? i)%nat then 0%Z else nth a l 0%Z.
Proof.
  intros H. unfold set_zero. set (f := fun p : nat * Z => if (fst p =? i)%nat then 0%Z else snd p).
  rewrite (nth_indep _ 0%Z (f (0%nat, 0%Z))) by (rewrite map_length, combine_length, seq_length; lia).
  rewrite (map_nth f), combine_nth by (rewrite seq_length; reflexivity). rewrite seq_nth by assumption. reflexivity.
Qed.

Lemma ignore_kept ignore : forall g, Forall (fun a => (a < length g)%nat) ignore ->
  ignore_offsets (map Z.of_nat ignore) g = Some (kept_axes ignore g).
Proof.
  induction ignore as [|i ignore IH]; intros g H.
  - cbn [map ignore_offsets]. f_equal. symmetry. unfold kept_axes. cbn [existsb].
    apply (nth_ext _ _ 0%Z 0%Z); [rewrite map_length, seq_length; reflexivity|].
    rewrite map_length, seq_length. intros a Ha.
    rewrite (nth_indep _ 0%Z (nth 0 g 0%Z)) by (rewrite map_length, seq_length; assumption).
    rewrite (map_nth (fun a => nth a g 0%Z)), seq_nth by assumption. reflexivity.
  - inversion H as [|? ? Hi Hr]; subst. cbn [map ignore_offsets].
    assert (E : python_index (length g) (Z.of_nat i) = Some i).
    { unfold python_index. rewrite (proj2 (Z.leb_le 0 (Z.of_nat i))) by lia.
      rewrite (proj2 (Z.ltb_lt (Z.of_nat i) (Z.of_nat (length g)))) by lia. cbn [andb]. rewrite Nat2Z.id. reflexivity. }
    rewrite E, IH by (eapply Forall_impl; [|exact Hr]; intros a Ha; cbn beta in *; rewrite set_zero_length; exact Ha).
    f_equal. unfold kept_axes. rewrite set_zero_length. apply map_ext_in. intros a Ha. apply in_seq in Ha.
    rewrite set_zero_nth by lia. cbn [existsb]. destruct (Nat.eqb_spec a i) as [->|N]; cbn [orb]; [|reflexivity].
    destruct (existsb _ ignore); reflexivity.
Qed.

(** ** Plane waves move the slots *)
Definition wave_axis (b : basis) (g : Z) : Prop := (exists n, b = BFundT n) \/ g = 0%Z.
Fixpoint wave_axes (l : list basis) (g : list Z) : Prop :=
  match l, g with b :: l, g1 :: g => wave_axis b g1 /\ wave_axes l g | [], _ => True | _, _ => False end.

Lemma wave_moves b g k x : bwf b -> wave_axis b g -> (k < bsize b)%nat -> (x < bfund b)%nat ->
  omega (bfund b) (g * Z.of_nat x) * bstate b k x = bstate b (Z.to_nat ((Z.of_nat k - - g) mod Z.of_nat (bsize b))) x.
Proof.
  intros Hw [[n ->]| ->] Hk Hx.
  - cbn [bfund bsize bwf] in *. set (k' := Z.to_nat _).
    assert (Hk' : (k' < n)%nat).
    { unfold k'. assert (0 <= (Z.of_nat k - - g) mod Z.of_nat n < Z.of_nat n)%Z by (apply Z.mod_pos_bound; lia). lia. }
    rewrite !bstate_transformed by (auto; reflexivity). cbn [bfund tslot].
    rewrite (plane_wave_cong n (Z.of_nat k') (Z.of_nat k + g)).
    + unfold plane_wave. replace ((Z.of_nat k + g) * Z.of_nat x)%Z with (Z.of_nat k * Z.of_nat x + g * Z.of_nat x)%Z by ring.
      rewrite omega_add. ring.
    + assumption.
    + unfold k'. rewrite Z2Nat.id by (apply Z.mod_pos_bound; lia).
      replace (Z.of_nat k - - g)%Z with (Z.of_nat k + g)%Z by ring.
      destruct (Zcong_mod (Z.of_nat n) (Z.of_nat k + g) ltac:(lia)) as [q Hq]. exists q. exact Hq.
  - rewrite Z.mul_0_l, omega_0. replace (Z.of_nat k - - 0)%Z with (Z.of_nat k) by ring.
    rewrite Z.mod_small by lia. rewrite Nat2Z.id. ring.
Qed.

Lemma waves_move l : forall g k x, Forall bwf l -> wave_axes l g -> in_shape k (map bsize l) -> in_shape x (map bfund l) ->
  lattice_wave (map bfund l) g x * axis_states l k x = axis_states l (shifted (map bsize l) g k) x.
Proof.
  induction l as [|b l IH]; intros g k x Hw Hg Hk Hx; inversion Hk as [|k1 ? k' ? Hk1 Hk']; subst;
    inversion Hx as [|x1 ? x' ? Hx1 Hx']; subst; [cbn; ring|].
  destruct g as [|g1 g]; [destruct Hg|]. destruct Hg as [Hg1 Hg]. inversion Hw; subst.
  unfold shifted. cbn [map lattice_wave axis_states roll_indices]. fold (shifted (map bsize l) g k').
  rewrite <- (IH g k' x') by assumption. rewrite <- (wave_moves b g1 k1 x1) by assumption. ring.
Qed.

Lemma wave_axes_length l : forall g, wave_axes l g -> (length l <= length g)%nat.
Proof. induction l as [|b l IH]; intros [|g1 g] H; cbn in *; try lia; try destruct H. specialize (IH g H0). lia. Qed.

Lemma lattice_wave_conj F : forall g x, Cconj (lattice_wave F g x) = lattice_wave F (map Z.opp g) x.
Proof.
  induction F as [|n F IH]; intros [|g1 g] [|x1 x]; cbn [lattice_wave map]; try apply Cconj_1.
  rewrite Cconj_mult, omega_conj, IH. f_equal. f_equal. ring.
Qed.
Lemma lattice_wave_opp F g x : lattice_wave F (map Z.opp (map Z.opp g)) x = lattice_wave F g x.
Proof. f_equal. induction g as [|a g IH]; cbn [map]; [reflexivity|]. rewrite IH, Z.opp_involutive. reflexivity. Qed.

(** ** The overlap *)
Lemma offset_overlap saxes g u v : Forall bwf saxes -> explicit_orthonormal (BTuple saxes) -> wave_axes saxes g ->
  let b := BTuple saxes in let ss := map bsize saxes in let F := map bfund saxes in
  csum (fun x => Cconj (amplitude b u x) * (lattice_wave F (map Z.opp g) (unravel F x) * amplitude b v x)) (bfund b) =
  csum (fun i => v (ravel ss (shifted ss g (unravel ss i))) * Cconj (u i)) (bsize b).
Proof.
  intros Hw Ho Hg b ss F. subst b.
  assert (W : bwf (BTuple saxes)) by (apply bwf_tuple; assumption).
  assert (O := explicit_orthonormal_sound _ W Ho).
  assert (Lg : (length ss <= length g)%nat) by (unfold ss; rewrite map_length; apply wave_axes_length, Hg).
  transitivity (csum (fun x => csum (fun i => csum (fun k =>
     Cconj (u i) * v k * (Cconj (bstate (BTuple saxes) (ravel ss (shifted ss g (unravel ss i))) x) * bstate (BTuple saxes) k x))
     (bsize (BTuple saxes))) (bsize (BTuple saxes))) (bfund (BTuple saxes))).
  - apply csum_ext. intros x Hx. unfold amplitude at 1. rewrite Cconj_csum, <- csum_scal_r.
    apply csum_ext. intros i Hi. unfold amplitude. rewrite <- !csum_scal_l. apply csum_ext. intros k Hk.
    change (bfund (BTuple saxes)) with (nprod F) in Hx. change (bsize (BTuple saxes)) with (nprod ss) in Hi.
    assert (Ii := unravel_in_shape ss i Hi). assert (Ix := unravel_in_shape F x Hx).
    assert (E : bstate (BTuple saxes) (ravel ss (shifted ss g (unravel ss i))) x =
                lattice_wave F g (unravel F x) * bstate (BTuple saxes) i x).
    { rewrite <- (ravel_unravel F x Hx) at 1. rewrite <- (ravel_unravel ss i Hi) at 2. rewrite <- (ravel_unravel F x Hx) at 3.
      unfold ss at 1 3, F at 1 4. rewrite !bstate_ravel by (auto; apply shifted_in; assumption).
      symmetry. apply waves_move; assumption. }
    rewrite E, !Cconj_mult, lattice_wave_conj. ring.
  - rewrite csum_swap. apply csum_ext. intros i Hi. rewrite csum_swap.
    change (bsize (BTuple saxes)) with (nprod ss) in Hi.
    assert (Hs : (ravel ss (shifted ss g (unravel ss i)) < nprod ss)%nat)
      by (apply ravel_lt, shifted_in; [apply unravel_in_shape; assumption|assumption]).
    transitivity (csum (fun k => Cconj (u i) * v k * cdelta (ravel ss (shifted ss g (unravel ss i))) k) (bsize (BTuple saxes))).
    + apply csum_ext. intros k Hk. rewrite csum_scal_l. f_equal. apply (O _ k Hs Hk).
    + rewrite csum_delta_r by exact Hs. ring.
Qed.
