(** The states evenly occupied up to a threshold frequency. *)
From Coq Require Import Reals Lra Lia.
From Verif Require Import ZLib Csum DFT NumPy Interp InterpProofs Index IndexProofs Spec Basis SpecBasis BasisProofs
  BasisProofs2 LatticeProofs Operator SpecOperator OperatorProofs IndexSum Wavepacket SpecWavepacket WavepacketProofs WavepacketProofs2 HamiltonianProofs DynamicsProofs
  LocalizeProofs4 LocalizeProofs5 OverlapProofs3 StateList SpecStateList StateListProofs3 SeedStates SpecSeed SeedProofs.
Local Open Scope R_scope.
Local Open Scope C_scope.

Lemma free_axes_some ls : forall ss shape, length ls = length shape -> length ss = length shape -> Forall2 le shape ss ->
  free_axes ls ss shape = Some (cut_momenta (supercell ls shape) (supercell ls ss)).
Proof.
  induction ls as [|l ls IH]; intros [|n ss] [|s shape] L1 L2 H; cbn in L1, L2; try lia; [reflexivity|].
  inversion H; subst. cbn [free_axes supercell cut_momenta]. rewrite (proj2 (Nat.leb_le _ _)) by (apply Nat.mul_le_mono_l; assumption).
  rewrite IH by (assumption || lia). reflexivity.
Qed.

Lemma free_axes_none ls : forall ss shape a, Forall (fun l => (0 < l)%nat) ls -> length ls = length shape -> length ss = length shape ->
  (a < length shape)%nat -> (nth a ss 0 < nth a shape 0)%nat -> free_axes ls ss shape = None.
Proof.
  induction ls as [|l ls IH]; intros [|n ss] [|s shape] a Hp L1 L2 Ha H; cbn in L1, L2, Ha; try lia.
  inversion Hp; subst. cbn [free_axes]. destruct a as [|a]; cbn [nth] in H.
  - rewrite (proj2 (Nat.leb_gt _ _)) by nia. reflexivity.
  - destruct (l * s <=? l * n)%nat; [|reflexivity]. rewrite (IH ss shape a) by (assumption || lia). reflexivity.
Qed.

Lemma free_axes_long ls : forall ss shape, (length ls < length shape)%nat -> free_axes ls ss shape = None.
Proof.
  induction ls as [|l ls IH]; intros ss [|s shape] L; cbn in L; try lia; [destruct ss; reflexivity|].
  cbn [free_axes]. destruct ss; [reflexivity|]. destruct (_ <=? _)%nat; [|reflexivity]. rewrite IH by lia. reflexivity.
Qed.

(** ** Orthogonality of plane waves *)
Lemma plane_sum_same n : Forall (fun m => (0 < m)%nat) n -> forall f,
  isum n (fun k => Cconj (plane n f (map Z.of_nat k)) * plane n f (map Z.of_nat k)) = RtoC (INR (nprod n)).
Proof.
  intros Hn f. rewrite (isum_ext _ _ (fun _ => 1)).
  - rewrite <- (isum_flat n (fun _ => 1)), csum_const. ring.
  - intros k Hk. rewrite Cconj_mult_self, plane_norm2. reflexivity.
Qed.

Lemma plane_sum_diff n : Forall (fun m => (0 < m)%nat) n -> forall f g a, length f = length n -> length g = length n ->
  (a < length n)%nat -> ~ Zcong (Z.of_nat (nth a n 0%nat)) (nth a f 0%Z) (nth a g 0%Z) ->
  isum n (fun k => Cconj (plane n f (map Z.of_nat k)) * plane n g (map Z.of_nat k)) = 0.
Proof.
  induction 1 as [|m n Hm Hn IH]; intros [|f1 f] [|g1 g] a L1 L2 Ha H; cbn in L1, L2, Ha; try lia.
  cbn [isum]. destruct a as [|a]; cbn [nth] in H.
  - transitivity (csum (fun i => omega m ((g1 - f1) * Z.of_nat i) * isum n (fun k => Cconj (plane n f (map Z.of_nat k)) * plane n g (map Z.of_nat k))) m).
    + apply csum_ext. intros i Hi. rewrite <- isum_scal_l. apply isum_ext. intros k Hk. cbn [map plane]. rewrite Cconj_mult, omega_conj.
      replace ((g1 - f1) * Z.of_nat i)%Z with (- (f1 * Z.of_nat i) + g1 * Z.of_nat i)%Z by ring. rewrite omega_add. ring.
    + rewrite csum_scal_r, omega_sum_neq; [ring|exact Hm|]. intros [q Q]. apply H. exists (- q)%Z. lia.
  - apply csum_zero_ext. intros i Hi. 
    transitivity (isum n (fun k => (omega m (- (f1 * Z.of_nat i)) * omega m (g1 * Z.of_nat i)) * (Cconj (plane n f (map Z.of_nat k)) * plane n g (map Z.of_nat k)))).
    + apply isum_ext. intros k Hk. cbn [map plane]. rewrite Cconj_mult, omega_conj. ring.
    + rewrite isum_scal_l, (IH f g a) by (assumption || lia). ring.
Qed.

Lemma nth_supercell ls : forall ss a, length ls = length ss -> nth a (supercell ls ss) 0%nat = (nth a ls 0 * nth a ss 0)%nat.
Proof.
  induction ls as [|l ls IH]; intros [|n ss] a L; cbn in L; try lia; [destruct a; reflexivity|].
  destruct a as [|a]; cbn [supercell nth]; [reflexivity|]. apply IH. lia.
Qed.

Lemma freq_cong_inj s m i j : (i < s)%nat -> (j < s)%nat -> (s <= m)%nat -> Zcong (Z.of_nat m) (freq s i) (freq s j) -> i = j.
Proof.
  intros Hi Hj Hm [q Q]. destruct (freq_is_freq s i Hi) as [A1 A2], (freq_is_freq s j Hj) as [B1 B2].
  assert (E : freq s i = freq s j).
  { assert (D1 := Z.div_mod (Z.of_nat s) 2 ltac:(lia)). assert (D2 := Z.mod_pos_bound (Z.of_nat s) 2 ltac:(lia)).
    assert (D3 := Z.div_mod (Z.of_nat s - 1) 2 ltac:(lia)). assert (D4 := Z.mod_pos_bound (Z.of_nat s - 1) 2 ltac:(lia)).
    assert (B : (- Z.of_nat m < freq s i - freq s j < Z.of_nat m)%Z) by lia. clear - Q B Hm.
    assert (q = 0 \/ 1 <= q \/ q <= -1)%Z as [->|[K|K]] by lia; [lia|nia|nia]. }
  apply (is_freq_inj s i j (freq s i)); try assumption; [apply freq_is_freq; exact Hi|rewrite E; apply freq_is_freq; exact Hj].
Qed.

Lemma list_differs (l l' : list nat) : length l = length l' -> l <> l' -> exists a, (a < length l)%nat /\ nth a l 0%nat <> nth a l' 0%nat.
Proof.
  revert l'. induction l as [|x l IH]; intros [|y l'] L H; cbn in L; try lia; [congruence|].
  destruct (Nat.eq_dec x y) as [->|Hx].
  - destruct (IH l') as [a [A1 A2]]; [lia|congruence|]. exists (S a). cbn. split; [lia|exact A2].
  - exists 0%nat. cbn. split; [lia|exact Hx].
Qed.

Lemma free_states_axes laxes saxes shape axes : shape <> [] -> free_axes (map bfund laxes) (map bfund saxes) shape = Some axes ->
  free_states laxes saxes shape =
  Some {| slist := BTuple (map BFund shape); sbasis := BTuple axes;
          sdata := ravel_array (array2 (nprod shape) (nprod (map bsize axes)) (normalise_rows (nprod (map bsize axes)) (fun b k =>
            phase_factor (length shape) (fun a => IZR (stacked_nk_points shape a b))
              (fun a => IZR (stacked_nx_points (map bsize axes) a k)) (fun a => nth a (map bsize axes) 0%nat)))) |}.
Proof. intros H E. unfold free_states. rewrite E. destruct shape; [congruence|reflexivity]. Qed.

Section Free.
  Variables (laxes saxes : list basis) (shape : list nat).
  Let ls := map bfund laxes.
  Let ss := map bfund saxes.
  Let n := supercell ls shape.
  Let N := supercell ls ss.
  Hypothesis Hls : Forall (fun l => (0 < l)%nat) ls.
  Hypothesis Hshape : Forall (fun l => (0 < l)%nat) shape.
  Hypothesis Hne : shape <> [].
  Hypothesis L1 : length laxes = length shape.
  Hypothesis L2 : length saxes = length shape.
  Hypothesis Hle : Forall2 le shape ss.

  Lemma fr_l1 : length ls = length shape. Proof using L1. unfold ls. rewrite map_length. exact L1. Qed.
  Lemma fr_l2 : length ss = length shape. Proof using L2. unfold ss. rewrite map_length. exact L2. Qed.
  Lemma fr_ln : length n = length shape. Proof using L1. unfold n. rewrite supercell_length; apply fr_l1. Qed.
  Lemma fr_lN : length N = length shape. Proof using L1 L2. unfold N. rewrite supercell_length; [apply fr_l1|]. rewrite fr_l1, fr_l2. reflexivity. Qed.
  Lemma fr_ss_pos : Forall (fun l => (0 < l)%nat) ss.
  Proof using Hshape Hle.
    clear - Hshape Hle. induction Hle as [|a b la lb H HH IH]; [constructor|]. inversion Hshape; subst. constructor; [lia|]. apply IH; assumption.
  Qed.
  Lemma fr_n_pos : Forall (fun l => (0 < l)%nat) n.
  Proof using Hls Hshape L1. apply supercell_pos; [exact Hls|exact Hshape|apply fr_l1]. Qed.
  Lemma fr_N_pos : Forall (fun l => (0 < l)%nat) N.
  Proof using Hls Hshape Hle L1 L2. apply supercell_pos; [exact Hls|apply fr_ss_pos|rewrite fr_l1, fr_l2; reflexivity]. Qed.

  Definition band_freqs (b : nat) : list Z := map (fun a => freq (nth a shape 0%nat) (nth a (unravel shape b) 0%nat)) (seq 0 (length shape)).

  Lemma free_spec : exists s, free_states laxes saxes shape = Some s /\
    slist s = BTuple (map BFund shape) /\ sbasis s = BTuple (cut_momenta n N) /\ well_formed_list s /\
    forall b k, (b < nprod shape)%nat -> (k < nprod n)%nat ->
      state_of s b k = isqrt (nprod n) * plane n (map Z.opp (band_freqs b)) (map Z.of_nat (unravel n k)).
  Proof using Hls Hshape Hne L1 L2 Hle.
    assert (Ln : length n = length N) by (rewrite fr_ln, fr_lN; reflexivity).
    rewrite (free_states_axes laxes saxes shape (cut_momenta n N) Hne) by (apply free_axes_some; [apply fr_l1|apply fr_l2|exact Hle]).
    rewrite cut_bsize by exact Ln. eexists. split; [reflexivity|]. cbn [slist sbasis sdata].
    split; [reflexivity|]. split; [reflexivity|].
    assert (Sz : bsize (BTuple (cut_momenta n N)) = nprod n) by (cbn [bsize]; rewrite cut_bsize by exact Ln; reflexivity).
    split; [unfold well_formed_list; cbn [slist sbasis sdata]; rewrite Sz; cbn [bsize]; rewrite map_map, map_id; cbn; lia|].
    intros b k Hb Hk. unfold state_of, row. cbn [slist sbasis sdata]. rewrite Sz, array2_at by exact Hk. unfold normalise_rows.
    set (ph := fun k : nat => phase_factor (length shape) (fun a => IZR (stacked_nk_points shape a b))
              (fun a => IZR (stacked_nx_points n a k)) (fun a => nth a n 0%nat)).
    assert (Norm : rsum (fun j => Cmod (ph j) ^ 2)%R (nprod n) = INR (nprod n)).
    { rewrite <- rsum_ones. apply rsum_ext. intros j Hj. unfold ph, phase_factor. rewrite cis_mod. ring. }
    assert (E : ph k = plane n (map Z.opp (band_freqs b)) (map Z.of_nat (unravel n k))).
    { unfold ph. rewrite <- fr_ln.
      rewrite (phase_factor_plane n _ _ _ (fun a => freq (nth a shape 0%nat) (nth a (unravel shape b) 0%nat)) (map Z.of_nat (unravel n k))).
      - unfold band_freqs. rewrite map_map, fr_ln. reflexivity.
      - apply fr_n_pos.
      - rewrite map_length, IndexProofs.unravel_length. reflexivity.
      - intros a Ha. rewrite fr_ln in Ha. rewrite nk_freq by assumption. rewrite nx_points_unravel, nth_map_of_nat. reflexivity. }
    change (Cdiv (ph k) (RtoC (sqrt (rsum (fun j => Cmod (ph j) ^ 2)%R (nprod n)))) = isqrt (nprod n) * plane n (map Z.opp (band_freqs b)) (map Z.of_nat (unravel n k))).
    rewrite Norm, E. unfold isqrt, Cdiv.
    assert (P : (0 < sqrt (INR (nprod n)))%R) by (apply sqrt_lt_R0, lt_0_INR, nprod_pos, fr_n_pos).
    rewrite <- RtoC_inv by lra. ring.
  Qed.

  Lemma band_freqs_length b : length (band_freqs b) = length shape.
  Proof. unfold band_freqs. rewrite map_length, seq_length. reflexivity. Qed.
  Lemma band_freqs_nth b a : (a < length shape)%nat -> nth a (band_freqs b) 0%Z = freq (nth a shape 0%nat) (nth a (unravel shape b) 0%nat).
  Proof.
    intros Ha. unfold band_freqs. set (f := fun a => freq (nth a shape 0%nat) (nth a (unravel shape b) 0%nat)).
    rewrite (nth_indep (map f (seq 0 (length shape))) 0%Z (f 0%nat)) by (rewrite map_length, seq_length; exact Ha).
    rewrite map_nth, seq_nth by exact Ha. reflexivity.
  Qed.

  Lemma free_orthonormal s : free_states laxes saxes shape = Some s -> orthonormal_list s.
  Proof using Hls Hshape Hne L1 L2 Hle.
    intros E. destruct free_spec as [s' [E1 [E2 [E3 [_ E4]]]]]. rewrite E in E1. injection E1 as <-.
    unfold orthonormal_list. rewrite E2, E3. cbn [bsize]. rewrite map_map, map_id.
    assert (Ln : length n = length N) by (rewrite fr_ln, fr_lN; reflexivity). rewrite cut_bsize by exact Ln.
    intros i j Hi Hj. unfold inner_product.
    transitivity (isqrt (nprod n) * isqrt (nprod n) * isum n (fun k => Cconj (plane n (map Z.opp (band_freqs i)) (map Z.of_nat k)) * plane n (map Z.opp (band_freqs j)) (map Z.of_nat k))).
    { rewrite <- (isum_flat n), <- csum_scal_l. apply csum_ext. intros k Hk. rewrite !E4 by assumption. rewrite Cconj_mult, isqrt_conj. ring. }
    destruct (Nat.eq_dec i j) as [->|Hij].
    - rewrite plane_sum_same by apply fr_n_pos. rewrite isqrt_sqr by (apply nprod_pos, fr_n_pos). rewrite cdelta_refl. reflexivity.
    - rewrite cdelta_neq by exact Hij. destruct (list_differs (unravel shape i) (unravel shape j)) as [a [A1 A2]].
      + rewrite !IndexProofs.unravel_length. reflexivity.
      + intros H. apply Hij. rewrite <- (ravel_unravel shape i Hi), <- (ravel_unravel shape j Hj), H. reflexivity.
      + rewrite IndexProofs.unravel_length in A1. rewrite (plane_sum_diff n fr_n_pos _ _ a); [ring| | | |].
        * rewrite map_length, band_freqs_length, fr_ln. reflexivity.
        * rewrite map_length, band_freqs_length, fr_ln. reflexivity.
        * rewrite fr_ln. exact A1.
        * intros C0. apply A2.
          assert (Bi := IndexProofs.in_shape_nth _ _ a (unravel_in_shape shape i Hi) A1).
          assert (Bj := IndexProofs.in_shape_nth _ _ a (unravel_in_shape shape j Hj) A1).
          apply (freq_cong_inj (nth a shape 0%nat) (nth a n 0%nat)); try assumption.
          -- unfold n. rewrite nth_supercell by apply fr_l1.
             assert (Pl : (0 < nth a ls 0)%nat) by (apply (Forall_nth _ ls); [exact Hls|rewrite fr_l1; exact A1]). nia.
          -- rewrite <- !band_freqs_nth by exact A1. destruct C0 as [q Q].
             assert (Mo : forall l : list Z, nth a (map Z.opp l) 0%Z = (- nth a l 0)%Z) by (intros l; exact (map_nth Z.opp l 0%Z a)).
             rewrite !Mo in Q. exists (- q)%Z. lia.
  Qed.
End Free.

(** ** Translations of one state *)
Lemma free_phase n : forall q k g, length q = length n -> length g = length n -> length k = length n ->
  Forall (fun m => (0 < m)%nat) n -> Forall (fun m => (0 < m)%nat) q -> in_shape k n ->
  plane n (map Z.opp g) (map Z.of_nat k) =
  plane (supercell n q) (sample_freqs n k) (map Z.opp (map2 (fun a b => (a * Z.of_nat b)%Z) g q)).
Proof.
  induction n as [|m n IH]; intros [|q1 q] [|k1 k] [|g1 g] A B D Hn Hq Hk; cbn in A, B, D; try lia; [reflexivity|].
  inversion Hn; subst. inversion Hq; subst. inversion Hk; subst.
  cbn [map plane supercell sample_freqs map2]. rewrite (IH q k g) by (assumption || lia). f_equal.
  replace (freq m k1 * - (g1 * Z.of_nat q1))%Z with ((- g1 * freq m k1) * Z.of_nat q1)%Z by ring.
  rewrite omega_scale by assumption. apply omega_cong; [assumption|].
  destruct (freq_is_freq m k1) as [[r Hr] _]; [assumption|]. exists (g1 * r)%Z. nia.
Qed.
