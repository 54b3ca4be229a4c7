(** States built from the average occupation of the momenta. *)
From Coq Require Import Reals Lra Lia FunctionalExtensionality.
From Verif Require Import ZLib Csum DFT NumPy Interp InterpProofs Index IndexProofs Spec Basis SpecBasis BasisProofs
  BasisProofs2 LatticeProofs Operator SpecOperator OperatorProofs IndexSum Reduce ReduceProofs2 Wavepacket SpecWavepacket WavepacketProofs WavepacketProofs2 WavepacketProofs3
  HamiltonianProofs DynamicsProofs Localize
  LocalizeProofs4 LocalizeProofs5 OverlapProofs3 StateList SpecStateList StateListProofs3 SeedStates SpecSeed SeedProofs SeedProofs2 SeedProofs3.
Local Open Scope R_scope.
Local Open Scope C_scope.

Section Probability.
  Variables (same : basis -> basis -> bool) (total m0 nb : nat) (laxes saxes : list basis) (data : ndarray)
    (fractions : list (list R)) (us : nat -> ndarray).
  Let nd := length laxes.
  Let nw := Nat.min nb total.
  Let N := supercell (map bfund laxes) (map bfund saxes).
  Hypothesis Htotal : (0 < total)%nat.
  Hypothesis Hnb : (0 < nb)%nat.
  Hypothesis Hdata : nprod (ashape data) = (total * m0)%nat.
  Hypothesis Hnd : (0 < nd)%nat.
  Hypothesis Hsax : length saxes = nd.
  Hypothesis Hfr : length fractions = nd.
  Hypothesis Hfb : Forall (fun f => length f = nb) fractions.
  Hypothesis Hus : forall w, (w < nw)%nat ->
    unfurl_wavepacket same laxes saxes {| ashape := [m0]; aflat := fun t => aflat data (w * m0 + t) |} = Some (us w).

  Let p (k : nat) : R := (rsum (fun w => Cnorm2 (aflat (us w) k)) nw / INR nw)%R.
  Let P := rsum p (nprod N).

  Lemma pr_nw : (0 < nw)%nat. Proof using Htotal Hnb. unfold nw. apply Nat.min_glb_lt; [exact Hnb|exact Htotal]. Qed.
  Lemma pr_lN : length N = nd.
  Proof using Hsax. unfold N. rewrite supercell_length; rewrite !map_length; [reflexivity|symmetry; exact Hsax]. Qed.
  Lemma p_nonneg k : (0 <= p k)%R.
  Proof using Htotal Hnb.
    unfold p. apply Rmult_le_pos; [apply rsum_nonneg; intros; apply Cnorm2_nonneg|]. left. apply Rinv_0_lt_compat, lt_0_INR, pr_nw.
  Qed.

  Lemma from_probability_spec : exists s, states_from_probability same total laxes saxes data fractions = Some s /\
    slist s = BFund nb /\ sbasis s = momenta N /\ well_formed_list s /\
    ((0 < P)%R -> forall b k, (b < nb)%nat -> (k < nprod N)%nat ->
       state_of s b k =
       cis (- (2 * PI) * rsum (fun a => nth b (nth a fractions []) 0 * (INR (nth a (unravel N k) 0%nat) / INR (bsize (nth a laxes (BFund 0)))))%R nd) *
       RtoC (sqrt (p k / P))).
  Proof using Htotal Hnb Hdata Hnd Hsax Hfr Hfb Hus.
    assert (Nw := pr_nw). unfold states_from_probability.
    destruct fractions as [|f0 fl] eqn:Ef; [cbn in Hfr; lia|]. rewrite <- Ef in *.
    assert (E0 : length f0 = nb) by (rewrite Ef in Hfb; inversion Hfb; assumption). rewrite E0.
    unfold first_wavepackets. destruct (Nat.eqb_spec total 0) as [Z0|_]; [lia|].
    rewrite Hdata. rewrite (Nat.mul_comm total m0), Nat.mod_mul, Nat.div_mul by lia. cbn [Nat.eqb]. fold nw.
    unfold unfurled_shape. rewrite (proj2 (Nat.leb_le _ _)) by (fold nd; lia). rewrite map2_supercell. fold N.
    unfold unfurl_wavepacket_list, wavepacket_list_into_iter. cbn [bsize]. destruct (Nat.eqb_spec nw 0) as [Z1|_]; [lia|].
    cbn [ashape aflat nprod]. replace (nw * m0 * 1)%nat with (m0 * nw)%nat by ring. rewrite Nat.mod_mul, Nat.div_mul by lia. cbn [Nat.eqb].
    rewrite map_map.
    set (sel := fun w => unfurl_wavepacket same laxes saxes (select_row {| ashape := [nw; m0]; aflat := aflat data |} w)).
    assert (Es : forall w, (w < nw)%nat -> sel w = Some (us w)).
    { intros w Hw. unfold sel. rewrite <- Hus by exact Hw. f_equal. unfold select_row. cbn [ashape aflat tl nprod].
      rewrite Nat.mul_1_r. reflexivity. }
    destruct (all_some_map sel {| ashape := []; aflat := fun _ => RtoC 0%R |} (seq 0 nw) 0%nat) as [st [Est [Lst Nst]]].
    { intros w Hw. apply in_seq in Hw. exists (us w). apply Es. lia. }

    rewrite Est. rewrite seq_length in Lst, Nst.
    assert (St : forall w, (w < nw)%nat -> nth w st {| ashape := []; aflat := fun _ => RtoC 0%R |} = us w).
    { intros w Hw. specialize (Nst w Hw). rewrite seq_nth in Nst by exact Hw. cbn [plus] in Nst. rewrite Es in Nst by exact Hw. congruence. }
    destruct (average_all_spec (BFund nw) (BTuple (map BFundT N)) (probability_from_state (stack_rows (nprod N) st))) as [d [Ed [_ Vd]]].
    { cbn [probability_from_state ashape stack_rows]. fold (momenta N). rewrite momenta_size, Lst. cbn [bsize nprod]. ring. }
    rewrite Ed. fold (momenta N) in Vd |- *. rewrite momenta_size in Vd. cbn [bsize] in Vd.
    replace (length N =? length laxes)%nat with true by (symmetry; apply Nat.eqb_eq; rewrite pr_lN; reflexivity).
    replace (length fractions =? length N)%nat with true by (symmetry; apply Nat.eqb_eq; rewrite pr_lN; exact Hfr).
    replace (forallb (fun f => length f =? nb) fractions)%nat with true.
    2:{ symmetry. apply forallb_forall. intros f Hf. apply Nat.eqb_eq. revert Hfb. rewrite Forall_forall. intros K. apply K. exact Hf. }
    cbn [andb]. eexists. split; [reflexivity|]. cbn [slist sbasis sdata]. split; [reflexivity|]. split; [reflexivity|].
    split; [unfold well_formed_list; cbn [slist sbasis sdata]; rewrite momenta_size; cbn; lia|].
    intros HP b k Hb Hk. unfold state_of, row. cbn [slist sbasis sdata]. rewrite momenta_size, array2_at by exact Hk.
    assert (Pd : forall j, (j < nprod N)%nat -> fst (aflat d j) = p j).
    { intros j Hj. rewrite Vd by exact Hj. unfold p.
      rewrite (csum_ext _ (fun w => RtoC (Cnorm2 (aflat (us w) j)))).
      - rewrite csum_RtoC. unfold Cdiv. rewrite <- RtoC_inv by (apply not_0_INR; lia). rewrite <- RtoC_mult. reflexivity.
      - intros w Hw. cbn [probability_from_state aflat stack_rows]. rewrite square_abs.
        rewrite Nat.div_add_l by lia. rewrite (Nat.div_small j) by lia. rewrite Nat.add_0_r, St by exact Hw.
        rewrite Nat.add_comm, Nat.mod_add by lia. rewrite Nat.mod_small by lia. reflexivity. }
    unfold normalise_rows.
    assert (Sm : rsum (fun j => Cmod ((phase_factor (length N) (fun a => nth b (nth a fractions []) 0%R)
                               (fun a => IZR (stacked_nx_points N a j)) (fun a => nth a (map bsize laxes) 0%nat) * RtoC (sqrt (fst (aflat d j))))%C) ^ 2)%R (nprod N) = P).
    { unfold P. apply rsum_ext. intros j Hj. rewrite Cmod_mult. unfold phase_factor. rewrite cis_mod, Cmod_R, Pd by exact Hj.
      rewrite Rabs_pos_eq by apply sqrt_pos. rewrite Rmult_1_l. cbn [pow]. rewrite Rmult_1_r. apply sqrt_sqrt, p_nonneg. }
    rewrite Sm, Pd by exact Hk. unfold phase_factor. rewrite pr_lN.
    assert (Q : (0 < sqrt P)%R) by (apply sqrt_lt_R0; exact HP).
    unfold Cdiv. rewrite <- RtoC_inv by lra. rewrite <- Cmult_assoc, <- RtoC_mult.
    rewrite sqrt_div by (exact HP || apply p_nonneg). f_equal. f_equal. f_equal. apply rsum_ext. intros a Ha.
    rewrite nx_points_unravel, <- INR_IZR_INZ.
    replace (nth a (map bsize laxes) 0%nat) with (bsize (nth a laxes (BFund 0))); [reflexivity|].
    change 0%nat with (bsize (BFund 0)) at 2. symmetry. apply map_nth.
  Qed.

  Lemma from_probability_occupation s : states_from_probability same total laxes saxes data fractions = Some s -> (0 < P)%R ->
    forall b, (b < nb)%nat ->
      (forall k, (k < nprod N)%nat -> Cnorm2 (state_of s b k) = (p k / P)%R) /\
      rsum (fun k => Cnorm2 (state_of s b k)) (nprod N) = 1%R.
  Proof using Htotal Hnb Hdata Hnd Hsax Hfr Hfb Hus.
    intros E HP b Hb. destruct from_probability_spec as [s' [E1 [_ [_ [_ E4]]]]]. rewrite E in E1. injection E1 as <-.
    assert (K : forall k, (k < nprod N)%nat -> Cnorm2 (state_of s b k) = (p k / P)%R).
    { intros k Hk. rewrite E4 by assumption. rewrite Cnorm2_mult, cis_norm2.
      assert (NR : forall r : R, Cnorm2 (RtoC r) = (r * r)%R) by (intros r; unfold Cnorm2; cbn; ring). rewrite NR.
      rewrite Rmult_1_l. apply sqrt_sqrt. apply Rmult_le_pos; [apply p_nonneg|left; apply Rinv_0_lt_compat; exact HP]. }
    split; [exact K|]. rewrite (rsum_ext _ (fun k => (/ P) * p k)%R) by (intros k Hk; rewrite K by exact Hk; unfold Rdiv; ring).
    rewrite LatticeProofs.rsum_scal_l. fold P. field. lra.
  Qed.

  (** *** Fractions which are points of the grid *)
  Variable c : nat -> list Z.
  Hypothesis Hlist : forall a, (a < nd)%nat -> bsize (nth a laxes (BFund 0)) = bfund (nth a laxes (BFund 0)).
  Hypothesis Hpos : Forall (fun n => (0 < n)%nat) N.

  Lemma from_probability_phase b k : (b < nb)%nat -> (k < nprod N)%nat -> length (c b) = nd ->
    (forall a, (a < nd)%nat -> (nth b (nth a fractions []) 0 * INR (bfund (nth a saxes (BFund 0))))%R = IZR (nth a (c b) 0%Z)) ->
    cis (- (2 * PI) * rsum (fun a => nth b (nth a fractions []) 0 * (INR (nth a (unravel N k) 0%nat) / INR (bsize (nth a laxes (BFund 0)))))%R nd) =
    plane N (sample_freqs N (unravel N k)) (map Z.opp (c b)).
  Proof using Hdata Hfr Hlist Hnb Hnd Hpos Hsax Htotal Hus.
    intros Hb Hk Hc H.
    transitivity (plane N (map (fun a => (- nth a (c b) 0)%Z) (seq 0 (length N))) (map Z.of_nat (unravel N k))).
    - rewrite <- (phase_factor_plane N (fun a => nth b (nth a fractions []) 0%R) (fun a => INR (nth a (unravel N k) 0%nat))
        (fun a => bsize (nth a laxes (BFund 0)))).
      + unfold phase_factor. rewrite pr_lN. reflexivity.
      + exact Hpos.
      + rewrite map_length, IndexProofs.unravel_length. reflexivity.
      + intros a Ha. assert (Pa : (0 < nth a N 0)%nat) by (apply (Forall_nth _ N); assumption).
        rewrite pr_lN in Ha. rewrite <- H by exact Ha. rewrite Hlist by exact Ha. rewrite nth_map_of_nat, <- INR_IZR_INZ.
        revert Pa. unfold N. rewrite nth_supercell by (rewrite !map_length; symmetry; exact Hsax).
        replace (nth a (map bfund laxes) 0%nat) with (bfund (nth a laxes (BFund 0))) by (symmetry; exact (map_nth bfund laxes (BFund 0) a)).
        replace (nth a (map bfund saxes) 0%nat) with (bfund (nth a saxes (BFund 0))) by (symmetry; exact (map_nth bfund saxes (BFund 0) a)).
        intros Pa. rewrite mult_INR.
        assert (0 < INR (bfund (nth a laxes (BFund 0))))%R by (apply lt_0_INR; nia).
        assert (0 < INR (bfund (nth a saxes (BFund 0))))%R by (apply lt_0_INR; nia). field. lra.
    - replace (map (fun a => (- nth a (c b) 0)%Z) (seq 0 (length N))) with (map Z.opp (c b)).
      + rewrite plane_swap. apply plane_freq_cong; [exact Hpos|rewrite map_length; apply IndexProofs.unravel_length|rewrite sample_freqs_length; [reflexivity|apply IndexProofs.unravel_length]|].
        intros a Ha. rewrite nth_map_of_nat, sample_freqs_nth by (exact Ha || apply IndexProofs.unravel_length).
        destruct (freq_is_freq (nth a N 0%nat) (nth a (unravel N k) 0%nat)) as [K _]; [|apply Zcong_sym; exact K].
        apply IndexProofs.in_shape_nth; [apply unravel_in_shape; exact Hk|exact Ha].
      + rewrite pr_lN, <- Hc. clear. induction (c b) as [|x l IH]; [reflexivity|]. cbn [map length seq]. f_equal.
        rewrite IH, <- seq_shift, map_map. reflexivity.
  Qed.

  Lemma from_probability_translated s b : states_from_probability same total laxes saxes data fractions = Some s -> (0 < P)%R -> (b < nb)%nat ->
    length (c b) = nd ->
    (forall a, (a < nd)%nat -> (nth b (nth a fractions []) 0 * INR (bfund (nth a saxes (BFund 0))))%R = IZR (nth a (c b) 0%Z)) ->
    (forall x, in_shape x N ->
       amplitude (momenta N) (state_of s b) (ravel N x) =
       amplitude (momenta N) (fun k => RtoC (sqrt (p k / P))) (ravel N (displaced N (c b) x))) /\
    (forall x, in_shape x N ->
       (Cmod (amplitude (momenta N) (state_of s b) (ravel N x)) <=
        Cmod (amplitude (momenta N) (state_of s b) (ravel N (on_grid N (c b)))))%R).
  Proof using Htotal Hnb Hdata Hnd Hsax Hfr Hfb Hus Hlist Hpos.
    intros E HP Hb Hc H. destruct from_probability_spec as [s' [E1 [_ [_ [_ E4]]]]]. rewrite E in E1. injection E1 as <-.
    assert (AE : forall v y, in_shape y N -> amplitude (momenta N) v (ravel N y) = amplitude (BTuple (cut_momenta N N)) v (ravel N y)).
    { intros v y Hy. rewrite amplitude_momenta by exact Hy.
      assert (A := amplitude_isum (cut_momenta N N) v y). rewrite cut_bsize, cut_bfund in A by reflexivity. rewrite A by exact Hy.
      apply isum_ext. intros k Hk. rewrite axis_states_cut_full. reflexivity. }
    assert (Tr : forall x, in_shape x N ->
       amplitude (momenta N) (state_of s b) (ravel N x) =
       amplitude (momenta N) (fun k => RtoC (sqrt (p k / P))) (ravel N (displaced N (c b) x))).
    { intros x Hx. assert (Lx := in_shape_length _ _ Hx). rewrite !AE by (try apply displaced_in; try assumption; rewrite ?pr_lN; try assumption; rewrite <- pr_lN; exact Lx).
      rewrite (amplitude_ext _ _ (fun k => RtoC (sqrt (p k / P)) * plane N (sample_freqs N (unravel N k)) (map Z.opp (c b)))).
      - apply cut_translate; try assumption; try reflexivity. rewrite pr_lN. exact Hc.
      - cbn [bsize]. rewrite cut_bsize by reflexivity. intros k Hk. rewrite E4 by assumption. rewrite (from_probability_phase b k) by assumption. ring. }
    split; [exact Tr|]. intros x Hx. assert (Lx := in_shape_length _ _ Hx). assert (Lc : length (c b) = length N) by (rewrite pr_lN; exact Hc).
    rewrite Tr by exact Hx.
    rewrite Tr by (apply displaced_in; [exact Hpos|rewrite map_length; exact Lc|apply map_length]).
    rewrite displaced_grid by assumption. rewrite !AE by (try apply zeros_in; try apply displaced_in; assumption || lia).
    rewrite cut_at_zero by (assumption || reflexivity). rewrite cut_amplitude by (try reflexivity; apply displaced_in; assumption || lia).
    assert (PN : (0 < INR (nprod N))%R) by (apply lt_0_INR, nprod_pos; exact Hpos).
    rewrite Cmod_mult, csum_RtoC, Cmod_R, Rabs_pos_eq by (apply rsum_nonneg; intros; apply sqrt_pos).
    eapply Rle_trans; [apply Cmod_csum|]. rewrite <- LatticeProofs.rsum_scal_l. apply rsum_le. intros t Ht.
    rewrite !Cmod_mult, Cmod_R, Rabs_pos_eq by apply sqrt_pos.
    assert (Q := plane_norm2 N (sample_freqs N (unravel N t)) (map Z.of_nat (displaced N (c b) x))). rewrite Cnorm2_Cmod in Q.
    set (z := Cmod (plane _ _ _)) in *. assert (0 <= z)%R by apply Cmod_ge_0. replace z with 1%R by nra. right. ring.
  Qed.
End Probability.
