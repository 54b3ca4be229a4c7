(** States of the tight binding approximation. *)
From Coq Require Import Reals Lra.
From Verif Require Import ZLib Csum DFT NumPy Index Spec IndexProofs Basis SpecBasis BasisProofs2 BasisFacts Operator SpecOperator OperatorProofs Reduce IndexSum
  StateList SpecStateList Wavepacket SpecWavepacket WavepacketProofs2 WavepacketProofs3 HamiltonianProofs Localize SpecLocalize LocalizeProofs4 LocalizeProofs5 LocalizeProofs7 SeedProofs Paths PathsProofs3
  SpecBloch BlochEnergyProofs2 TightCell SpecTightCell TightCellProofs TightCellProofs2.
Local Open Scope R_scope.
Local Open Scope C_scope.

Lemma window_zero s : forall ax q, Forall (fun n => (0 < n)%nat) s -> length q = length s ->
  in_window s (map (fun _ => 0%Z) s) (wrap_index_from ax s (map Z.of_nat q) (map (fun _ => 0%Z) s) None).
Proof.
  induction s as [|n s IH]; intros ax [|i q] Hs Hq; try discriminate; [exact Logic.I|]. inversion Hs; subst.
  cbn [map wrap_index_from in_window]. split; [apply wrap_index_spec; lia|]. apply IH; [assumption|cbn in Hq; lia].
Qed.
Lemma window_in_cell ls : forall s m x0 ax, length ls = length s -> Forall (fun n => (0 < n)%nat) s -> length m = length s ->
  stands_for (supercell ls s) (wrap_index_from ax s (map Z.of_nat m) (map (fun _ => 0%Z) s) None) x0 -> in_cell s x0 = in_cell s m.
Proof.
  induction ls as [|l ls IH]; intros [|n s] m x0 ax Hl Hs Lm S0; try discriminate; [reflexivity|].
  destruct m as [|i m]; [discriminate|]. destruct x0 as [|j x0]; [cbn in S0; tauto|]. inversion Hs; subst.
  cbn [supercell map wrap_index_from stands_for] in S0. destruct S0 as [C S0]. cbn [in_cell].
  f_equal; [|exact (IH s m x0 (S ax) ltac:(cbn in Hl; lia) ltac:(assumption) ltac:(cbn in Lm; lia) S0)].
  destruct (wrap_index_spec (Z.of_nat i) (Z.of_nat n) 0 ltac:(lia)) as [C' _]. rewrite Nat2Z.inj_mul in C. apply cong_divide in C.
  apply cong_mod_eq in C; [|lia]. apply cong_mod_eq in C'; [|lia]. rewrite C in C'. rewrite <- !Nat2Z.inj_mod in C'. apply Nat2Z.inj in C'. exact C'.
Qed.

Section Tight.
  Context (same : basis -> basis -> bool) (Hsame : identity_test same) (ls : list nat) (saxes : list basis).
  Context (Hls : Forall (fun n => (0 < n)%nat) ls) (Hw : bwf (BTuple saxes)) (He : explicit_orthonormal (BTuple saxes)).
  Context (Hl : length ls = length saxes).
  Notation ss := (map bfund saxes).
  Notation N := (bsize (BTuple saxes)).
  Notation F := (supercell ls (map bfund saxes)).

  Let Hl2 : length ls = length ss.
  Proof using Hl. rewrite map_length. exact Hl. Qed.
  Let Hss : Forall (fun n => (0 < n)%nat) ss := fund_shape_pos saxes Hw.
  Let HF : Forall (fun n => (0 < n)%nat) F := cells_pos ls ss Hls Hss Hl2.
  Let LF : length F = length ss := cells_length ls ss Hl2.

  (** The state at the sample on the points of the supercell. *)
  Lemma sample_state d idx : nprod (ashape d) = (nprod ls * N)%nat -> (0 <= idx < Z.of_nat (nprod ls))%Z ->
    exists b v P, get_wavepacket_state_vector same (map BFundT ls) saxes d idx = Some (b, v) /\ map bfund b = F /\
      convert same (BTuple b) (as_fundamental_position b) = Some P /\
      forall x, in_shape x F -> P (aflat v) (ravel F x) = bloch_wave ls saxes d (Z.to_nat idx) x.
  Proof using Hsame Hls Hw He Hl.
    intros Hd Hi. destruct (state_vector_spec same Hsame ls saxes Hls Hw He Hl d idx Hd Hi) as [b [v [E [Hb [Hv V]]]]].
    assert (Eb : b = sampled ls ss (unravel ls (Z.to_nat idx))).
    { unfold get_wavepacket_state_vector in E. destruct (convert_wavepacket _ _ _ _ _ _); [|discriminate].
      rewrite map_bfund_FundT in E. unfold get_stacked_index in E. destruct (_ && _)%bool eqn:Ei; [|discriminate].
      rewrite sampled_basis_eq in E by (try exact Hl2; apply unravel_in_shape; lia).
      destruct (reshape _ _); [|discriminate]. destruct (python_index _ _); [|discriminate]. congruence. }
    assert (Hs : in_shape (unravel ls (Z.to_nat idx)) ls) by (apply unravel_in_shape; lia).
    destruct (convert_position same b Hsame) as [P [EP HP]].
    { rewrite Eb. apply sampled_wf; assumption. }
    { rewrite Eb. apply sampled_explicit. }
    exists b, v, P. split; [exact E|]. split; [exact Hb|]. split; [exact EP|]. intros x Hx.
    rewrite HP by (rewrite Hb; apply ravel_lt; exact Hx). rewrite V by exact Hx. unfold bloch_wave.
    rewrite Nat.mod_small by lia. reflexivity.
  Qed.

  Lemma existsb_eqb t l : existsb (Nat.eqb t) l = true <-> In t l.
  Proof. rewrite existsb_exists. split; [intros [x [H E]]; apply Nat.eqb_eq in E; congruence|intros H; exists t; split; [exact H|apply Nat.eqb_refl]]. Qed.

  Hypothesis Hnd : length saxes = 1%nat \/ length saxes = 2%nat.
  Hypothesis Hfull : map bsize saxes = ss.

  Definition is_tight (d : ndarray) (idx : nat) (o : list Z) (out : ndarray) : Prop :=
    ashape out = [nprod F] /\ cut_wave ls saxes d idx o (aflat out).

  Lemma tight_with d idx origin b v P o : nprod (ashape d) = (nprod ls * N)%nat -> (0 <= idx < Z.of_nat (nprod ls))%Z ->
    get_wavepacket_state_vector same (map BFundT ls) saxes d idx = Some (b, v) -> map bfund b = F ->
    convert same (BTuple b) (as_fundamental_position b) = Some P ->
    (forall x, in_shape x F -> P (aflat v) (ravel F x) = bloch_wave ls saxes d (Z.to_nat idx) x) ->
    cell_origin F ss (P (aflat v)) origin = Some o -> length o = length ss ->
    exists out, get_tight_binding_state same (map BFundT ls) saxes d idx origin = Some (BTuple (map BFund F), out) /\
      is_tight d (Z.to_nat idx) o out.
  Proof using Hls Hw Hl Hnd Hfull.
    intros Hd Hi E Hb EP HP Eo Lo. unfold get_tight_binding_state. rewrite E, EP, Hb, Hfull, Eo.
    assert (Hnd' : length ss = 1%nat \/ length ss = 2%nat) by (rewrite map_length; exact Hnd).
    destruct (cell_points_spec ls ss Hls Hss Hl2 Hnd' (nprod ls) o Lo) as [kept [Ek HK]].
    assert (E1 : bfund (BTuple (map BFundT ls)) = nprod ls) by (cbn [bfund]; rewrite map_bfund_FundT; reflexivity).
    assert (E2 : bfund (BTuple saxes) = nprod ss) by reflexivity.
    rewrite E1, E2, Ek. eexists. split; [rewrite as_fundamental_position_tuple, Hb; reflexivity|].
    split; [reflexivity|]. intros x Hx. cbn [aflat]. rewrite <- (HK x Hx), <- existsb_eqb. split.
    - intros ->. apply HP. exact Hx.
    - intros H. destruct (existsb _ _); [exfalso; apply H; reflexivity|reflexivity].
  Qed.

  Lemma tight_given d idx p o : nprod (ashape d) = (nprod ls * N)%nat -> (0 <= idx < Z.of_nat (nprod ls))%Z -> point_at ss p o ->
    exists out, get_tight_binding_state same (map BFundT ls) saxes d idx (Some p) = Some (BTuple (map BFund F), out) /\
      is_tight d (Z.to_nat idx) o out.
  Proof using Hsame Hls Hw He Hl Hnd Hfull.
    intros Hd Hi Hp. destruct (sample_state d idx Hd Hi) as [b [v [P [E [Hb [EP HP]]]]]].
    apply (tight_with d idx (Some p) b v P o); try assumption.
    - destruct p as [i|l]; cbn [point_at] in Hp; cbn [cell_origin].
      + destruct Hp as [x [Hx [-> ->]]]. unfold get_stacked_index. pose proof (ravel_lt ss x Hx).
        replace ((0 <=? Z.of_nat (ravel ss x))%Z && (Z.of_nat (ravel ss x) <? Z.of_nat (nprod ss))%Z)%bool with true
          by (symmetry; apply andb_true_intro; split; [apply Z.leb_le|apply Z.ltb_lt]; lia).
        rewrite Nat2Z.id, unravel_ravel by exact Hx. reflexivity.
      + destruct Hp as [Ll ->]. replace (length ss <=? length l)%nat with true by (symmetry; apply Nat.leb_le; lia). reflexivity.
    - destruct p as [i|l]; cbn [point_at] in Hp.
      + destruct Hp as [x [Hx [_ ->]]]. rewrite map_length. exact (in_shape_length _ _ Hx).
      + destruct Hp as [Ll ->]. exact Ll.
  Qed.

  Lemma wave_modulus d s x x' : (s < nprod ls)%nat -> in_cell ss x = in_cell ss x' ->
    Cmod (bloch_wave ls saxes d s x) = Cmod (bloch_wave ls saxes d s x').
  Proof.
    intros _ E. unfold bloch_wave. rewrite !Cmod_mult, E. f_equal. f_equal.
    assert (U : forall f y, Cmod (plane F f y) = 1%R).
    { intros f y. unfold Cmod. rewrite <- sqrt_1. f_equal. rewrite <- (plane_norm2 F f y). unfold Cnorm2. ring. }
    rewrite !U. reflexivity.
  Qed.

  (** The default origin is a largest value of the state, near zero. *)
  Lemma tight_default d idx : nprod (ashape d) = (nprod ls * N)%nat -> (0 <= idx < Z.of_nat (nprod ls))%Z ->
    exists o x0 out, get_tight_binding_state same (map BFundT ls) saxes d idx None = Some (BTuple (map BFund F), out) /\
      is_tight d (Z.to_nat idx) o out /\
      in_window ss (map (fun _ => 0%Z) ss) o /\ in_shape x0 F /\ stands_for F o x0 /\
      forall x, in_shape x F -> (Cmod (bloch_wave ls saxes d (Z.to_nat idx) x) <= Cmod (bloch_wave ls saxes d (Z.to_nat idx) x0))%R.
  Proof using Hsame Hls Hw He Hl Hnd Hfull.
    intros Hd Hi. destruct (sample_state d idx Hd Hi) as [b [v [P [E [Hb [EP HP]]]]]].
    pose proof (nprod_pos F HF) as PF. destruct (argmax_spec (fun t => Cmod (P (aflat v) t)) (nprod F) PF) as [A [B _]].
    set (t := argmax (fun t => Cmod (P (aflat v) t)) (nprod F)) in *.
    set (m := unravel F t). assert (Hm : in_shape m F) by (apply unravel_in_shape; exact A).
    set (o := wrap_index_around_origin ss (map Z.of_nat m) None None).
    assert (Lm : length m = length ss) by (rewrite <- LF; exact (in_shape_length _ _ Hm)).
    assert (Wo : in_window ss (map (fun _ => 0%Z) ss) o) by exact (window_zero ss 0 m Hss Lm).
    assert (Lo : length o = length ss) by exact (window_length _ _ _ Wo).
    destruct (flat_index_stands F o HF ltac:(congruence)) as [x0 [Hx0 [S0 _]]].
    assert (Em : in_cell ss x0 = in_cell ss m).
    { exact (window_in_cell ls ss m x0 0 Hl2 Hss Lm S0). }
    destruct (tight_with d idx None b v P o Hd Hi E Hb EP HP) as [out [Eout Ht]]; [|exact Lo|].
    { cbn [cell_origin]. fold t. unfold get_stacked_index.
      replace ((0 <=? Z.of_nat t)%Z && (Z.of_nat t <? Z.of_nat (nprod F))%Z)%bool with true
        by (symmetry; apply andb_true_intro; split; [apply Z.leb_le|apply Z.ltb_lt]; lia).
      rewrite Nat2Z.id. reflexivity. }
    exists o, x0, out. split; [exact Eout|]. split; [exact Ht|]. split; [exact Wo|]. split; [exact Hx0|]. split; [exact S0|].
    intros x Hx. rewrite (wave_modulus d _ x0 m) by (exact Em || lia).
    specialize (B (ravel F x) ltac:(apply ravel_lt; exact Hx)). cbv beta in B. rewrite HP in B by exact Hx.
    replace t with (ravel F m) in B by (apply ravel_unravel; exact A). rewrite HP in B by exact Hm. exact B.
  Qed.

  (** The norm with all points of the cell. *)
  Lemma tight_norm d idx o out : length o = length ss -> (idx < nprod ls)%nat -> orthonormal (BTuple saxes) ->
    (hd 1%nat ss <= nprod ls)%nat -> is_tight d idx o out ->
    inner_product (nprod F) (aflat out) (aflat out) =
    inner_product N (row N (aflat d) idx) (row N (aflat d) idx) / RtoC (INR (nprod ls)).
  Proof using Hls Hw Hl.
    clear Hnd. intros Lo Hi Ho Hh [_ H]. rewrite <- (amplitude_inner (BTuple saxes) _ _ Ho). cbn [bfund].
    unfold inner_product. rewrite (isum_ravel F), (isum_ravel ss).
    set (A := amplitude (BTuple saxes) (row N (aflat d) idx)).
    transitivity (isum F (fun x => if around ss F o x then Cconj (A (ravel ss (in_cell ss x))) * A (ravel ss (in_cell ss x)) * (/ RtoC (INR (nprod ls))) else 0)).
    - apply isum_ext. intros x Hx. destruct (H x Hx) as [H1 H2].
      assert (Lx : length x = length ss) by (rewrite <- LF; exact (in_shape_length _ _ Hx)).
      pose proof (around_iff ss F o x LF Lo Lx HF) as R. destruct (around ss F o x).
      + rewrite H1 by (split; [apply R; reflexivity|apply first_below_all; [exact Hss|exact Hh]]).
        unfold bloch_wave. rewrite Nat.mod_small by exact Hi. fold A. rewrite !Cconj_mult, isqrt_conj.
        set (p := plane _ _ _). set (z := A _). pose proof (isqrt_sqr (nprod ls) (nprod_pos ls Hls)) as Q.
        assert (Hp : Cconj p * p = 1) by (unfold p; rewrite Cconj_mult_self, plane_norm2; reflexivity).
        assert (Hn : RtoC (INR (nprod ls)) <> 0).
        { intros E0. apply RtoC_inj in E0. apply (not_0_INR (nprod ls)) in E0; [exact E0|]. pose proof (nprod_pos ls Hls). lia. }
        transitivity (isqrt (nprod ls) * isqrt (nprod ls) * (Cconj p * p) * (Cconj z * z)); [ring|]. rewrite Hp.
        transitivity (isqrt (nprod ls) * isqrt (nprod ls) * RtoC (INR (nprod ls)) * (Cconj z * z * / RtoC (INR (nprod ls)))); [field; exact Hn|].
        rewrite Q. ring.
      + rewrite H2; [rewrite Cmult_0_r; reflexivity|]. intros [K _]. apply R in K. discriminate.
    - rewrite (cell_sum ls ss o (fun c => Cconj (A (ravel ss c)) * A (ravel ss c) * (/ RtoC (INR (nprod ls)))) Hl2 Lo Hls Hss).
      rewrite isum_scal_r. reflexivity.
  Qed.

  Lemma tight_spec d idx origin : nprod (ashape d) = (nprod ls * N)%nat -> (0 <= idx < Z.of_nat (nprod ls))%Z -> valid_origin ss origin ->
    exists o out, get_tight_binding_state same (map BFundT ls) saxes d idx origin = Some (BTuple (map BFund F), out) /\
      centre_of ls saxes d (Z.to_nat idx) origin o /\ length o = length ss /\ ashape out = [nprod F] /\
      cut_wave ls saxes d (Z.to_nat idx) o (aflat out).
  Proof using Hsame Hls Hw He Hl Hnd Hfull.
    intros Hd Hi Ho. destruct origin as [p|].
    - destruct Ho as [o Ho]. destruct (tight_given d idx p o Hd Hi Ho) as [out [E [S0 W]]]. exists o, out.
      split; [exact E|]. split; [exact Ho|]. split; [|split; assumption]. destruct p as [i|l]; cbn in Ho.
      + destruct Ho as [x [Hx [_ ->]]]. rewrite map_length. exact (in_shape_length _ _ Hx).
      + destruct Ho as [L ->]. exact L.
    - destruct (tight_default d idx Hd Hi) as [o [x0 [out [E [[S0 W] [Wo [Hx0 [St M]]]]]]]]. exists o, out. split; [exact E|].
      split; [split; [exact Wo|]; exists x0; tauto|]. split; [exact (window_length _ _ _ Wo)|]. split; assumption.
  Qed.

  Lemma cut_whole d r o f : (hd 1%nat ss <= nprod ls)%nat -> cut_wave ls saxes d r o f ->
    forall x, in_shape x F -> (in_cell_around ss F o x -> f (ravel F x) = bloch_wave ls saxes d r x) /\
      (~ in_cell_around ss F o x -> f (ravel F x) = 0).
  Proof using Hw.
    clear Hnd. intros Hh H x Hx. destruct (H x Hx) as [H1 H2]. split; intros K.
    - apply H1. split; [exact K|]. apply first_below_all; [exact Hss|exact Hh].
    - apply H2. tauto.
  Qed.
  Lemma cut_missing d r o f x : cut_wave ls saxes d r o f -> in_shape x F ->
    (nprod ls <= hd 0%nat x mod hd 1%nat ss)%nat -> saxes <> [] -> f (ravel F x) = 0.
  Proof using Hl.
    clear Hnd Hfull He. clear LF HF Hss Hw Hls. intros H Hx Hh Hne. destruct (H x Hx) as [_ H2]. apply H2. intros [_ Hb].
    destruct saxes as [|a sa]; [congruence|]. destruct ls as [|l l0]; [cbn in Hl; lia|]. cbn [map supercell] in Hx. inversion Hx; subst.
    cbn [map first_below hd] in *. lia.
  Qed.
  Lemma bloch_wave_row d w r x (b : nat) : (0 < nprod ls)%nat -> (r < nprod ls)%nat -> (forall k, aflat w k = row (nprod ls * N) (aflat d) b k) ->
    bloch_wave ls saxes w r x = bloch_wave ls saxes d (b * nprod ls + r) x.
  Proof.
    clear Hnd. intros HL Hr H. unfold bloch_wave. replace ((b * nprod ls + r) mod nprod ls)%nat with (r mod nprod ls)%nat
      by (rewrite mod_add_small by exact Hr; apply Nat.mod_small; exact Hr).
    f_equal. apply amplitude_ext. intros k Hk. unfold row. rewrite H. unfold row. f_equal. ring.
  Qed.
  Lemma cut_wave_row d w r o f b : (r < nprod ls)%nat -> (forall k, aflat w k = row (nprod ls * N) (aflat d) b k) ->
    cut_wave ls saxes w r o f -> cut_wave ls saxes d (b * nprod ls + r) o f.
  Proof.
    clear Hnd. intros Hr H HC x Hx. rewrite <- (bloch_wave_row d w r x b) by (exact H || lia). exact (HC x Hx).
  Qed.
  Lemma centre_row d w r origin o b : (r < nprod ls)%nat -> (forall k, aflat w k = row (nprod ls * N) (aflat d) b k) ->
    centre_of ls saxes w r origin o -> centre_of ls saxes d (b * nprod ls + r) origin o.
  Proof.
    clear Hnd. intros Hr H HC. destruct origin as [p|]; [exact HC|]. destruct HC as [W [x0 [Hx0 [S0 M]]]]. split; [exact W|]. exists x0.
    split; [exact Hx0|]. split; [exact S0|]. intros x Hx. rewrite <- !(bloch_wave_row d w r _ b) by (exact H || lia). apply M. exact Hx.
  Qed.

  Lemma tight_bands bands d idx origin : (0 < bsize bands)%nat -> nprod (ashape d) = (bsize bands * (nprod ls * N))%nat ->
    (0 <= idx < Z.of_nat (nprod ls))%Z -> valid_origin ss origin ->
    exists s, get_tight_binding_states same bands (map BFundT ls) saxes d idx origin = Some s /\
      slist s = bands /\ sbasis s = BTuple (map BFund F) /\ well_formed_list s /\
      forall b, (b < bsize bands)%nat -> exists o,
        centre_of ls saxes d (b * nprod ls + Z.to_nat idx) origin o /\
        cut_wave ls saxes d (b * nprod ls + Z.to_nat idx) o (state_of s b).
  Proof using Hsame Hls Hw He Hl Hnd Hfull.
    intros Hb Hd Hi Ho. unfold get_tight_binding_states.
    destruct (into_iter_spec bands (nprod ls * N) d Hb Hd) as [l [El [Ll Hl']]]. rewrite El.
    assert (T : forall w, In w l -> exists o out, get_tight_binding_state same (map BFundT ls) saxes w idx origin = Some (BTuple (map BFund F), out) /\
      centre_of ls saxes w (Z.to_nat idx) origin o /\ length o = length ss /\ ashape out = [nprod F] /\
      cut_wave ls saxes w (Z.to_nat idx) o (aflat out)).
    { intros w Hw'. apply In_nth_error in Hw'. destruct Hw' as [b Eb]. destruct (Hl' b w Eb) as [Sw _]. apply tight_spec; [|exact Hi|exact Ho].
      rewrite Sw. cbn [nprod]. lia. }
    set (g := fun w => get_tight_binding_state same (map BFundT ls) saxes w idx origin).
    assert (X : exists r, all_some (map g l) = Some r /\ length r = length l /\
      forall b w, nth_error l b = Some w -> exists s, nth_error r b = Some s /\ g w = Some s).
    { assert (T' : forall w, In w l -> exists s, g w = Some s) by (intros w Hw'; destruct (T w Hw') as [o [out [E _]]]; eauto).
      clear -T'. induction l as [|w l IH]; [exists []; repeat split; intros [|b] w H; discriminate|].
      destruct (T' w (or_introl eq_refl)) as [s Es]. destruct IH as [r [Er [Lr Hr]]]; [intros w' H'; apply T'; right; exact H'|].
      exists (s :: r). cbn [map all_some]. rewrite Es, Er. split; [reflexivity|]. split; [cbn; congruence|]. intros [|b] w' H'; cbn in H'.
      - injection H' as <-. exists s. split; [reflexivity|exact Es].
      - exact (Hr b w' H'). }
    destruct X as [r [Er [Lr Hr]]]. fold g. rewrite Er.
    assert (Rs : forall b s, nth_error r b = Some s -> fst s = BTuple (map BFund F) /\ ashape (snd s) = [nprod F]).
    { intros b s Hs. assert (Hlt : (b < length l)%nat) by (rewrite <- Lr; apply nth_error_Some; congruence).
      destruct (nth_error l b) as [w|] eqn:Ew; [|apply nth_error_None in Ew; lia].
      destruct (Hr b w Ew) as [s' [Es' Eg]]. rewrite Hs in Es'. injection Es' as <-.
      destruct (T w (nth_error_In _ _ Ew)) as [o [out [E [_ [_ [Sh _]]]]]]. unfold g in Eg. rewrite E in Eg. injection Eg as <-. split; [reflexivity|exact Sh]. }
    set (vs := map (fun s => {| vbasis := fst s; vdata := snd s |}) r).
    assert (Lv : length vs = bsize bands) by (unfold vs; rewrite map_length; congruence).
    assert (Vs : forall b v, nth_error vs b = Some v -> vbasis v = BTuple (map BFund F) /\ ashape (vdata v) = [nprod F]).
    { intros b v Hv. unfold vs in Hv. rewrite nth_error_map in Hv. destruct (nth_error r b) eqn:Es; [|discriminate]. injection Hv as <-. exact (Rs b _ Es). }
    unfold as_state_vector_list. destruct vs as [|v0 vs'] eqn:Evs; [cbn in Lv; lia|]. rewrite <- Evs in *.
    assert (V0 := Vs 0%nat v0 ltac:(rewrite Evs; reflexivity)). destruct V0 as [B0 S0].
    replace (forallb _ _) with true.
    2:{ symmetry. apply forallb_forall. intros v Hv. apply In_nth_error in Hv. destruct Hv as [b Eb]. destruct (Vs b v Eb) as [_ Sv].
        rewrite Sv, S0. destruct (list_eq_dec _ _ _); congruence. }
    eexists. split; [reflexivity|]. cbn [slist sbasis]. split; [reflexivity|]. split; [exact B0|].
    assert (Em : nprod (ashape (vdata v0)) = nprod F) by (rewrite S0; cbn [nprod]; lia).
    assert (Eb : bsize (BTuple (map BFund F)) = nprod F) by (cbn [bsize]; rewrite map_bsize_Fund; reflexivity).
    split; [unfold well_formed_list; cbn [sdata slist sbasis ashape nprod]; rewrite B0, Eb, Em, Lv; lia|].
    intros b Hbb. destruct (nth_error l b) as [w|] eqn:Ew; [|apply nth_error_None in Ew; lia].
    destruct (Hl' b w Ew) as [_ Rw]. destruct (T w (nth_error_In _ _ Ew)) as [o [out [E [Ce [_ [Sh Cu]]]]]].
    destruct (Hr b w Ew) as [s [Es Eg]]. unfold g in Eg. rewrite E in Eg. injection Eg as <-.
    exists o. split; [apply (centre_row d w); [lia|exact Rw|exact Ce]|]. apply (cut_wave_row d w); [lia|exact Rw|].
    assert (Ev : nth b vs v0 = {| vbasis := BTuple (map BFund F); vdata := out |}).
    { apply nth_error_nth. unfold vs. rewrite nth_error_map, Es. reflexivity. }
    intros x Hx. unfold state_of, row. cbn [sbasis sdata aflat]. rewrite B0, Eb, Em. pose proof (ravel_lt F x Hx) as Rl.
    rewrite div_add_small, mod_add_small by exact Rl. rewrite Ev. exact (Cu x Hx).
  Qed.
End Tight.

(** From the third axis on. *)
Lemma tight_raises same laxes saxes d idx origin : (2 < length saxes)%nat -> get_tight_binding_state same laxes saxes d idx origin = None.
Proof.
  intros H. unfold get_tight_binding_state. destruct (get_wavepacket_state_vector _ _ _ _ _) as [[b v]|]; [|reflexivity].
  destruct (convert _ _ _); [|reflexivity]. destruct (cell_origin _ _ _ _); [|reflexivity].
  unfold cell_points. rewrite map_length. replace (2 <? length saxes)%nat with true by (symmetry; apply Nat.ltb_lt; exact H). reflexivity.
Qed.
