(** Hamiltonians of potentials which are sums over two groups of axes (C139). *)
From Coq Require Import Reals List ZArith Arith Lia Lra Bool.
From Verif Require Import ZLib Csum DFT NumPy Spec SpecReal Index IndexProofs IndexSum Lattice Basis SpecBasis BasisProofs BasisProofs2 BasisProofs3 BasisFacts
  Operator SpecOperator OperatorProofs SpecMatrix Wavepacket SpecWavepacket WavepacketProofs WavepacketProofs2 Hamiltonian SpecHamiltonian HamiltonianProofs HamiltonianProofs2 HamiltonianProofs3
  Localize SpecLocalize LinAlg FourierProofs4 SeparableProofs.
Import ListNotations.
Local Open Scope R_scope.
Local Open Scope C_scope.

Lemma tuple_sizes la lb : bsize (BTuple (la ++ lb)) = (bsize (BTuple la) * bsize (BTuple lb))%nat /\
  bfund (BTuple (la ++ lb)) = (bfund (BTuple la) * bfund (BTuple lb))%nat.
Proof.
  cbn [bsize bfund]. rewrite !map_app. induction la as [|b la [I1 I2]]; cbn [map app nprod]; [lia|]. rewrite I1, I2. lia.
Qed.

Lemma tuple_states lb : forall la i1 i2 x1 x2, (i1 < bsize (BTuple la))%nat -> (i2 < bsize (BTuple lb))%nat ->
  (x1 < bfund (BTuple la))%nat -> (x2 < bfund (BTuple lb))%nat ->
  bstate (BTuple (la ++ lb)) (i1 * bsize (BTuple lb) + i2) (x1 * bfund (BTuple lb) + x2) = bstate (BTuple la) i1 x1 * bstate (BTuple lb) i2 x2.
Proof.
  induction la as [|b la IH]; intros i1 i2 x1 x2 Hi1 Hi2 Hx1 Hx2.
  - cbn [bsize bfund map nprod] in Hi1, Hx1. assert (i1 = 0%nat) by lia. assert (x1 = 0%nat) by lia. subst. cbn [app]. rewrite !Nat.mul_0_l, !Nat.add_0_l.
    change (bstate (BTuple []) 0 0) with (RtoC 1). ring.
  - assert (St : forall l i x, bstate (BTuple (b :: l)) i x = bstate b (i / bsize (BTuple l)) (x / bfund (BTuple l)) * bstate (BTuple l) (i mod bsize (BTuple l)) (x mod bfund (BTuple l))).
    { intros l i x. cbn [bstate map product_states]. rewrite !map_map. reflexivity. }
    cbn [app]. rewrite !St. destruct (tuple_sizes la lb) as [-> ->].
    change (bsize (BTuple (b :: la))) with (bsize b * bsize (BTuple la))%nat in Hi1.
    change (bfund (BTuple (b :: la))) with (bfund b * bfund (BTuple la))%nat in Hx1.
    set (n := bsize (BTuple la)) in *. set (m := bsize (BTuple lb)) in *. set (N := bfund (BTuple la)) in *. set (M := bfund (BTuple lb)) in *.
    assert (Dn : n <> 0%nat) by nia. assert (DN : N <> 0%nat) by nia.
    assert (Q : forall i1 i2 n m, n <> 0%nat -> (i2 < m)%nat -> ((i1 * m + i2) / (n * m) = i1 / n)%nat /\ ((i1 * m + i2) mod (n * m) = (i1 mod n) * m + i2)%nat).
    { clear. intros i1 i2 n m Hn Hm. assert (E := Nat.div_mod i1 n Hn). assert (B := Nat.mod_upper_bound i1 n Hn).
      assert (F : (i1 * m + i2 = n * m * (i1 / n) + ((i1 mod n) * m + i2))%nat) by nia.
      assert (L : ((i1 mod n) * m + i2 < n * m)%nat) by nia.
      split; [symmetry; exact (Nat.div_unique _ _ _ _ L F)|symmetry; exact (Nat.mod_unique _ _ _ _ L F)]. }
    destruct (Q i1 i2 n m Dn Hi2) as [-> ->]. destruct (Q x1 x2 N M DN Hx2) as [-> ->].
    rewrite IH; [ring| | | |]; try assumption; apply Nat.mod_upper_bound; assumption.
Qed.

Lemma tuple_overlap la lb ma mb i1 i2 k1 k2 : bfund (BTuple la) = bfund (BTuple ma) -> bfund (BTuple lb) = bfund (BTuple mb) ->
  (i1 < bsize (BTuple la))%nat -> (i2 < bsize (BTuple lb))%nat -> (k1 < bsize (BTuple ma))%nat -> (k2 < bsize (BTuple mb))%nat ->
  overlap (BTuple (la ++ lb)) (BTuple (ma ++ mb)) (i1 * bsize (BTuple lb) + i2) (k1 * bsize (BTuple mb) + k2)
  = overlap (BTuple la) (BTuple ma) i1 k1 * overlap (BTuple lb) (BTuple mb) i2 k2.
Proof.
  intros E1 E2 Hi1 Hi2 Hk1 Hk2. unfold overlap. rewrite (proj2 (tuple_sizes ma mb)), csum_mul, csum_mult.
  apply csum_ext. intros x1 Hx1. apply csum_ext. intros x2 Hx2.
  rewrite (tuple_states mb ma) by assumption. rewrite <- E2 at 1. rewrite (tuple_states lb la) by (try assumption; congruence).
  rewrite Cconj_mult. ring.
Qed.

Section Separable.
  Context (same : basis -> basis -> bool) (la lb : list basis) (delta inv : nat -> nat -> R) (hbar mass : R) (frac : option (nat -> R)).
  Hypothesis Hs : identity_test same.
  Let d1 := length la.
  Let d2 := length lb.
  Let A := BTuple la.
  Let B := BTuple lb.
  Let AB := BTuple (la ++ lb).
  Hypothesis WA : bwf A. Hypothesis WB : bwf B.
  Hypothesis OA : explicit_orthonormal A. Hypothesis OB : explicit_orthonormal B.
  Hypothesis Hi : is_inverse (d1 + d2) delta inv.
  Hypothesis Hblock : forall a c, (a < d1)%nat -> (d1 <= c < d1 + d2)%nat -> delta a c = 0%R /\ delta c a = 0%R.
  Let delta2 a c := delta (d1 + a)%nat (d1 + c)%nat.
  Let inv2 a c := inv (d1 + a)%nat (d1 + c)%nat.
  Let frac2 := match frac with None => None | Some f => Some (fun a => f (d1 + a)%nat) end.
  Let n1 := bsize A. Let n2 := bsize B. Let N1 := bfund A. Let N2 := bfund B.
  Let S1 := map bfund la. Let S2 := map bfund lb.

  Lemma rsum_first (g : nat -> R) : (forall c, (d1 <= c < d1 + d2)%nat -> g c = 0%R) -> rsum g (d1 + d2) = rsum g d1.
  Proof using Hi Hblock.
    intros H. rewrite rsum_split. rewrite (rsum_ext (fun i => g (d1 + i)%nat) (fun _ => 0%R)).
    - replace (rsum (fun _ => 0%R) d2) with 0%R; [lra|]. clear. induction d2 as [|k IH]; cbn; [reflexivity|rewrite <- IH; ring].
    - intros i Hi'. apply H. lia.
  Qed.
  Lemma rsum_last (g : nat -> R) : (forall c, (c < d1)%nat -> g c = 0%R) -> rsum g (d1 + d2) = rsum (fun i => g (d1 + i)%nat) d2.
  Proof using Hi Hblock.
    intros H. rewrite rsum_split. rewrite (rsum_ext g (fun _ => 0%R)) by exact H.
    replace (rsum (fun _ => 0%R) d1) with 0%R; [lra|]. clear. induction d1 as [|k IH]; cbn; [reflexivity|rewrite <- IH; ring].
  Qed.

  Lemma inverse_first : is_inverse d1 delta inv.
  Proof using Hi Hblock.
    destruct Hi as [I1 I2]. split; intros a b Ha Hb.
    - rewrite <- (I1 a b) by lia. symmetry. apply rsum_first. intros c Hc. rewrite (proj1 (Hblock a c Ha Hc)). ring.
    - rewrite <- (I2 a b) by lia. symmetry. apply rsum_first. intros c Hc. rewrite (proj2 (Hblock b c Hb Hc)). ring.
  Qed.
  Lemma inverse_last : is_inverse d2 delta2 inv2.
  Proof using Hi Hblock.
    destruct Hi as [I1 I2]. unfold delta2, inv2.
    assert (D : forall a b, rdelta (d1 + a) (d1 + b) = rdelta a b).
    { intros a b. unfold rdelta. destruct (Nat.eqb_spec (d1 + a) (d1 + b)), (Nat.eqb_spec a b); try reflexivity; lia. }
    split; intros a b Ha Hb.
    - rewrite <- D, <- (I1 (d1 + a)%nat (d1 + b)%nat) by lia. symmetry.
      apply (rsum_last (fun c => delta (d1 + a)%nat c * inv c (d1 + b)%nat)%R). intros c Hc. rewrite (proj2 (Hblock c (d1 + a)%nat Hc ltac:(lia))). ring.
    - rewrite <- D, <- (I2 (d1 + a)%nat (d1 + b)%nat) by lia. symmetry.
      apply (rsum_last (fun c => inv (d1 + a)%nat c * delta c (d1 + b)%nat)%R). intros c Hc. rewrite (proj1 (Hblock c (d1 + b)%nat Hc ltac:(lia))). ring.
  Qed.

  Lemma unravel_flat k1 k2 : (k1 < nprod S1)%nat -> (k2 < nprod S2)%nat ->
    unravel (S1 ++ S2) (k1 * nprod S2 + k2) = unravel S1 k1 ++ unravel S2 k2.
  Proof using Hi Hblock.
    intros H1 H2. rewrite <- (ravel_unravel S1 k1 H1) at 1. rewrite <- (ravel_unravel S2 k2 H2) at 1.
    rewrite <- ravel_app by (apply in_shape_length; apply unravel_in_shape; exact H1). apply unravel_ravel.
    apply Forall2_app; apply unravel_in_shape; assumption.
  Qed.

  Lemma wave_parts q q1 q2 k1 k2 : waves (S1 ++ S2) delta frac q -> waves S1 delta frac q1 -> waves S2 delta2 frac2 q2 ->
    (k1 < nprod S1)%nat -> (k2 < nprod S2)%nat ->
    let k := (k1 * nprod S2 + k2)%nat in
    dot (d1 + d2) (q k) (q k) = (dot d1 (q1 k1) (q1 k1) + dot d2 (q2 k2) (q2 k2))%R.
  Proof using Hi Hblock.
    intros Hq Hq1 Hq2 H1 H2 k.
    assert (L1 : length S1 = d1) by apply map_length. assert (L2 : length S2 = d2) by apply map_length.
    assert (Lk : (k < nprod (S1 ++ S2))%nat).
    { assert (P : nprod (S1 ++ S2) = (nprod S1 * nprod S2)%nat) by (clear; induction S1 as [|n l IH]; cbn; [lia|rewrite IH; lia]).
      rewrite P. apply flat_lt; assumption. }
    assert (W := Hq k Lk). unfold k in W at 1. rewrite (unravel_flat k1 k2 H1 H2) in W.
    assert (LU : length (unravel S1 k1) = d1) by (rewrite <- L1; apply in_shape_length; apply unravel_in_shape; exact H1).
    unfold wave_vector in W. rewrite app_length, L1, L2 in W.
    assert (F1 : forall c, (c < d1)%nat -> q k c = q1 k1 c).
    { intros c Hc. apply (wave_unique S1 delta inv (unravel S1 k1) (fraction frac)); rewrite ?L1; [exact inverse_first| |exact (Hq1 k1 H1)|exact Hc].
      intros a Ha. rewrite L1 in Ha. rewrite L1. assert (Wa := W a ltac:(lia)). rewrite !app_nth1 in Wa by lia. rewrite <- Wa. unfold dot.
      symmetry. apply (rsum_first (fun c => q k c * delta a c)%R). intros e He. rewrite (proj1 (Hblock a e Ha He)). ring. }
    assert (F2 : forall c, (c < d2)%nat -> q k (d1 + c)%nat = q2 k2 c).
    { intros c Hc. apply (wave_unique S2 delta2 inv2 (unravel S2 k2) (fraction frac2) (fun c => q k (d1 + c)%nat)); rewrite ?L2; [exact inverse_last| |exact (Hq2 k2 H2)|exact Hc].
      intros a Ha. rewrite L2 in Ha. rewrite L2. assert (Wa := W (d1 + a)%nat ltac:(lia)). rewrite !app_nth2 in Wa by lia. rewrite L1, LU in Wa.
      replace (d1 + a - d1)%nat with a in Wa by lia.
      transitivity (dot (d1 + d2) (q k) (delta (d1 + a)%nat)).
      - unfold dot, delta2. symmetry. apply (rsum_last (fun c => q k c * delta (d1 + a)%nat c)%R). intros e He. rewrite (proj2 (Hblock e (d1 + a)%nat He ltac:(lia))). ring.
      - rewrite Wa. unfold frac2. destruct frac; reflexivity. }
    unfold dot. rewrite rsum_split. f_equal; apply rsum_ext; intros c Hc; [rewrite (F1 c Hc)|rewrite (F2 c Hc)]; reflexivity.
  Qed.
  Lemma separable_elements data dataA dataB :
    (forall x1 x2, (x1 < N1)%nat -> (x2 < N2)%nat -> amplitude AB data (x1 * N2 + x2) = amplitude A dataA x1 + amplitude B dataB x2) ->
    exists H H1 H2, total_surface_hamiltonian same hbar (la ++ lb) inv data mass frac = Some H /\
      total_surface_hamiltonian same hbar la inv dataA mass frac = Some H1 /\
      total_surface_hamiltonian same hbar lb inv2 dataB mass frac2 = Some H2 /\
      square (n1 * n2) H /\ square n1 H1 /\ square n2 H2 /\
      forall i1 i2 j1 j2, (i1 < n1)%nat -> (i2 < n2)%nat -> (j1 < n1)%nat -> (j2 < n2)%nat ->
        op_entry H (i1 * n2 + i2) (j1 * n2 + j2) = op_entry H1 i1 j1 * cdelta i2 j2 + cdelta i1 j1 * op_entry H2 i2 j2.
  Proof using All.
    intros HV.
    assert (WAB : bwf AB). { apply bwf_tuple. apply Forall_app. split; [exact (proj1 (bwf_tuple _) WA)|exact (proj1 (bwf_tuple _) WB)]. }
    assert (OAB : explicit_orthonormal AB).
    { clear - OA OB. unfold AB, A, B in *. cbn [explicit_orthonormal] in *. induction la as [|b l IH]; [exact OB|]. destruct OA as [O1 O2]. split; [exact O1|apply IH; exact O2]. }
    assert (LAB : length (la ++ lb) = (d1 + d2)%nat) by apply app_length.
    assert (HiAB : is_inverse (length (la ++ lb)) delta inv) by (rewrite LAB; exact Hi).
    destruct (hamiltonian_elements same Hs (la ++ lb) WAB OAB delta inv HiAB hbar mass frac data) as [H [EH [SH [_ [_ KH]]]]].
    destruct (hamiltonian_elements same Hs la WA OA delta inv inverse_first hbar mass frac dataA) as [H1 [EH1 [SH1 [_ [_ KH1]]]]].
    destruct (hamiltonian_elements same Hs lb WB OB delta2 inv2 inverse_last hbar mass frac2 dataB) as [H2 [EH2 [SH2 [_ [_ KH2]]]]].
    exists H, H1, H2. split; [exact EH|]. split; [exact EH1|]. split; [exact EH2|].
    split; [unfold n1, n2, A, B; rewrite <- (proj1 (tuple_sizes la lb)); exact SH|]. split; [exact SH1|]. split; [exact SH2|].
    intros i1 i2 j1 j2 Hi1 Hi2 Hj1 Hj2.
    assert (WV := waves_exist (map bfund (la ++ lb)) delta inv frac ltac:(rewrite map_length; exact HiAB)). match type of WV with waves _ _ _ ?qq => set (q := qq) in * end.
    assert (WV1 := waves_exist S1 delta inv frac ltac:(unfold S1; rewrite map_length; exact inverse_first)). match type of WV1 with waves _ _ _ ?qq => set (q1 := qq) in * end.
    assert (WV2 := waves_exist S2 delta2 inv2 frac2 ltac:(unfold S2; rewrite map_length; exact inverse_last)). match type of WV2 with waves _ _ _ ?qq => set (q2 := qq) in * end.
    assert (Li : (i1 * n2 + i2 < bsize (BTuple (la ++ lb)))%nat) by (rewrite (proj1 (tuple_sizes la lb)); apply flat_lt; assumption).
    assert (Lj : (j1 * n2 + j2 < bsize (BTuple (la ++ lb)))%nat) by (rewrite (proj1 (tuple_sizes la lb)); apply flat_lt; assumption).
    rewrite (KH q WV _ _ Li Lj), (KH1 q1 WV1 i1 j1 Hi1 Hj1), (KH2 q2 WV2 i2 j2 Hi2 Hj2).
    assert (SA := explicit_orthonormal_sound A WA OA i1 j1 Hi1 Hj1). assert (SB := explicit_orthonormal_sound B WB OB i2 j2 Hi2 Hj2).
    assert (PA : Forall (fun n => (0 < n)%nat) S1).
    { apply Forall_forall. intros n Hn. apply in_map_iff in Hn. destruct Hn as [b [<- Hb]]. apply (bfund_pos b). exact (proj1 (Forall_forall _ _) (proj1 (bwf_tuple _) WA) b Hb). }
    assert (PB : Forall (fun n => (0 < n)%nat) S2).
    { apply Forall_forall. intros n Hn. apply in_map_iff in Hn. destruct Hn as [b [<- Hb]]. apply (bfund_pos b). exact (proj1 (Forall_forall _ _) (proj1 (bwf_tuple _) WB) b Hb). }
    fold S1 S2. rewrite LAB. fold d1 d2.
    assert (FM : forall S, bfund (momenta S) = nprod S) by (intros; unfold momenta; cbn [bfund]; rewrite map_map; f_equal; apply map_id).
    assert (SM : forall S, bsize (momenta S) = nprod S) by (intros; unfold momenta; cbn [bsize]; rewrite map_map; f_equal; apply map_id).
    assert (CA := overlap_comp A (momenta S1) A i1 j1 (eq_sym (FM S1)) (momenta_complete S1 PA)). rewrite SM in CA.
    assert (CB := overlap_comp B (momenta S2) B i2 j2 (eq_sym (FM S2)) (momenta_complete S2 PB)). rewrite SM in CB.
    rewrite map_app. fold S1 S2. rewrite nprod_app, !csum_mul.
    set (PotA := csum (fun x => Cconj (bstate (BTuple la) i1 x) * amplitude (BTuple la) dataA x * bstate (BTuple la) j1 x) (nprod S1)).
    set (PotB := csum (fun x => Cconj (bstate (BTuple lb) i2 x) * amplitude (BTuple lb) dataB x * bstate (BTuple lb) j2 x) (nprod S2)).
    match goal with |- _ = (_ + ?x) * _ + _ * (_ + ?y) => set (KinA := x); set (KinB := y) end.
    transitivity ((PotA * cdelta i2 j2 + cdelta i1 j1 * PotB) + (KinA * cdelta i2 j2 + cdelta i1 j1 * KinB)); [|ring]. f_equal.
    - rewrite <- SA, <- SB. unfold PotA, PotB, overlap. change (bfund A) with (nprod S1). change (bfund B) with (nprod S2).
      rewrite !csum_mult, <- csum_plus. apply csum_ext. intros x1 Hx1. rewrite <- csum_plus. apply csum_ext. intros x2 Hx2.
      assert (E := HV x1 x2 Hx1 Hx2). change N2 with (nprod S2) in E. unfold AB in E. rewrite E.
      change (nprod S2) with (bfund (BTuple lb)). unfold n2, B.
      rewrite !tuple_states by assumption. rewrite Cconj_mult. unfold A, B. ring.
    - rewrite <- SA, <- SB, <- CA, <- CB. unfold KinA, KinB.
      rewrite !csum_mult, <- csum_plus. apply csum_ext. intros k1 Hk1. rewrite <- csum_plus. apply csum_ext. intros k2 Hk2.
      rewrite map_app in WV. fold S1 S2 in WV. rewrite (wave_parts q q1 q2 k1 k2 WV WV1 WV2 Hk1 Hk2).
      assert (M12 : momenta (S1 ++ S2) = BTuple (map BFundT S1 ++ map BFundT S2)) by (unfold momenta; rewrite map_app; reflexivity).
      rewrite M12. assert (K1 : (k1 < bsize (momenta S1))%nat) by (rewrite SM; exact Hk1). assert (K2 : (k2 < bsize (momenta S2))%nat) by (rewrite SM; exact Hk2).
      assert (X1 := tuple_overlap la lb (map BFundT S1) (map BFundT S2) i1 i2 k1 k2 (eq_sym (FM S1)) (eq_sym (FM S2)) Hi1 Hi2 K1 K2).
      assert (X2 := tuple_overlap (map BFundT S1) (map BFundT S2) la lb k1 k2 j1 j2 (FM S1) (FM S2) K1 K2 Hj1 Hj2).
      change (BTuple (map BFundT S1)) with (momenta S1) in *. change (BTuple (map BFundT S2)) with (momenta S2) in *. rewrite SM in X1, X2.
      unfold n2, B. rewrite X1, X2. unfold A, B.
      replace (hbar * hbar * (dot d1 (q1 k1) (q1 k1) + dot d2 (q2 k2) (q2 k2)) / (2 * mass))%R with
        (hbar * hbar * dot d1 (q1 k1) (q1 k1) / (2 * mass) + hbar * hbar * dot d2 (q2 k2) (q2 k2) / (2 * mass))%R by (unfold Rdiv; ring).
      rewrite RtoC_plus. ring.
  Qed.

  Lemma separable_energies data dataA dataB E EA EB H H1 H2 :
    (forall x1 x2, (x1 < N1)%nat -> (x2 < N2)%nat -> amplitude AB data (x1 * N2 + x2) = amplitude A dataA x1 + amplitude B dataB x2) ->
    total_surface_hamiltonian same hbar (la ++ lb) inv data mass frac = Some H ->
    total_surface_hamiltonian same hbar la inv dataA mass frac = Some H1 ->
    total_surface_hamiltonian same hbar lb inv2 dataB mass frac2 = Some H2 ->
    ascending_spectrum (n1 * n2) (op_entry H) E -> ascending_spectrum n1 (op_entry H1) EA -> ascending_spectrum n2 (op_entry H2) EB ->
    (exists a b : nat -> nat, (forall k, (k < n1 * n2)%nat -> (a k < n1)%nat /\ (b k < n2)%nat /\ E k = (EA (a k) + EB (b k))%R) /\
      (forall k l, (k < n1 * n2)%nat -> (l < n1 * n2)%nat -> a k = a l -> b k = b l -> k = l)) /\
    E 0%nat = (EA 0%nat + EB 0%nat)%R.
  Proof using All.
    intros HV EH EH1 EH2 SE SEA SEB. destruct (separable_elements data dataA dataB HV) as [G [G1 [G2 [F [F1 [F2 [_ [_ [_ K]]]]]]]]].
    rewrite EH in F. rewrite EH1 in F1. rewrite EH2 in F2. injection F as <-. injection F1 as <-. injection F2 as <-.
    destruct (spectrum_sum n1 n2 _ _ _ E EA EB K SE SEA SEB) as [a [b [Q1 Q2]]]. split; [exists a, b; split; assumption|].
    apply (lowest_sum n1 n2 E EA EB a b); try assumption; [exact (bsize_pos A WA)|exact (bsize_pos B WB)|exact (proj1 SE)|exact (proj1 SEA)|exact (proj1 SEB)].
  Qed.
End Separable.
