(** States of the tight binding approximation. *)
From Coq Require Import Reals Lra.
From Verif Require Import ZLib Csum DFT NumPy Index Spec IndexProofs Basis SpecBasis BasisProofs2 BasisFacts Operator SpecOperator OperatorProofs Reduce IndexSum
  StateList SpecStateList Wavepacket SpecWavepacket WavepacketProofs2 WavepacketProofs3 HamiltonianProofs Localize SpecLocalize LocalizeProofs4 LocalizeProofs5 LocalizeProofs7 SeedProofs Paths PathsProofs3
  SpecBloch BlochEnergyProofs2 TightCell SpecTightCell TightCellProofs.
Local Open Scope R_scope.
Local Open Scope C_scope.

(** ** One point of the supercell for every point of the cell *)
Fixpoint around (ss F : list nat) (o : list Z) (x : list nat) : bool :=
  match ss, F, o, x with
  | n :: ss, K :: F, a :: o, i :: x => ((Z.of_nat i - (a - Z.of_nat n / 2)) mod Z.of_nat K <? Z.of_nat n)%Z && around ss F o x
  | _, _, _, _ => true
  end.
Lemma axis_around (n K a i : Z) : (0 < K)%Z ->
  (((i - (a - n / 2)) mod K < n)%Z <-> exists y, (a - n / 2 <= y < a - n / 2 + n)%Z /\ Zcong K y i).
Proof.
  intros HK. split.
  - intros H. exists (a - n / 2 + (i - (a - n / 2)) mod K)%Z. pose proof (Z.mod_pos_bound (i - (a - n / 2)) K HK). split; [lia|].
    exists (- ((i - (a - n / 2)) / K))%Z. pose proof (Z_div_mod_eq_full (i - (a - n / 2)) K). lia.
  - intros [y [W [q C]]]. replace (i - (a - n / 2))%Z with (y - (a - n / 2) + (- q) * K)%Z by lia. rewrite Z_mod_plus_full.
    pose proof (Z.mod_le (y - (a - n / 2)) K ltac:(lia) HK). lia.
Qed.
Lemma around_iff ss : forall F o x, length F = length ss -> length o = length ss -> length x = length ss ->
  Forall (fun n => (0 < n)%nat) F -> (around ss F o x = true <-> in_cell_around ss F o x).
Proof.
  induction ss as [|n ss IH]; intros [|K F] [|a o] [|i x] LF Lo Lx HF; try discriminate.
  - cbn. split; [intros _; exists []; split; exact Logic.I|reflexivity].
  - inversion HF; subst. cbn [around]. rewrite andb_true_iff, Z.ltb_lt, (axis_around (Z.of_nat n) (Z.of_nat K) a) by lia.
    rewrite IH by (cbn in *; lia || assumption). split.
    + intros [[y0 [W C]] [y [W' S']]]. exists (y0 :: y). cbn. tauto.
    + intros [[|y0 y] [W S']]; cbn in W; [tauto|]. cbn in S'. split; [exists y0; tauto|exists y; tauto].
Qed.

Lemma axis_sum (l n : nat) (a : Z) (h : nat -> C) : (0 < l)%nat -> (0 < n)%nat ->
  csum (fun i => if ((Z.of_nat i - (a - Z.of_nat n / 2)) mod Z.of_nat (l * n) <? Z.of_nat n)%Z then h (i mod n)%nat else 0) (l * n) = csum h n.
Proof.
  intros Hl Hn. symmetry. assert (HK : (0 < Z.of_nat (l * n))%Z) by nia.
  set (s := fun c => Z.to_nat (wrap_index (Z.of_nat c) (Z.of_nat n) a mod Z.of_nat (l * n))).
  assert (Es : forall c, Z.of_nat (s c) = (wrap_index (Z.of_nat c) (Z.of_nat n) a mod Z.of_nat (l * n))%Z).
  { intros c. unfold s. rewrite Z2Nat.id; [reflexivity|]. apply Z.mod_pos_bound. exact HK. }
  assert (Cs : forall c, Zcong (Z.of_nat (l * n)) (wrap_index (Z.of_nat c) (Z.of_nat n) a) (Z.of_nat (s c))).
  { intros c. rewrite Es. exists (wrap_index (Z.of_nat c) (Z.of_nat n) a / Z.of_nat (l * n))%Z.
    pose proof (Z_div_mod_eq_full (wrap_index (Z.of_nat c) (Z.of_nat n) a) (Z.of_nat (l * n))). lia. }
  assert (Ms : forall c, (c < n)%nat -> (s c mod n = c)%nat).
  { intros c Hc. destruct (wrap_index_spec (Z.of_nat c) (Z.of_nat n) a ltac:(lia)) as [C _].
    specialize (Cs c). rewrite Nat2Z.inj_mul in Cs. apply cong_divide in Cs. apply cong_mod_eq in C; [|lia]. apply cong_mod_eq in Cs; [|lia].
    rewrite C in Cs. rewrite <- !Nat2Z.inj_mod in Cs. apply Nat2Z.inj in Cs. rewrite <- Cs. apply Nat.mod_small. exact Hc. }
  apply (csum_inj _ _ n (l * n) s).
  - intros c Hc. apply Nat2Z.inj_lt. rewrite Es. apply Z.mod_pos_bound. exact HK.
  - intros c c' Hc Hc' E. rewrite <- (Ms c Hc), <- (Ms c' Hc'), E. reflexivity.
  - intros c Hc. cbv beta. rewrite (Ms c Hc).
    replace (_ <? _)%Z with true; [reflexivity|]. symmetry. apply Z.ltb_lt. apply axis_around; [exact HK|].
    exists (wrap_index (Z.of_nat c) (Z.of_nat n) a). split; [apply wrap_index_spec; lia|apply Cs].
  - intros x Hx Hno. cbv beta. destruct (_ <? _)%Z eqn:E; [|reflexivity]. exfalso. apply Z.ltb_lt in E. apply axis_around in E; [|exact HK].
    destruct E as [y [W C]]. apply (Hno (x mod n)%nat); [apply Nat.mod_upper_bound; lia|].
    assert (Wy : wrap_index (Z.of_nat (x mod n)) (Z.of_nat n) a = y).
    { apply wrap_fixed; [lia|exact W|]. rewrite Nat2Z.inj_mul in C. apply cong_divide in C. rewrite Nat2Z.inj_mod.
      destruct C as [q C]. exists (q + Z.of_nat x / Z.of_nat n)%Z. pose proof (Z_div_mod_eq_full (Z.of_nat x) (Z.of_nat n)). lia. }
    specialize (Cs (x mod n)%nat). rewrite Wy in Cs. destruct C as [q C], Cs as [q' Cs].
    assert (s (x mod n) < l * n)%nat by (apply Nat2Z.inj_lt; rewrite Es; apply Z.mod_pos_bound; exact HK).
    assert (q = q') by nia. subst q'. lia.
Qed.
Lemma cell_sum ls : forall ss o (g : list nat -> C), length ls = length ss -> length o = length ss ->
  Forall (fun n => (0 < n)%nat) ls -> Forall (fun n => (0 < n)%nat) ss ->
  isum (supercell ls ss) (fun x => if around ss (supercell ls ss) o x then g (in_cell ss x) else 0) = isum ss g.
Proof.
  induction ls as [|l ls IH]; intros [|n ss] [|a o] g Hl Ho Hls Hss; try discriminate; [reflexivity|].
  inversion Hls; inversion Hss; subst. cbn [supercell isum around in_cell].
  transitivity (csum (fun i => if ((Z.of_nat i - (a - Z.of_nat n / 2)) mod Z.of_nat (l * n) <? Z.of_nat n)%Z
                               then isum ss (fun c => g ((i mod n)%nat :: c)) else 0) (l * n)).
  - apply csum_ext. intros i Hi. destruct (_ <? _)%Z; cbn [andb].
    + exact (IH ss o (fun c => g ((i mod n)%nat :: c)) ltac:(cbn in *; lia) ltac:(cbn in *; lia) ltac:(assumption) ltac:(assumption)).
    + apply isum_zero.
  - exact (axis_sum l n a (fun c => isum ss (fun k => g (c :: k))) ltac:(assumption) ltac:(assumption)).
Qed.

Lemma first_below_all ss l x : Forall (fun n => (0 < n)%nat) ss -> (hd 1%nat ss <= l)%nat -> first_below ss l x.
Proof.
  intros Hs Hh. destruct ss as [|n ss], x as [|i x]; cbn; try exact Logic.I. cbn in Hh. inversion Hs; subst.
  pose proof (Nat.mod_upper_bound i n). lia.
Qed.
Lemma in_cell_stands ls : forall ss y x x', length ls = length ss -> Forall (fun n => (0 < n)%nat) ss ->
  stands_for ss y x -> stands_for (supercell ls ss) y x' -> in_shape x ss -> in_cell ss x' = x.
Proof.
  induction ls as [|l ls IH]; intros [|n ss] [|b y] [|i x] [|j x'] Hl Hs H H' Hx; try discriminate; cbn in H, H'; try contradiction; try reflexivity.
  inversion Hs; inversion Hx; subst. cbn [in_cell]. destruct H as [C H], H' as [C' H'].
  f_equal; [|apply (IH ss y x x'); try assumption; cbn in Hl; lia].
  rewrite Nat2Z.inj_mul in C'. apply cong_divide in C'. apply cong_mod_eq in C; [|lia]. apply cong_mod_eq in C'; [|lia]. rewrite C in C'.
  rewrite <- !Nat2Z.inj_mod in C'. apply Nat2Z.inj in C'. rewrite <- C'. apply Nat.mod_small. assumption.
Qed.
(** Every point of the cell occurs exactly once. *)
Lemma cell_once ls ss o c : length ls = length ss -> length o = length ss ->
  Forall (fun n => (0 < n)%nat) ls -> Forall (fun n => (0 < n)%nat) ss -> in_shape c ss ->
  exists x, in_shape x (supercell ls ss) /\ in_cell_around ss (supercell ls ss) o x /\ in_cell ss x = c /\
    forall x', in_shape x' (supercell ls ss) -> in_cell_around ss (supercell ls ss) o x' -> in_cell ss x' = c -> x' = x.
Proof.
  intros Hl Ho Hls Hss Hc. revert ss o c Hl Ho Hss Hc. induction Hls as [|l ls Hl0 Hls IH]; intros [|n ss] [|a o] c Hl Ho Hss Hc; try discriminate.
  - inversion Hc; subst. exists []. split; [constructor|]. split; [exists []; split; exact Logic.I|]. split; [reflexivity|].
    intros x' Hx' _ _. inversion Hx'. reflexivity.
  - inversion Hss; inversion Hc as [|c0 ? c' ? Hc0 Hc']; subst.
    destruct (IH ss o c' ltac:(cbn in *; lia) ltac:(cbn in *; lia) ltac:(assumption) Hc') as [x [Hx [[y [W S0]] [Ex Ux]]]].
    destruct (wrap_index_spec (Z.of_nat c0) (Z.of_nat n) a ltac:(lia)) as [C W0].
    set (w := wrap_index (Z.of_nat c0) (Z.of_nat n) a) in *. assert (HK : (0 < Z.of_nat (l * n))%Z) by nia.
    pose proof (Z.mod_pos_bound w _ HK) as B.
    assert (Cw : Zcong (Z.of_nat (l * n)) w (Z.of_nat (Z.to_nat (w mod Z.of_nat (l * n))))).
    { rewrite Z2Nat.id by lia. exists (w / Z.of_nat (l * n))%Z. pose proof (Z_div_mod_eq_full w (Z.of_nat (l * n))). lia. }
    set (i := Z.to_nat (w mod Z.of_nat (l * n))) in *. assert (Hi : (i < l * n)%nat) by lia.
    exists (i :: x). cbn [supercell in_cell]. split; [constructor; assumption|]. split; [exists (w :: y); cbn; tauto|]. split.
    { f_equal; [|exact Ex]. rewrite Nat2Z.inj_mul in Cw. apply cong_divide in Cw. apply cong_mod_eq in C; [|lia]. apply cong_mod_eq in Cw; [|lia].
      rewrite C in Cw. rewrite <- !Nat2Z.inj_mod in Cw. apply Nat2Z.inj in Cw. rewrite <- Cw. apply Nat.mod_small. assumption. }
    intros x' Hx' [[|y0 y'] [W' S']] Ec; cbn in W'; [tauto|]. destruct x' as [|j x']; [inversion Hx'|]. inversion Hx'; subst. cbn [in_cell] in Ec.
    injection Ec as Ec0 Ec'. destruct W' as [W1 W']. cbn in S'. destruct S' as [C1 S'].
    assert (x' = x) by (apply Ux; [assumption|exists y'; tauto|exact Ec']). subst x'. f_equal.
    assert (y0 = w).
    { apply (window_unique (Z.of_nat n) a); [lia|exact W1|exact W0|]. pose proof C1 as C2. rewrite Nat2Z.inj_mul in C2. apply cong_divide in C2.
      destruct C2 as [q C2], C as [q' C]. exists (q - q' + Z.of_nat j / Z.of_nat n)%Z. pose proof (Z_div_mod_eq_full (Z.of_nat j) (Z.of_nat n)).
      rewrite <- Nat2Z.inj_mod, Ec0 in H. lia. }
    subst y0. destruct C1 as [q C1], Cw as [q' Cw]. assert (q = q') by nia. subst q'. lia.
Qed.
