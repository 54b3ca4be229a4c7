(** Hamiltonians of potentials which are sums over two groups of axes (C139). *)
From Coq Require Import Reals List ZArith Arith Lia Lra Bool.
From Verif Require Import ZLib Csum DFT NumPy Spec SpecReal Index IndexProofs IndexSum Lattice Basis SpecBasis BasisProofs BasisProofs2 BasisProofs3 BasisFacts
  Operator SpecOperator OperatorProofs SpecMatrix Wavepacket SpecWavepacket WavepacketProofs2 Hamiltonian SpecHamiltonian HamiltonianProofs HamiltonianProofs2 HamiltonianProofs3
  SpecKernel KernelFacts Localize SpecLocalize LinAlg Spectral Spectral2 Spectral3 InterlaceProofs FourierProofs4.
Import ListNotations.
Local Open Scope R_scope.
Local Open Scope C_scope.

(** ** Spectra given in any order *)
Lemma injective_onto n (s : nat -> nat) : (forall i, (i < n)%nat -> (s i < n)%nat) ->
  (forall i j, (i < n)%nat -> (j < n)%nat -> s i = s j -> i = j) -> forall j, (j < n)%nat -> exists i, (i < n)%nat /\ s i = j.
Proof.
  intros Hb Hi j Hj.
  assert (ND : NoDup (map s (seq 0 n))).
  { assert (G : forall l, NoDup l -> (forall i, In i l -> (i < n)%nat) -> NoDup (map s l)).
    { induction l as [|a l IH]; intros Hn Hl; cbn; constructor.
      - intros Hin. apply in_map_iff in Hin. destruct Hin as [b [Eb Inb]]. inversion Hn; subst.
        assert (b = a) by (apply Hi; [apply Hl; right; exact Inb|apply Hl; left; reflexivity|exact Eb]). subst. contradiction.
      - inversion Hn; subst. apply IH; [assumption|]. intros i Hin. apply Hl. right. exact Hin. }
    apply G; [apply seq_NoDup|]. intros i Hin. apply in_seq in Hin. lia. }
  assert (IN : incl (seq 0 n) (map s (seq 0 n))).
  { apply NoDup_length_incl; [exact ND|rewrite map_length; lia|]. intros y Hy. apply in_map_iff in Hy. destruct Hy as [i [<- Hin]].
    apply in_seq in Hin. apply in_seq. specialize (Hb i). lia. }
  assert (Hin : In j (seq 0 n)) by (apply in_seq; lia). apply IN in Hin. apply in_map_iff in Hin. destruct Hin as [i [E I]].
  apply in_seq in I. exists i. split; [lia|exact E].
Qed.

Lemma spectrum_same n A E E' : ascending_spectrum n A E -> ascending_spectrum n A E' -> forall k, (k < n)%nat -> E k = E' k.
Proof.
  intros H H' k Hk.
  assert (HP : forall i j, (i < n)%nat -> (j < n)%nat -> csum (fun p => Cconj (cdelta p i) * cdelta p j) n = cdelta i j).
  { intros i j Hi Hj. rewrite (csum_single _ n i Hi).
    - rewrite cdelta_refl. rewrite Cconj_1. ring.
    - intros p Hp Hne. rewrite (cdelta_neq p i Hne). apply injective_projections; cbn; ring. }
  assert (L : forall E E', ascending_spectrum n A E -> ascending_spectrum n A E' -> (E k <= E' k)%R).
  { intros F F' HF HF'. rewrite <- (Rplus_0_r (F' k)).
    apply (lower n n A A cdelta HP F F' 0%R); try assumption. intros x. rewrite Rmult_0_l, Rplus_0_r. apply Req_le.
    unfold form. apply f_equal. apply csum_ext. intros i Hi.
    assert (X : forall j, (j < n)%nat -> csum (fun l => cdelta j l * x l) n = x j) by (intros j Hj; apply csum_delta_l; exact Hj).
    try (rewrite (X i Hi)); try (apply f_equal); try (apply csum_ext; intros j Hj; rewrite (X j Hj); reflexivity). }
  apply Rle_antisym; apply L; assumption.
Qed.

Lemma spectrum_any_order n A V f E : unitary n V ->
  (forall i j, (i < n)%nat -> (j < n)%nat -> A i j = csum (fun k => V i k * RtoC (f k) * Cconj (V j k)) n) ->
  ascending_spectrum n A E ->
  exists p : nat -> nat, (forall k, (k < n)%nat -> (p k < n)%nat) /\
    (forall k l, (k < n)%nat -> (l < n)%nat -> p k = p l -> k = l) /\ forall k, (k < n)%nat -> E k = f (p k).
Proof.
  intros [UR UC] HA HE. destruct (some_argsort_ok f n) as [P1 [P2 P3]]. set (p := some_argsort f n) in *.
  exists p. split; [exact P1|]. split; [exact P2|].
  assert (R : forall g, csum (fun k => g (p k)) n = csum g n).
  { intros g. apply (csum_inj (fun k => g (p k)) g n n p P1 P2); [reflexivity|]. intros j Hj N. exfalso.
    destruct (injective_onto n p P1 P2 j Hj) as [i [Hi Ei]]. exact (N i Hi Ei). }
  apply (spectrum_same n A E (fun k => f (p k)) HE). split; [intros i j L1 L2; apply P3; lia|].
  exists (fun i k => V i (p k)). split; [split|].
  - intros i j Hi Hj. rewrite (R (fun k => V i k * Cconj (V j k))). apply UR; assumption.
  - intros i j Hi Hj. rewrite (UC (p i) (p j)) by (apply P1; assumption).
    unfold cdelta. destruct (Nat.eqb_spec (p i) (p j)) as [e|ne], (Nat.eqb_spec i j) as [e'|ne']; try reflexivity; exfalso.
    + apply ne'. apply P2; assumption.
    + subst. apply ne. reflexivity.
  - intros i j Hi Hj. rewrite (R (fun k => V i k * RtoC (f k) * Cconj (V j k))). apply HA; assumption.
Qed.

Lemma flat_lt n1 n2 i1 i2 : (i1 < n1)%nat -> (i2 < n2)%nat -> (i1 * n2 + i2 < n1 * n2)%nat.
Proof. intros. nia. Qed.
Lemma flat_div n2 i1 i2 : (i2 < n2)%nat -> ((i1 * n2 + i2) / n2 = i1)%nat.
Proof. intros H. rewrite Nat.div_add_l by lia. rewrite Nat.div_small by exact H. lia. Qed.
Lemma flat_mod n2 i1 i2 : (i2 < n2)%nat -> ((i1 * n2 + i2) mod n2 = i2)%nat.
Proof. intros H. rewrite Nat.add_comm, Nat.mod_add by lia. apply Nat.mod_small. exact H. Qed.
Lemma flat_parts n1 n2 i : (i < n1 * n2)%nat -> exists i1 i2, (i1 < n1)%nat /\ (i2 < n2)%nat /\ i = (i1 * n2 + i2)%nat.
Proof.
  intros H. assert (n2 <> 0%nat) by nia. exists (i / n2)%nat, (i mod n2)%nat. split; [apply Nat.div_lt_upper_bound; nia|].
  split; [apply Nat.mod_upper_bound; assumption|]. rewrite Nat.mul_comm. apply Nat.div_mod. assumption.
Qed.
Lemma cdelta_flat n2 i1 i2 j1 j2 : (i2 < n2)%nat -> (j2 < n2)%nat ->
  cdelta (i1 * n2 + i2) (j1 * n2 + j2) = cdelta i1 j1 * cdelta i2 j2.
Proof.
  intros Hi Hj. unfold cdelta. destruct (Nat.eqb_spec (i1 * n2 + i2) (j1 * n2 + j2)) as [e|ne].
  - assert (E1 := f_equal (fun x => (x / n2)%nat) e). assert (E2 := f_equal (fun x => (x mod n2)%nat) e). cbv beta in E1, E2.
    rewrite !flat_div in E1 by assumption. rewrite !flat_mod in E2 by assumption. subst. rewrite !Nat.eqb_refl. ring.
  - destruct (Nat.eqb_spec i1 j1), (Nat.eqb_spec i2 j2); try ring. subst. contradiction.
Qed.

Lemma spectrum_sum n1 n2 A A1 A2 E E1 E2 : 
  (forall i1 i2 j1 j2, (i1 < n1)%nat -> (i2 < n2)%nat -> (j1 < n1)%nat -> (j2 < n2)%nat ->
     A (i1 * n2 + i2)%nat (j1 * n2 + j2)%nat = A1 i1 j1 * cdelta i2 j2 + cdelta i1 j1 * A2 i2 j2) ->
  ascending_spectrum (n1 * n2) A E -> ascending_spectrum n1 A1 E1 -> ascending_spectrum n2 A2 E2 ->
  exists a b : nat -> nat, (forall k, (k < n1 * n2)%nat -> (a k < n1)%nat /\ (b k < n2)%nat /\ E k = (E1 (a k) + E2 (b k))%R) /\
    (forall k l, (k < n1 * n2)%nat -> (l < n1 * n2)%nat -> a k = a l -> b k = b l -> k = l).
Proof.
  intros HA HE [S1 [V1 [[R1 C1] D1]]] [S2 [V2 [[R2 C2] D2]]].
  set (V := fun i k => V1 (i / n2)%nat (k / n2)%nat * V2 (i mod n2)%nat (k mod n2)%nat).
  set (f := fun k => (E1 (k / n2)%nat + E2 (k mod n2)%nat)%R).
  assert (VV : forall i1 i2 k1 k2, (i2 < n2)%nat -> (k2 < n2)%nat -> V (i1 * n2 + i2)%nat (k1 * n2 + k2)%nat = V1 i1 k1 * V2 i2 k2).
  { intros i1 i2 k1 k2 Hi Hk. unfold V. rewrite !flat_div, !flat_mod by assumption. reflexivity. }
  destruct (spectrum_any_order (n1 * n2) A V f E) as [p [P1 [P2 P3]]].
  - split.
    + intros i j Hi Hj. destruct (flat_parts _ _ _ Hi) as [i1 [i2 [Hi1 [Hi2 ->]]]]. destruct (flat_parts _ _ _ Hj) as [j1 [j2 [Hj1 [Hj2 ->]]]].
      rewrite cdelta_flat by assumption. rewrite <- (R1 i1 j1), <- (R2 i2 j2) by assumption. rewrite csum_mul, csum_mult.
      apply csum_ext. intros k1 Hk1. apply csum_ext. intros k2 Hk2. rewrite !VV by assumption. rewrite Cconj_mult. ring.
    + intros i j Hi Hj. destruct (flat_parts _ _ _ Hi) as [i1 [i2 [Hi1 [Hi2 ->]]]]. destruct (flat_parts _ _ _ Hj) as [j1 [j2 [Hj1 [Hj2 ->]]]].
      rewrite cdelta_flat by assumption. rewrite <- (C1 i1 j1), <- (C2 i2 j2) by assumption. rewrite csum_mul, csum_mult.
      apply csum_ext. intros k1 Hk1. apply csum_ext. intros k2 Hk2. rewrite !VV by assumption. rewrite Cconj_mult. ring.
  - intros i j Hi Hj. destruct (flat_parts _ _ _ Hi) as [i1 [i2 [Hi1 [Hi2 ->]]]]. destruct (flat_parts _ _ _ Hj) as [j1 [j2 [Hj1 [Hj2 ->]]]].
    rewrite HA by assumption. rewrite <- (R1 i1 j1), <- (R2 i2 j2), (D1 i1 j1), (D2 i2 j2) by assumption. rewrite csum_mul, !csum_mult, <- csum_plus.
    apply csum_ext. intros k1 Hk1. rewrite <- csum_plus. apply csum_ext. intros k2 Hk2. rewrite !VV by assumption.
    unfold f. rewrite flat_div, flat_mod by assumption. rewrite Cconj_mult, RtoC_plus. ring.
  - exact HE.
  - exists (fun k => (p k / n2)%nat), (fun k => (p k mod n2)%nat). split.
    + intros k Hk. assert (Q := P1 k Hk). assert (N2 : n2 <> 0%nat) by nia. split; [apply Nat.div_lt_upper_bound; nia|].
      split; [apply Nat.mod_upper_bound; exact N2|]. exact (P3 k Hk).
    + intros k l Hk Hl Ea Eb. apply P2; try assumption. assert (N2 : n2 <> 0%nat) by nia.
      rewrite (Nat.div_mod (p k) n2 N2), (Nat.div_mod (p l) n2 N2), Ea, Eb. reflexivity.
Qed.

(** The lowest value of the sum is the sum of the lowest values. *)
Lemma lowest_sum n1 n2 (E E1 E2 : nat -> R) (a b : nat -> nat) : (0 < n1)%nat -> (0 < n2)%nat ->
  (forall i j, (i <= j)%nat -> (j < n1 * n2)%nat -> (E i <= E j)%R) ->
  (forall i j, (i <= j)%nat -> (j < n1)%nat -> (E1 i <= E1 j)%R) -> (forall i j, (i <= j)%nat -> (j < n2)%nat -> (E2 i <= E2 j)%R) ->
  (forall k, (k < n1 * n2)%nat -> (a k < n1)%nat /\ (b k < n2)%nat /\ E k = (E1 (a k) + E2 (b k))%R) ->
  (forall k l, (k < n1 * n2)%nat -> (l < n1 * n2)%nat -> a k = a l -> b k = b l -> k = l) -> E 0%nat = (E1 0%nat + E2 0%nat)%R.
Proof.
  intros H1 H2 SE S1 S2 K J. assert (P : (0 < n1 * n2)%nat) by nia. apply Rle_antisym.
  - destruct (injective_onto (n1 * n2) (fun k => (a k * n2 + b k)%nat)) with (j := 0%nat) as [k [Hk Ek]]; [| |exact P|].
    + intros k Hk. destruct (K k Hk) as [A1 [B1 _]]. apply flat_lt; assumption.
    + intros k l Hk Hl Ekl. destruct (K k Hk) as [A1 [B1 _]]. destruct (K l Hl) as [A2 [B2 _]].
      assert (F1 := f_equal (fun x => (x / n2)%nat) Ekl). assert (F2 := f_equal (fun x => (x mod n2)%nat) Ekl). cbv beta in F1, F2.
      rewrite !flat_div in F1 by assumption. rewrite !flat_mod in F2 by assumption. apply J; assumption.
    + destruct (K k Hk) as [_ [_ Q]]. assert (a k = 0%nat) as Ea by nia. assert (b k = 0%nat) as Eb by nia. rewrite Ea, Eb in Q. rewrite <- Q. apply SE; lia.
  - destruct (K 0%nat P) as [A1 [B1 Q]]. rewrite Q. apply Rplus_le_compat; [apply S1|apply S2]; lia.
Qed.
