(** The Hamiltonian of the supercell between Bloch waves. *)
From Coq Require Import Reals Psatz.
From Verif Require Import ZLib Csum DFT NumPy Spec Index IndexProofs IndexSum SpecReal Lattice LatticeProofs
  Basis SpecBasis BasisProofs BasisProofs2 BasisProofs3 BasisFacts Operator SpecOperator OperatorProofs OperatorProofs2
  Wavepacket SpecWavepacket WavepacketProofs WavepacketProofs2 WavepacketProofs3 Hamiltonian SpecHamiltonian HamiltonianProofs
  HamiltonianProofs2 SpecLocalize SpecSupercellHamiltonian SupercellProofs.
Local Open Scope R_scope.
Local Open Scope C_scope.

(** Away from the edge the frequency of a slot of the supercell is not wrapped. *)
Lemma freq_unwrapped n m i j : (i < n)%nat -> (j < m)%nat -> (2 * j <> m)%nat ->
  freq (n * m) (slot (n * m) (Z.of_nat n * freq m j + freq n i)) = (Z.of_nat n * freq m j + freq n i)%Z.
Proof.
  intros Hi Hj Hn. assert (P : (0 < n * m)%nat) by nia. set (f := (Z.of_nat n * freq m j + freq n i)%Z).
  assert (Hs : (slot (n * m) f < n * m)%nat).
  { unfold slot. pose proof (Z.mod_pos_bound f (Z.of_nat (n * m)) ltac:(lia)). lia. }
  apply (is_freq_unique (n * m) (slot (n * m) f)); [apply freq_is_freq; exact Hs|].
  split; [apply Zcong_sym, slot_cong; exact P|].
  pose proof (freq_is_freq n i Hi) as [_ Bi]. pose proof (freq_is_freq m j Hj) as [_ Bj].
  assert (L : (- Z.of_nat m < 2 * freq m j)%Z).
  { assert (2 * freq m j <> - Z.of_nat m)%Z; [|lia]. intros E. apply Hn. unfold freq in E. destruct (Z.leb_spec (Z.of_nat j) ((Z.of_nat m - 1) / 2)); lia. }
  assert (L2 : (2 * freq m j <= Z.of_nat m - 1)%Z) by lia.
  assert (L3 : (- Z.of_nat n <= 2 * freq n i <= Z.of_nat n - 1)%Z) by lia.
  assert (A : (- Z.of_nat (n * m) <= 2 * f <= Z.of_nat (n * m) - 1)%Z).
  { unfold f. rewrite Nat2Z.inj_mul. nia. }
  lia.
Qed.

Lemma freq_unfurled ls : forall ss s k a, length ls = length ss -> in_shape s ls -> in_shape k ss -> (a < length ls)%nat ->
  (2 * nth a k 0 <> nth a ss 0)%nat ->
  freq (nth a (supercell ls ss) 0%nat) (nth a (unfurl_slot ls ss s k) 0%nat) =
  (Z.of_nat (nth a ls 0%nat) * freq (nth a ss 0%nat) (nth a k 0%nat) + freq (nth a ls 0%nat) (nth a s 0%nat))%Z.
Proof.
  induction ls as [|n ls IH]; intros [|m ss] s k a L I K Ha E; try discriminate L; [cbn in Ha; lia|].
  inversion I as [|i ? s' ? I0 I']; subst. inversion K as [|j ? k' ? K0 K']; subst.
  destruct a as [|a]; cbn [nth supercell unfurl_slot] in *.
  - apply freq_unwrapped; assumption.
  - apply IH; try assumption; cbn in L, Ha; lia.
Qed.

Lemma supercell_length ls : forall ss, length ls = length ss -> length (supercell ls ss) = length ls.
Proof. induction ls as [|n ls IH]; intros [|m ss] L; try discriminate L; [reflexivity|]. cbn. f_equal. apply IH. cbn in L. lia. Qed.
Lemma supercell_pos ls : forall ss, Forall (fun n => (0 < n)%nat) ls -> Forall (fun n => (0 < n)%nat) ss -> Forall (fun n => (0 < n)%nat) (supercell ls ss).
Proof.
  induction ls as [|n ls IH]; intros [|m ss] A B; try constructor.
  - inversion A; inversion B; subst. nia.
  - inversion A; inversion B; subst. apply IH; assumption.
Qed.
Lemma fractions_nth ls : forall s a, in_shape s ls -> (a < length ls)%nat ->
  nth a (fractions ls s) 0%R = (IZR (freq (nth a ls 0%nat) (nth a s 0%nat)) / INR (nth a ls 0%nat))%R.
Proof.
  induction ls as [|n ls IH]; intros s a I Ha; [cbn in Ha; lia|]. inversion I as [|i ? s' ? I0 I']; subst.
  destruct a as [|a]; cbn [fractions nth]; [reflexivity|]. apply IH; [assumption|cbn in Ha; lia].
Qed.

(** The wave vector of a slot of the supercell is that of its in-cell frequency shifted by
    the Bloch fraction of its sample. *)
Lemma wave_supercell ls ss delta delta' s k q : length ls = length ss -> Forall (fun n => (0 < n)%nat) ls ->
  enlarged ls delta delta' -> in_shape s ls -> in_shape k ss ->
  (forall a, (a < length ss)%nat -> (2 * nth a k 0 <> nth a ss 0)%nat) ->
  wave_vector ss delta k (bloch_fraction ls s) q ->
  wave_vector (supercell ls ss) delta' (unfurl_slot ls ss s k) (fun _ => 0%R) q.
Proof.
  intros L P E I K Ne Q a Ha. rewrite supercell_length in Ha |- * by exact L.
  rewrite freq_unfurled by (try assumption; apply Ne; lia).
  specialize (Q a ltac:(lia)). rewrite <- L in Q.
  transitivity (INR (nth a ls 0%nat) * dot (length ls) q (delta a))%R.
  - unfold dot. rewrite <- rsum_scal_l. apply rsum_ext. intros c Hc. rewrite E by assumption. ring.
  - rewrite Q. unfold bloch_fraction. rewrite fractions_nth by assumption.
    rewrite plus_IZR, mult_IZR, <- INR_IZR_INZ.
    assert (0 < INR (nth a ls 0%nat))%R.
    { apply lt_0_INR. rewrite Forall_forall in P. apply P. apply nth_In. exact Ha. }
    field. lra.
Qed.

Section Bloch.
  Variable same : basis -> basis -> bool.
  Hypothesis Hsame : identity_test same.
  Variables (ls : list nat) (saxes axes' : list basis).
  Hypothesis Hls : Forall (fun n => (0 < n)%nat) ls.
  Hypothesis Hl : length ls = length saxes.
  Hypothesis Hw : bwf (BTuple saxes).
  Hypothesis Ho : explicit_orthonormal (BTuple saxes).
  Hypothesis Hw' : bwf (BTuple axes').
  Hypothesis Ho' : explicit_orthonormal (BTuple axes').
  Let ss := map bfund saxes.
  Let F := supercell ls ss.
  Hypothesis HF : map bfund axes' = F.
  Variables delta inv delta' inv' : nat -> nat -> R.
  Hypothesis Hinv : is_inverse (length saxes) delta inv.
  Hypothesis Hinv' : is_inverse (length axes') delta' inv'.
  Hypothesis Hen : enlarged ls delta delta'.
  Variables hbar mass : R.
  Variables data data' : nat -> C.
  Hypothesis Hrep : repeats ls saxes data axes' data'.

  Lemma Hls' : length ls = length ss. Proof using Hl. unfold ss. rewrite map_length. exact Hl. Qed.
  Lemma Hss : Forall (fun n => (0 < n)%nat) ss. Proof using Hw. apply fund_shape_pos. exact Hw. Qed.
  Lemma HFpos : Forall (fun n => (0 < n)%nat) F. Proof using Hls Hw. apply supercell_pos; [exact Hls|apply Hss]. Qed.

  Definition comp (u : nat -> C) : nat -> C := fun k => inner_product (nprod ss) (bstate (momenta ss) k) u.

  (** A Bloch wave is the spread of the components of its cell-periodic part. *)
  Lemma wave_values s g v : in_shape s ls ->
    (forall x, in_shape x F -> v (ravel F x) =
       isqrt (nprod ls) * plane F (sample_freqs ls s) (map Z.of_nat x) * g (ravel ss (in_cell ss x))) ->
    forall t, (t < nprod F)%nat -> v t = amplitude (momenta F) (spread ls ss s (comp g)) t.
  Proof.
    intros I H. apply (by_points ls ss). intros x X. rewrite H by exact X.
    unfold F. rewrite (spread_amplitude ls ss Hls' s (comp g) x I X). f_equal.
    symmetry. apply momenta_expand; [apply Hss|]. apply ravel_lt. apply (in_cell_in ss ls); [apply Hls'|exact X].
  Qed.

  Lemma bloch_element s t u v U V H H' :
    in_shape s ls -> in_shape t ls ->
    bloch_wave_of ls saxes s u axes' U -> bloch_wave_of ls saxes t v axes' V -> below_edge saxes v ->
    total_surface_hamiltonian same hbar saxes inv data mass (Some (bloch_fraction ls t)) = Some H ->
    total_surface_hamiltonian same hbar axes' inv' data' mass None = Some H' ->
    matrix_element (bsize (BTuple axes')) U (op_entry H') V =
    idelta s t * matrix_element (bsize (BTuple saxes)) u (op_entry H) v.
  Proof.
    intros I I' BU BV Ed EH EH'.
    assert (La : length axes' = length ls).
    { rewrite <- (map_length bfund axes'), HF. apply supercell_length. apply Hls'. }
    assert (Hq : exists q, waves ss delta (Some (bloch_fraction ls t)) q).
    { eexists. apply (waves_exist ss delta inv). unfold ss. rewrite map_length. exact Hinv. }
    assert (Hq' : exists q, waves F delta' None q).
    { eexists. apply (waves_exist F delta' inv'). rewrite <- HF, map_length. exact Hinv'. }
    destruct Hq as [q Hq]. destruct Hq' as [q' Hq'].
    rewrite (energy_element same Hsame saxes Hw Ho delta inv Hinv hbar mass _ data H q u v EH Hq).
    pose proof (energy_element same Hsame axes' Hw' Ho' delta' inv' Hinv' hbar mass None data' H' q' U V EH') as X.
    rewrite HF in X. rewrite (X Hq'). clear X. fold ss.
    assert (VU := wave_values s (amplitude (BTuple saxes) u) (amplitude (BTuple axes') U) I BU).
    assert (VV := wave_values t (amplitude (BTuple saxes) v) (amplitude (BTuple axes') V) I' BV).
    set (au := amplitude (BTuple saxes) u) in *. set (av := amplitude (BTuple saxes) v) in *.
    set (g := fun x => amplitude (BTuple saxes) data x * av x).
    assert (VP : forall r, (r < nprod F)%nat -> amplitude (BTuple axes') data' r * amplitude (BTuple axes') V r =
                  amplitude (momenta F) (spread ls ss t (comp g)) r).
    { apply (wave_values t g (fun r => amplitude (BTuple axes') data' r * amplitude (BTuple axes') V r) I').
      intros x X. pose proof (Hrep x X) as R1. pose proof (BV x X) as R2. cbv zeta in R1, R2. fold ss in R1, R2. fold F in R1, R2.
      cbv beta. rewrite R1, R2. unfold g, av. ring. }
    rewrite Cmult_plus_distr_l. f_equal.
    - rewrite (inner_ext _ _ _ _ _ VU VP). rewrite amplitude_momenta_inner by apply HFpos.
      unfold F. rewrite (spread_inner ls ss Hls') by assumption. f_equal.
      rewrite <- amplitude_momenta_inner by apply Hss.
      apply inner_ext; intros x Hx; apply momenta_expand; try apply Hss; assumption.
    - assert (CU : forall f, (f < nprod F)%nat -> inner_product (nprod F) (bstate (momenta F) f) (amplitude (BTuple axes') U) = spread ls ss s (comp au) f).
      { intros f Hf. rewrite (inner_ext _ _ _ _ _ (fun k _ => eq_refl) VU). apply component_momenta; [apply HFpos|exact Hf]. }
      assert (CV : forall f, (f < nprod F)%nat -> inner_product (nprod F) (bstate (momenta F) f) (amplitude (BTuple axes') V) = spread ls ss t (comp av) f).
      { intros f Hf. rewrite (inner_ext _ _ _ _ _ (fun k _ => eq_refl) VV). apply component_momenta; [apply HFpos|exact Hf]. }
      unfold F at 1. rewrite (supercell_sum ls ss Hls'). fold F.
      rewrite (isum_ext ls _ (fun r => idelta s r * (idelta r t * csum (fun k => Cconj (comp au k) *
         (RtoC (hbar * hbar * dot (length saxes) (q k) (q k) / (2 * mass)) * comp av k)) (nprod ss)))).
      + rewrite (isum_idelta ls s (fun r => idelta r t * csum (fun k => Cconj (comp au k) *
         (RtoC (hbar * hbar * dot (length saxes) (q k) (q k) / (2 * mass)) * comp av k)) (nprod ss))) by exact I. reflexivity.
      + intros r Ir. rewrite isum_ravel, <- !isum_scal_l. apply isum_ext. intros k K.
        assert (Lf : (ravel F (unfurl_slot ls ss r k) < nprod F)%nat) by (apply ravel_lt, unfurl_slot_in; [apply Hls'|assumption..]).
        rewrite CU, CV by exact Lf. unfold F. rewrite !(spread_slot ls ss Hls') by assumption. rewrite Cconj_mult. fold F.
        destruct (list_eq_dec PeanoNat.Nat.eq_dec r s) as [->|D].
        2:{ rewrite (idelta_neq r s) by exact D. rewrite (idelta_neq s r) by auto. rewrite Cconj_0. ring. }
        destruct (list_eq_dec PeanoNat.Nat.eq_dec s t) as [->|D].
        2:{ rewrite (idelta_neq s t) by exact D. ring. }
        rewrite !idelta_refl, Cconj_1.
        destruct (Exists_dec (fun a => (2 * nth a k 0 = nth a ss 0)%nat) (seq 0 (length ss)) (fun a => PeanoNat.Nat.eq_dec _ _)) as [Y|Y].
        * apply Exists_exists in Y. destruct Y as [a [Ha Ea]]. apply in_seq in Ha.
          assert (Z : comp av (ravel ss k) = 0) by (apply (Ed k a K); [fold ss; lia|exact Ea]).
          rewrite Z. ring.
        * assert (Ne : forall a, (a < length ss)%nat -> (2 * nth a k 0 <> nth a ss 0)%nat).
          { intros a Ha Ea. apply Y. apply Exists_exists. exists a. split; [apply in_seq; lia|exact Ea]. }
          assert (Q1 : wave_vector F delta' (unfurl_slot ls ss t k) (fun _ => 0%R) (q (ravel ss k))).
          { apply (wave_supercell ls ss delta); try assumption; [apply Hls'|].
            assert (Lk : (ravel ss k < nprod ss)%nat) by (apply ravel_lt; exact K).
            specialize (Hq _ Lk). rewrite unravel_ravel in Hq by exact K. exact Hq. }
          assert (Q2 : wave_vector F delta' (unfurl_slot ls ss t k) (fun _ => 0%R) (q' (ravel F (unfurl_slot ls ss t k)))).
          { specialize (Hq' _ Lf). rewrite unravel_ravel in Hq' by (apply unfurl_slot_in; [apply Hls'|assumption..]). exact Hq'. }
          assert (Dq : dot (length axes') (q' (ravel F (unfurl_slot ls ss t k))) (q' (ravel F (unfurl_slot ls ss t k))) =
                       dot (length saxes) (q (ravel ss k)) (q (ravel ss k))).
          { rewrite La, Hl. unfold dot. apply rsum_ext. intros c Hc.
            rewrite (wave_unique F delta' inv' _ _ _ _ ltac:(rewrite <- HF, map_length; exact Hinv') Q2 Q1 c); [reflexivity|].
            rewrite <- HF, map_length, La, Hl. exact Hc. }
          rewrite Dq. ring.
  Qed.
End Bloch.
