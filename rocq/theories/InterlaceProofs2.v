(** Energies of one operator in two bases, one within the other. *)
From Coq Require Import Reals Psatz.
From Verif Require Import ZLib Csum DFT NumPy Basis SpecBasis BasisProofs BasisProofs2 BasisProofs3 Operator SpecOperator OperatorProofs OperatorProofs2
  SpecMatrix LinAlg Polar Localize SpecLocalize Spectral Spectral2 Spectral3 EigenBasis SpecEigenBasis EigenBasisProofs GeneratorProofs4
  SpecInterlace InterlaceProofs.
Local Open Scope R_scope.
Local Open Scope C_scope.

(** ** Bases within others *)

Lemma within_complete a b : bfund b = bfund a -> complete a -> states_within b a.
Proof.
  intros E Ca k Hk. exists (fun p => overlap a b p k). intros x Hx. unfold overlap. symmetry.
  transitivity (csum (fun p => csum (fun y => (bstate a p x * Cconj (bstate a p y)) * bstate b k y) (bfund b)) (bsize a)).
  - apply csum_ext. intros p _. rewrite <- csum_scal_r. apply csum_ext. intros. ring.
  - rewrite csum_swap. rewrite (csum_ext _ (fun y => cdelta x y * bstate b k y)).
    + apply csum_delta_l. lia.
    + intros y Hy. rewrite csum_scal_r. rewrite Ca by lia. reflexivity.
Qed.

Lemma within_explicit n v a : states_within (BExpl n v a) a.
Proof. intros k _. exists (v k). intros x _. reflexivity. Qed.

Lemma within_transformed n n' N : (n <= n')%nat -> states_within (BTrans n N) (BTrans n' N).
Proof.
  intros L k Hk. cbn [bsize] in Hk. exists (cdelta (slot n' (freq n k))). intros x _. cbn [bsize bstate].
  rewrite (csum_delta_l (fun p => plane_wave N (freq n' p) x)) by (apply slot_lt; lia). rewrite freq_slot by lia. reflexivity.
Qed.

Lemma within_tuple lb la : Forall2 (fun b a => states_within b a /\ bwf b /\ bwf a /\ bfund b = bfund a) lb la ->
  states_within (BTuple lb) (BTuple la).
Proof.
  induction 1 as [|b a lb la [Sp [Wb [Wa Eg]]] F IH].
  - intros k Hk. exists (fun _ => 1). intros x _. cbn. ring.
  - intros k Hk.
    assert (F2 : Forall bwf lb /\ Forall bwf la /\ map bfund lb = map bfund la).
    { clear -F. induction F as [|b a lb la [_ [Wb [Wa E]]] F [I1 [I2 I3]]]; repeat split; try constructor; try assumption.
      cbn [map]. rewrite E, I3. reflexivity. }
    assert (Pb : (0 < nprod (map bsize lb))%nat) by (apply (bsize_pos (BTuple lb)), bwf_tuple; apply F2).
    assert (Pa : (0 < nprod (map bfund la))%nat) by (apply (bfund_pos (BTuple la)), bwf_tuple; apply F2).
    destruct F2 as [_ [_ EF]].
    assert (K0 : (k < bsize b * nprod (map bsize lb))%nat) by exact Hk.
    assert (K1 : (k / nprod (map bsize lb) < bsize b)%nat) by (apply Nat.div_lt_upper_bound; [lia|rewrite Nat.mul_comm; exact K0]).
    assert (K2 : (k mod nprod (map bsize lb) < bsize (BTuple lb))%nat) by (exact (Nat.mod_upper_bound k (nprod (map bsize lb)) (Nat.neq_sym _ _ (Nat.lt_neq _ _ Pb)))).
    destruct (Sp _ K1) as [c1 H1]. destruct (IH _ K2) as [c2 H2].
    set (nl := nprod (map bsize la)). exists (fun p => c1 (p / nl)%nat * c2 (p mod nl)%nat). intros x Hx.
    assert (X0 : (x < bfund a * nprod (map bfund la))%nat) by exact Hx.
    set (Nl := nprod (map bfund la)) in *.
    assert (X1 : (x / Nl < bfund a)%nat) by (apply Nat.div_lt_upper_bound; [lia|rewrite Nat.mul_comm; exact X0]).
    assert (X2 : (x mod Nl < bfund (BTuple la))%nat) by (exact (Nat.mod_upper_bound x Nl (Nat.neq_sym _ _ (Nat.lt_neq _ _ Pa)))).
    transitivity (bstate b (k / nprod (map bsize lb)) (x / Nl) * bstate (BTuple lb) (k mod nprod (map bsize lb)) (x mod Nl)).
    { cbn [bstate map product_states]. rewrite !map_map. cbn [fst snd]. change (map (fun x => bfund x) lb) with (map bfund lb).
      rewrite EF. reflexivity. }
    rewrite H1, H2 by assumption. cbn [bsize]. rewrite <- csum_prod.
    pose (g := fun p q => (c1 p * bstate a p (x / Nl)%nat) * (c2 q * bstate (BTuple la) q (x mod Nl)%nat)).
    transitivity (csum (fun t => g (t / nl)%nat (t mod nl)%nat) (bsize a * nl)).
    + rewrite csum_div_mod. reflexivity.
    + apply csum_ext. intros t _. unfold g.
      transitivity (c1 (t / nl)%nat * c2 (t mod nl)%nat * (bstate a (t / nl) (x / Nl) * bstate (BTuple la) (t mod nl) (x mod Nl))); [ring|].
      f_equal. cbn [bstate map product_states]. rewrite !map_map. reflexivity.
Qed.

(** Larger ranges of momenta along every axis. *)
Lemma within_momenta sizes : Forall (fun s => (0 < fst (fst s) <= snd (fst s))%nat /\ (snd (fst s) <= snd s)%nat) sizes ->
  states_within (BTuple (map (fun s => BTrans (fst (fst s)) (snd s)) sizes)) (BTuple (map (fun s => BTrans (snd (fst s)) (snd s)) sizes)).
Proof.
  intros H. apply within_tuple. induction H as [|[[n n'] N] l [H1 H2] H IH]; constructor; [|exact IH].
  cbn in *. split; [apply within_transformed; lia|]. repeat split; lia.
Qed.

Lemma within_overlap a b c p i : bwf b -> explicit_orthonormal b -> bfund c = bfund b -> states_within c b -> (i < bsize c)%nat ->
  overlap a c p i = csum (fun r => overlap a b p r * overlap b c r i) (bsize b).
Proof.
  intros Hb Ob Ec Sp Hi. destruct (Sp i Hi) as [g Hg].
  assert (OV : forall r, (r < bsize b)%nat -> overlap b c r i = g r).
  { intros r Hr. unfold overlap.
    transitivity (csum (fun x => csum (fun q => g q * (Cconj (bstate b r x) * bstate b q x)) (bsize b)) (bfund c)).
    - apply csum_ext. intros x Hx. rewrite Hg by lia. rewrite <- csum_scal_l. apply csum_ext. intros. ring.
    - rewrite csum_swap. rewrite (csum_ext _ (fun q => g q * cdelta r q)).
      + apply csum_delta_r. exact Hr.
      + intros q Hq. rewrite csum_scal_l. rewrite <- (explicit_orthonormal_sound b Hb Ob r q Hr Hq). unfold overlap. rewrite Ec. reflexivity. }
  transitivity (csum (fun r => csum (fun x => Cconj (bstate a p x) * (g r * bstate b r x)) (bfund b)) (bsize b)).
  - rewrite csum_swap. unfold overlap. rewrite Ec. apply csum_ext. intros x Hx. rewrite csum_scal_l, <- Hg by lia. reflexivity.
  - apply csum_ext. intros r Hr. rewrite OV by exact Hr. unfold overlap. rewrite <- csum_scal_r. apply csum_ext. intros. ring.
Qed.

Section Nested.
  Context (same : basis -> basis -> bool) (o : operator) (a b c : basis).
  Hypothesis Hs : identity_test same.
  Hypothesis Hr : orow o = a.
  Hypothesis Hc : ocol o = a.
  Hypothesis Hw : op_wf o.
  Hypothesis Ha : bwf a.
  Hypothesis Oa : explicit_orthonormal a.
  Hypothesis HH : hermitian (bsize a) (op_entry o).

  (** The operator between the states of another basis. *)
  Lemma converted d : bwf d -> compatible a d ->
    exists o', convert_operator_to_basis same o d d = Some o' /\ orow o' = d /\ ocol o' = d /\ op_wf o' /\
    hermitian (bsize d) (op_entry o') /\ bfund d = bfund a /\
    forall i j, (i < bsize d)%nat -> (j < bsize d)%nat -> op_entry o' i j =
      csum (fun p => csum (fun q => Cconj (overlap a d p i) * op_entry o p q * overlap a d q j) (bsize a)) (bsize a).
  Proof using Hs Hr Hc Hw Ha Oa HH.
    intros Hd Cad. assert (G := same_fund same a d Hs Cad).
    destruct (convert_operator_spec same o d d Hw) as [F [o' [HF [Eo [Wo [Ro [Co Fo]]]]]]]; [rewrite Hr; exact Cad|rewrite Hc; exact Cad|].
    rewrite Hr, Hc in HF. exists o'. split; [exact Eo|]. split; [exact Ro|]. split; [exact Co|]. split; [exact Wo|].
    assert (HB : forall i j, (i < bsize d)%nat -> (j < bsize d)%nat -> op_entry o' i j =
      csum (fun p => csum (fun q => Cconj (overlap a d p i) * op_entry o p q * overlap a d q j) (bsize a)) (bsize a)).
    { intros i j Hi Hj. rewrite Fo by exact Hj. rewrite (convert_matrix_sum same Hs a d a d F Ha Hd Ha Hd Oa Oa HF (op_entry o) i j Hi Hj).
      apply csum_ext. intros p Hp. apply csum_ext. intros q Hq. rewrite (overlap_conj d a) by exact G. reflexivity. }
    split; [|split; [exact G|exact HB]].
    intros i j Hi Hj. unfold adjoint. rewrite !HB by assumption. rewrite Cconj_csum.
    rewrite (csum_ext (fun k => Cconj _) (fun p => csum (fun q => Cconj (overlap a d q i) * op_entry o q p * overlap a d p j) (bsize a))).
    - rewrite csum_swap. reflexivity.
    - intros p Hp. rewrite Cconj_csum. apply csum_ext. intros q Hq. rewrite !Cconj_mult, Cconj_conj.
      assert (K := HH q p Hq Hp). unfold adjoint in K. rewrite K. ring.
  Qed.

  Hypothesis Hb : bwf b.
  Hypothesis Ob : explicit_orthonormal b.
  Hypothesis Hcc : bwf c.
  Hypothesis Oc : explicit_orthonormal c.
  Hypothesis Cab : compatible a b.
  Hypothesis Cac : compatible a c.
  Hypothesis Cbc : compatible b c.
  Hypothesis Sp : states_within c b.

  Lemma nested : exists ob oc, convert_operator_to_basis same o b b = Some ob /\ convert_operator_to_basis same o c c = Some oc /\
    orow ob = b /\ ocol ob = b /\ op_wf ob /\ hermitian (bsize b) (op_entry ob) /\
    orow oc = c /\ ocol oc = c /\ op_wf oc /\ hermitian (bsize c) (op_entry oc) /\ (bsize c <= bsize b)%nat /\
    forall E E', ascending_spectrum (bsize b) (op_entry ob) E -> ascending_spectrum (bsize c) (op_entry oc) E' ->
      forall k, (k < bsize c)%nat -> (E k <= E' k)%R /\ (E' k <= E (k + (bsize b - bsize c))%nat)%R.
  Proof using Hs Hr Hc Hw Ha Oa HH Hb Ob Hcc Oc Cab Cac Cbc Sp.
    destruct (converted b Hb Cab) as [ob [E1 [R1 [C1 [W1 [H1 [G1 B1]]]]]]].
    destruct (converted c Hcc Cac) as [oc [E2 [R2 [C2 [W2 [H2 [G2 B2]]]]]]].
    exists ob, oc. do 10 (split; [assumption|]).
    assert (HP := overlap_columns same b c Hs Hb Ob Hcc Oc Cbc Sp).
    split; [exact (fewer (bsize b) (bsize c) (overlap b c) HP)|].
    intros E E'. apply (interlace (bsize b) (bsize c) (op_entry ob) (op_entry oc) (overlap b c) HP).
    intros i j Hi Hj. rewrite B2 by assumption.
    pose (Q := overlap b c). pose (P := overlap a b).
    transitivity (csum (fun p => csum (fun q => csum (fun r => csum (fun s =>
      Cconj (Q r i) * (Cconj (P p r) * op_entry o p q * P q s) * Q s j) (bsize b)) (bsize b)) (bsize a)) (bsize a)).
    - apply csum_ext. intros p Hp. apply csum_ext. intros q Hq.
      rewrite (within_overlap a b c p i Hb Ob (eq_trans G2 (eq_sym G1)) Sp Hi), (within_overlap a b c q j Hb Ob (eq_trans G2 (eq_sym G1)) Sp Hj).
      rewrite Cconj_csum. rewrite <- Cmult_assoc, <- csum_scal_r. apply csum_ext. intros r Hr'. rewrite <- !csum_scal_l.
      apply csum_ext. intros s Hs'. rewrite Cconj_mult. unfold P, Q. ring.
    - transitivity (csum (fun r => csum (fun s => csum (fun p => csum (fun q =>
        Cconj (Q r i) * (Cconj (P p r) * op_entry o p q * P q s) * Q s j) (bsize a)) (bsize a)) (bsize b)) (bsize b)).
      + transitivity (csum (fun p => csum (fun r => csum (fun q => csum (fun s =>
          Cconj (Q r i) * (Cconj (P p r) * op_entry o p q * P q s) * Q s j) (bsize b)) (bsize a)) (bsize b)) (bsize a)).
        { apply csum_ext. intros p _. apply csum_swap. }
        rewrite csum_swap. apply csum_ext. intros r _. symmetry. rewrite csum_swap. apply csum_ext. intros p _. apply csum_swap.
      + apply csum_ext. intros r Hr'. apply csum_ext. intros s Hs'. rewrite B1 by assumption.
        rewrite <- csum_scal_l, <- csum_scal_r. apply csum_ext. intros p _. rewrite <- csum_scal_l, <- csum_scal_r. reflexivity.
  Qed.
End Nested.

Lemma nested_energies same eigh o a b c : identity_test same -> eigh_ok eigh ->
  orow o = a -> ocol o = a -> op_wf o -> hermitian (bsize a) (op_entry o) ->
  bwf a -> explicit_orthonormal a -> bwf b -> explicit_orthonormal b -> bwf c -> explicit_orthonormal c ->
  compatible a b -> compatible a c -> compatible b c -> states_within c b ->
  exists ob oc, convert_operator_to_basis same o b b = Some ob /\ convert_operator_to_basis same o c c = Some oc /\ (bsize c <= bsize b)%nat /\
  (forall lo hi, (lo <= hi)%nat -> (hi < bsize c)%nat -> exists e v e' v',
    eigenstates_hermitian eigh ob (Some (Z.of_nat lo, Z.of_nat hi)) = Some ((hi - lo + 1)%nat, e, v) /\
    eigenstates_hermitian eigh oc (Some (Z.of_nat lo, Z.of_nat hi)) = Some ((hi - lo + 1)%nat, e', v') /\
    forall k, (k < hi - lo + 1)%nat -> (e k <= e' k)%R) /\
  exists e v e' v', eigenstates_hermitian eigh ob None = Some (bsize b, e, v) /\
    eigenstates_hermitian eigh oc None = Some (bsize c, e', v') /\
    forall k, (k < bsize c)%nat -> (e k <= e' k)%R /\ (e' k <= e (k + (bsize b - bsize c))%nat)%R.
Proof.
  intros Hs He Hr Hc Hw HH Ha Oa Hb Ob Hcc Oc Cab Cac Cbc Sp.
  destruct (nested same o a b c Hs Hr Hc Hw Ha Oa HH Hb Ob Hcc Oc Cab Cac Cbc Sp)
    as [ob [oc [E1 [E2 [R1 [C1 [W1 [H1 [R2 [C2 [W2 [H2 [L I1]]]]]]]]]]]]].
  destruct (spectrum_of _ _ H1) as [E HE]. destruct (spectrum_of _ _ H2) as [E' HE'].
  assert (Pc := bsize_pos c Hcc). exists ob, oc. split; [exact E1|]. split; [exact E2|]. split; [exact L|]. split.
  - intros lo hi Hl Hh.
    destruct (energies_spec eigh ob b (Some (Z.of_nat lo, Z.of_nat hi)) lo hi He R1 C1 W1 H1 (or_introl eq_refl) Hl ltac:(lia)) as [e [v [G K]]].
    destruct (energies_spec eigh oc c (Some (Z.of_nat lo, Z.of_nat hi)) lo hi He R2 C2 W2 H2 (or_introl eq_refl) Hl Hh) as [e' [v' [G' K']]].
    exists e, v, e', v'. split; [exact G|]. split; [exact G'|]. intros k Hk. rewrite (K E HE k Hk), (K' E' HE' k Hk). apply (I1 E E' HE HE'). lia.
  - destruct (energies_spec eigh ob b None 0 (bsize b - 1) He R1 C1 W1 H1) as [e [v [G K]]]; [right; repeat split; lia|lia|lia|].
    destruct (energies_spec eigh oc c None 0 (bsize c - 1) He R2 C2 W2 H2) as [e' [v' [G' K']]]; [right; repeat split; lia|lia|lia|].
    replace (bsize b - 1 - 0 + 1)%nat with (bsize b) in G, K by lia. replace (bsize c - 1 - 0 + 1)%nat with (bsize c) in G', K' by lia.
    exists e, v, e', v'. split; [exact G|]. split; [exact G'|]. intros k Hk. rewrite (K E HE k), (K' E' HE' k Hk), (K E HE _) by lia.
    exact (I1 E E' HE HE' k Hk).
Qed.
