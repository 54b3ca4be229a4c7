(** The Hamiltonian of Wannier states, diagonal localisation operators and the operator of the
    tight binding states (C109). *)
From Coq Require Import Reals Psatz.
From Verif Require Import ZLib Csum DFT NumPy Index IndexProofs AxesProofs Spec Basis SpecBasis BasisProofs BasisProofs2
  BasisProofs3 BasisFacts Operator SpecOperator OperatorProofs OperatorProofs2 Reduce ReduceProofs IndexSum StateList SpecStateList StateListProofs Wavepacket SpecWavepacket WavepacketProofs
  WavepacketProofs2 WavepacketProofs3 SpecMatrix LinAlg Polar Localize SpecLocalize LocalizeProofs LocalizeProofs2 LocalizeProofs5 LocalizeProofs6 BlochProofs3 TightCell SpecTightCell TightCellProofs3
  WannierBasis SpecWannierBasis WannierBasisProofs.
Local Open Scope R_scope.
Local Open Scope C_scope.

Lemma plane_swap ls : forall s x, plane ls (map Z.of_nat s) (map Z.of_nat x) = plane ls (map Z.of_nat x) (map Z.of_nat s).
Proof.
  induction ls as [|n ls IH]; intros [|a s] [|b x]; try reflexivity. cbn [map plane]. rewrite IH. f_equal. f_equal. ring.
Qed.
Lemma moved_in_shape ls : forall T R, in_shape T ls -> in_shape R ls -> in_shape (moved_cell ls T R) ls.
Proof.
  induction ls as [|n ls IH]; intros T R HT HR; inversion HT; inversion HR; subst; cbn; [constructor|].
  constructor; [apply Nat.mod_upper_bound; lia|]. apply IH; assumption.
Qed.
Lemma plane_moved_cell ls : Forall (fun n => (0 < n)%nat) ls -> forall f T R, length f = length ls -> in_shape T ls -> in_shape R ls ->
  plane ls f (map Z.of_nat (moved_cell ls T R)) = plane ls f (map Z.of_nat R) * plane ls f (map Z.of_nat T).
Proof.
  induction 1 as [|n ls Hn Hp IH]; intros f T R Lf HT HR; inversion HT; inversion HR; subst; [cbn; ring|].
  destruct f as [|g f]; [discriminate|]. cbn [moved_cell map plane]. rewrite IH by (assumption || (cbn in Lf; lia)).
  match goal with |- omega _ (_ * Z.of_nat ((?b + ?a) mod _)) * _ = _ =>
    assert (E : omega n (g * Z.of_nat ((b + a) mod n)) = omega n (g * Z.of_nat b) * omega n (g * Z.of_nat a)) end.
  { rewrite <- omega_add. apply omega_cong; [exact Hn|]. rewrite Nat2Z.inj_mod, Nat2Z.inj_add.
    match goal with |- context [((?x + ?y) mod ?m)%Z] => exists (- (g * ((x + y) / m)))%Z; rewrite (Z.mod_eq (x + y) m) by lia end. ring. }
  rewrite E. ring.
Qed.
Lemma plane_norm ls : forall f x, plane ls f x * Cconj (plane ls f x) = 1.
Proof.
  induction ls as [|n ls IH]; intros [|g f] [|a x]; try (cbn; rewrite Cconj_1; ring).
  cbn [plane]. rewrite Cconj_mult, omega_conj.
  transitivity ((omega n (g * a) * omega n (- (g * a))) * (plane ls f x * Cconj (plane ls f x))); [ring|].
  rewrite IH, <- omega_add. replace (g * a + - (g * a))%Z with 0%Z by ring. rewrite omega_0. ring.
Qed.

Lemma samples_orth ls s s' : Forall (fun n => (0 < n)%nat) ls -> (s < nprod ls)%nat -> (s' < nprod ls)%nat ->
  csum (fun R => Cconj (plane ls (sample_freqs ls (unravel ls s)) (map Z.of_nat (unravel ls R))) *
                 plane ls (sample_freqs ls (unravel ls s')) (map Z.of_nat (unravel ls R))) (nprod ls) = RtoC (INR (nprod ls)) * cdelta s s'.
Proof.
  intros Hp Hs Hs'. assert (I := unravel_in_shape ls s Hs). assert (I' := unravel_in_shape ls s' Hs').
  transitivity (csum (fun R => (fun j => Cconj (plane ls (sample_freqs ls j) (map Z.of_nat (unravel ls s))) *
     plane ls (sample_freqs ls j) (map Z.of_nat (unravel ls s'))) (unravel ls R)) (nprod ls)).
  - apply csum_ext. intros R HR. assert (J := unravel_in_shape ls R HR). cbn beta. rewrite <- !plane_freqs by assumption.
    rewrite (plane_swap ls (unravel ls s)), (plane_swap ls (unravel ls s')). reflexivity.
  - rewrite (isum_flat ls (fun j => Cconj (plane ls (sample_freqs ls j) (map Z.of_nat (unravel ls s))) *
     plane ls (sample_freqs ls j) (map Z.of_nat (unravel ls s')))). rewrite plane_orth by assumption. f_equal.
    destruct (Nat.eq_dec s s') as [->|Hn]; [rewrite idelta_refl, cdelta_refl; reflexivity|].
    rewrite cdelta_neq by exact Hn. apply idelta_neq. intros E. apply Hn.
    rewrite <- (ravel_unravel ls s Hs), E. apply ravel_unravel. exact Hs'.
Qed.

Section Hamiltonian.
  Variables (wannier bands samples : basis) (op energies : ndarray).
  Notation nw := (bsize wannier).
  Notation nb := (bsize bands).
  Notation ns := (bsize samples).
  Hypothesis Hop : nprod (ashape op) = (ns * nw * nb)%nat.
  Hypothesis Hen : nprod (ashape energies) = (nb * ns)%nat.

  Lemma wannier_hamiltonian_spec : exists W, wannier_hamiltonian wannier bands samples op energies = Some W /\ list_wf W /\
    lbasis W = samples /\ lrow W = wannier /\ lcol W = wannier /\
    (forall s i j, (s < ns)%nat -> (i < nw)%nat -> (j < nw)%nat ->
      list_entry W s i j = csum (fun c => at_sample nw nb op s i c * aflat energies (c * ns + s) * Cconj (at_sample nw nb op s j c)) nb) /\
    (forall s c i, (s < ns)%nat -> (c < nb)%nat -> (i < nw)%nat -> orthonormal_columns nw nb (at_sample nw nb op s) ->
      csum (fun j => list_entry W s i j * at_sample nw nb op s j c) nw = aflat energies (c * ns + s) * at_sample nw nb op s i c).
  Proof using Hop Hen.
    destruct (hamiltonian_spec nw nb ns op Hop energies Hen) as [out [E [Sh V]]].
    unfold wannier_hamiltonian, bloch_hamiltonian. cbn [lbasis lrow ldata]. rewrite E. eexists. split; [reflexivity|].
    split; [unfold list_wf; cbn [ldata lbasis lrow lcol]; rewrite Sh; cbn [nprod]; nia|].
    split; [reflexivity|]. split; [reflexivity|]. split; [reflexivity|].
    assert (V' : forall s i j, (s < ns)%nat -> (i < nw)%nat -> (j < nw)%nat ->
      list_entry {| lbasis := samples; lrow := wannier; lcol := wannier; ldata := out |} s i j = csum (fun c => at_sample nw nb op s i c * aflat energies (c * ns + s) * Cconj (at_sample nw nb op s j c)) nb).
    { intros s i j Hs Hi Hj. rewrite <- V by assumption. reflexivity. }
    split; [exact V'|]. intros s c i Hs Hc Hi Ho.
    transitivity (csum (fun j => csum (fun d => at_sample nw nb op s i d * aflat energies (d * ns + s) * (Cconj (at_sample nw nb op s j d) * at_sample nw nb op s j c)) nb) nw).
    - apply csum_ext. intros j Hj. rewrite V' by assumption. rewrite <- csum_scal_r. apply csum_ext. intros d _. ring.
    - rewrite csum_swap. rewrite (csum_ext _ (fun d => cdelta d c * (aflat energies (d * ns + s) * at_sample nw nb op s i d))).
      + apply csum_delta_l'. exact Hc.
      + intros d Hd. rewrite csum_scal_l, (Ho d c Hd Hc). ring.
  Qed.
End Hamiltonian.

Lemma full_and_sampled wannier bands ls op energies : Forall (fun n => (0 < n)%nat) ls ->
  nprod (ashape op) = (nprod ls * bsize wannier * bsize bands)%nat -> nprod (ashape energies) = (bsize bands * nprod ls)%nat ->
  let nw := bsize wannier in
  exists W H, wannier_hamiltonian wannier bands (BTuple (map BFundT ls)) op energies = Some W /\
    full_wannier_hamiltonian nw (bsize bands) ls op energies = Some H /\
    let h R k R' l := aflat H (((ravel ls R * nw + k) * nprod ls + ravel ls R') * nw + l) in
    (forall R R' k l, in_shape R ls -> in_shape R' ls -> (k < nw)%nat -> (l < nw)%nat ->
      h R k R' l = csum (fun s => list_entry W s k l *
        (plane ls (sample_freqs ls (unravel ls s)) (map Z.of_nat R) * Cconj (plane ls (sample_freqs ls (unravel ls s)) (map Z.of_nat R')))) (nprod ls)
        / RtoC (INR (nprod ls))) /\
    (forall T R R' k l, in_shape T ls -> in_shape R ls -> in_shape R' ls -> (k < nw)%nat -> (l < nw)%nat ->
      h (moved_cell ls T R) k (moved_cell ls T R') l = h R k R' l) /\
    (forall s R' k l, (s < nprod ls)%nat -> in_shape R' ls -> (k < nw)%nat -> (l < nw)%nat ->
      csum (fun R => h (unravel ls R) k R' l *
        (Cconj (plane ls (sample_freqs ls (unravel ls s)) (map Z.of_nat (unravel ls R))) * plane ls (sample_freqs ls (unravel ls s)) (map Z.of_nat R'))) (nprod ls) =
      list_entry W s k l).
Proof.
  intros Hp Hop Hen nw. assert (Pn := nprod_pos ls Hp).
  assert (Q : RtoC (INR (nprod ls)) <> 0) by (intros X; apply RtoC_inj in X; apply (not_0_INR (nprod ls)); [lia|exact X]).
  destruct (hamiltonian_spec nw (bsize bands) (nprod ls) op Hop energies Hen) as [d [E [_ _]]].
  destruct (full_hamiltonian_entry nw (bsize bands) ls op energies d Hp E) as [H [EH [_ V]]].
  exists {| lbasis := BTuple (map BFundT ls); lrow := wannier; lcol := wannier; ldata := d |}, H.
  split; [unfold wannier_hamiltonian, bloch_hamiltonian; cbn [lbasis lrow ldata]; rewrite size_T; fold nw; rewrite E; reflexivity|].
  split; [exact EH|]. intros h.
  assert (V' : forall R R' k l, in_shape R ls -> in_shape R' ls -> (k < nw)%nat -> (l < nw)%nat ->
      h R k R' l = csum (fun s => list_entry {| lbasis := BTuple (map BFundT ls); lrow := wannier; lcol := wannier; ldata := d |} s k l *
        (plane ls (sample_freqs ls (unravel ls s)) (map Z.of_nat R) * Cconj (plane ls (sample_freqs ls (unravel ls s)) (map Z.of_nat R')))) (nprod ls)
        / RtoC (INR (nprod ls))).
  { intros R R' k l HR HR' Hk Hl. unfold h. rewrite V by (assumption || (apply ravel_lt; assumption)).
    rewrite !unravel_ravel by assumption. unfold Cdiv. rewrite <- RtoC_inv by (apply not_0_INR; lia). rewrite Cmult_comm. reflexivity. }
  split; [exact V'|]. split.
  - intros T R R' k l HT HR HR' Hk Hl. rewrite !V' by (try apply moved_in_shape; assumption). f_equal. apply csum_ext. intros s Hs. f_equal.
    rewrite !plane_moved_cell by (try assumption; apply sample_freqs_length, unravel_length). rewrite Cconj_mult.
    set (t := plane ls _ (map Z.of_nat T)). transitivity (plane ls (sample_freqs ls (unravel ls s)) (map Z.of_nat R) *
      Cconj (plane ls (sample_freqs ls (unravel ls s)) (map Z.of_nat R')) * (t * Cconj t)); [ring|]. unfold t. rewrite plane_norm. ring.
  - intros s R' k l Hs HR' Hk Hl. set (w := list_entry _).
    set (p := fun s R => plane ls (sample_freqs ls (unravel ls s)) (map Z.of_nat R)).
    transitivity (csum (fun R => csum (fun s' => w s' k l * (p s R' * Cconj (p s' R')) / RtoC (INR (nprod ls)) *
       (Cconj (p s (unravel ls R)) * p s' (unravel ls R))) (nprod ls)) (nprod ls)).
    + apply csum_ext. intros R HR. rewrite V' by (assumption || (apply unravel_in_shape; assumption)).
      unfold Cdiv. rewrite <- !csum_scal_r. apply csum_ext. intros s' _. fold w. unfold p. ring.
    + rewrite csum_swap. rewrite (csum_ext _ (fun s' => cdelta s s' * (w s' k l * (p s R' * Cconj (p s' R'))))).
      * rewrite csum_delta_l by exact Hs. unfold p. rewrite plane_norm. ring.
      * intros s' Hs'. rewrite csum_scal_l. unfold p at 3 4. rewrite samples_orth by assumption. field. exact Q.
Qed.
