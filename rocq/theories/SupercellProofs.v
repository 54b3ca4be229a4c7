(** Bloch waves are the states of the supercell. *)
From Coq Require Import Reals Psatz.
From Verif Require Import ZLib Csum DFT NumPy Spec Index IndexProofs IndexSum SpecReal Lattice LatticeProofs
  Basis SpecBasis BasisProofs BasisProofs2 BasisProofs3 BasisFacts Operator SpecOperator OperatorProofs OperatorProofs2
  Wavepacket SpecWavepacket WavepacketProofs WavepacketProofs2 WavepacketProofs3 Hamiltonian SpecHamiltonian HamiltonianProofs
  HamiltonianProofs2 SpecLocalize SpecSupercellHamiltonian.
Local Open Scope R_scope.
Local Open Scope C_scope.

Section Element.
  Variable same : basis -> basis -> bool.
  Hypothesis Hs : identity_test same.
  Variable axes : list basis.
  Hypothesis Hw : bwf (BTuple axes).
  Hypothesis Ho : explicit_orthonormal (BTuple axes).
  Variables delta inv : nat -> nat -> R.
  Hypothesis Hinv : is_inverse (length axes) delta inv.
  Variables hbar mass : R.
  Variable frac : option (nat -> R).
  Let B := BTuple axes.
  Let n := bsize B.
  Let shape := map bfund axes.
  Let N := nprod shape.
  Let M := momenta shape.

  Lemma bilinear_sum (f : nat -> nat -> C) (c : nat -> C) (u v : nat -> C) K :
    inner_product n u (fun i => csum (fun j => csum (fun x => Cconj (f i x) * c x * f j x) K * v j) n) =
    csum (fun x => Cconj (csum (fun i => u i * f i x) n) * (c x * csum (fun j => v j * f j x) n)) K.
  Proof.
    unfold inner_product.
    rewrite (csum_ext _ (fun i => csum (fun x => csum (fun j => c x * (Cconj (u i * f i x) * (v j * f j x))) n) K)).
    2:{ intros i Hi. rewrite <- csum_scal_l. rewrite csum_swap. apply csum_ext. intros j Hj.
        rewrite <- csum_scal_r, <- csum_scal_l. apply csum_ext. intros x Hx. rewrite Cconj_mult. ring. }
    rewrite csum_swap. apply csum_ext. intros x Hx.
    rewrite (csum_ext _ (fun i => Cconj (u i * f i x) * (c x * csum (fun j => v j * f j x) n))).
    2:{ intros i Hi. rewrite csum_scal_l, csum_scal_l. ring. }
    rewrite csum_scal_r, <- Cconj_csum. reflexivity.
  Qed.

  (** Matrix element of the Hamiltonian between two states, from their values. *)
  Lemma energy_element data H q u v :
    total_surface_hamiltonian same hbar axes inv data mass frac = Some H -> waves shape delta frac q ->
    matrix_element n u (op_entry H) v =
      inner_product N (amplitude B u) (fun x => amplitude B data x * amplitude B v x) +
      csum (fun k => Cconj (inner_product N (bstate M k) (amplitude B u)) *
                     (RtoC (hbar * hbar * dot (length axes) (q k) (q k) / (2 * mass)) *
                     inner_product N (bstate M k) (amplitude B v))) N.
  Proof.
    intros HH Hq. destruct (hamiltonian_elements same Hs axes Hw Ho delta inv Hinv hbar mass frac data) as [H' [HH' [SH [RH [CH EH]]]]].
    rewrite HH in HH'. injection HH' as <-.
    unfold matrix_element.
    set (V := fun i j => csum (fun x => Cconj (bstate B i x) * amplitude B data x * bstate B j x) N).
    set (e := fun k => RtoC (hbar * hbar * dot (length axes) (q k) (q k) / (2 * mass))).
    set (T := fun i j => csum (fun k => Cconj (overlap M B k i) * e k * overlap M B k j) N).
    rewrite (inner_ext n u u _ (fun i => csum (fun j => V i j * v j) n + csum (fun j => T i j * v j) n)); [|reflexivity|].
    2:{ intros i Hi. rewrite <- csum_plus. apply csum_ext. intros j Hj. rewrite (EH q Hq) by assumption.
        unfold V, T. rewrite Cmult_plus_distr_r. f_equal. f_equal. apply csum_ext. intros k Hk.
        rewrite overlap_conj; [reflexivity|]. symmetry. apply momenta_fund. }
    assert (P : forall v w, inner_product n u (fun i => v i + w i) = inner_product n u v + inner_product n u w).
    { intros v' w. unfold inner_product. rewrite <- csum_plus. apply csum_ext. intros; ring. }
    assert (A : forall k w, csum (fun j => w j * overlap M B k j) n = inner_product N (bstate M k) (amplitude B w)).
    { intros k w. symmetry. unfold inner_product, amplitude. fold n.
      rewrite (csum_ext _ (fun x => csum (fun j => w j * (Cconj (bstate M k x) * bstate B j x)) n)).
      2:{ intros x Hx. rewrite <- csum_scal_l. apply csum_ext. intros; ring. }
      rewrite csum_swap. apply csum_ext. intros j Hj. rewrite csum_scal_l. reflexivity. }
    rewrite P. f_equal; unfold V, T; clear P V T.
    - rewrite (bilinear_sum (fun i x => bstate B i x) (fun x => amplitude B data x)). reflexivity.
    - rewrite (bilinear_sum (fun i k => overlap M B k i) e). apply csum_ext. intros k Hk.
      rewrite !A. reflexivity.
  Qed.
End Element.

(** ** Coefficients of a Bloch wave in the supercell *)

Definition spread (ls ss s : list nat) (c : nat -> C) : nat -> C :=
  fun f => isum ss (fun k => idelta (unravel (supercell ls ss) f) (unfurl_slot ls ss s k) * c (ravel ss k)).

Section Spread.
  Variables ls ss : list nat.
  Hypothesis Hl : length ls = length ss.
  Hypothesis Hls : Forall (fun n => (0 < n)%nat) ls.
  Hypothesis Hss : Forall (fun n => (0 < n)%nat) ss.
  Let F := supercell ls ss.

  Lemma spread_slot s s' k c : in_shape s ls -> in_shape s' ls -> in_shape k ss ->
    spread ls ss s c (ravel F (unfurl_slot ls ss s' k)) = idelta s' s * c (ravel ss k).
  Proof.
    intros I I' K. unfold spread. fold F. rewrite unravel_ravel by (apply unfurl_slot_in; assumption).
    rewrite (isum_ext ss _ (fun k' => idelta k k' * (idelta s' s * c (ravel ss k')))).
    2:{ intros k' K'. rewrite idelta_unfurl by assumption. ring. }
    apply (isum_idelta ss k (fun k' => idelta s' s * c (ravel ss k'))). exact K.
  Qed.

  Lemma supercell_sum (f : nat -> C) :
    csum f (nprod F) = isum ls (fun s => isum ss (fun k => f (ravel F (unfurl_slot ls ss s k)))).
  Proof. rewrite isum_ravel. unfold F. apply isum_unfurl. exact Hl. Qed.

  Lemma spread_amplitude s c x : in_shape s ls -> in_shape x F ->
    amplitude (momenta F) (spread ls ss s c) (ravel F x) =
    isqrt (nprod ls) * plane F (sample_freqs ls s) (map Z.of_nat x) * amplitude (momenta ss) c (ravel ss (in_cell ss x)).
  Proof.
    intros I X. rewrite amplitude_momenta by exact X. unfold F at 1. rewrite isum_unfurl by exact Hl. fold F.
    rewrite (isum_ext ls _ (fun s' => idelta s s' * isum ss (fun k => c (ravel ss k) * axis_states (map BFundT F) (unfurl_slot ls ss s' k) x))).
    2:{ intros s' I'. rewrite <- isum_scal_l. apply isum_ext. intros k K. rewrite spread_slot by assumption.
        assert (E : idelta s' s = idelta s s').
        { destruct (list_eq_dec PeanoNat.Nat.eq_dec s' s) as [->|D]; [reflexivity|].
          rewrite !idelta_neq; auto. }
        rewrite E. ring. }
    rewrite (isum_idelta ls s (fun s' => isum ss (fun k => c (ravel ss k) * axis_states (map BFundT F) (unfurl_slot ls ss s' k) x))) by exact I.
    rewrite amplitude_momenta by (apply (in_cell_in ss ls); assumption).
    rewrite <- isum_scal_l. apply isum_ext. intros k K. unfold F. rewrite axis_states_unfurl by assumption. ring.
  Qed.

  Lemma spread_inner s s' c c' : in_shape s ls -> in_shape s' ls ->
    inner_product (nprod F) (spread ls ss s c) (spread ls ss s' c') = idelta s s' * inner_product (nprod ss) c c'.
  Proof.
    intros I I'. unfold inner_product at 1. rewrite supercell_sum.
    rewrite (isum_ext ls _ (fun t => idelta s t * (idelta t s' * inner_product (nprod ss) c c'))).
    2:{ intros t It. unfold inner_product. rewrite isum_ravel, <- !isum_scal_l. apply isum_ext. intros k K.
        rewrite !spread_slot by assumption. rewrite Cconj_mult.
        destruct (list_eq_dec PeanoNat.Nat.eq_dec t s) as [->|D].
        - rewrite !idelta_refl, Cconj_1. ring.
        - rewrite (idelta_neq t s) by exact D. rewrite (idelta_neq s t) by auto. rewrite Cconj_0. ring. }
    apply (isum_idelta ls s (fun t => idelta t s' * inner_product (nprod ss) c c')). exact I.
  Qed.

  (** Functions on the supercell by value. *)
  Lemma by_points (u v : nat -> C) : (forall x, in_shape x F -> u (ravel F x) = v (ravel F x)) ->
    forall t, (t < nprod F)%nat -> u t = v t.
  Proof.
    intros H t Ht. rewrite <- (ravel_unravel F t Ht). apply H. apply unravel_in_shape. exact Ht.
  Qed.
End Spread.

(** In the momentum basis inner products and components are those of the coefficients. *)
Lemma momenta_orthonormal ss : Forall (fun n => (0 < n)%nat) ss -> orthonormal (momenta ss).
Proof.
  intros H. apply explicit_orthonormal_sound; [apply momenta_wf; exact H|].
  unfold momenta. cbn [explicit_orthonormal]. induction ss as [|a ss IH]; cbn; [exact I|].
  inversion H. split; [exact I|]. apply IH. assumption.
Qed.

Lemma component_momenta ss c k : Forall (fun n => (0 < n)%nat) ss -> (k < nprod ss)%nat ->
  inner_product (nprod ss) (bstate (momenta ss) k) (amplitude (momenta ss) c) = c k.
Proof.
  intros H Hk. unfold inner_product, amplitude. rewrite momenta_size.
  rewrite (csum_ext _ (fun x => csum (fun j => c j * (Cconj (bstate (momenta ss) k x) * bstate (momenta ss) j x)) (nprod ss))).
  2:{ intros x Hx. rewrite <- csum_scal_l. apply csum_ext. intros; ring. }
  rewrite csum_swap.
  rewrite (csum_ext _ (fun j => c j * cdelta k j)).
  2:{ intros j Hj. rewrite csum_scal_l. f_equal. pose proof (momenta_orthonormal ss H k j) as O. unfold overlap in O.
      rewrite momenta_size, momenta_fund in O. apply O; assumption. }
  apply (csum_delta_r c). exact Hk.
Qed.

Lemma amplitude_momenta_inner ss c c' : Forall (fun n => (0 < n)%nat) ss ->
  inner_product (nprod ss) (amplitude (momenta ss) c) (amplitude (momenta ss) c') = inner_product (nprod ss) c c'.
Proof.
  intros H. unfold inner_product at 1.
  rewrite (csum_ext _ (fun x => csum (fun k => Cconj (c k) * (Cconj (bstate (momenta ss) k x) * amplitude (momenta ss) c' x)) (nprod ss))).
  2:{ intros x Hx. unfold amplitude at 1. rewrite momenta_size, Cconj_csum, <- csum_scal_r. apply csum_ext. intros k Hk. rewrite Cconj_mult. ring. }
  rewrite csum_swap. unfold inner_product. apply csum_ext. intros k Hk. rewrite csum_scal_l. f_equal.
  apply (component_momenta ss c' k H Hk).
Qed.

(** Every function on the grid is the function of its components. *)
Lemma momenta_expand ss (g : nat -> C) x : Forall (fun n => (0 < n)%nat) ss -> (x < nprod ss)%nat ->
  amplitude (momenta ss) (fun k => inner_product (nprod ss) (bstate (momenta ss) k) g) x = g x.
Proof.
  intros H Hx. unfold amplitude, inner_product. rewrite momenta_size.
  rewrite (csum_ext _ (fun k => csum (fun y => g y * (bstate (momenta ss) k x * Cconj (bstate (momenta ss) k y))) (nprod ss))).
  2:{ intros k Hk. rewrite <- csum_scal_r. apply csum_ext. intros; ring. }
  rewrite csum_swap.
  assert (Cm : complete (momenta ss)).
  { apply full_complete; [apply momenta_wf; exact H|apply momenta_full]. }
  rewrite (csum_ext _ (fun y => cdelta x y * g y)).
  2:{ intros y Hy. rewrite csum_scal_l. rewrite Cmult_comm. f_equal. specialize (Cm x y). rewrite momenta_size, momenta_fund in Cm. apply Cm; assumption. }
  apply csum_delta_l. exact Hx.
Qed.
