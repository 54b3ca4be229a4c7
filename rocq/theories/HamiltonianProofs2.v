(** Hermiticity, energies and spectrum of the momentum basis Hamiltonian. *)
From Coq Require Import Reals Psatz.
From Verif Require Import ZLib Csum DFT NumPy Interp Spec InterpProofs Index IndexProofs SpecReal Lattice LatticeProofs
  Basis SpecBasis BasisProofs BasisProofs2 BasisProofs3 BasisFacts Operator SpecOperator OperatorProofs OperatorProofs2
  Wavepacket SpecWavepacket WavepacketProofs2 Spectral Hamiltonian SpecHamiltonian HamiltonianProofs.
Local Open Scope R_scope.
Local Open Scope C_scope.

Lemma Cconj_RtoC (r : R) : Cconj (RtoC r) = RtoC r.
Proof. unfold Cconj, RtoC. simpl. f_equal. ring. Qed.
Lemma Cconj_real z : snd z = 0%R -> Cconj z = z.
Proof. destruct z as [a b]. simpl. intros ->. unfold Cconj. simpl. f_equal. ring. Qed.
Lemma real_RtoC z : snd z = 0%R -> z = RtoC (fst z).
Proof. destruct z as [a b]. simpl. intros ->. reflexivity. Qed.

Lemma waves_exist shape delta inv frac : is_inverse (length shape) delta inv ->
  waves shape delta frac (fun k c =>
    fundamental_stacked_k_points shape inv c k + tensordot00 (length shape) (dk_stacked inv) (fraction frac) c)%R.
Proof. intros Hi k Hk. apply (k_point_wave shape delta inv); assumption. Qed.

Lemma mass_energy_waves hbar shape delta inv mass frac q k : is_inverse (length shape) delta inv ->
  waves shape delta frac q -> (k < nprod shape)%nat ->
  mass_energy hbar shape inv mass frac k = (hbar * hbar * dot (length shape) (q k) (q k) / (2 * mass))%R.
Proof.
  intros Hi Hq Hk. rewrite mass_energy_wave. cbv zeta. do 2 f_equal.
  unfold dot. apply rsum_ext. intros c Hc.
  rewrite (wave_unique shape delta inv _ _ _ _ Hi (Hq k Hk) (waves_exist shape delta inv frac Hi k Hk) c Hc).
  reflexivity.
Qed.

Section Ham.
  Variable same : basis -> basis -> bool.
  Hypothesis Hs : identity_test same.
  Variable axes : list basis.
  Hypothesis Hw : bwf (BTuple axes).
  Hypothesis Ho : explicit_orthonormal (BTuple axes).
  Variables delta inv : nat -> nat -> R.
  Hypothesis Hinv : is_inverse (length axes) delta inv.
  Variables hbar mass : R.
  Variable frac : option (nat -> R).
  Let B := BTuple axes.
  Let n := bsize B.
  Let shape := map bfund axes.
  Let N := nprod shape.
  Let M := momenta shape.

  Lemma shape_length : length shape = length axes.
  Proof. apply map_length. Qed.

  Lemma hamiltonian_elements data :
    exists H, total_surface_hamiltonian same hbar axes inv data mass frac = Some H /\ square n H /\
      orow H = B /\ ocol H = B /\
      forall q, waves shape delta frac q ->
      forall i j, (i < n)%nat -> (j < n)%nat ->
        op_entry H i j =
          csum (fun x => Cconj (bstate B i x) * amplitude B data x * bstate B j x) N +
          csum (fun k => overlap B M i k *
                         RtoC (hbar * hbar * dot (length axes) (q k) (q k) / (2 * mass)) * overlap M B k j) N.
  Proof.
    destruct (total_hamiltonian_spec same Hs axes Hw Ho hbar mass inv frac data) as [H [HH [SH [RH [CH EH]]]]].
    exists H. repeat (split; [assumption|]). intros q Hq i j Hi Hj. rewrite EH by assumption. f_equal.
    apply csum_ext. intros k Hk. f_equal. f_equal. f_equal. fold shape.
    rewrite (mass_energy_waves hbar shape delta inv mass frac q k); rewrite ?shape_length; try assumption. reflexivity.
  Qed.

  Lemma kinetic_diagonal :
    let T := hamiltonian_from_mass hbar axes inv mass frac in
    orow T = M /\ ocol T = M /\ ashape (odata T) = [N] /\
    forall q, waves shape delta frac q -> forall k, (k < N)%nat ->
      aflat (odata T) k = RtoC (hbar * hbar * dot (length axes) (q k) (q k) / (2 * mass)) /\
      ((0 < mass)%R -> (0 <= fst (aflat (odata T) k))%R /\
         (hbar <> 0%R -> (fst (aflat (odata T) k) = 0%R <-> forall c, (c < length axes)%nat -> q k c = 0%R))).
  Proof.
    cbv zeta. unfold hamiltonian_from_mass. cbn [orow ocol odata ashape aflat].
    rewrite as_fundamental_transformed_momenta. fold shape. fold M.
    repeat (split; [reflexivity|]). intros q Hq k Hk.
    assert (E : mass_energy hbar shape inv mass frac k = (hbar * hbar * dot (length axes) (q k) (q k) / (2 * mass))%R).
    { rewrite (mass_energy_waves hbar shape delta inv mass frac q k); rewrite ?shape_length; try assumption. reflexivity. }
    rewrite E. split; [reflexivity|]. intros Hm. cbn [fst RtoC].
    assert (D : (0 <= dot (length axes) (q k) (q k))%R) by (apply rsum_nonneg; intros; apply Rle_0_sqr).
    assert (P : (0 < / (2 * mass))%R) by (apply Rinv_0_lt_compat; lra).
    assert (Q : (0 <= hbar * hbar)%R) by apply Rle_0_sqr.
    split.
    - unfold Rdiv. apply Rmult_le_pos; [|lra]. apply Rmult_le_pos; assumption.
    - intros Hh. split.
      + intros Z. apply (rsum_sqr_zero (q k)). unfold Rdiv in Z.
        apply Rmult_integral in Z. destruct Z as [Z|Z]; [|lra].
        apply Rmult_integral in Z. destruct Z as [Z|Z]; [|exact Z].
        apply Rmult_integral in Z. tauto.
      + intros Z. unfold dot. rewrite (rsum_ext _ (fun _ => 0%R)).
        * rewrite rsum_const0. unfold Rdiv. ring.
        * intros c Hc. rewrite Z by assumption. ring.
  Qed.

  Lemma amplitude_norm u : rsum (fun x => Cnorm2 (amplitude B u x)) N = rsum (fun i => Cnorm2 (u i)) n.
  Proof.
    assert (Or : orthonormal B) by (apply explicit_orthonormal_sound; assumption).
    apply RtoC_inj. rewrite <- !csum_norm2.
    rewrite (csum_ext _ (fun x => csum (fun i => csum (fun j => Cconj (u i) * u j * (Cconj (bstate B i x) * bstate B j x)) n) n)).
    2:{ intros x Hx. unfold amplitude. fold n. rewrite Cconj_csum, <- csum_scal_r. apply csum_ext. intros i Hi.
        rewrite <- csum_scal_l. apply csum_ext. intros j Hj. rewrite Cconj_mult. ring. }
    rewrite csum_swap. apply csum_ext. intros i Hi. rewrite csum_swap.
    rewrite (csum_ext _ (fun j => Cconj (u i) * u j * cdelta i j)).
    2:{ intros j Hj. rewrite csum_scal_l. f_equal. apply (Or i j Hi Hj). }
    apply (csum_delta_r (fun j => Cconj (u i) * u j)). assumption.
  Qed.

  Lemma quadratic_sum (f : nat -> nat -> C) (c : nat -> C) (u : nat -> C) K :
    inner_product n u (fun i => csum (fun j => csum (fun x => Cconj (f i x) * c x * f j x) K * u j) n) =
    csum (fun x => c x * RtoC (Cnorm2 (csum (fun j => u j * f j x) n))) K.
  Proof.
    unfold inner_product.
    rewrite (csum_ext _ (fun i => csum (fun x => csum (fun j => c x * (Cconj (u i * f i x) * (u j * f j x))) n) K)).
    2:{ intros i Hi. rewrite <- csum_scal_l. rewrite csum_swap. apply csum_ext. intros j Hj.
        rewrite <- csum_scal_r, <- csum_scal_l. apply csum_ext. intros x Hx. rewrite Cconj_mult. ring. }
    rewrite csum_swap. apply csum_ext. intros x Hx.
    rewrite (csum_ext _ (fun i => c x * (Cconj (u i * f i x) * csum (fun j => u j * f j x) n))).
    2:{ intros i Hi. rewrite csum_scal_l, csum_scal_l. reflexivity. }
    rewrite csum_scal_l, csum_scal_r, <- Cconj_csum. f_equal. apply Cconj_mult_self.
  Qed.

  Lemma energy_expectation data H q u :
    total_surface_hamiltonian same hbar axes inv data mass frac = Some H -> waves shape delta frac q ->
    matrix_element n u (op_entry H) u =
      csum (fun x => amplitude B data x * RtoC (Cnorm2 (amplitude B u x))) N +
      csum (fun k => RtoC (hbar * hbar * dot (length axes) (q k) (q k) / (2 * mass)) *
                     RtoC (Cnorm2 (inner_product N (bstate M k) (amplitude B u)))) N.
  Proof.
    intros HH Hq. destruct (hamiltonian_elements data) as [H' [HH' [SH [RH [CH EH]]]]].
    rewrite HH in HH'. injection HH' as <-.
    unfold matrix_element.
    set (V := fun i j => csum (fun x => Cconj (bstate B i x) * amplitude B data x * bstate B j x) N).
    set (e := fun k => RtoC (hbar * hbar * dot (length axes) (q k) (q k) / (2 * mass))).
    set (T := fun i j => csum (fun k => Cconj (overlap M B k i) * e k * overlap M B k j) N).
    rewrite (inner_ext n u u _ (fun i => csum (fun j => V i j * u j) n + csum (fun j => T i j * u j) n)); [|reflexivity|].
    2:{ intros i Hi. rewrite <- csum_plus. apply csum_ext. intros j Hj. rewrite (EH q Hq) by assumption.
        unfold V, T. rewrite Cmult_plus_distr_r. f_equal. f_equal. apply csum_ext. intros k Hk.
        rewrite overlap_conj; [reflexivity|]. symmetry. apply momenta_fund. }
    assert (S : forall v w, inner_product n u (fun i => v i + w i) = inner_product n u v + inner_product n u w).
    { intros v w. unfold inner_product. rewrite <- csum_plus. apply csum_ext. intros; ring. }
    rewrite S. f_equal; unfold V, T; clear S V T.
    - rewrite (quadratic_sum (fun i x => bstate B i x) (fun x => amplitude B data x)). reflexivity.
    - rewrite (quadratic_sum (fun i k => overlap M B k i) e). apply csum_ext. intros k Hk. f_equal. f_equal. f_equal.
      symmetry. unfold inner_product, amplitude. fold n.
      rewrite (csum_ext _ (fun x => csum (fun j => u j * (Cconj (bstate M k x) * bstate B j x)) n)).
      2:{ intros x Hx. rewrite <- csum_scal_l. apply csum_ext. intros; ring. }
      rewrite csum_swap. apply csum_ext. intros j Hj. rewrite csum_scal_l. reflexivity.
  Qed.

  Lemma hamiltonian_hermitian data H : real_valued B data ->
    total_surface_hamiltonian same hbar axes inv data mass frac = Some H -> hermitian n (op_entry H).
  Proof.
    intros Hr HH. destruct (hamiltonian_elements data) as [H' [HH' [SH [RH [CH EH]]]]].
    rewrite HH in HH'. injection HH' as <-.
    assert (Hq : exists q, waves shape delta frac q).
    { eexists. apply (waves_exist shape delta inv frac). rewrite shape_length. assumption. }
    destruct Hq as [q Hq]. intros i j Hi Hj. unfold adjoint. rewrite !(EH q Hq) by assumption.
    rewrite Cconj_plus, !Cconj_csum. f_equal; apply csum_ext; intros x Hx; rewrite !Cconj_mult.
    - rewrite Cconj_conj, (Cconj_real _ (Hr x Hx)). ring.
    - rewrite Cconj_RtoC. rewrite (overlap_conj M B j x), (overlap_conj B M x i).
      + ring.
      + symmetry. apply momenta_fund.
      + apply momenta_fund.
  Qed.

  Lemma energy_lower_bound data H u (v0 : R) : real_valued B data -> (0 < mass)%R ->
    (forall x, (x < N)%nat -> (v0 <= fst (amplitude B data x))%R) ->
    total_surface_hamiltonian same hbar axes inv data mass frac = Some H ->
    snd (matrix_element n u (op_entry H) u) = 0%R /\
    (v0 * rsum (fun i => Cnorm2 (u i)) n <= fst (matrix_element n u (op_entry H) u))%R.
  Proof.
    intros Hr Hm Hv HH.
    assert (Hq : exists q, waves shape delta frac q).
    { eexists. apply (waves_exist shape delta inv frac). rewrite shape_length. assumption. }
    destruct Hq as [q Hq]. rewrite (energy_expectation data H q u HH Hq).
    rewrite (csum_ext _ (fun x => RtoC (fst (amplitude B data x) * Cnorm2 (amplitude B u x)))).
    2:{ intros x Hx. rewrite (real_RtoC _ (Hr x Hx)) at 1. rewrite <- RtoC_mult. reflexivity. }
    rewrite csum_RtoC.
    rewrite (csum_ext _ (fun k => RtoC (hbar * hbar * dot (length axes) (q k) (q k) / (2 * mass) *
                     Cnorm2 (inner_product N (bstate M k) (amplitude B u))))) by (intros; rewrite <- RtoC_mult; reflexivity).
    rewrite csum_RtoC, <- RtoC_plus. cbn [fst snd RtoC]. split; [reflexivity|].
    rewrite <- amplitude_norm, <- rsum_scal_l.
    assert (A : (rsum (fun x => v0 * Cnorm2 (amplitude B u x)) N <=
                 rsum (fun x => fst (amplitude B data x) * Cnorm2 (amplitude B u x)) N)%R).
    { apply rsum_le. intros x Hx. apply Rmult_le_compat_r; [apply Cnorm2_nonneg|auto]. }
    assert (Z : (0 <= rsum (fun k => hbar * hbar * dot (length axes) (q k) (q k) / (2 * mass) *
                     Cnorm2 (inner_product N (bstate M k) (amplitude B u))) N)%R).
    { apply rsum_nonneg. intros k Hk. apply Rmult_le_pos; [|apply Cnorm2_nonneg].
      unfold Rdiv. apply Rmult_le_pos; [|left; apply Rinv_0_lt_compat; lra].
      apply Rmult_le_pos; [apply Rle_0_sqr|]. apply rsum_nonneg. intros; apply Rle_0_sqr. }
    lra.
  Qed.

  Lemma spectrum_lower_bound data H u lam (v0 : R) : real_valued B data -> (0 < mass)%R ->
    (forall x, (x < N)%nat -> (v0 <= fst (amplitude B data x))%R) ->
    total_surface_hamiltonian same hbar axes inv data mass frac = Some H ->
    eigenvector n (op_entry H) lam u -> snd lam = 0%R /\ (v0 <= fst lam)%R.
  Proof.
    intros Hr Hm Hv HH [He [i [Hi Hne]]].
    destruct (energy_lower_bound data H u v0 Hr Hm Hv HH) as [E1 E2].
    set (nn := rsum (fun i => Cnorm2 (u i)) n) in *.
    assert (E : matrix_element n u (op_entry H) u = lam * RtoC nn).
    { unfold matrix_element. rewrite (inner_ext n u u _ (fun i => lam * u i)); [|reflexivity|intros; apply He; assumption].
      unfold inner_product, nn. rewrite <- csum_norm2, <- csum_scal_l. apply csum_ext. intros; ring. }
    assert (P : (0 < nn)%R).
    { unfold nn. destruct (Rle_lt_or_eq_dec 0 (rsum (fun i => Cnorm2 (u i)) n)) as [L|L].
      - apply rsum_nonneg. intros. apply Cnorm2_nonneg.
      - assumption.
      - exfalso. apply Hne. apply Cnorm2_eq_0. apply (rsum_zero_nonneg (fun i => Cnorm2 (u i)) n); try assumption; try congruence.
        intros. apply Cnorm2_nonneg. }
    rewrite E in E1, E2. destruct lam as [a b]. simpl in E1, E2.
    replace (a * 0 + b * nn)%R with (b * nn)%R in E1 by ring. replace (a * nn - b * 0)%R with (a * nn)%R in E2 by ring.
    simpl. split.
    - apply Rmult_integral in E1. lra.
    - apply (Rmult_le_reg_r nn); assumption.
  Qed.

  Lemma potential_shift data data' H H' (c : C) :
    (forall x, (x < N)%nat -> amplitude B data' x = amplitude B data x + c) ->
    total_surface_hamiltonian same hbar axes inv data mass frac = Some H ->
    total_surface_hamiltonian same hbar axes inv data' mass frac = Some H' ->
    forall i j, (i < n)%nat -> (j < n)%nat -> op_entry H' i j = op_entry H i j + c * cdelta i j.
  Proof.
    intros Hc HH HH' i j Hi Hj.
    assert (Or : orthonormal B) by (apply explicit_orthonormal_sound; assumption).
    destruct (hamiltonian_elements data) as [K [HK [_ [_ [_ EK]]]]].
    destruct (hamiltonian_elements data') as [K' [HK' [_ [_ [_ EK']]]]].
    rewrite HH in HK. rewrite HH' in HK'. injection HK as <-. injection HK' as <-.
    assert (Hq : exists q, waves shape delta frac q).
    { eexists. apply (waves_exist shape delta inv frac). rewrite shape_length. assumption. }
    destruct Hq as [q Hq]. rewrite (EK q Hq), (EK' q Hq) by assumption.
    rewrite (csum_ext _ (fun x => Cconj (bstate B i x) * amplitude B data x * bstate B j x + c * (Cconj (bstate B i x) * bstate B j x))).
    2:{ intros x Hx. rewrite Hc by assumption. ring. }
    rewrite csum_plus, csum_scal_l. rewrite <- (Or i j Hi Hj). unfold overlap.
    change (bfund B) with N. ring.
  Qed.

  (** Without a potential the plane waves are eigenstates. *)
  Lemma free_particle data H q k : complete B ->
    (forall x, (x < N)%nat -> amplitude B data x = 0) ->
    total_surface_hamiltonian same hbar axes inv data mass frac = Some H -> waves shape delta frac q -> (k < N)%nat ->
    eigenvector n (op_entry H) (RtoC (hbar * hbar * dot (length axes) (q k) (q k) / (2 * mass))) (fun i => overlap B M i k).
  Proof.
    intros Cb H0 HH Hq Hk. destruct (hamiltonian_elements data) as [K [HK [_ [_ [_ EK]]]]].
    rewrite HH in HK. injection HK as <-.
    set (e := fun k => RtoC (hbar * hbar * dot (length axes) (q k) (q k) / (2 * mass))) in *.
    assert (FM : bfund M = bfund B) by apply momenta_fund.
    assert (SM : bsize M = N) by apply momenta_size.
    assert (WM : bwf M) by (apply momenta_wf; apply fund_shape_pos; assumption).
    assert (OM : orthonormal M).
    { apply explicit_orthonormal_sound; [assumption|]. apply full_bases; [assumption|apply momenta_full]. }
    assert (D : forall l, (l < N)%nat -> csum (fun j => overlap M B l j * overlap B M j k) n = cdelta l k).
    { intros l Hl. unfold n. rewrite (overlap_comp M B M l k FM Cb). apply OM; rewrite SM; assumption. }
    split.
    - intros i Hi.
      rewrite (csum_ext _ (fun j => csum (fun l => overlap B M i l * e l * (overlap M B l j * overlap B M j k)) N)).
      2:{ intros j Hj. rewrite (EK q Hq) by assumption.
          rewrite (csum_zero_ext (fun x => Cconj (bstate B i x) * amplitude B data x * bstate B j x)).
          - rewrite Cplus_0_l, <- csum_scal_r. apply csum_ext. intros; unfold e; ring.
          - intros x Hx. rewrite H0 by assumption. ring. }
      rewrite csum_swap.
      rewrite (csum_ext _ (fun l => overlap B M i l * e l * cdelta l k)).
      2:{ intros l Hl. rewrite csum_scal_l, D by assumption. reflexivity. }
      rewrite (csum_delta_r' (fun l => overlap B M i l * e l)) by assumption. unfold e. ring.
    - destruct (preimage_dec (fun i => if C_eq_dec (overlap B M i k) 0 then 0%nat else 1%nat) n 1) as [[i [Hi Hx]]|Hx].
      + exists i. split; [assumption|]. destruct (C_eq_dec (overlap B M i k) 0); [discriminate|assumption].
      + exfalso. assert (Z := D k Hk). rewrite cdelta_refl, csum_zero_ext in Z.
        * apply RtoC_inj in Z. lra.
        * intros j Hj. specialize (Hx j Hj). destruct (C_eq_dec (overlap B M j k) 0) as [->|]; [ring|congruence].
  Qed.
End Ham.
