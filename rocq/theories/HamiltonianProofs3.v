(** The continuous function of a potential, its values on the grid and its derivatives. *)
From Coq Require Import Reals Psatz.
From Coquelicot Require Import Coquelicot.
From Verif Require Import ZLib Csum DFT NumPy Interp Spec InterpProofs Index IndexProofs SpecReal Lattice LatticeProofs
  Basis SpecBasis BasisProofs BasisProofs2 BasisProofs3 BasisFacts Operator SpecOperator OperatorProofs OperatorProofs2 IndexSum
  Wavepacket SpecWavepacket WavepacketProofs2 LocalizeProofs3 Hamiltonian SpecHamiltonian HamiltonianProofs HamiltonianProofs2.
Local Open Scope R_scope.
Local Open Scope C_scope.

Lemma rsum_front (f : nat -> R) n : rsum f (S n) = (f 0%nat + rsum (fun i => f (S i)) n)%R.
Proof. induction n as [|n IH]; [simpl; ring|]. rewrite rsum_S, IH, (rsum_S (fun i => f (S i))). ring. Qed.

(** Phase of slot [idx] at fractional coordinates [t], divided by 2 pi. *)
Definition turns (shape idx : list nat) (t : nat -> R) : R :=
  rsum (fun a => t a * IZR (freq (nth a shape 0%nat) (nth a idx 0%nat)))%R (length shape).

Lemma turns_cons n shape i idx t :
  turns (n :: shape) (i :: idx) t = (t 0%nat * IZR (freq n i) + turns shape idx (fun a => t (S a)))%R.
Proof. unfold turns. cbn [length]. rewrite rsum_front. reflexivity. Qed.

Lemma phase_turns shape delta inv j x t : is_inverse (length shape) delta inv -> (j < nprod shape)%nat ->
  (forall c, (c < length shape)%nat -> x c = rsum (fun a => t a * delta a c)%R (length shape)) ->
  rsum (fun c => fundamental_stacked_k_points shape inv c j * x c)%R (length shape) =
  (2 * PI * turns shape (unravel shape j) t)%R.
Proof.
  intros Hi Hj Hx.
  assert (W := k_point_wave shape delta inv j (fun _ => 0%R) Hi Hj).
  rewrite (rsum_ext _ (fun c => rsum (fun a => t a * (fundamental_stacked_k_points shape inv c j * delta a c))%R (length shape))).
  2:{ intros c Hc. rewrite Hx by assumption. rewrite <- rsum_scal_l. apply rsum_ext. intros; ring. }
  rewrite rsum_swap. unfold turns. rewrite <- rsum_scal_l. apply rsum_ext. intros a Ha.
  rewrite rsum_scal_l. specialize (W a Ha). unfold dot in W.
  rewrite (rsum_ext _ (fun c => fundamental_stacked_k_points shape inv c j * delta a c)%R) in W.
  - rewrite W. ring.
  - intros c Hc. unfold tensordot00. rewrite (rsum_ext _ (fun _ => 0%R)) by (intros; ring). rewrite rsum_const0. ring.
Qed.

Lemma series_turns shape delta inv d x t : is_inverse (length shape) delta inv -> Forall (fun n => (0 < n)%nat) shape ->
  (forall c, (c < length shape)%nat -> x c = rsum (fun a => t a * delta a c)%R (length shape)) ->
  fourier_series shape inv d x =
  isum shape (fun k => d (ravel shape k) * (isqrt (nprod shape) * cis (2 * PI * turns shape k t))).
Proof.
  intros Hi Hp Hx. unfold fourier_series. rewrite isum_ravel. apply isum_ext. intros k Hk. cbv zeta. f_equal.
  assert (Hr := ravel_lt shape k Hk).
  rewrite (phase_turns shape delta inv _ x t Hi Hr Hx), (unravel_ravel shape k Hk).
  unfold Cdiv. rewrite Cmult_comm. f_equal. unfold isqrt. rewrite RtoC_inv; [reflexivity|].
  apply Rgt_not_eq, sqrt_lt_R0, lt_0_INR, nprod_pos, Hp.
Qed.

Lemma axis_states_turns shape : forall k x, in_shape k shape -> in_shape x shape ->
  axis_states (map BFundT shape) k x =
  isqrt (nprod shape) * cis (2 * PI * turns shape k (fun a => INR (nth a x 0%nat) / INR (nth a shape 0%nat))%R).
Proof.
  induction shape as [|n shape IH]; intros k x Hk Hx; inversion Hk; inversion Hx; subst.
  - cbn. unfold turns. simpl. rewrite Rmult_0_r, cis_0. unfold isqrt. cbn. rewrite sqrt_1, Rinv_1. ring.
  - cbn [map axis_states nprod]. rewrite IH by assumption. rewrite turns_cons, Rmult_plus_distr_l, cis_plus, isqrt_mul.
    cbn [bstate nth]. unfold plane_wave, omega.
    replace (2 * PI * IZR (freq n x0 * Z.of_nat x1) / INR n)%R with (2 * PI * (INR x1 / INR n * IZR (freq n x0)))%R.
    + ring.
    + rewrite mult_IZR, <- INR_IZR_INZ. unfold Rdiv. ring.
Qed.

Lemma series_grid shape delta inv d idx x : is_inverse (length shape) delta inv -> in_shape idx shape ->
  grid_point shape delta idx x -> fourier_series shape inv d x = amplitude (momenta shape) d (ravel shape idx).
Proof.
  intros Hi Hidx Hx.
  assert (Hp : Forall (fun n => (0 < n)%nat) shape) by (apply (nprod_pos_of_lt shape (ravel shape idx)), ravel_lt, Hidx).
  rewrite (series_turns shape delta inv d x _ Hi Hp Hx), amplitude_momenta by assumption.
  apply isum_ext. intros k Hk. rewrite axis_states_turns by assumption. reflexivity.
Qed.

Lemma series_periodic shape delta inv d a x x' : is_inverse (length shape) delta inv -> (a < length shape)%nat ->
  translated (length shape) delta a x x' -> fourier_series shape inv d x' = fourier_series shape inv d x.
Proof.
  intros Hi Ha Hx. unfold fourier_series. apply csum_ext. intros j Hj. cbv zeta. f_equal. f_equal.
  assert (W := k_point_wave shape delta inv j (fun _ => 0%R) Hi Hj a Ha). unfold dot in W.
  rewrite (rsum_ext _ (fun c => fundamental_stacked_k_points shape inv c j * delta a c)%R) in W.
  2:{ intros c Hc. unfold tensordot00. rewrite (rsum_ext _ (fun _ => 0%R)) by (intros; ring). rewrite rsum_const0. ring. }
  rewrite (rsum_ext _ (fun c => fundamental_stacked_k_points shape inv c j * x c + fundamental_stacked_k_points shape inv c j * delta a c)%R).
  2:{ intros c Hc. rewrite Hx by assumption. ring. }
  rewrite rsum_plus, W, cis_plus, Rplus_0_r, cis_2PI_Z. ring.
Qed.

(** Every point has fractional coordinates. *)
Lemma fractional (shape : list nat) delta inv (x : nat -> R) : is_inverse (length shape) delta inv ->
  exists t, forall c, (c < length shape)%nat -> x c = rsum (fun a => t a * delta a c)%R (length shape).
Proof.
  intros [_ Hi]. exists (fun a => rsum (fun c => x c * inv c a)%R (length shape)). intros c Hc.
  rewrite (rsum_ext _ (fun a => rsum (fun e => x e * (inv e a * delta a c))%R (length shape))).
  2:{ intros a Ha. rewrite <- rsum_scal_r. apply rsum_ext. intros; ring. }
  rewrite rsum_swap. rewrite (rsum_ext _ (fun e => rdelta e c * x e)%R).
  - rewrite rsum_delta by assumption. reflexivity.
  - intros e He. rewrite rsum_scal_l, Rmult_comm. f_equal. apply Hi; assumption.
Qed.

(** Per-axis negation of a slot. *)
Fixpoint negate (shape idx : list nat) : list nat :=
  match shape, idx with n :: shape, i :: idx => ((n - i) mod n)%nat :: negate shape idx | _, _ => [] end.

Lemma negate_in shape : forall idx, in_shape idx shape -> in_shape (negate shape idx) shape.
Proof.
  induction shape as [|n shape IH]; intros idx H; inversion H; subst; cbn; constructor.
  - apply Nat.mod_upper_bound. lia.
  - apply IH. assumption.
Qed.
Lemma neg_neg n i : (i < n)%nat -> ((n - (n - i) mod n) mod n)%nat = i.
Proof.
  intros H. destruct (Nat.eq_dec i 0) as [->|Hi].
  - rewrite Nat.sub_0_r, Nat.mod_same, Nat.sub_0_r, Nat.mod_same by lia. reflexivity.
  - rewrite (Nat.mod_small (n - i)) by lia. replace (n - (n - i))%nat with i by lia. apply Nat.mod_small. assumption.
Qed.
Lemma isum_negate shape : forall f, isum shape f = isum shape (fun idx => f (negate shape idx)).
Proof.
  induction shape as [|n shape IH]; intros f; [reflexivity|]. cbn [isum negate].
  rewrite <- (csum_bij (fun i => isum shape (fun idx => f (i :: idx))) n n (fun i => ((n - i) mod n)%nat) (fun i => ((n - i) mod n)%nat)).
  - apply csum_ext. intros i Hi. apply IH.
  - intros i Hi. split; [apply Nat.mod_upper_bound; lia|]. apply neg_neg. assumption.
  - intros i Hi. split; [apply Nat.mod_upper_bound; lia|]. apply neg_neg. assumption.
Qed.
Lemma turns_negate shape t : Forall Nat.Odd shape -> forall idx, in_shape idx shape ->
  turns shape (negate shape idx) t = (- turns shape idx t)%R.
Proof.
  revert t. induction shape as [|n shape IH]; intros t Ho idx H; inversion H; inversion Ho; subst.
  - unfold turns. simpl. ring.
  - cbn [negate]. rewrite !turns_cons, IH, freq_opp, opp_IZR by assumption. ring.
Qed.

Lemma amplitude_injective b u v : orthonormal b ->
  (forall x, (x < bfund b)%nat -> amplitude b u x = amplitude b v x) ->
  forall k, (k < bsize b)%nat -> u k = v k.
Proof.
  intros Ob H k Hk.
  assert (E : forall w, csum (fun x => Cconj (bstate b k x) * amplitude b w x) (bfund b) = w k).
  { intros w. unfold amplitude.
    rewrite (csum_ext _ (fun x => csum (fun j => w j * (Cconj (bstate b k x) * bstate b j x)) (bsize b))).
    2:{ intros x Hx. rewrite <- csum_scal_l. apply csum_ext. intros; ring. }
    rewrite csum_swap. rewrite (csum_ext _ (fun j => w j * cdelta k j)).
    - apply csum_delta_r. assumption.
    - intros j Hj. rewrite csum_scal_l. f_equal. apply Ob; assumption. }
  rewrite <- (E u), <- (E v). apply csum_ext. intros x Hx. rewrite H by assumption. reflexivity.
Qed.

Lemma momenta_orthonormal shape : Forall (fun n => (0 < n)%nat) shape -> orthonormal (momenta shape).
Proof. intros H. apply full_bases; [apply momenta_wf; assumption|apply momenta_full]. Qed.
Lemma momenta_complete shape : Forall (fun n => (0 < n)%nat) shape -> complete (momenta shape).
Proof. intros H. apply full_bases; [apply momenta_wf; assumption|apply momenta_full]. Qed.

Lemma grid_exists shape delta idx : exists x, grid_point shape delta idx x.
Proof. eexists. intros c Hc. reflexivity. Qed.

Lemma isum_conj shape : forall f, Cconj (isum shape f) = isum shape (fun k => Cconj (f k)).
Proof.
  induction shape as [|n shape IH]; intros f; [reflexivity|]. cbn [isum]. rewrite Cconj_csum. apply csum_ext.
  intros i Hi. apply IH.
Qed.

Lemma series_conj shape delta inv d x : is_inverse (length shape) delta inv -> Forall Nat.Odd shape ->
  Forall (fun n => (0 < n)%nat) shape ->
  Cconj (fourier_series shape inv d x) =
  fourier_series shape inv (fun j => Cconj (d (ravel shape (negate shape (unravel shape j))))) x.
Proof.
  intros Hi Ho Hp. destruct (fractional shape delta inv x Hi) as [t Ht].
  rewrite !(series_turns shape delta inv _ x t Hi Hp Ht).
  rewrite isum_conj.
  rewrite isum_negate. apply isum_ext. intros k Hk. rewrite !Cconj_mult, isqrt_conj, cis_conj.
  rewrite unravel_ravel by assumption. rewrite turns_negate by assumption.
  replace (- (2 * PI * - turns shape k t))%R with (2 * PI * turns shape k t)%R by ring. reflexivity.
Qed.

Lemma series_real shape delta inv d x : is_inverse (length shape) delta inv -> Forall Nat.Odd shape ->
  (forall i, (i < nprod shape)%nat -> snd (amplitude (momenta shape) d i) = 0%R) ->
  snd (fourier_series shape inv d x) = 0%R.
Proof.
  intros Hi Ho Hr.
  assert (Hp : Forall (fun n => (0 < n)%nat) shape).
  { eapply Forall_impl; [|exact Ho]. intros n [m Hm]. lia. }
  set (d' := fun j => Cconj (d (ravel shape (negate shape (unravel shape j))))).
  assert (E : forall k, (k < nprod shape)%nat -> d' k = d k).
  { rewrite <- (momenta_size shape). apply amplitude_injective; [apply momenta_orthonormal; assumption|].
    rewrite momenta_fund. intros i Hi'. rewrite <- (ravel_unravel shape i Hi').
    assert (In := unravel_in_shape shape i Hi').
    destruct (grid_exists shape delta (unravel shape i)) as [y Hy].
    rewrite <- !(series_grid shape delta inv _ _ y Hi In Hy). unfold d'. rewrite <- (series_conj shape delta) by assumption.
    apply Cconj_real. rewrite (series_grid shape delta inv _ _ y Hi In Hy). apply Hr. apply ravel_lt. assumption. }
  assert (F : Cconj (fourier_series shape inv d x) = fourier_series shape inv d x).
  { rewrite (series_conj shape delta) by assumption. fold d'. unfold fourier_series. apply csum_ext. intros j Hj.
    rewrite E by assumption. reflexivity. }
  destruct (fourier_series shape inv d x) as [a b]. unfold Cconj in F. simpl in F. injection F as F. simpl. lra.
Qed.

(** Derivative of a complex function of a real variable. *)
Lemma derive_rsum (f g : nat -> R -> R) (x : R) n (H : forall i, (i < n)%nat -> is_derive (f i) x (g i x)) :
  is_derive (fun t => rsum (fun i => f i t) n) x (rsum (fun i => g i x) n).
Proof.
  induction n as [|n IH]; simpl.
  - apply (is_derive_const (V := R_NormedModule)).
  - apply (is_derive_plus (V := R_NormedModule)); [apply IH; intros; apply H; lia|apply H; lia].
Qed.
Lemma fst_csum f n : fst (csum f n) = rsum (fun i => fst (f i)) n.
Proof. induction n as [|n IH]; [reflexivity|]. simpl. rewrite IH. reflexivity. Qed.
Lemma snd_csum f n : snd (csum f n) = rsum (fun i => snd (f i)) n.
Proof. induction n as [|n IH]; [reflexivity|]. simpl. rewrite IH. reflexivity. Qed.

Lemma rsum_moved (k x : nat -> R) c t n : (c < n)%nat ->
  rsum (fun e => k e * moved x c t e)%R n = (rsum (fun e => k e * x e) n + k c * (t - x c))%R.
Proof.
  intros Hc. rewrite (rsum_ext _ (fun e => k e * x e + rdelta e c * (k e * (t - x e)))%R).
  - rewrite rsum_plus, (rsum_delta (fun e => k e * (t - x e))%R) by assumption. reflexivity.
  - intros e He. unfold moved, rdelta. destruct (Nat.eqb e c); ring.
Qed.

Lemma series_derive shape inv d x c : (c < length shape)%nat ->
  cderivative (fun t => fourier_series shape inv d (moved x c t)) (x c)
    (fourier_series shape inv (fun j => Ci * RtoC (fundamental_stacked_k_points shape inv c j) * d j) x).
Proof.
  intros Hc. unfold cderivative, fourier_series. set (s := sqrt (INR (nprod shape))).
  set (k := fundamental_stacked_k_points shape inv).
  set (p := fun j => rsum (fun e => (k e j * x e)%R) (length shape)).
  rewrite fst_csum, snd_csum. split.
  - apply (is_derive_ext (fun t : R => rsum (fun j =>
        fst (d j * (cis (p j + k c j * (t - x c))%R / RtoC s))%C) (nprod shape))).
    { intros t. rewrite fst_csum. apply rsum_ext. intros j Hj. cbv zeta. rewrite (rsum_moved (fun e => k e j)) by assumption. reflexivity. }
    apply (derive_rsum (fun j (t : R) => fst (d j * (cis (p j + k c j * (t - x c))%R / RtoC s))%C)
             (fun j (t : R) => fst (Ci * RtoC (k c j) * d j * (cis (p j) / RtoC s))%C)).
    intros j Hj. unfold Cdiv, Cinv, Cmult, cis, Ci, RtoC. cbn [fst snd].
    generalize (s / (s ^ 2 + 0 ^ 2))%R (- 0 / (s ^ 2 + 0 ^ 2))%R. intros r1 r2. auto_derive; [trivial|].
    replace (x c + - x c)%R with 0%R by ring. rewrite Rmult_0_r, Rplus_0_r. ring.
  - apply (is_derive_ext (fun t : R => rsum (fun j =>
        snd (d j * (cis (p j + k c j * (t - x c))%R / RtoC s))%C) (nprod shape))).
    { intros t. rewrite snd_csum. apply rsum_ext. intros j Hj. cbv zeta. rewrite (rsum_moved (fun e => k e j)) by assumption. reflexivity. }
    apply (derive_rsum (fun j (t : R) => snd (d j * (cis (p j + k c j * (t - x c))%R / RtoC s))%C)
             (fun j (t : R) => snd (Ci * RtoC (k c j) * d j * (cis (p j) / RtoC s))%C)).
    intros j Hj. unfold Cdiv, Cinv, Cmult, cis, Ci, RtoC. cbn [fst snd].
    generalize (s / (s ^ 2 + 0 ^ 2))%R (- 0 / (s ^ 2 + 0 ^ 2))%R. intros r1 r2. auto_derive; [trivial|].
    replace (x c + - x c)%R with 0%R by ring. rewrite Rmult_0_r, Rplus_0_r. ring.
Qed.
