(** Simplified collapse operators and the approximate scattering function. *)
From Coq Require Import Reals Psatz.
From Coquelicot Require Import Coquelicot.
From Verif Require Import ZLib Csum DFT NumPy Index IndexProofs SpecReal Lattice LatticeProofs Basis SpecBasis BasisProofs Operator SpecOperator OperatorProofs Wavepacket Kernel
  Spectral HamiltonianProofs2 HamiltonianProofs3 Dynamics SpecDynamics DynamicsProofs DynamicsProofs2 DynamicsProofs4 DynamicsProofs6.
Local Open Scope R_scope.
Local Open Scope C_scope.

Lemma rsum_flat f n m : rsum f (n * m) = rsum (fun i => rsum (fun j => f (i * m + j)%nat) m) n.
Proof.
  assert (H : RtoC (rsum f (n * m)) = RtoC (rsum (fun i => rsum (fun j => f (i * m + j)%nat) m) n)).
  { rewrite <- csum_RtoC, csum_mul, <- csum_RtoC. apply csum_ext. intros i _. rewrite csum_RtoC. reflexivity. }
  apply (f_equal fst) in H. exact H.
Qed.

Lemma hop_index n k : (2 <= n)%nat -> python_index n (hop_step k) = Some (moved_by n 0 (hop_step k)).
Proof.
  intros Hn. unfold python_index, moved_by. destruct k as [|[|k]]; cbn [hop_step].
  - rewrite (proj2 (Z.ltb_lt 0 (Z.of_nat n))) by lia. cbn [Z.leb Z.compare andb]. rewrite Z.mod_small by lia. reflexivity.
  - rewrite (proj2 (Z.ltb_lt 1 (Z.of_nat n))) by lia. cbn [Z.leb Z.compare andb]. rewrite Z.mod_small by lia. reflexivity.
  - cbn [Z.leb Z.compare andb]. rewrite (proj2 (Z.leb_le (- Z.of_nat n) (-1))) by lia. cbn [Z.ltb Z.compare andb].
    replace (Z.of_nat 0 + -1)%Z with (Z.of_nat n - 1 + (-1) * Z.of_nat n)%Z by lia. rewrite Z.mod_add by lia. rewrite Z.mod_small by lia.
    f_equal. f_equal. lia.
Qed.

Lemma site_mod n1 nb x0 x1 b : (b < nb)%nat -> (site n1 nb x0 x1 b mod nb = b)%nat.
Proof. intros H. unfold site. apply mod_add_small. exact H. Qed.

(** The threshold applied to a rate. *)
Definition kept_rate (v : R) : R := if Rlt_dec v 1 then 0%R else v.

Lemma simplified_spec n0 n1 nb m factor : (2 <= n0)%nat -> (2 <= n1)%nat -> square (n0 * n1 * nb) m ->
  exists ops, get_simplified_collapse_operators n0 n1 nb (odata m) factor = Some ops /\
  forall x0 x1 b0 y0 y1 b1, (x0 < n0)%nat -> (x1 < n1)%nat -> (b0 < nb)%nat -> (y0 < n0)%nat -> (y1 < n1)%nat -> (b1 < nb)%nat ->
    jump_rate ops (site n1 nb y0 y1 b1) (site n1 nb x0 x1 b0) =
    if Nat.eqb b0 b1 then 0%R else
    rsum (fun hop => if hops_to n0 n1 hop x0 x1 y0 y1
      then kept_rate (factor * fst (op_entry m (site n1 nb 0 0 b0) (site n1 nb (moved_by n0 0 (hop_step (hop / 3))) (moved_by n1 0 (hop_step (hop mod 3))) b1)))
      else 0)%R 9.
Proof.
  intros H0 H1 [Hw [Hro Hco]]. unfold op_wf in Hw. rewrite Hro, Hco in Hw.
  unfold get_simplified_collapse_operators, reshape. rewrite Hw.
  replace (n0 * n1 * nb * (n0 * n1 * nb) =? nprod [n0; n1; nb; n0; n1; nb])%nat with true.
  2:{ symmetry. apply Nat.eqb_eq. cbn [nprod]. ring. }
  rewrite (proj2 (Nat.eqb_neq n0 0)), (proj2 (Nat.eqb_neq n1 0)) by lia. cbn [orb].
  match goal with |- context [Kernel.all_some (map ?f _)] => set (g := f) end.
  set (val := fun b0 b1 hop => (factor * fst (op_entry m (site n1 nb 0 0 b0) (site n1 nb (moved_by n0 0 (hop_step (hop / 3))) (moved_by n1 0 (hop_step (hop mod 3))) b1)))%R).
  assert (G : forall b0 b1 hop, (b0 < nb)%nat -> (b1 < nb)%nat -> (hop < 9)%nat -> exists l, g ((b0 * nb + b1) * 9 + hop)%nat = Some l /\
    forall x0 x1 a0 y0 y1 a1, (x0 < n0)%nat -> (x1 < n1)%nat -> (a0 < nb)%nat -> (y0 < n0)%nat -> (y1 < n1)%nat -> (a1 < nb)%nat ->
      jump_rate l (site n1 nb y0 y1 a1) (site n1 nb x0 x1 a0) =
      if (a0 =? b0)%nat && (a1 =? b1)%nat && negb (b0 =? b1)%nat && hops_to n0 n1 hop x0 x1 y0 y1 then kept_rate (val b0 b1 hop) else 0%R).
  { intros b0 b1 hop Hb0 Hb1 Hh. unfold g. cbv beta zeta.
    replace (((b0 * nb + b1) * 9 + hop) / (9 * nb))%nat with b0.
    2:{ rewrite <- Nat.div_div by lia. rewrite div_add_small by exact Hh. rewrite div_add_small by exact Hb1. reflexivity. }
    rewrite (div_add_small (b0 * nb + b1) hop 9 Hh) || rewrite div_add_small by exact Hh. rewrite !mod_add_small by assumption.
    destruct (Nat.eqb_spec b0 b1) as [<-|Hne].
    { eexists. split; [reflexivity|]. intros. cbn [negb]. rewrite andb_false_r. reflexivity. }
    rewrite (hop_shift_spec hop Hh). destruct (hop_operator hop n0 n1 Hh) as [o [-> Ho]]. cbn [nth].
    rewrite !hop_index by assumption. cbn [aflat].
    replace (aflat (odata m) (ravel [n0; n1; nb; n0; n1; nb] [0%nat; 0%nat; b0; moved_by n0 0 (hop_step (hop / 3)); moved_by n1 0 (hop_step (hop mod 3)); b1]))
      with (op_entry m (site n1 nb 0 0 b0) (site n1 nb (moved_by n0 0 (hop_step (hop / 3))) (moved_by n1 0 (hop_step (hop mod 3))) b1)).
    2:{ unfold op_entry. rewrite Hco. f_equal. unfold site. generalize (moved_by n0 0 (hop_step (hop / 3))) (moved_by n1 0 (hop_step (hop mod 3))). intros u v.
        cbn [ravel nprod]. ring. }
    fold (val b0 b1 hop). unfold kept_rate. destruct (Rlt_dec (val b0 b1 hop) 1) as [Hv|Hv].
    { eexists. split; [reflexivity|]. intros. destruct (_ && _); reflexivity. }
    eexists. split; [reflexivity|]. intros x0 x1 a0 y0 y1 a1 Hx0 Hx1 Ha0 Hy0 Hy1 Ha1.
    cbn [jump_rate fold_right]. rewrite Rplus_0_r. rewrite !site_mod by assumption.
    destruct (Nat.eqb_spec a1 b1) as [->|N1], (Nat.eqb_spec a0 b0) as [->|N0]; cbn [andb negb]; try (unfold Cnorm2; cbn; ring).
    unfold site. rewrite !div_add_small, !mod_add_small by assumption. rewrite Ho by assumption.
    rewrite ?Nat.eqb_refl; cbn [andb]; destruct (hops_to n0 n1 hop x0 x1 y0 y1); [|rewrite Cmult_0_r; unfold Cnorm2; cbn; ring].
    rewrite Cmult_1_r, Cnorm2_RtoC. apply sqrt_sqrt. lra. }
  destruct (kernel_all_some g [] (seq 0 (nb * nb * 9)) 0%nat) as [l [E [Len Nth]]].
  { intros t Ht. apply in_seq in Ht.
    assert (B : (t / 9 < nb * nb)%nat) by (apply Nat.div_lt_upper_bound; lia).
    assert (Hnb : (nb <> 0)%nat) by (intros ->; lia).
    destruct (G (t / 9 / nb)%nat ((t / 9) mod nb)%nat (t mod 9)%nat) as [l [El _]].
    - apply Nat.div_lt_upper_bound; lia.
    - apply Nat.mod_upper_bound. exact Hnb.
    - apply Nat.mod_upper_bound. lia.
    - exists l. rewrite <- El. f_equal. rewrite (Nat.div_mod t 9) at 1 by lia. rewrite (Nat.div_mod (t / 9) nb) at 1 by exact Hnb. ring. }
  rewrite E. eexists. split; [reflexivity|]. intros x0 x1 b0 y0 y1 b1 Hx0 Hx1 Hb0 Hy0 Hy1 Hb1.
  rewrite (jump_rate_concat _ _ _ []). rewrite Len, seq_length. rewrite rsum_flat, rsum_flat.
  assert (V : forall a0 a1 hop, (a0 < nb)%nat -> (a1 < nb)%nat -> (hop < 9)%nat ->
    jump_rate (nth ((a0 * nb + a1) * 9 + hop) l []) (site n1 nb y0 y1 b1) (site n1 nb x0 x1 b0) =
    if (b0 =? a0)%nat && (b1 =? a1)%nat && negb (a0 =? a1)%nat && hops_to n0 n1 hop x0 x1 y0 y1 then kept_rate (val a0 a1 hop) else 0%R).
  { intros a0 a1 hop Ha0 Ha1 Hh. destruct (G a0 a1 hop Ha0 Ha1 Hh) as [l' [El' Hl']].
    assert (T : ((a0 * nb + a1) * 9 + hop < nb * nb * 9)%nat) by nia.
    specialize (Nth ((a0 * nb + a1) * 9 + hop)%nat). rewrite seq_length in Nth. specialize (Nth T). rewrite seq_nth in Nth by exact T.
    rewrite Nat.add_0_l, El' in Nth. injection Nth as <-. apply Hl'; assumption. }
  rewrite (rsum_single _ nb b0 Hb0).
  - rewrite (rsum_single _ nb b1 Hb1).
    + destruct (Nat.eqb b0 b1) eqn:Eb.
      * transitivity (rsum (fun _ => 0%R) 9); [|apply rsum_const0]. apply rsum_ext. intros hop Hh. rewrite V by assumption.
        rewrite Eb, andb_false_r. reflexivity.
      * apply rsum_ext. intros hop Hh. rewrite V by assumption. rewrite Eb, !Nat.eqb_refl. reflexivity.
    + intros a1 Ha1 Hne. transitivity (rsum (fun _ => 0%R) 9); [|apply rsum_const0]. apply rsum_ext. intros hop Hh. rewrite V by assumption.
      rewrite (proj2 (Nat.eqb_neq b1 a1)) by auto. rewrite andb_false_r. reflexivity.
  - intros a0 Ha0 Hne. transitivity (rsum (fun _ => 0%R) nb); [|apply rsum_const0]. apply rsum_ext. intros a1 Ha1.
    transitivity (rsum (fun _ => 0%R) 9); [|apply rsum_const0]. apply rsum_ext. intros hop Hh. rewrite V by assumption.
    rewrite (proj2 (Nat.eqb_neq b0 a0)) by auto. reflexivity.
Qed.

(** For rates that do not depend on the absolute position. *)
Lemma simplified_invariant n0 n1 nb m factor ops : (3 <= n0)%nat -> (3 <= n1)%nat -> square (n0 * n1 * nb) m ->
  (forall x0 x1 b0 y0 y1 b1 d0 d1, (x0 < n0)%nat -> (x1 < n1)%nat -> (b0 < nb)%nat -> (y0 < n0)%nat -> (y1 < n1)%nat -> (b1 < nb)%nat ->
     op_entry m (site n1 nb (moved_by n0 x0 d0) (moved_by n1 x1 d1) b0) (site n1 nb (moved_by n0 y0 d0) (moved_by n1 y1 d1) b1) =
     op_entry m (site n1 nb x0 x1 b0) (site n1 nb y0 y1 b1)) ->
  get_simplified_collapse_operators n0 n1 nb (odata m) factor = Some ops ->
  forall x0 x1 b0 hop b1, (x0 < n0)%nat -> (x1 < n1)%nat -> (b0 < nb)%nat -> (hop < 9)%nat -> (b1 < nb)%nat -> b0 <> b1 ->
    let y0 := moved_by n0 x0 (hop_step (hop / 3)) in let y1 := moved_by n1 x1 (hop_step (hop mod 3)) in
    jump_rate ops (site n1 nb y0 y1 b1) (site n1 nb x0 x1 b0) =
    kept_rate (factor * fst (op_entry m (site n1 nb x0 x1 b0) (site n1 nb y0 y1 b1))).
Proof.
  intros H0 H1 Hm Hinv Eo x0 x1 b0 hop b1 Hx0 Hx1 Hb0 Hh Hb1 Hne y0 y1.
  destruct (simplified_spec n0 n1 nb m factor ltac:(lia) ltac:(lia) Hm) as [ops' [Eo' S]]. rewrite Eo in Eo'. injection Eo' as <-.
  assert (Hy0 : (y0 < n0)%nat) by (apply moved_lt; lia). assert (Hy1 : (y1 < n1)%nat) by (apply moved_lt; lia).
  rewrite S by assumption. rewrite (proj2 (Nat.eqb_neq b0 b1) Hne).
  assert (Hself : hops_to n0 n1 hop x0 x1 y0 y1 = true) by (unfold hops_to, y0, y1; rewrite !Nat.eqb_refl; reflexivity).
  rewrite (rsum_single _ 9 hop Hh).
  - rewrite Hself. f_equal. f_equal. f_equal.
    rewrite <- (Hinv 0%nat 0%nat b0 (moved_by n0 0 (hop_step (hop / 3))) (moved_by n1 0 (hop_step (hop mod 3))) b1 (Z.of_nat x0) (Z.of_nat x1)); try assumption; try lia; try (apply moved_lt; lia).
    rewrite !moved_moved by lia.
    assert (Q : forall n x s, moved_by n 0 (s + Z.of_nat x) = moved_by n x s) by (intros; unfold moved_by; f_equal; f_equal; lia).
    assert (Q' : forall n x, (x < n)%nat -> moved_by n 0 (Z.of_nat x) = x).
    { intros n x Hx. unfold moved_by. rewrite Z.add_0_l, Z.mod_small by lia. lia. }
    rewrite !Q, !Q' by assumption. reflexivity.
  - intros h Hh' Hn. destruct (hops_to n0 n1 h x0 x1 y0 y1) eqn:Eh; [|reflexivity].
    exfalso. apply Hn. apply (hops_distinct n0 n1 h hop x0 x1 y0 y1); assumption.
Qed.

(** ** The approximate scattering function *)
Lemma isf_none b n0 n1 inv initial final dk :
  calculate_isf_approximate_locations b n0 n1 inv initial final dk = None <-> rsum initial (nprod [n0; n1; band_count b]) = 0%R.
Proof.
  unfold calculate_isf_approximate_locations. destruct (Req_EM_T _ 0) as [E|E]; split; intros H; try reflexivity; try assumption; try discriminate.
  contradiction.
Qed.
Lemma cexp_unit x : Cmod (cexp (Ci * RtoC x)) = 1%R.
Proof. rewrite cexp_mod. replace (fst (Ci * RtoC x)) with 0%R by (cbn; ring). apply exp_0. Qed.
Lemma isf_bound b n0 n1 inv initial final dk isf s :
  calculate_isf_approximate_locations b n0 n1 inv initial final dk = Some isf ->
  (forall x, (x < nprod [n0; n1; band_count b])%nat -> (0 <= final s x)%R) -> rsum (final s) (nprod [n0; n1; band_count b]) = 1%R ->
  (Cmod (isf s) <= 1)%R.
Proof.
  unfold calculate_isf_approximate_locations. destruct (Req_EM_T _ 0) as [E|E]; [discriminate|]. intros H Hp Hs. injection H as <-.
  rewrite <- Hs. eapply Rle_trans; [apply Cmod_csum|]. apply rsum_le. intros x Hx. rewrite Cmod_mult, cexp_unit, Rmult_1_l.
  rewrite Cmod_R, Rabs_pos_eq by (apply Hp; exact Hx). lra.
Qed.
Lemma isf_still b n0 n1 inv initial final dk isf s :
  calculate_isf_approximate_locations b n0 n1 inv initial final dk = Some isf -> dk 0%nat = 0%R -> dk 1%nat = 0%R ->
  isf s = RtoC (rsum (final s) (nprod [n0; n1; band_count b])).
Proof.
  unfold calculate_isf_approximate_locations. destruct (Req_EM_T _ 0) as [E|E]; [discriminate|]. intros H H0 H1. injection H as <-.
  rewrite <- csum_RtoC. apply csum_ext. intros x _.
  match goal with |- cexp (Ci * RtoC ?r) * _ = _ => replace r with 0%R by (cbn [rsum]; rewrite H0, H1; ring) end.
  rewrite Cmult_0_r, cexp_0. ring.
Qed.
Lemma cexp_period x z : cexp (Ci * RtoC (x + 2 * PI * IZR z)%R) = cexp (Ci * RtoC x).
Proof.
  unfold cexp. replace (fst (Ci * RtoC (x + 2 * PI * IZR z)%R)) with 0%R by (cbn; ring). replace (fst (Ci * RtoC x)) with 0%R by (cbn; ring).
  replace (snd (Ci * RtoC (x + 2 * PI * IZR z)%R)) with (x + 2 * PI * IZR z)%R by (cbn; ring). replace (snd (Ci * RtoC x)) with x by (cbn; ring).
  rewrite cis_plus. rewrite cis_2PI_Z. ring.
Qed.
Lemma isf_unwrapped b n0 n1 inv initial final dk isf s :
  is_inverse 2 (supercell_vectors b n0 n1) inv ->
  (forall a, (a < 2)%nat -> exists z : Z, rsum (fun c => dk c * supercell_vectors b n0 n1 a c)%R 2 = (2 * PI * IZR z)%R) ->
  calculate_isf_approximate_locations b n0 n1 inv initial final dk = Some isf ->
  let n := nprod [n0; n1; band_count b] in
  let mean c := (rsum (fun x => approximate_location b n0 n1 x c * initial x) n / rsum initial n)%R in
  isf s = csum (fun x => cexp (Ci * RtoC (rsum (fun c => dk c * (approximate_location b n0 n1 x c - mean c))%R 2)) * RtoC (final s x)) n.
Proof.
  intros Hinv Hdk H n mean. revert H. unfold calculate_isf_approximate_locations. fold n. destruct (Req_EM_T _ 0) as [E|E]; [discriminate|]. intros H. injection H as <-.
  apply csum_ext. intros x _. f_equal.
  destruct (wrap_x_point_spec 2 (supercell_vectors b n0 n1) inv
    (fun c => approximate_location b n0 n1 x c - rsum (fun x => approximate_location b n0 n1 x c * initial x) n / rsum initial n)%R None Hinv) as [[z Hz] _].
  destruct (Hdk 0%nat ltac:(lia)) as [k0 K0]. destruct (Hdk 1%nat ltac:(lia)) as [k1 K1].
  match goal with |- cexp (Ci * RtoC ?A) = _ => replace A with
    (rsum (fun c => dk c * (approximate_location b n0 n1 x c - mean c) + dk c * rsum (fun a => IZR (z a) * supercell_vectors b n0 n1 a c) 2)%R 2) end.
  2:{ pose proof (Hz 0%nat ltac:(lia)) as Z0. pose proof (Hz 1%nat ltac:(lia)) as Z1. rewrite Z0, Z1. unfold mean.
      clearbody n. cbn [rsum].
      generalize (rsum (fun x0 => approximate_location b n0 n1 x0 0 * initial x0)%R n) (rsum (fun x0 => approximate_location b n0 n1 x0 1 * initial x0)%R n).
      intros. ring. }
  rewrite rsum_plus.
  replace (rsum (fun c => dk c * rsum (fun a => IZR (z a) * supercell_vectors b n0 n1 a c) 2)%R 2) with (2 * PI * IZR (z 0%nat * k0 + z 1%nat * k1))%R.
  - apply cexp_period.
  - rewrite plus_IZR, !mult_IZR. cbn [rsum] in K0, K1 |- *.
    transitivity (IZR (z 0%nat) * (2 * PI * IZR k0) + IZR (z 1%nat) * (2 * PI * IZR k1))%R; [ring|]. rewrite <- K0, <- K1. ring.
Qed.
