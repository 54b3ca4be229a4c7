(** The projected axes are an orthonormal system (Gram and Schmidt). *)
From Coq Require Import Reals Lra Lia Psatz.
From Verif Require Import ZLib Csum DFT NumPy Index Basis Lattice SpecReal LatticeProofs SpecHamiltonian Paths SpecPaths.
Local Open Scope R_scope.

Section GramSchmidt.
  Variable nd : nat.
  Let zero : nat -> R := fun _ => 0.

  Lemma dot_sym u v : dot nd u v = dot nd v u.
  Proof. apply rsum_ext. intros. ring. Qed.
  Lemma dot_ext u u' v v' : (forall c, (c < nd)%nat -> u c = u' c) -> (forall c, (c < nd)%nat -> v c = v' c) -> dot nd u v = dot nd u' v'.
  Proof. intros H H'. apply rsum_ext. intros c Hc. rewrite H, H' by exact Hc. reflexivity. Qed.
  Lemma dot_sub u v w : dot nd u (fun c => v c - w c) = dot nd u v - dot nd u w.
  Proof.
    unfold dot. replace (rsum (fun c => u c * v c) nd - rsum (fun c => u c * w c) nd) with (rsum (fun c => u c * v c) nd + (-1) * rsum (fun c => u c * w c) nd) by ring.
    rewrite <- LatticeProofs.rsum_scal_l, <- LatticeProofs.rsum_plus. apply rsum_ext. intros. ring.
  Qed.
  Lemma dot_scale u v k : dot nd u (fun c => k * v c) = k * dot nd u v.
  Proof. unfold dot. rewrite <- LatticeProofs.rsum_scal_l. apply rsum_ext. intros. ring. Qed.
  Lemma dot_sum u (k : nat -> R) (v : nat -> nat -> R) n : dot nd u (fun c => rsum (fun i => k i * v i c) n) = rsum (fun i => k i * dot nd u (v i)) n.
  Proof.
    unfold dot. transitivity (rsum (fun c => rsum (fun i => u c * (k i * v i c)) n) nd).
    - apply rsum_ext. intros c Hc. symmetry. apply LatticeProofs.rsum_scal_l.
    - rewrite LatticeProofs.rsum_swap. apply rsum_ext. intros i Hi. rewrite <- LatticeProofs.rsum_scal_l. apply rsum_ext. intros. ring.
  Qed.

  Definition orthonormal_list (es : list (nat -> R)) : Prop :=
    forall i j, (i < length es)%nat -> (j < length es)%nat -> dot nd (nth i es zero) (nth j es zero) = if Nat.eqb i j then 1 else 0.

  Lemma rsum_pick (f : nat -> R) n j : (j < n)%nat -> rsum (fun i => f i * (if Nat.eqb j i then 1 else 0)) n = f j.
  Proof.
    intros Hj. rewrite <- (LatticeProofs.rsum_delta' f n j Hj). apply rsum_ext. intros i Hi. unfold rdelta. destruct (Nat.eqb j i); ring.
  Qed.

  Lemma subtract_spec es : orthonormal_list es -> forall v c,
    subtract_projections nd es v c = v c - rsum (fun i => dot nd (nth i es zero) v * nth i es zero c) (length es).
  Proof.
    induction es as [|e es IH] using rev_ind; intros O v c.
    - cbn. ring.
    - unfold subtract_projections. rewrite fold_left_app. cbn [fold_left]. fold (subtract_projections nd es v).
      assert (O' : orthonormal_list es).
      { intros i j Hi Hj. specialize (O i j). rewrite app_length in O. cbn in O. rewrite !app_nth1 in O by assumption. apply O; lia. }
      specialize (IH O'). rewrite app_length. cbn [length]. rewrite Nat.add_1_r, rsum_S.
      rewrite app_nth2, Nat.sub_diag by lia. cbn [nth].
      rewrite (rsum_ext _ (fun i => dot nd (nth i es zero) v * nth i es zero c)).
      2: { intros i Hi. rewrite app_nth1 by exact Hi. reflexivity. }
      rewrite IH. change (np_dot nd e) with (dot nd e).
      assert (D : dot nd e (subtract_projections nd es v) = dot nd e v).
      { rewrite (dot_ext e e _ (fun c => v c - rsum (fun i => dot nd (nth i es zero) v * nth i es zero c) (length es))) by (intros; auto).
        rewrite dot_sub, (dot_sum e (fun i => dot nd (nth i es zero) v) (fun i => nth i es zero)).
        rewrite (rsum_ext _ (fun _ => 0)), rsum_const0; [ring|]. intros i Hi.
        specialize (O (length es) i). rewrite app_length in O. cbn [length] in O. rewrite app_nth2, Nat.sub_diag, app_nth1 in O by lia. cbn [nth] in O.
        rewrite O by lia. replace (Nat.eqb (length es) i) with false by (symmetry; apply Nat.eqb_neq; lia). ring. }
      rewrite D. ring.
  Qed.

  Lemma subtract_orthogonal es v j : orthonormal_list es -> (j < length es)%nat -> dot nd (nth j es zero) (subtract_projections nd es v) = 0.
  Proof.
    intros O Hj. rewrite (dot_ext _ (nth j es zero) _ (fun c => v c - rsum (fun i => dot nd (nth i es zero) v * nth i es zero c) (length es)) (fun _ _ => eq_refl) (fun c _ => subtract_spec es O v c)).
    rewrite dot_sub, (dot_sum _ (fun i => dot nd (nth i es zero) v) (fun i => nth i es zero)).
    rewrite (rsum_ext _ (fun i => dot nd (nth i es zero) v * (if Nat.eqb j i then 1 else 0))).
    2: { intros i Hi. rewrite O by assumption. reflexivity. }
    rewrite rsum_pick by exact Hj. ring.
  Qed.

  Lemma norm_square v : norm nd v * norm nd v = dot nd v v.
  Proof. unfold norm, dot. apply sqrt_sqrt. apply rsum_nonneg. intros. apply Rle_0_sqr. Qed.
  Lemma norm_zero v : norm nd v = 0 -> forall c, (c < nd)%nat -> v c = 0.
  Proof.
    intros H c Hc. pose proof (norm_square v) as N. rewrite H in N. unfold dot in N.
    assert (Z : v c * v c = 0).
    { apply (Csum.rsum_zero_nonneg (fun c => v c * v c) nd); [intros; apply Rle_0_sqr|lra|exact Hc]. }
    apply Rsqr_0_uniq. exact Z.
  Qed.
  Lemma norm_nonneg v : 0 <= norm nd v.
  Proof. apply sqrt_pos. Qed.

  Variable delta : nat -> nat -> R.

  Record inv (done : list nat) (es : list (nat -> R)) : Prop := {
    inv_length : length es = length done;
    inv_axes : Forall (fun a => (a < nd)%nat) done;
    inv_ortho : orthonormal_list es;
    inv_span : exists s : nat -> nat -> R, forall i c, (i < length done)%nat -> (c < nd)%nat ->
      nth i es zero c = rsum (fun m => s i m * delta (nth m done 0%nat) c) (length done);
    inv_upper : forall i j, (j < i)%nat -> (i < length done)%nat -> dot nd (nth i es zero) (delta (nth j done 0%nat)) = 0;
    inv_diag : forall j, (j < length done)%nat -> 0 < dot nd (nth j es zero) (delta (nth j done 0%nat));
    inv_expand : forall j c, (j < length done)%nat -> (c < nd)%nat ->
      delta (nth j done 0%nat) c = rsum (fun i => dot nd (nth i es zero) (delta (nth j done 0%nat)) * nth i es zero c) (length done)
  }.

  Lemma inv_nil : inv [] [].
  Proof.
    constructor; cbn; try reflexivity; try (intros; lia); [constructor|intros i j Hi; cbn in Hi; lia|exists (fun _ _ => 0); intros; lia].
  Qed.

  Lemma inv_step done es ax (w := subtract_projections nd es (delta ax)) : inv done es -> (ax < nd)%nat -> norm nd w <> 0 ->
    inv (done ++ [ax]) (es ++ [fun c => w c / norm nd w]).
  Proof.
    intros [L A Oo [s Sp] U D X] Hax Hn. pose proof (norm_nonneg w) as Np. assert (Np' : 0 < norm nd w) by lra.
    set (e := fun c => w c / norm nd w). set (k := length done) in *.
    assert (Ee : forall u, dot nd u e = / norm nd w * dot nd u w).
    { intros u. rewrite <- dot_scale. apply dot_ext; [reflexivity|]. intros. unfold e. field. exact Hn. }
    assert (Oe : forall i, (i < k)%nat -> dot nd (nth i es zero) e = 0).
    { intros i Hi. rewrite Ee. unfold w. rewrite subtract_orthogonal; [ring|exact Oo|lia]. }
    assert (E1 : dot nd e e = 1).
    { rewrite Ee, dot_sym, Ee, <- norm_square. field. exact Hn. }
    assert (Ws : forall c, w c = delta ax c - rsum (fun i => dot nd (nth i es zero) (delta ax) * nth i es zero c) k).
    { intros c. unfold w. rewrite (subtract_spec es Oo). rewrite L. reflexivity. }
    assert (De : dot nd e (delta ax) = norm nd w).
    { assert (Q : dot nd e w = dot nd e (delta ax)).
      { rewrite (dot_ext e e w (fun c => delta ax c - rsum (fun i => dot nd (nth i es zero) (delta ax) * nth i es zero c) k)) by (intros; auto).
        rewrite dot_sub, (dot_sum e (fun i => dot nd (nth i es zero) (delta ax)) (fun i => nth i es zero)).
        rewrite (rsum_ext _ (fun _ => 0)), rsum_const0; [ring|]. intros i Hi. rewrite (dot_sym e), Oe by exact Hi. ring. }
      rewrite <- Q, dot_sym, Ee, <- norm_square. field. exact Hn. }
    assert (N1 : forall i, (i < k)%nat -> nth i (es ++ [e]) zero = nth i es zero) by (intros; apply app_nth1; lia).
    assert (N2 : nth k (es ++ [e]) zero = e) by (rewrite app_nth2 by lia; rewrite L, Nat.sub_diag; reflexivity).
    assert (N3 : forall i, (i < k)%nat -> nth i (done ++ [ax]) 0%nat = nth i done 0%nat) by (intros; apply app_nth1; assumption).
    assert (N4 : nth k (done ++ [ax]) 0%nat = ax) by (rewrite app_nth2 by (fold k; lia); fold k; rewrite Nat.sub_diag; reflexivity).
    assert (L' : length (done ++ [ax]) = S k) by (rewrite app_length; cbn; fold k; lia).
    assert (Le : length (es ++ [e]) = S k) by (rewrite app_length; cbn; lia).
    constructor; rewrite ?L', ?Le.
    - reflexivity.
    - apply Forall_app. split; [exact A|constructor; [exact Hax|constructor]].
    - intros i j Hi Hj. rewrite Le in Hi, Hj. destruct (Nat.eq_dec i k) as [->|Hik], (Nat.eq_dec j k) as [->|Hjk].
      + rewrite N2, Nat.eqb_refl. exact E1.
      + rewrite N2, N1 by lia. rewrite dot_sym, Oe by lia. replace (Nat.eqb k j) with false; [reflexivity|]. symmetry. apply Nat.eqb_neq. lia.
      + rewrite N2, N1 by lia. rewrite Oe by lia. replace (Nat.eqb i k) with false; [reflexivity|]. symmetry. apply Nat.eqb_neq. lia.
      + rewrite !N1 by lia. apply Oo; lia.
    - exists (fun i m => if Nat.eqb i k then (if Nat.eqb m k then / norm nd w else - / norm nd w * rsum (fun l => dot nd (nth l es zero) (delta ax) * s l m) k)
                         else if Nat.eqb m k then 0 else s i m).
      intros i c Hi Hc. rewrite rsum_S, N4.
      rewrite (rsum_ext _ (fun m => (if Nat.eqb i k then - / norm nd w * rsum (fun l => dot nd (nth l es zero) (delta ax) * s l m) k else s i m) * delta (nth m done 0%nat) c)).
      2: { intros m Hm. rewrite N3 by exact Hm. replace (Nat.eqb m k) with false by (symmetry; apply Nat.eqb_neq; lia). reflexivity. }
      rewrite Nat.eqb_refl. destruct (Nat.eqb_spec i k) as [->|Hik].
      + rewrite N2. unfold e. rewrite Ws.
        rewrite (rsum_ext (fun i => dot nd (nth i es zero) (delta ax) * nth i es zero c) (fun i => dot nd (nth i es zero) (delta ax) * rsum (fun m => s i m * delta (nth m done 0%nat) c) k)).
        2: { intros l Hl. rewrite Sp by assumption. reflexivity. }
        transitivity (/ norm nd w * delta ax c - / norm nd w * rsum (fun l => rsum (fun m => dot nd (nth l es zero) (delta ax) * s l m * delta (nth m done 0%nat) c) k) k).
        { unfold Rdiv. rewrite Rmult_minus_distr_r. f_equal; [ring|]. rewrite Rmult_comm. f_equal. apply rsum_ext. intros l Hl. rewrite <- LatticeProofs.rsum_scal_l. apply rsum_ext. intros. ring. }
        rewrite LatticeProofs.rsum_swap.
        transitivity (/ norm nd w * delta ax c + rsum (fun m => - / norm nd w * rsum (fun l => dot nd (nth l es zero) (delta ax) * s l m) k * delta (nth m done 0%nat) c) k); [|ring].
        unfold Rminus. f_equal. rewrite Ropp_mult_distr_l, <- LatticeProofs.rsum_scal_l. apply rsum_ext. intros m Hm.
        rewrite Rmult_assoc. f_equal. rewrite <- LatticeProofs.rsum_scal_r. reflexivity.
      + rewrite N1 by lia. rewrite Sp by lia. ring.
    - intros i j Hji Hi. destruct (Nat.eq_dec i k) as [->|Hik].
      + rewrite N2, N3 by lia.
        rewrite (dot_ext e e _ (fun c => rsum (fun i => dot nd (nth i es zero) (delta (nth j done 0%nat)) * nth i es zero c) k)); [|reflexivity|intros c Hc; apply X; [lia|exact Hc]].
        rewrite (dot_sum e (fun i => dot nd (nth i es zero) (delta (nth j done 0%nat))) (fun i => nth i es zero)).
        rewrite (rsum_ext _ (fun _ => 0)), rsum_const0; [reflexivity|]. intros l Hl. rewrite (dot_sym e), Oe by exact Hl. ring.
      + rewrite N1, N3 by lia. apply U; lia.
    - intros j Hj. destruct (Nat.eq_dec j k) as [->|Hjk].
      + rewrite N2, N4, De. exact Np'.
      + rewrite N1, N3 by lia. apply D. lia.
    - intros j c Hj Hc. rewrite rsum_S, N2. destruct (Nat.eq_dec j k) as [->|Hjk].
      + rewrite N4, De. rewrite (rsum_ext _ (fun i => dot nd (nth i es zero) (delta ax) * nth i es zero c)) by (intros; rewrite N1 by assumption; reflexivity).
        unfold e. rewrite Ws. field. exact Hn.
      + rewrite N3 by lia.
        rewrite (rsum_ext _ (fun i => dot nd (nth i es zero) (delta (nth j done 0%nat)) * nth i es zero c)) by (intros; rewrite N1 by assumption; reflexivity).
        rewrite <- X by lia.
        assert (Z : dot nd e (delta (nth j done 0%nat)) = 0).
        { rewrite (dot_ext e e _ (fun c => rsum (fun i => dot nd (nth i es zero) (delta (nth j done 0%nat)) * nth i es zero c) k)); [|reflexivity|intros c' Hc'; apply X; [lia|exact Hc']].
          rewrite (dot_sum e (fun i => dot nd (nth i es zero) (delta (nth j done 0%nat))) (fun i => nth i es zero)).
          rewrite (rsum_ext _ (fun _ => 0)), rsum_const0; [reflexivity|]. intros l Hl. rewrite (dot_sym e), Oe by exact Hl. ring. }
        rewrite Z. ring.
  Qed.

  Lemma loop_spec axes : forall done es, inv done es ->
    match projected_axes nd delta es axes with
    | Some es' => inv (done ++ axes) es'
    | None => (exists a, In a axes /\ (nd <= a)%nat) \/
        exists j, (j < length (done ++ axes))%nat /\ depends_on_earlier nd (fun i => delta (nth i (done ++ axes) 0%nat)) j
    end.
  Proof.
    induction axes as [|ax axes IH]; intros done es I.
    - cbn. rewrite app_nil_r. exact I.
    - cbn [projected_axes]. destruct (Nat.ltb_spec ax nd) as [Hax|Hax].
      2: { left. exists ax. split; [left; reflexivity|exact Hax]. }
      destruct (Req_EM_T _ 0) as [Z|Z].
      + right. exists (length done). split; [rewrite app_length; cbn; lia|]. destruct I as [L A Oo [s Sp] U D X].
        exists (fun m => rsum (fun i => dot nd (nth i es zero) (delta ax) * s i m) (length done)). intros c Hc.
        rewrite app_nth2, Nat.sub_diag by lia. cbn [nth].
        pose proof (norm_zero _ Z c Hc) as W. rewrite (subtract_spec es Oo), L in W.
        transitivity (rsum (fun i => dot nd (nth i es zero) (delta ax) * nth i es zero c) (length done)); [lra|].
        transitivity (rsum (fun i => rsum (fun m => dot nd (nth i es zero) (delta ax) * s i m * delta (nth m done 0%nat) c) (length done)) (length done)).
        { apply rsum_ext. intros i Hi. rewrite Sp by assumption. rewrite <- LatticeProofs.rsum_scal_l. apply rsum_ext. intros. ring. }
        rewrite LatticeProofs.rsum_swap. apply rsum_ext. intros m Hm. rewrite app_nth1 by exact Hm. rewrite <- LatticeProofs.rsum_scal_r. reflexivity.
      + pose proof (inv_step done es ax I Hax Z) as I'. specialize (IH _ _ I'). rewrite <- app_assoc in IH. cbn [app] in IH.
        destruct (projected_axes _ _ _ _); [exact IH|]. destruct IH as [(a & Ha & Hb)|IH]; [left; exists a; split; [right; exact Ha|exact Hb]|right; exact IH].
  Qed.

  Lemma axes_spec axes es : projected_axes nd delta [] axes = Some es -> inv axes es.
  Proof. intros H. pose proof (loop_spec axes [] [] inv_nil) as L. rewrite H in L. exact L. Qed.

  Lemma axes_none axes : projected_axes nd delta [] axes = None <->
    (exists a, In a axes /\ (nd <= a)%nat) \/ (exists j, (j < length axes)%nat /\ depends_on_earlier nd (fun i => delta (nth i axes 0%nat)) j).
  Proof.
    split.
    - intros H. pose proof (loop_spec axes [] [] inv_nil) as L. rewrite H in L. exact L.
    - intros H. destruct (projected_axes nd delta [] axes) as [es|] eqn:G; [|reflexivity]. exfalso.
      destruct (axes_spec axes es G) as [L A Oo _ U D X]. destruct H as [(a & Ha & Hb)|(j & Hj & k & K)].
      + rewrite Forall_forall in A. specialize (A a Ha). lia.
      + specialize (D j Hj). rewrite (dot_ext _ (nth j es zero) _ (fun c => rsum (fun i => k i * delta (nth i axes 0%nat) c) j)) in D; [|reflexivity|exact K].
        rewrite (dot_sum _ k (fun i => delta (nth i axes 0%nat))) in D.
        rewrite (rsum_ext _ (fun _ => 0)), rsum_const0 in D; [lra|]. intros i Hi. rewrite U by lia. ring.
  Qed.
End GramSchmidt.
