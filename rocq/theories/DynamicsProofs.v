(** Matrices with non-negative off-diagonal elements and columns summing to zero. *)
From Coq Require Import Reals Psatz.
From Coquelicot Require Import Coquelicot.
From Verif Require Import ZLib Csum DFT NumPy Basis SpecBasis Operator SpecOperator OperatorProofs Hamiltonian HamiltonianProofs2 HamiltonianProofs3
  HamiltonianProofs4 SpecHamiltonian LatticeProofs Spectral Dynamics SpecDynamics.
Local Open Scope R_scope.
Local Open Scope C_scope.

Lemma Cmod_csum f n : (Cmod (csum f n) <= rsum (fun i => Cmod (f i)) n)%R.
Proof.
  induction n as [|n IH]; cbn [csum rsum]. { rewrite Cmod_0. lra. }
  eapply Rle_trans; [apply Cmod_triangle|]. lra.
Qed.
Lemma Cmod_sq z : (Cmod z * Cmod z = fst z * fst z + snd z * snd z)%R.
Proof. rewrite <- Cnorm2_Cmod. reflexivity. Qed.
Lemma Cmod_zero z : Cmod z = 0%R -> z = 0.
Proof. apply Cmod_eq_0. Qed.

(** The M matrix. *)
Lemma m_matrix_spec m n : square n m ->
  exists M A', get_tunnelling_m_matrix m = Some (M, A') /\ square n M /\ orow M = orow m /\ ocol M = ocol m /\
    (forall i j, (i < n)%nat -> (j < n)%nat -> i <> j -> op_entry M i j = op_entry m j i) /\
    (forall i, (i < n)%nat -> op_entry M i i = - outgoing n (op_entry m) i) /\
    orow A' = orow m /\ ocol A' = ocol m /\ ashape (odata A') = ashape (odata m) /\
    forall i j, (i < n)%nat -> (j < n)%nat -> op_entry A' i j = if Nat.eqb i j then 0 else op_entry m i j.
Proof.
  intros [Hw [Hr Hc]]. unfold get_tunnelling_m_matrix. rewrite op_reshape by assumption. rewrite Hr, Hc.
  set (view := {| ashape := [n; n]; aflat := aflat (odata m) |}).
  cbn [np_diag ashape].
  set (tr := array2 n n (fun i j => at2 (fill_diagonal_zero view) j i)).
  set (dg := array2 n n _).
  destruct (broadcast_same Cminus tr dg eq_refl) as [d [Hd [Hs Hf]]]. rewrite Hd.
  assert (Hz : forall i j, (i < n)%nat -> (j < n)%nat ->
    at2 (fill_diagonal_zero view) i j = if Nat.eqb i j then 0 else op_entry m i j).
  { intros i j Hi Hj. unfold at2, fill_diagonal_zero. cbn [view ashape nth].
    change (ashape (array2 n n ?f)) with [n; n]. cbn [nth]. rewrite array2_flat by assumption.
    unfold op_entry. rewrite Hc. reflexivity. }
  assert (He : forall i j, (i < n)%nat -> (j < n)%nat ->
    aflat d (i * n + j)%nat = (if Nat.eqb j i then 0 else op_entry m j i) -
      (if Nat.eqb i j then outgoing n (op_entry m) i else 0)).
  { intros i j Hi Hj. rewrite Hf by (unfold tr; cbn; nia). unfold tr, dg. rewrite !array2_flat by assumption.
    rewrite Hz by assumption. f_equal. destruct (Nat.eqb i j); [|reflexivity].
    cbn [aflat]. unfold outgoing. apply csum_ext. intros k Hk. apply Hz; assumption. }
  eexists _, _. split; [reflexivity|]. unfold square, op_wf, op_entry. cbn [orow ocol odata]. rewrite Hs, Hr, Hc. unfold tr.
  split. { cbn. repeat split; lia. }
  split; [reflexivity|]. split; [reflexivity|].
  split. { intros i j Hi Hj Hne. rewrite He by assumption. unfold op_entry. rewrite Hc.
    rewrite (proj2 (Nat.eqb_neq i j)), (proj2 (Nat.eqb_neq j i)) by auto. ring. }
  split. { intros i Hi. rewrite He by assumption. rewrite Nat.eqb_refl. unfold op_entry. rewrite Hc. ring. }
  split; [reflexivity|]. split; [reflexivity|]. split; [reflexivity|].
  intros i j Hi Hj. pose proof (Hz i j Hi Hj) as E. unfold at2 in E. cbn [fill_diagonal_zero view ashape nth array2] in E.
  cbn [aflat fill_diagonal_zero view ashape nth array2] in *. rewrite E. unfold op_entry. rewrite Hc. reflexivity.
Qed.

(** Real matrices with these properties. *)
Definition generator (n : nat) (m : nat -> nat -> R) : Prop :=
  (forall i j, (i < n)%nat -> (j < n)%nat -> i <> j -> (0 <= m i j)%R) /\
  forall j, (j < n)%nat -> rsum (fun i => m i j) n = 0%R.

Definition off (m : nat -> nat -> R) (i j : nat) : R := if Nat.eqb i j then 0%R else m i j.
Lemma off_nonneg n m i j : generator n m -> (i < n)%nat -> (j < n)%nat -> (0 <= off m i j)%R.
Proof. intros [H _] Hi Hj. unfold off. destruct (Nat.eqb_spec i j); [lra|]. apply H; assumption. Qed.
Lemma rsum_split_at (f : nat -> R) n i : (i < n)%nat -> rsum f n = (f i + rsum (fun j => if Nat.eqb i j then 0 else f j) n)%R.
Proof.
  intros H. rewrite <- (rsum_delta' f n i H). rewrite <- rsum_plus. apply rsum_ext. intros j _.
  unfold SpecReal.rdelta. destruct (Nat.eqb_spec i j); lra.
Qed.
Lemma csum_split_at f n i : (i < n)%nat -> csum f n = f i + csum (fun j => if Nat.eqb i j then 0 else f j) n.
Proof.
  intros H. rewrite <- (csum_delta_l f n i H). rewrite <- csum_plus. apply csum_ext. intros j _.
  unfold cdelta. destruct (Nat.eqb_spec i j); ring.
Qed.
Lemma generator_diag n m i : generator n m -> (i < n)%nat -> (m i i = - rsum (fun k => off m k i) n)%R.
Proof.
  intros [_ H] Hi. specialize (H i Hi). rewrite (rsum_split_at _ n i Hi) in H.
  assert (E : rsum (fun j => if Nat.eqb i j then 0 else m j i)%R n = rsum (fun k => off m k i) n).
  { apply rsum_ext. intros k _. unfold off. rewrite (Nat.eqb_sym k i). reflexivity. }
  lra.
Qed.

(** Summing the off-diagonal terms over the rows. *)
Lemma off_total n m (w : nat -> R) : generator n m ->
  rsum (fun i => rsum (fun j => off m i j * w j)%R n) n = rsum (fun j => - m j j * w j)%R n.
Proof.
  intros G. rewrite rsum_swap. apply rsum_ext. intros j Hj. rewrite rsum_scal_r.
  rewrite (generator_diag n m j G Hj). ring.
Qed.
Lemma diag_nonpos n m i : generator n m -> (i < n)%nat -> (m i i <= 0)%R.
Proof.
  intros G Hi. rewrite (generator_diag n m i G Hi).
  assert (0 <= rsum (fun k => off m k i) n)%R by (apply rsum_nonneg; intros; eapply off_nonneg; eassumption). lra.
Qed.

Lemma generator_eigenvalue n m lam (v : nat -> C) : generator n m ->
  (forall i, (i < n)%nat -> csum (fun j => RtoC (m i j) * v j) n = lam * v i) ->
  (exists i, (i < n)%nat /\ v i <> 0) -> (fst lam < 0)%R \/ lam = 0.
Proof.
  intros G E [i0 [Hi0 Hv]].
  destruct (Rlt_dec (fst lam) 0) as [H|H]; [left; exact H|right].
  destruct (C_eq_dec lam 0) as [E0|N0]; [exact E0|exfalso].
  assert (Hb : forall i, (i < n)%nat -> (Cmod (lam - RtoC (m i i))%C * Cmod (v i) <= rsum (fun j => off m i j * Cmod (v j)) n)%R).
  { intros i Hi. rewrite <- Cmod_mult.
    replace ((lam - RtoC (m i i)) * v i) with (csum (fun j => RtoC (off m i j) * v j) n).
    - eapply Rle_trans; [apply Cmod_csum|]. apply rsum_le. intros j Hj. rewrite Cmod_mult, Cmod_R.
      rewrite Rabs_pos_eq by (eapply off_nonneg; eassumption). lra.
    - specialize (E i Hi). rewrite (csum_split_at _ n i Hi) in E.
      replace ((lam - RtoC (m i i)) * v i) with (lam * v i - RtoC (m i i) * v i) by ring. rewrite <- E.
      transitivity (csum (fun j => if Nat.eqb i j then 0 else RtoC (m i j) * v j) n); [|ring].
      apply csum_ext. intros j _. unfold off. destruct (Nat.eqb i j); ring. }
  assert (Hs : (rsum (fun i => (Cmod (lam - RtoC (m i i))%C + m i i) * Cmod (v i)) n <= 0)%R).
  { pose proof (off_total n m (fun j => Cmod (v j)) G) as T.
    pose proof (rsum_le _ _ n Hb) as L. cbv beta in T. rewrite T in L.
    assert (X : rsum (fun i => (Cmod (lam - RtoC (m i i))%C + m i i) * Cmod (v i))%R n =
      (rsum (fun i => Cmod (lam - RtoC (m i i))%C * Cmod (v i))%R n - rsum (fun j => - m j j * Cmod (v j))%R n)%R).
    { assert (Y : rsum (fun i => (Cmod (lam - RtoC (m i i))%C + m i i) * Cmod (v i))%R n =
        rsum (fun i => Cmod (lam - RtoC (m i i))%C * Cmod (v i) + (-1) * (- m i i * Cmod (v i)))%R n)
        by (apply rsum_ext; intros; ring).
      rewrite Y, rsum_plus, rsum_scal_l. ring. }
    rewrite X. lra. }
  assert (Hp : forall i, (i < n)%nat -> (0 < Cmod (lam - RtoC (m i i))%C + m i i)%R).
  { intros i Hi. pose proof (diag_nonpos n m i G Hi) as Hd.
    pose proof (Cmod_sq (lam - RtoC (m i i))) as Q. pose proof (Cmod_ge_0 (lam - RtoC (m i i))) as P.
    destruct lam as [a b]. cbn [fst snd] in *. cbn in Q.
    assert (Hab : (0 < a * a + b * b)%R).
    { destruct (Req_dec a 0) as [Ea|Na]; [|nra]. destruct (Req_dec b 0) as [Eb|Nb]; [|nra].
      subst. exfalso. apply N0. reflexivity. }
    replace (b + - 0)%R with b in Q by ring. nra. }
  assert (Hz : (rsum (fun i => (Cmod (lam - RtoC (m i i))%C + m i i) * Cmod (v i)) n = 0)%R).
  { apply Rle_antisym; [exact Hs|]. apply rsum_nonneg. intros i Hi.
    apply Rmult_le_pos; [left; apply Hp; exact Hi|apply Cmod_ge_0]. }
  assert (Ht : ((Cmod (lam - RtoC (m i0 i0))%C + m i0 i0) * Cmod (v i0) = 0)%R).
  { apply (rsum_zero_nonneg (fun i => (Cmod (lam - RtoC (m i i))%C + m i i) * Cmod (v i))%R n); try assumption.
    intros i Hi. apply Rmult_le_pos; [left; apply Hp; exact Hi|apply Cmod_ge_0]. }
  apply Rmult_integral in Ht. destruct Ht as [Ht|Ht].
  - specialize (Hp i0 Hi0). lra.
  - apply Hv. apply Cmod_zero. exact Ht.
Qed.

(** Eigenvectors of other eigenvalues have total zero. *)
Lemma column_total n (M : nat -> nat -> C) (u : nat -> C) : (forall j, (j < n)%nat -> csum (fun i => M i j) n = 0) ->
  csum (fun i => csum (fun j => M i j * u j) n) n = 0.
Proof.
  intros H. rewrite csum_swap. apply csum_zero_ext. intros j Hj. rewrite csum_scal_r, H by assumption. ring.
Qed.
Lemma eigenvector_total n (M : nat -> nat -> C) lam (v : nat -> C) : (forall j, (j < n)%nat -> csum (fun i => M i j) n = 0) ->
  (forall i, (i < n)%nat -> csum (fun j => M i j * v j) n = lam * v i) -> lam * csum v n = 0.
Proof.
  intros H E. rewrite <- csum_scal_l. rewrite <- (csum_ext _ _ n E). apply column_total. exact H.
Qed.

(** The kernel of a connected generator. *)
Section Kernel.
  Context (n : nat) (m : nat -> nat -> R) (G : generator n m).
  Context (A : nat -> nat -> C) (HA : forall i j, (i < n)%nat -> (j < n)%nat -> i <> j -> A j i = RtoC (m i j)).

  Lemma kernel_abs (u : nat -> R) : (forall i, (i < n)%nat -> rsum (fun j => m i j * u j)%R n = 0%R) ->
    forall i, (i < n)%nat -> rsum (fun j => m i j * Rabs (u j))%R n = 0%R.
  Proof using G.
    intros E.
    assert (Hp : forall i, (i < n)%nat -> (0 <= rsum (fun j => m i j * Rabs (u j)) n)%R).
    { intros i Hi. rewrite (rsum_split_at _ n i Hi). specialize (E i Hi). rewrite (rsum_split_at _ n i Hi) in E.
      assert (L : (Rabs (rsum (fun j => if Nat.eqb i j then 0 else m i j * u j) n) <=
                   rsum (fun j => if Nat.eqb i j then 0 else m i j * Rabs (u j)) n)%R).
      { rewrite <- Cmod_R, <- csum_RtoC. eapply Rle_trans; [apply Cmod_csum|]. apply rsum_le. intros j Hj.
        rewrite Cmod_R. destruct (Nat.eqb_spec i j); [rewrite Rabs_R0; lra|]. rewrite Rabs_mult.
        rewrite (Rabs_pos_eq (m i j)) by (apply G; assumption). lra. }
      replace (rsum (fun j => if Nat.eqb i j then 0 else m i j * u j) n)%R with (- (m i i * u i))%R in L by lra.
      rewrite Rabs_Ropp, Rabs_mult in L. rewrite (Rabs_left1 (m i i)) in L by (apply (diag_nonpos n); assumption). lra. }
    assert (T : rsum (fun i => rsum (fun j => m i j * Rabs (u j))%R n) n = 0%R).
    { rewrite rsum_swap. rewrite <- (rsum_const0 n). apply rsum_ext. intros j Hj. rewrite rsum_scal_r.
      rewrite (proj2 G j Hj). ring. }
    intros i Hi. exact (rsum_zero_nonneg _ n Hp T i Hi).
  Qed.

  Lemma kernel_support (u : nat -> R) : (forall i, (i < n)%nat -> rsum (fun j => m i j * u j)%R n = 0%R) ->
    (forall i, (i < n)%nat -> (0 <= u i)%R) ->
    forall j i, reaches n A j i -> (j < n)%nat -> (i < n)%nat -> u i = 0%R -> u j = 0%R.
  Proof using G HA.
    intros E Hu j i R. induction R as [|j k i Hk Hne Hjk Rk IH]; intros Hj Hi Hz; [exact Hz|].
    specialize (IH Hk Hi Hz). rewrite (HA k j) in Hjk by auto.
    specialize (E k Hk). rewrite (rsum_split_at _ n k Hk), IH in E.
    assert (Hnn : forall l, (l < n)%nat -> (0 <= (if Nat.eqb k l then 0 else m k l * u l))%R).
    { intros l Hl. destruct (Nat.eqb_spec k l); [lra|]. apply Rmult_le_pos; [apply G; assumption|apply Hu; exact Hl]. }
    pose proof (rsum_zero_nonneg _ n Hnn ltac:(lra) j Hj) as Z. cbv beta in Z.
    rewrite (proj2 (Nat.eqb_neq k j)) in Z by auto. apply Rmult_integral in Z. destruct Z as [Z|Z]; [|exact Z].
    exfalso. apply Hjk. rewrite Z. reflexivity.
  Qed.

  Context (Hcon : connected n A).
  Lemma kernel_positive (u : nat -> R) : (forall i, (i < n)%nat -> rsum (fun j => m i j * u j)%R n = 0%R) ->
    (forall i, (i < n)%nat -> (0 <= u i)%R) ->
    forall i, (i < n)%nat -> u i = 0%R -> forall j, (j < n)%nat -> u j = 0%R.
  Proof using G HA Hcon. intros E Hu i Hi Hz j Hj. exact (kernel_support u E Hu j i (Hcon j i Hj Hi) Hj Hi Hz). Qed.

  Lemma kernel_real (u : nat -> R) : (forall i, (i < n)%nat -> rsum (fun j => m i j * u j)%R n = 0%R) ->
    rsum u n = 0%R -> forall i, (i < n)%nat -> u i = 0%R.
  Proof using G HA Hcon.
    intros E S i Hi. assert (H0 : (0 < n)%nat) by lia.
    pose proof (kernel_abs u E) as Ea.
    assert (Hside : forall s : R, (s = 1 \/ s = -1)%R -> (s * u 0%nat <= 0)%R -> u i = 0%R).
    { intros s Hs H.
      assert (Z : forall j, (j < n)%nat -> (Rabs (u j) + s * u j = 0)%R).
      { intros j Hj. apply (kernel_positive (fun j => Rabs (u j) + s * u j)%R) with (i := 0%nat); try assumption.
        - intros k Hk.
          assert (Y : rsum (fun j => m k j * (Rabs (u j) + s * u j))%R n =
            rsum (fun j => m k j * Rabs (u j) + s * (m k j * u j))%R n) by (apply rsum_ext; intros; ring).
          rewrite Y, rsum_plus, rsum_scal_l, Ea, E by assumption. ring.
        - intros k Hk. pose proof (Rle_abs (u k)). pose proof (Rle_abs (- u k)). rewrite Rabs_Ropp in *.
          destruct Hs; subst; lra.
        - destruct Hs; subst s; [rewrite Rabs_left1 by lra|rewrite Rabs_pos_eq by lra]; lra. }
      assert (Hn : forall j, (j < n)%nat -> (0 <= - s * u j)%R).
      { intros j Hj. specialize (Z j Hj). pose proof (Rabs_pos (u j)). lra. }
      assert (Hzs : rsum (fun j => - s * u j)%R n = 0%R) by (rewrite rsum_scal_l, S; ring).
      pose proof (rsum_zero_nonneg _ n Hn Hzs i Hi) as Q. cbv beta in Q. destruct Hs; subst s; lra. }
    destruct (Rle_dec (u 0%nat) 0).
    - apply (Hside 1%R); [left; reflexivity|lra].
    - apply (Hside (-1)%R); [right; reflexivity|lra].
  Qed.

  Lemma kernel_complex (v : nat -> C) : (forall i, (i < n)%nat -> csum (fun j => RtoC (m i j) * v j) n = 0) ->
    csum v n = 0 -> forall i, (i < n)%nat -> v i = 0.
  Proof using G HA Hcon.
    intros E S i Hi.
    assert (H1 : fst (v i) = 0%R).
    { apply (kernel_real (fun i => fst (v i))); [| |exact Hi].
      - intros k Hk. specialize (E k Hk). apply (f_equal fst) in E. rewrite fst_csum in E. cbn [fst RtoC] in E.
        rewrite <- E. apply rsum_ext. intros j _. cbn. ring.
      - rewrite <- fst_csum, S. reflexivity. }
    assert (H2 : snd (v i) = 0%R).
    { apply (kernel_real (fun i => snd (v i))); [| |exact Hi].
      - intros k Hk. specialize (E k Hk). apply (f_equal snd) in E. rewrite snd_csum in E. cbn [snd RtoC] in E.
        rewrite <- E. apply rsum_ext. intros j _. cbn. ring.
      - rewrite <- snd_csum, S. reflexivity. }
    destruct (v i) as [a b]. cbn in *. subst. reflexivity.
  Qed.
End Kernel.
