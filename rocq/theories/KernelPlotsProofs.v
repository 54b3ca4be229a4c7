From Coq Require Import Reals Lra Lia Psatz List Permutation FinFun.
From Verif Require Import ZLib Csum DFT NumPy Index Basis Operator Spec SpecBasis SpecOperator SpecMatrix Kernel SpecKernel KernelProofs KernelProofs2 KernelProofs5 KernelFacts
  LatticeProofs DynamicsProofs Sample SampleProofs2 Plots SpecPlots ValuePlotsProofs OccupationProofs OccupationProofs2 KernelPlots.
Import ListNotations.
Local Open Scope R_scope.

(** ** Sorted moduli *)

Lemma nodup_length_max (l : list nat) m : NoDup l -> (forall a, In a l -> (a <= m)%nat) -> (length l <= S m)%nat.
Proof.
  intros N B. transitivity (length (seq 0 (S m))); [|rewrite seq_length; lia]. apply NoDup_incl_length; [exact N|].
  intros a Ha. apply in_seq. specialize (B a Ha). lia.
Qed.

Lemma largest_in (l : list nat) : l <> [] -> exists m, In m l /\ forall a, In a l -> (a <= m)%nat.
Proof.
  induction l as [|x l IH]; [congruence|]. intros _. destruct l as [|y l].
  - exists x. split; [left; reflexivity|]. intros a [->|[]]. lia.
  - destruct IH as (m & Hm & B); [discriminate|]. destruct (le_lt_dec m x).
    + exists x. split; [left; reflexivity|]. intros a [->|Ha]; [lia|]. specialize (B a Ha). lia.
    + exists m. split; [right; exact Hm|]. intros a [->|Ha]; [lia|]. exact (B a Ha).
Qed.

Lemma first_smallest (g : nat -> R) n : (forall a b, (a <= b < n)%nat -> g a <= g b) ->
  forall k l, length l = k -> NoDup l -> (forall a, In a l -> (a < n)%nat) -> rsum g k <= lsum (map g l).
Proof.
  intros M. induction k as [|k IH]; intros l Hl N B.
  - destruct l; [cbn; lra|discriminate].
  - destruct (largest_in l) as (m & Hm & Hmax); [intros ->; discriminate|].
    apply in_split in Hm. destruct Hm as (l1 & l2 & ->).
    assert (P : Permutation (l1 ++ m :: l2) (m :: l1 ++ l2)) by (symmetry; apply Permutation_middle).
    rewrite (lsum_perm _ _ (Permutation_map g P)). cbn [map lsum rsum].
    assert (K : (k <= m)%nat) by (pose proof (nodup_length_max _ m N Hmax); lia).
    assert (G : g k <= g m) by (apply M; split; [exact K|]; apply B; apply in_or_app; right; left; reflexivity).
    assert (I : rsum g k <= lsum (map g (l1 ++ l2))).
    { apply IH.
      - rewrite app_length in Hl |- *. cbn [length] in Hl. lia.
      - apply (NoDup_remove_1 _ _ _ N).
      - intros a Ha. apply B. apply in_app_or in Ha. apply in_or_app. destruct Ha; [left|right; right]; assumption. }
    lra.
Qed.

Section Sorted.
Variables (argsort : (nat -> R) -> nat -> nat -> nat) (n : nat) (eig : nat -> C).
Hypothesis Hs : is_argsort argsort.
Let f a := Cmod (eig a).
Let order := argsort f n.

Lemma order_surj a : (a < n)%nat -> exists t, (t < n)%nat /\ order t = a.
Proof using Hs.
  intros Ha. destruct (Hs f n) as (B & I & _). assert (S : bSurjective n order).
  { apply bInjective_bSurjective; [exact B|]. intros s t H1 H2. apply I; assumption. }
  exact (S a Ha).
Qed.

Lemma positions_of (l : list nat) : (forall a, In a l -> (a < n)%nat) -> exists p, map order p = l /\ forall t, In t p -> (t < n)%nat.
Proof using Hs.
  induction l as [|a l IH]; intros B.
  - exists []. split; [reflexivity|]. intros t [].
  - destruct IH as (p & E & Q); [intros b Hb; apply B; right; exact Hb|].
    destruct (order_surj a (B a (or_introl eq_refl))) as (t & Ht & Et).
    exists (t :: p). split; [cbn [map]; rewrite E, Et; reflexivity|]. intros s [<-|Hin]; [exact Ht|]. exact (Q s Hin).
Qed.

Lemma cumulative_minimal l : NoDup l -> (forall a, In a l -> (a < n)%nat) ->
  cumulative_modulus argsort n eig (length l) <= lsum (map f l).
Proof using Hs.
  intros N B. destruct (positions_of l B) as (p & E & Q). unfold cumulative_modulus.
  rewrite <- E, map_map, map_length. apply (first_smallest (fun t => f (order t)) n).
  - intros a b Hab. apply (Hs f n). exact Hab.
  - reflexivity.
  - apply (NoDup_map_inv order). rewrite E. exact N.
  - exact Q.
Qed.

Lemma cumulative_attained t : (t <= n)%nat -> exists l, length l = t /\ NoDup l /\ (forall a, In a l -> (a < n)%nat) /\
  cumulative_modulus argsort n eig t = lsum (map f l).
Proof using Hs.
  intros Ht. destruct (Hs f n) as (B & I & _). exists (map order (seq 0 t)). split; [rewrite map_length, seq_length; reflexivity|]. split.
  - assert (N : forall l, NoDup l -> (forall a, In a l -> (a < n)%nat) -> NoDup (map order l)).
    { clear - I. induction 1 as [|a l Ha Hl IH]; intros HF; cbn [map]; [constructor|]. constructor; [|apply IH; intros b Hb; apply HF; right; exact Hb].
      intros Hin. apply in_map_iff in Hin. destruct Hin as (b & E & Hb). apply I in E; [|apply HF; right; exact Hb|apply HF; left; reflexivity]. subst b. contradiction. }
    apply N; [apply seq_NoDup|]. intros a Ha. apply in_seq in Ha. lia.
  - split.
    + intros a Ha. apply in_map_iff in Ha. destruct Ha as (s & <- & Hin). apply in_seq in Hin. apply B. lia.
    + unfold cumulative_modulus. rewrite rsum_lsum, map_map. reflexivity.
Qed.

Lemma cumulative_step t : cumulative_modulus argsort n eig t <= cumulative_modulus argsort n eig (S t).
Proof. unfold cumulative_modulus. cbn [rsum]. pose proof (Cmod_ge_0 (eig (argsort (fun a => Cmod (eig a)) n t))). unfold np_sort. lra. Qed.

Lemma cumulative_nonneg t : 0 <= cumulative_modulus argsort n eig t.
Proof. induction t as [|t IH]; [unfold cumulative_modulus; cbn [rsum]; lra|]. pose proof (cumulative_step t). lra. Qed.

Lemma cumulative_all : cumulative_modulus argsort n eig n = rsum f n.
Proof using Hs. apply (sorted_sum argsort f n f Hs). Qed.
End Sorted.

(** ** The lines *)

Lemma diagonal_truncation_line argsort eigh b0 b1 n K : (0 < n)%nat -> bsize b0 = n -> bsize b1 = n -> nprod (ashape K) = (n * n)%nat ->
  let eig a := RtoC (fst (eigh n (entry2 n K)) a) in
  plot_diagonal_kernel_truncation_error argsort eigh b0 b1 K = Some (map (fun t => (INR t, cumulative_modulus argsort n eig t)) (seq 0 (n + 1))).
Proof.
  intros Hn H0 H1 HK eig. unfold plot_diagonal_kernel_truncation_error, get_periodic_noise_operators_diagonal_eigenvalue. rewrite H0.
  rewrite (reshape_rows_some _ _ _ Hn HK). cbn [ashape nth]. rewrite Nat.eqb_refl.
  change (at2 {| ashape := [n; n]; aflat := aflat K |}) with (entry2 n K). unfold eig.
  destruct (eigh n (entry2 n K)) as [lam V]. cbn [neig ashape aflat nprod]. rewrite Nat.mul_1_r. unfold plot_data_1d. f_equal.
  apply map_ext. intros t. f_equal. cbn [measured_vector fst]. rewrite Cmod_R. apply Rabs_pos_eq. apply cumulative_nonneg.
Qed.
