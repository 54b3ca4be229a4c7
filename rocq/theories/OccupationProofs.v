(** Proofs about the occupations of eigenstates. *)
From Coq Require Import Reals Lra Lia Psatz Permutation.
From Verif Require Import ZLib Csum DFT NumPy Index Basis Operator SpecMatrix SpecKernel Spectral Spectral3 LinAlg Dynamics DynamicsProofs7 DynamicsProofs8 LatticeProofs TrajectoryProofs Plots SpecPlots PlotsProofs2 ValuePlots ValuePlotsProofs EffectiveMass Occupation.
Local Open Scope R_scope.

(** ** Sums over sorted places *)
Fixpoint lsum (l : list R) : R := match l with [] => 0 | x :: l => x + lsum l end.
Lemma lsum_perm l l' : Permutation l l' -> lsum l = lsum l'.
Proof. induction 1; cbn [lsum]; lra. Qed.
Lemma lsum_app l l' : lsum (l ++ l') = lsum l + lsum l'.
Proof. induction l as [|x l IH]; cbn [lsum app]; lra. Qed.
Lemma rsum_lsum f n : rsum f n = lsum (map f (seq 0 n)).
Proof. induction n as [|n IH]; [reflexivity|]. rewrite seq_S, map_app, lsum_app. cbn [rsum map lsum Nat.add]. rewrite IH. lra. Qed.
Lemma sorted_sum argsort key n f : is_argsort argsort -> rsum (fun a => f (argsort key n a)) n = rsum f n.
Proof.
  intros H. destruct (H key n) as (B & I & _). rewrite !rsum_lsum. rewrite <- (map_map (argsort key n) f). apply lsum_perm, Permutation_map.
  apply NoDup_Permutation_bis.
  - assert (N : forall l, NoDup l -> Forall (fun a => (a < n)%nat) l -> NoDup (map (argsort key n) l)).
    { clear - I. induction 1 as [|a l Ha Hl IH]; intros HF; cbn [map]; [constructor|]. inversion HF as [|? ? Hx HF']; subst. constructor; [|apply IH; exact HF'].
      intros Hin. apply in_map_iff in Hin. destruct Hin as (b & E & Hb). rewrite Forall_forall in HF'. apply I in E; [|apply HF'; exact Hb|exact Hx]. subst b. contradiction. }
    apply N; [apply seq_NoDup|]. apply Forall_forall. intros a Ha. apply in_seq in Ha. lia.
  - rewrite map_length, !seq_length. lia.
  - intros x Hx. apply in_map_iff in Hx. destruct Hx as (a & <- & Ha). apply in_seq in Ha. apply in_seq. specialize (B a). lia.
Qed.

Lemma rsum_pos f n : (0 < n)%nat -> (forall i, 0 < f i) -> 0 < rsum f n.
Proof. intros Hn Hf. induction n as [|n IH]; [lia|]. cbn [rsum]. destruct n as [|n]; [cbn; specialize (Hf 0%nat); lra|]. specialize (IH ltac:(lia)). specialize (Hf (S n)). lra. Qed.

Lemma np_min_shift f n c : np_min (fun i => f i + c) n = np_min f n + c.
Proof. induction n as [|n IH]; [reflexivity|]. cbn [np_min]. rewrite IH. unfold Rmin. destruct (Rle_dec (np_min f n + c) (f n + c)), (Rle_dec (np_min f n) (f n)); lra. Qed.
Lemma np_min_ext f g n : (forall i, f i = g i) -> np_min f n = np_min g n.
Proof. intros H. induction n as [|n IH]; cbn [np_min]; rewrite ?IH, H; reflexivity. Qed.

(** ** Thermal occupations of eigenstates *)
Section Thermal.
Variables (argsort : (nat -> R) -> nat -> nat -> nat) (n : nat) (energy : nat -> R) (kT : R).
Hypothesis Hsort : is_argsort argsort.
Hypothesis Hn : (0 < n)%nat.
Hypothesis HkT : kT <> 0.
Notation shifted := (fun i => energy i - np_min energy n).
Notation weight := (fun i => exp (- Rabs (energy i - np_min energy n) / kT)).

Lemma thermal_line :
  exists line after, plot_eigenstate_occupations argsort n energy kT = Some (line, after) /\ length line = n /\
    (forall i, after i = energy i - np_min energy n) /\
    (forall a, (a < n)%nat -> line_x line a = shifted (argsort shifted n a) /\ line_y line a = weight (argsort shifted n a) / rsum weight n).
Proof using Hn HkT.
  unfold plot_eigenstate_occupations. destruct (Nat.eqb_spec n 0); [lia|]. destruct (Req_EM_T kT 0); [contradiction|].
  do 2 eexists. split; [reflexivity|]. split; [rewrite map_length, seq_length; reflexivity|]. split; [reflexivity|].
  intros a Ha. unfold line_x, line_y.
  assert (N := nth_points (fun a => (shifted (argsort shifted n a), weight (argsort shifted n a) / rsum weight n)) n a (0, 0) [] Ha). rewrite app_nil_r in N.
  cbv zeta. split; [exact (f_equal fst N)|exact (f_equal snd N)].
Qed.

Lemma thermal_facts line after : plot_eigenstate_occupations argsort n energy kT = Some (line, after) ->
  length line = n /\ line_x line 0 = 0 /\
  (forall a b, (a <= b < n)%nat -> line_x line a <= line_x line b) /\
  (forall a, (a < n)%nat -> 0 < line_y line a) /\ rsum (line_y line) n = 1 /\
  (forall a b, (a < n)%nat -> (b < n)%nat -> line_y line b = line_y line a * exp (- (line_x line b - line_x line a) / kT)) /\
  (forall i, (i < n)%nat -> exists a, (a < n)%nat /\ line_x line a = energy i - np_min energy n) /\
  (forall i, after i = energy i - np_min energy n).
Proof using Hsort Hn HkT.
  intros H. destruct thermal_line as (line' & after' & E & L & A & P). rewrite H in E. injection E as <- <-.
  destruct (Hsort shifted n) as (B & I & S0). destruct (np_min_spec energy n Hn) as (M & (i0 & Hi0 & E0)).
  assert (W : 0 < rsum weight n) by (apply rsum_pos; [exact Hn|intros; apply exp_pos]).
  assert (Surj : forall i, (i < n)%nat -> exists a, (a < n)%nat /\ argsort shifted n a = i).
  { intros i Hi. assert (Q := sorted_sum argsort shifted n (fun j => if (j =? i)%nat then 1 else 0) Hsort).
    destruct (Classical_Prop.classic (exists a, (a < n)%nat /\ argsort shifted n a = i)) as [X|X]; [exact X|exfalso].
    assert (Z : rsum (fun a => if (argsort shifted n a =? i)%nat then 1 else 0) n = 0).
    { rewrite (rsum_ext _ (fun _ => 0)); [apply rsum_const0|]. intros a Ha. destruct (Nat.eqb_spec (argsort shifted n a) i); [exfalso; apply X; exists a; split; assumption|reflexivity]. }
    assert (Y := rsum_delta (fun _ => 1) n i Hi). rewrite (rsum_ext (fun j => if (j =? i)%nat then 1 else 0) _ n) in Q by (intros; reflexivity).
    assert (Y2 : rsum (fun j => if (j =? i)%nat then 1 else 0) n = 1).
    { clear - Hi. induction n as [|m IH]; [lia|]. cbn [rsum]. destruct (Nat.eqb_spec m i) as [->|X].
      - rewrite (rsum_ext _ (fun _ => 0)); [rewrite rsum_const0; ring|]. intros j Hj. destruct (Nat.eqb_spec j i); [lia|reflexivity].
      - rewrite IH by lia. ring. }
    rewrite Z, Y2 in Q. lra. }
  split; [exact L|]. split; [|split; [|split; [|split; [|split; [|split]]]]].
  - destruct (P 0%nat Hn) as (-> & _). cbv beta. destruct (Surj i0 Hi0) as (a & Ha & Ea).
    assert (Q := S0 0%nat a ltac:(lia)). cbv beta in Q. rewrite Ea, E0 in Q. assert (M0 := M (argsort shifted n 0%nat) (B 0%nat Hn)). lra.
  - intros a b Hab. destruct (P a ltac:(lia)) as (-> & _). destruct (P b ltac:(lia)) as (-> & _). apply S0. exact Hab.
  - intros a Ha. destruct (P a Ha) as (_ & ->). apply Rdiv_lt_0_compat; [apply exp_pos|exact W].
  - rewrite (rsum_ext _ (fun a => (fun i => weight i * / rsum weight n) (argsort shifted n a))).
    + rewrite (sorted_sum argsort shifted n (fun i => weight i * / rsum weight n) Hsort). rewrite rsum_scal_r. field. lra.
    + intros a Ha. destruct (P a Ha) as (_ & ->). reflexivity.
  - intros a b Ha Hb. destruct (P a Ha) as (-> & ->). destruct (P b Hb) as (-> & ->). cbv beta.
    set (i := argsort shifted n a). set (j := argsort shifted n b).
    assert (Mi := M i (B a Ha)). assert (Mj := M j (B b Hb)). rewrite !Rabs_pos_eq by lra.
    replace (exp (- (energy j - np_min energy n) / kT)) with (exp (- (energy i - np_min energy n) / kT) * exp (- (energy j - np_min energy n - (energy i - np_min energy n)) / kT)); [field; lra|].
    rewrite <- exp_plus. f_equal. field. exact HkT.
  - intros i Hi. destruct (Surj i Hi) as (a & Ha & Ea). exists a. split; [exact Ha|]. destruct (P a Ha) as (-> & _). cbv beta. rewrite Ea. reflexivity.
  - exact A.
Qed.
End Thermal.

Lemma thermal_raises argsort n energy kT : (n = 0%nat \/ kT = 0) -> plot_eigenstate_occupations argsort n energy kT = None.
Proof. intros H. unfold plot_eigenstate_occupations. destruct (Nat.eqb_spec n 0); [reflexivity|]. destruct (Req_EM_T kT 0); [reflexivity|]. tauto. Qed.

Lemma thermal_shift argsort n energy kT c : plot_eigenstate_occupations argsort n (fun i => energy i + c) kT = plot_eigenstate_occupations argsort n energy kT.
Proof.
  unfold plot_eigenstate_occupations. rewrite np_min_shift. assert (E : (fun i => energy i + c - (np_min energy n + c)) = (fun i => energy i - np_min energy n)).
  { apply FunctionalExtensionality.functional_extensionality. intros i. ring. }
  cbv zeta. rewrite E. assert (E2 : (fun i => exp (- Rabs (energy i + c - (np_min energy n + c)) / kT)) = (fun i => exp (- Rabs (energy i - np_min energy n) / kT))).
  { apply FunctionalExtensionality.functional_extensionality. intros i. do 4 f_equal. ring. }
  destruct (n =? 0)%nat; [reflexivity|]. destruct (Req_EM_T kT 0); [reflexivity|]. f_equal. f_equal. apply map_ext. intros a. f_equal; [ring|]. rewrite E2. f_equal. do 4 f_equal. ring.
Qed.
Lemma thermal_again argsort n energy kT line after : plot_eigenstate_occupations argsort n energy kT = Some (line, after) ->
  plot_eigenstate_occupations argsort n after kT = Some (line, after).
Proof.
  intros H. assert (Q : after = fun i => energy i + - np_min energy n).
  { unfold plot_eigenstate_occupations in H. destruct (n =? 0)%nat; [discriminate|]. destruct (Req_EM_T kT 0); [discriminate|]. injection H as _ <-. reflexivity. }
  rewrite Q at 1. rewrite thermal_shift. exact H.
Qed.

(** ** Eigenvalues in the order of their moduli *)
Lemma eigenvalues_sorted argsort n eigenvalue m : is_argsort argsort ->
  exists order : nat -> nat,
    (forall a, (a < n)%nat -> (order a < n)%nat) /\ (forall a b, (a < n)%nat -> (b < n)%nat -> order a = order b -> a = b) /\
    (forall a b, (a <= b < n)%nat -> Cmod (eigenvalue (order a)) <= Cmod (eigenvalue (order b))) /\
    length (plot_eigenvalues argsort n eigenvalue m) = n /\
    forall a, (a < n)%nat -> shows m (eigenvalue (order a)) (nth a (plot_eigenvalues argsort n eigenvalue m) 0).
Proof.
  intros H. destruct (H (fun i => Cmod (eigenvalue i)) n) as (B & I & S0). exists (argsort (fun i => Cmod (eigenvalue i)) n).
  split; [exact B|]. split; [exact I|]. split; [exact S0|]. split; [unfold plot_eigenvalues; rewrite map_length, seq_length; reflexivity|].
  intros a Ha. unfold plot_eigenvalues. assert (N := nth_points (fun a => measured_vector m eigenvalue (argsort (fun i => Cmod (eigenvalue i)) n a)) n a 0 [] Ha).
  rewrite app_nil_r in N. rewrite N. apply measured_shows.
Qed.

(** ** Occupations of eigenstates by states *)
Lemma occupation_modulus n V state i j : Cmod (eigenstate_occupation n V state i j) ^ 2 = Cnorm2 (csum (fun k => Cconj (V k j) * state i k)%C n).
Proof.
  replace (Cmod (eigenstate_occupation n V state i j) ^ 2) with (Cnorm2 (eigenstate_occupation n V state i j)) by (rewrite Cnorm2_Cmod; ring).
  replace (csum (fun k => Cconj (V k j) * state i k)%C n) with (Cconj (eigenstate_occupation n V state i j)).
  - unfold Cnorm2. cbn. ring.
  - unfold eigenstate_occupation. rewrite Cconj_csum. apply csum_ext. intros k _. rewrite Cconj_mult, Cconj_conj. apply Cmult_comm.
Qed.
