(** Names of the cached overlaps. *)
From Coq Require Import Ascii String DecimalString DecimalZ Decimal.
From Verif Require Import ZLib Overlap.

Fixpoint no_sep (s : string) : Prop :=
  match s with EmptyString => True | String c s => (c <> "_" /\ c <> ".")%char /\ no_sep s end.

Lemma no_sep_uint u : no_sep (NilEmpty.string_of_uint u).
Proof. induction u; cbn; repeat split; try discriminate; assumption. Qed.

Lemma no_sep_zero u : no_sep (NilZero.string_of_uint u).
Proof. unfold NilZero.string_of_uint. destruct u; try apply no_sep_uint. cbn. repeat split; discriminate. Qed.

Lemma no_sep_print z : no_sep (print_int z).
Proof.
  unfold print_int. destruct (Z.to_int z) as [u|u]; cbn [NilZero.string_of_int].
  - apply no_sep_zero.
  - cbn [no_sep]. split; [split; discriminate|]. apply no_sep_zero.
Qed.

Lemma unorm_not_nil u : unorm u <> Nil.
Proof. unfold unorm. destruct (nzhead u) eqn:E; discriminate. Qed.

Lemma norm_not_nil d : norm d <> Pos Nil /\ norm d <> Neg Nil.
Proof.
  destruct d as [u|u]; cbn [norm].
  - split; [|discriminate]. intros H. injection H. apply unorm_not_nil.
  - destruct (nzhead u) eqn:E; split; discriminate.
Qed.

Lemma print_int_inj a b : print_int a = print_int b -> a = b.
Proof.
  unfold print_int. intros H.
  assert (K : forall z, NilZero.int_of_string (NilZero.string_of_int (Z.to_int z)) = Some (Z.to_int z)).
  { intros z. destruct (norm_not_nil (Z.to_int z)) as [N1 N2]. rewrite <- DecimalZ.to_of, DecimalZ.of_to in N1, N2.
    apply NilZero.isi; assumption. }
  assert (A := K a). rewrite H, K in A. injection A as A. symmetry. apply DecimalZ.to_int_inj. exact A.
Qed.

Lemma split_at (c : ascii) (s t r r' : string) : (c = "_" \/ c = ".")%char -> no_sep s -> no_sep t ->
  (s ++ String c r = t ++ String c r')%string -> s = t /\ r = r'.
Proof.
  intros Hc. revert t. induction s as [|a s IH]; intros [|b t] Hs Ht H; cbn in *.
  - injection H as H. auto.
  - injection H as H1 H2. exfalso. destruct Ht as [[A B] _]. destruct Hc; subst; congruence.
  - injection H as H1 H2. exfalso. destruct Hs as [[A B] _]. destruct Hc; subst; congruence.
  - injection H as H1 H2. subst. destruct (IH t (proj2 Hs) (proj2 Ht) H2) as [-> ->]. auto.
Qed.

Lemma cache_filename_inj i j a b i' j' a' b' name :
  get_overlap_cache_filename i j a b = Some name -> get_overlap_cache_filename i' j' a' b' = Some name ->
  i = i' /\ j = j' /\ a = a' /\ b = b'.
Proof.
  destruct a as [a0 a1], b as [b0 b1], a' as [c0 c1], b' as [d0 d1]. unfold get_overlap_cache_filename.
  destruct (negb _ || _ || _ || _) eqn:G1; [discriminate|]. destruct (negb (_ && ((-2 <? c1)%Z && _)) || _ || _ || _) eqn:G2; [discriminate|].
  intros H1 H2. injection H1 as <-. injection H2 as H.
  symmetry in H. apply split_at in H; [|auto|apply no_sep_print|apply no_sep_print]. destruct H as [Hi H].
  apply split_at in H; [|auto|apply no_sep_print|apply no_sep_print]. destruct H as [Ha0 H].
  apply split_at in H; [|auto|apply no_sep_print|apply no_sep_print]. destruct H as [Ha1 H].
  apply split_at in H; [|auto|apply no_sep_print|apply no_sep_print]. destruct H as [Hj H].
  apply split_at in H; [|auto|apply no_sep_print|apply no_sep_print]. destruct H as [Hb0 H].
  apply split_at in H; [|auto|apply no_sep_print|apply no_sep_print]. destruct H as [Hb1 _].
  apply print_int_inj in Hi, Hj, Ha0, Ha1, Hb0, Hb1.
  repeat match goal with
    | H : (_ || _)%bool = false |- _ => apply Bool.orb_false_elim in H; destruct H
    | H : negb _ = false |- _ => apply Bool.negb_false_iff in H
    | H : (_ && _)%bool = true |- _ => apply Bool.andb_true_iff in H; destruct H
    | H : (_ <? _)%Z = true |- _ => apply Z.ltb_lt in H
    end.
  assert (K : forall p q, (-2 < p < 2 -> -2 < q < 2 -> p mod 3 = q mod 3 -> p = q)%Z).
  { intros p q Hp Hq E. assert (Dp := Z.div_mod p 3 ltac:(lia)). assert (Dq := Z.div_mod q 3 ltac:(lia)). lia. }
  repeat split; try assumption; f_equal; apply K; auto; lia.
Qed.

(** Whether a name is given at all. *)
Lemma cache_filename_some i j a b :
  (exists name, get_overlap_cache_filename i j a b = Some name) <->
  (i <= 1 /\ j <= 1 /\ -1 <= fst a <= 1 /\ -1 <= snd a <= 1 /\ -1 <= fst b <= 1 /\ -1 <= snd b <= 1)%Z.
Proof.
  destruct a as [a0 a1], b as [b0 b1]. unfold get_overlap_cache_filename. cbn [fst snd].
  destruct (Z.ltb_spec (-2) a0), (Z.ltb_spec a0 2), (Z.ltb_spec (-2) a1), (Z.ltb_spec a1 2), (Z.ltb_spec (-2) b0), (Z.ltb_spec b0 2),
    (Z.ltb_spec (-2) b1), (Z.ltb_spec b1 2), (Z.ltb_spec 1 i), (Z.ltb_spec 1 j); cbn [andb orb negb];
  split; intros Q; try (destruct Q as [? Q]; discriminate); try (exfalso; lia); try lia; eexists; reflexivity.
Qed.
