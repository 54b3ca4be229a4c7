(** Proofs about planes of positions and of momenta. *)
From Coq Require Import Reals Lra Lia.
From Verif Require Import ZLib Csum DFT NumPy Index InterpProofs IndexProofs AxesProofs Basis Lattice Hamiltonian Spec SpecReal SpecHamiltonian StateList SpecStateList Brillouin
  Paths SpecPaths PathsProofs PathsProofs2 SpecBrillouin BrillouinProofs BrillouinFacts StackedPlots SpecStackedPlots StackedPlotsProofs.
Local Open Scope R_scope.

Lemma drawn_ext nd e0 e1 p q : (forall c, (c < nd)%nat -> p c = q c) -> drawn nd e0 e1 p = drawn nd e0 e1 q.
Proof. intros H. unfold drawn. f_equal; apply dot_ext; auto. Qed.

Lemma drawn_nth {A} (d : A) nd e0 e1 (points : list (nat -> R)) (L : list A) (f : A -> nat -> R) : length points = length L ->
  (forall j c, (j < length L)%nat -> (c < nd)%nat -> nth j points (fun _ => 0) c = f (nth j L d) c) ->
  map (drawn nd e0 e1) points = map (fun x => drawn nd e0 e1 (f x)) L.
Proof.
  revert points. induction L as [|x L IH]; intros [|p points] E H; try discriminate; [reflexivity|]. cbn [map]. f_equal.
  - apply drawn_ext. intros c Hc. apply (H 0%nat c); [cbn; lia|exact Hc].
  - apply IH; [injection E as E; exact E|]. intros j c Hj Hc. apply (H (S j) c); [cbn; lia|exact Hc].
Qed.

Lemma nprod_positive shape : Forall (fun n => (0 < n)%nat) shape -> (0 < nprod shape)%nat.
Proof. induction 1; cbn; nia. Qed.

Lemma position_plane shape delta a b idx : Forall (fun n => (0 < n)%nat) shape -> a <> b -> (a < length shape)%nat -> (b < length shape)%nat ->
  independent (length shape) (delta a) (delta b) ->
  in_shape idx (map (fun k => nth k shape 0%nat) (other_axes (length shape) [a; b])) ->
  exists e0 e1 L, frame (length shape) (delta a) (delta b) e0 e1 /\ NoDup L /\
    (forall full, In full L <-> in_shape full shape /\ map (fun k => nth k full 0%nat) (other_axes (length shape) [a; b]) = idx) /\
    plot_fundamental_x_in_plane_projected_2d shape delta (a, b) idx =
      Some (map (fun full => drawn (length shape) e0 e1 (lattice_point shape delta (fun k => Z.of_nat (nth k full 0%nat)))) L).
Proof.
  intros Hp Hab Ha Hb Hin Hi. set (nd := length shape) in *.
  assert (N : NoDup [a; b]) by (constructor; [intros [X|[]]; congruence|constructor; [intros []|constructor]]).
  assert (F : Forall (fun a => (a < length shape)%nat) [a; b]) by (repeat constructor; assumption).
  destruct (plane_points shape [a; b] idx N F Hi nd (fun t => fundamental_x_points shape delta (t mod nprod shape) (t / nprod shape))) as (L & points & P1 & P2 & P3 & P4 & P5); [lia|exact Hp|].
  destruct (points_some nd delta a b points Ha Hb Hin) as (e0 & e1 & Fr & Dr). exists e0, e1, L. split; [exact Fr|]. split; [exact P3|]. split; [exact P4|].
  unfold plot_fundamental_x_in_plane_projected_2d. fold nd. cbn [fst snd]. cbn [map] in P1. cbn [Nat.add]. rewrite P1, Dr. f_equal.
  apply (drawn_nth []); [exact P2|]. intros j c Hj Hc. rewrite P5 by assumption.
  assert (I : in_shape (nth j L []) shape) by (apply P4, nth_In; exact Hj).
  pose proof (ravel_lt shape _ I) as Rl.
  rewrite Nat.div_add_l, Nat.div_small, Nat.add_0_r by lia. rewrite (Nat.add_comm (c * nprod shape)), Nat.mod_add, Nat.mod_small by lia.
  rewrite fundamental_points by exact Rl. rewrite unravel_ravel by exact I. reflexivity.
Qed.

Lemma position_plane_none shape delta a b idx : (length shape <= a)%nat \/ (length shape <= b)%nat \/ ~ independent (length shape) (delta a) (delta b) ->
  plot_fundamental_x_in_plane_projected_2d shape delta (a, b) idx = None.
Proof.
  intros H. unfold plot_fundamental_x_in_plane_projected_2d. destruct (sliced_points _ _ _ _); [|reflexivity]. apply points_none.
  intros (A & B & C). destruct H as [H|[H|H]]; [lia|lia|contradiction].
Qed.

(** ** A single index *)

Lemma matches_some idx full : matches (map Some idx) full <-> full = idx.
Proof.
  split.
  - revert full. induction idx as [|i idx IH]; intros full M; inversion M as [|? ? ? ? A B]; subst; [reflexivity|].
    destruct A as [A|A]; [discriminate|]. injection A as ->. f_equal. apply IH. exact B.
  - intros ->. induction idx; constructor; auto.
Qed.

Lemma slice_ok_some idx shape : in_shape idx shape -> slice_ok shape (map Some idx) = true.
Proof. induction 1; [reflexivity|]. cbn. apply andb_true_iff. split; [apply Nat.ltb_lt; assumption|assumption]. Qed.

Lemma single_list {A} (L : list A) x : NoDup L -> (forall y, In y L <-> y = x) -> L = [x].
Proof.
  intros N H. destruct L as [|y L]; [destruct (proj2 (H x) eq_refl)|]. assert (y = x) by (apply H; left; reflexivity). subst y. f_equal.
  destruct L as [|z L]; [reflexivity|]. exfalso. assert (z = x) by (apply H; right; left; reflexivity). subst z. inversion N as [|? ? Nx ?]. apply Nx. left. reflexivity.
Qed.

Lemma position_at_index shape fshape delta a b idx : Forall (fun n => (0 < n)%nat) fshape -> in_shape idx fshape -> (a < length fshape)%nat -> (b < length fshape)%nat ->
  independent (length fshape) (delta a) (delta b) ->
  exists e0 e1, frame (length fshape) (delta a) (delta b) e0 e1 /\
    plot_fundamental_x_at_index_projected_2d shape fshape delta (inr idx) (a, b) = Some [drawn (length fshape) e0 e1 (fun k => INR (nth k idx 0%nat))].
Proof.
  intros Hp Hi Ha Hb Hin. set (nd := length fshape) in *.
  destruct (sliced_rows nd fshape (fun t => IZR (stacked_nx_points fshape (t / nprod fshape) (t mod nprod fshape))) (map Some idx)) as (L & points & P1 & P2 & P3 & P4 & P5);
    [lia|exact Hp|rewrite map_length; apply (in_shape_length _ _ Hi)|apply slice_ok_some; exact Hi|].
  assert (EL : L = [idx]).
  { apply single_list; [exact P3|]. intros y. rewrite P4, matches_some. split; [intros [_ E]; exact E|intros ->; auto]. }
  subst L. destruct (points_some nd delta a b points Ha Hb Hin) as (e0 & e1 & Fr & Dr). exists e0, e1. split; [exact Fr|].
  unfold plot_fundamental_x_at_index_projected_2d. fold nd. rewrite P1, Dr. f_equal.
  rewrite (drawn_nth [] nd e0 e1 points [idx] (fun x k => INR (nth k x 0%nat)) P2); [reflexivity|]. intros j c Hj Hc. rewrite P5 by assumption.
  cbn in Hj. assert (j = 0%nat) by lia. subst j. cbn [nth]. pose proof (ravel_lt fshape _ Hi) as Rl.
  rewrite Nat.div_add_l, Nat.div_small, Nat.add_0_r by lia. rewrite (Nat.add_comm (c * nprod fshape)), Nat.mod_add, Nat.mod_small by lia.
  unfold stacked_nx_points, meshgrid_ravel, flatten, nx_points. rewrite unravel_ravel by exact Hi. rewrite <- INR_IZR_INZ. reflexivity.
Qed.

Lemma position_at_flat shape fshape delta a b i : plot_fundamental_x_at_index_projected_2d shape fshape delta (inl i) (a, b) =
  if ((0 <=? i) && (i <? Z.of_nat (nprod shape)))%Z%bool then plot_fundamental_x_at_index_projected_2d shape fshape delta (inr (unravel shape (Z.to_nat i))) (a, b) else None.
Proof. unfold plot_fundamental_x_at_index_projected_2d, get_stacked_index. destruct ((0 <=? i)%Z && _)%bool; reflexivity. Qed.

(** ** Indices of momenta *)

Definition freq (shape : list nat) (full : list nat) : list Z := map (fun a => nk_points (nth a shape 0%nat) (nth a full 0%nat)) (seq 0 (length shape)).

Lemma freq_nth shape full a : (a < length shape)%nat -> nth a (freq shape full) 0%Z = nk_points (nth a shape 0%nat) (nth a full 0%nat).
Proof.
  intros Ha. unfold freq. match goal with |- nth a (map ?g _) _ = _ => rewrite (nth_indep _ _ (g 0%nat)) by (rewrite map_length, seq_length; exact Ha); rewrite (map_nth g) end.
  rewrite seq_nth by exact Ha. reflexivity.
Qed.
Lemma freq_length shape full : length (freq shape full) = length shape.
Proof. unfold freq. rewrite map_length, seq_length. reflexivity. Qed.

Lemma is_freq_range n i f : is_freq n i f -> (- Z.of_nat n <= 2 * f < Z.of_nat n)%Z.
Proof. intros [_ H]. Z.to_euclidean_division_equations. lia. Qed.

Lemma freq_fourier shape full : in_shape full shape -> fourier_index shape (freq shape full).
Proof.
  intros H. split; [apply freq_length|]. intros a Ha. rewrite freq_nth by exact Ha. eapply is_freq_range. apply nk_points_freq. apply IndexProofs.in_shape_nth; assumption.
Qed.

Lemma freq_cong shape full a : in_shape full shape -> (a < length shape)%nat -> Zcong (Z.of_nat (nth a shape 0%nat)) (nth a (freq shape full) 0%Z) (Z.of_nat (nth a full 0%nat)).
Proof. intros H Ha. rewrite freq_nth by exact Ha. apply nk_points_freq. apply IndexProofs.in_shape_nth; assumption. Qed.

Lemma cong_small n i j : Zcong (Z.of_nat n) (Z.of_nat i) (Z.of_nat j) -> (i < n)%nat -> (j < n)%nat -> i = j.
Proof. intros (q & E) Hi Hj. assert (q = 0 \/ 1 <= q \/ q <= -1)%Z as [->|[H|H]] by lia; [lia|nia|nia]. Qed.

Lemma freq_inj shape full full' : in_shape full shape -> in_shape full' shape -> freq shape full = freq shape full' -> full = full'.
Proof.
  intros H H' E. pose proof (in_shape_length _ _ H) as L. pose proof (in_shape_length _ _ H') as L'.
  apply (nth_ext _ _ 0%nat 0%nat); [congruence|]. intros a Ha. rewrite L in Ha. apply (cong_small (nth a shape 0%nat)); [|apply IndexProofs.in_shape_nth; assumption|apply IndexProofs.in_shape_nth; assumption].
  destruct (freq_cong shape full a H Ha) as (q & Q). destruct (freq_cong shape full' a H' Ha) as (q' & Q'). rewrite E in Q. exists (q' - q)%Z. lia.
Qed.

Lemma freq_surj shape g : Forall (fun n => (0 < n)%nat) shape -> fourier_index shape g -> exists full, in_shape full shape /\ freq shape full = g.
Proof.
  intros Hp [L H]. exists (map (fun a => Z.to_nat (nth a g 0 mod Z.of_nat (nth a shape 0%nat))%Z) (seq 0 (length shape))).
  assert (P : forall a, (a < length shape)%nat -> (0 < nth a shape 0)%nat) by (intros a Ha; rewrite Forall_forall in Hp; apply Hp, nth_In; exact Ha).
  assert (M : forall a, (a < length shape)%nat -> (0 <= nth a g 0 mod Z.of_nat (nth a shape 0%nat) < Z.of_nat (nth a shape 0%nat))%Z) by (intros a Ha; apply Z.mod_pos_bound; specialize (P a Ha); lia).
  split.
  - assert (G : forall sh k, (forall a, (a < length sh)%nat -> (Z.to_nat (nth (k + a)%nat g 0 mod Z.of_nat (nth (k + a)%nat shape 0%nat))%Z < nth a sh 0)%nat) ->
      in_shape (map (fun a => Z.to_nat (nth a g 0 mod Z.of_nat (nth a shape 0%nat))%Z) (seq k (length sh))) sh).
    { clear. induction sh as [|n sh IH]; intros k G; cbn [length seq map]; constructor.
      - specialize (G 0%nat ltac:(cbn; lia)). rewrite Nat.add_0_r in G. exact G.
      - apply IH. intros a Ha. specialize (G (S a) ltac:(cbn; lia)). rewrite Nat.add_succ_r in G. exact G. }
    apply G. intros a Ha. cbn [Nat.add]. specialize (M a Ha). lia.
  - apply (nth_ext _ _ 0%Z 0%Z); [rewrite freq_length; congruence|]. intros a Ha. rewrite freq_length in Ha. rewrite freq_nth by exact Ha.
    set (h := fun a => Z.to_nat (nth a g 0 mod Z.of_nat (nth a shape 0%nat))%Z).
    assert (Eh : nth a (map h (seq 0 (length shape))) 0%nat = h a).
    { rewrite (nth_indep _ 0%nat (h 0%nat)) by (rewrite map_length, seq_length; exact Ha). rewrite (map_nth h), seq_nth by exact Ha. reflexivity. }
    rewrite Eh. specialize (M a Ha). specialize (P a Ha). specialize (H a Ha).
    eapply InterpProofs.is_freq_unique; [apply nk_points_freq; unfold h; lia|]. split.
    + unfold h. rewrite Z2Nat.id by lia. exists (nth a g 0 / Z.of_nat (nth a shape 0%nat))%Z.
      rewrite (Z.div_mod (nth a g 0%Z) (Z.of_nat (nth a shape 0%nat))) at 1 by lia. ring.
    + Z.to_euclidean_division_equations. lia.
Qed.

(** ** Crystals *)

Section Crystal.
  Variables (shape : list nat) (delta inv binv : nat -> nat -> R) (q : list Z -> nat -> R).
  Hypothesis Hc : crystal shape delta q.
  Hypothesis Hv : inverses shape delta inv binv.

  Lemma shape3 : length shape = 3%nat.
  Proof using Hc. apply Hc. Qed.
  Lemma shape_pos : Forall (fun n => (0 < n)%nat) shape.
  Proof using Hc. apply Hc. Qed.
  Lemma point_q idx c : (c < 3)%nat -> k_point_at_index 3 inv idx c = q idx c.
  Proof using Hc Hv.
    intros H. destruct Hc as (H1 & H2 & H3). destruct Hv as (H4 & H5). symmetry. apply (q_point shape delta inv binv q); assumption.
  Qed.

  Lemma reciprocal_nth a b : (a < 3)%nat -> (b < 3)%nat ->
    nth b (lattice_index shape (map (fun b => if Nat.eqb a b then 1%Z else 0%Z) (seq 0 3))) 0%Z = if Nat.eqb a b then Z.of_nat (nth b shape 0%nat) else 0%Z.
  Proof using. intros Ha Hb. destruct a as [|[|[|]]]; try lia; destruct b as [|[|[|]]]; try lia; cbn; lia. Qed.

  Lemma reciprocal_vector a c : (a < 3)%nat -> (c < 3)%nat -> INR (nth a shape 0%nat) * dk_stacked inv a c = reciprocal shape q a c.
  Proof using Hc Hv.
    intros Ha Hc'. unfold reciprocal. rewrite <- point_q by exact Hc'. unfold k_point_at_index, tensordot00. cbn [rsum].
    rewrite !reciprocal_nth by lia. rewrite INR_IZR_INZ. destruct a as [|[|[|]]]; try lia; cbn [Nat.eqb]; ring.
  Qed.

  Lemma reciprocal_dot a b : (a < 3)%nat -> (b < 3)%nat -> dot 3 (reciprocal shape q a) (delta b) = if Nat.eqb a b then 2 * PI * INR (nth b shape 0%nat) else 0.
  Proof using Hc.
    intros Ha Hb. destruct Hc as (_ & _ & H). unfold reciprocal. rewrite (H _ b Hb), reciprocal_nth by assumption. destruct (Nat.eqb a b); [rewrite <- INR_IZR_INZ; reflexivity|ring].
  Qed.

  Lemma reciprocal_independent a b : (a < 3)%nat -> (b < 3)%nat -> a <> b -> independent 3 (reciprocal shape q a) (reciprocal shape q b).
  Proof using Hc.
    intros Ha Hb Hab x y E.
    assert (D : forall d, x * dot 3 (reciprocal shape q a) (delta d) + y * dot 3 (reciprocal shape q b) (delta d) = 0).
    { intros d. rewrite !BrillouinProofs.dot3.
      set (u := reciprocal shape q a) in *. set (v := reciprocal shape q b) in *.
      transitivity (delta d 0%nat * (x * u 0%nat + y * v 0%nat) + delta d 1%nat * (x * u 1%nat + y * v 1%nat) + delta d 2%nat * (x * u 2%nat + y * v 2%nat)); [ring|].
      rewrite !E by lia. ring. }
    assert (P : forall d, (d < 3)%nat -> 0 < 2 * PI * INR (nth d shape 0%nat)).
    { intros d Hd. pose proof PI_RGT_0. assert (0 < INR (nth d shape 0%nat)); [|nra]. apply lt_0_INR. pose proof shape_pos as F. rewrite Forall_forall in F. apply F, nth_In. rewrite shape3. exact Hd. }
    split.
    - specialize (D a). rewrite !reciprocal_dot, Nat.eqb_refl in D by assumption. replace (Nat.eqb b a) with false in D by (symmetry; apply Nat.eqb_neq; lia). pose proof (P a Ha). nra.
    - specialize (D b). rewrite !reciprocal_dot, Nat.eqb_refl in D by assumption. replace (Nat.eqb a b) with false in D by (symmetry; apply Nat.eqb_neq; lia). pose proof (P b Hb). nra.
  Qed.

  Lemma momentum_points a b points : (a < 3)%nat -> (b < 3)%nat -> a <> b ->
    exists e0 e1, frame 3 (reciprocal shape q a) (reciprocal shape q b) e0 e1 /\
      plot_k_points_projected_2d shape inv (a, b) points = Some (map (drawn 3 e0 e1) points).
  Proof using Hc Hv.
    intros Ha Hb Hab. set (kv := fun a c => INR (nth a shape 0%nat) * dk_stacked inv a c).
    assert (E : forall d, (d < 3)%nat -> forall c, (c < 3)%nat -> kv d c = reciprocal shape q d c) by (intros; apply reciprocal_vector; assumption).
    destruct (points_some 3 kv a b points Ha Hb) as (e0 & e1 & (F0 & F1 & F2 & x & y & z & Hx & Hz & F) & D).
    { intros x y H. apply (reciprocal_independent a b Ha Hb Hab). intros c Hc'. rewrite <- !E by assumption. apply H, Hc'. }
    exists e0, e1. split.
    - repeat split; try assumption. exists x, y, z. repeat split; try assumption; rewrite <- E by assumption; apply F; assumption.
    - rewrite <- D. unfold plot_k_points_projected_2d. rewrite shape3. reflexivity.
  Qed.

  (** All of the neighbouring points of the reciprocal lattice. *)
  Lemma bragg_points a b : (a < 3)%nat -> (b < 3)%nat -> a <> b ->
    exists e0 e1 L, frame 3 (reciprocal shape q a) (reciprocal shape q b) e0 e1 /\ NoDup L /\
      (forall m, In m L <-> length m = 3%nat /\ Forall (fun z => (-1 <= z <= 1)%Z) m) /\
      plot_bragg_points_projected_2d shape inv binv (a, b) = Some (map (fun m => drawn 3 e0 e1 (q (lattice_index shape m))) L).
  Proof using Hc Hv.
    intros Ha Hb Hab. destruct (momentum_points a b (all_bragg_point shape binv 1) Ha Hb Hab) as (e0 & e1 & F & D).
    exists e0, e1, (map mvec (seq 0 27)). split; [exact F|]. split; [|split].
    - apply NoDup_map_in; [|apply seq_NoDup]. intros x y Hx Hy E. apply in_seq in Hx, Hy. apply (f_equal rank) in E. rewrite !mvec_rank in E by lia. lia.
    - intros m. rewrite in_map_iff. split.
      + intros ([|i] & <- & Hi); apply in_seq in Hi; [change (mvec 0) with [0; 0; 0]%Z; split; [reflexivity|repeat (constructor; [lia|]); constructor]|].
        destruct (mvec_neighbour i ltac:(lia)) as (A & B & _). split; assumption.
      + intros [A B]. destruct (list_eq_dec Z.eq_dec m [0; 0; 0]%Z) as [->|N].
        * exists 0%nat. split; [reflexivity|apply in_seq; lia].
        * destruct (rank_neighbour m (conj A (conj B N))) as (i & Hi & ->). exists (S i). split; [reflexivity|apply in_seq; lia].
    - unfold plot_bragg_points_projected_2d. rewrite D. f_equal. destruct Hc as (H1 & H2 & H3). destruct Hv as (H4 & H5).
      rewrite (all_bragg_points shape delta inv binv q H1 H2 H4 H5 H3). rewrite !map_map. apply map_ext. intros i. apply drawn_ext. intros c Hc'.
      apply (bragg_point_momentum shape delta inv binv q); assumption.
  Qed.

  (** A plane of momenta. *)
  Lemma momentum_slice a b sl points L : (a < 3)%nat -> (b < 3)%nat -> a <> b -> length sl = 3%nat -> slice_ok shape sl = true ->
    sliced_points 3 shape (fun t => fundamental_stacked_k_points shape inv (t / nprod shape) (t mod nprod shape)) (None :: sl) = Some points ->
    length points = length L -> (forall full, In full L <-> in_shape full shape /\ matches sl full) ->
    (forall j c, (j < length L)%nat -> (c < 3)%nat -> nth j points (fun _ => 0) c =
       fundamental_stacked_k_points shape inv ((c * nprod shape + ravel shape (nth j L [])) / nprod shape) ((c * nprod shape + ravel shape (nth j L [])) mod nprod shape)) ->
    exists e0 e1, frame 3 (reciprocal shape q a) (reciprocal shape q b) e0 e1 /\
      plot_k_points_projected_2d shape inv (a, b) points = Some (map (fun full => drawn 3 e0 e1 (q (freq shape full))) L).
  Proof using Hc Hv.
    intros Ha Hb Hab Ls So P1 P2 P4 P5. destruct (momentum_points a b points Ha Hb Hab) as (e0 & e1 & F & D). exists e0, e1. split; [exact F|]. rewrite D. f_equal.
    apply (drawn_nth [] 3 e0 e1 points L (fun full => q (freq shape full)) P2). intros j c Hj Hc'. rewrite P5 by assumption.
    assert (I : in_shape (nth j L []) shape) by (apply P4, nth_In; exact Hj). pose proof (ravel_lt shape _ I) as Rl.
    rewrite Nat.div_add_l, Nat.div_small, Nat.add_0_r by lia. rewrite (Nat.add_comm (c * nprod shape)), Nat.mod_add, Nat.mod_small by lia.
    rewrite <- point_q by exact Hc'. unfold fundamental_stacked_k_points, k_point_at_index, tensordot00. rewrite shape3. apply rsum_ext. intros d Hd. f_equal. f_equal.
    rewrite freq_nth by (rewrite shape3; exact Hd). unfold stacked_nk_points, meshgrid_ravel, flatten. rewrite unravel_ravel by exact I. reflexivity.
  Qed.
End Crystal.
