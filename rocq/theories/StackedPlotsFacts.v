(** Planes of momenta, Brillouin zones and examples of points drawn in a plane. *)
From Coq Require Import Reals Lra Lia.
From Verif Require Import ZLib Csum DFT NumPy Index IndexProofs AxesProofs Basis Lattice Hamiltonian Spec SpecReal SpecHamiltonian StateList SpecStateList Brillouin
  Paths SpecPaths PathsProofs PathsProofs2 SpecBrillouin BrillouinProofs BrillouinFacts StackedPlots SpecStackedPlots StackedPlotsProofs StackedPlotsProofs2.
Local Open Scope R_scope.

Lemma freq_list shape L : Forall (fun n => (0 < n)%nat) shape -> NoDup L -> (forall full, In full L -> in_shape full shape) -> NoDup (map (freq shape) L).
Proof. intros _ N H. apply NoDup_map_in; [|exact N]. intros x y Hx Hy E. apply (freq_inj shape); auto. Qed.

Section Planes.
  Variables (n0 n1 n2 : nat) (delta inv binv : nat -> nat -> R) (q : list Z -> nat -> R).
  Notation shape := [n0; n1; n2].
  Hypothesis Hc : crystal shape delta q.
  Hypothesis Hv : inverses shape delta inv binv.

  (** The slice with the entry [i] along axis [d]. *)
  Definition slice_of (d i : nat) : list (option nat) := map (fun k => if Nat.eqb k d then Some i else None) (seq 0 3).
  Lemma slice_matches d i full : (d < 3)%nat -> length full = 3%nat -> (matches (slice_of d i) full <-> nth d full 0%nat = i).
  Proof.
    intros Hd L. unfold slice_of. rewrite (matches_nth _ 3 0%nat full L). split.
    - intros H. specialize (H d Hd). cbn [Nat.add] in H. rewrite Nat.eqb_refl in H. destruct H as [H|H]; [discriminate|]. congruence.
    - intros E j Hj. cbn [Nat.add]. destruct (Nat.eqb_spec j d) as [->|]; [right; rewrite E; reflexivity|left; reflexivity].
  Qed.
  Lemma slice_fits d i : (d < 3)%nat -> (i < nth d shape 0)%nat -> slice_ok shape (slice_of d i) = true.
  Proof.
    intros Hd Hi. apply (slice_ok_map (fun k => if Nat.eqb k d then Some i else None) shape 0). intros j i' Hj E. cbn [Nat.add] in E.
    destruct (Nat.eqb_spec j d) as [->|]; [injection E as <-; exact Hi|discriminate].
  Qed.

  Lemma plane_of a b d i : (a < 3)%nat -> (b < 3)%nat -> a <> b -> (d < 3)%nat -> (i < nth d shape 0)%nat ->
    exists e0 e1 L points,
      sliced_points 3 shape (fun t => fundamental_stacked_k_points shape inv (t / nprod shape) (t mod nprod shape)) (None :: slice_of d i) = Some points /\
      frame 3 (reciprocal shape q a) (reciprocal shape q b) e0 e1 /\ NoDup L /\
      (forall g, In g L <-> fourier_index shape g /\ Zcong (Z.of_nat (nth d shape 0%nat)) (nth d g 0%Z) (Z.of_nat i)) /\
      plot_k_points_projected_2d shape inv (a, b) points = Some (map (fun g => drawn 3 e0 e1 (q g)) L).
  Proof using Hc Hv.
    intros Ha Hb Hab Hd Hi. pose proof (shape_pos shape delta q Hc) as Hp.
    destruct (sliced_rows 3 shape (fun t => fundamental_stacked_k_points shape inv (t / nprod shape) (t mod nprod shape)) (slice_of d i)) as (L & points & P1 & P2 & P3 & P4 & P5);
      [lia|exact Hp|reflexivity|apply slice_fits; assumption|].
    destruct (momentum_slice shape delta inv binv q Hc Hv a b (slice_of d i) points L Ha Hb Hab eq_refl (slice_fits d i Hd Hi) P1 P2 P4 P5) as (e0 & e1 & F & D).
    exists e0, e1, (map (freq shape) L), points. split; [exact P1|]. split; [exact F|]. split; [|split].
    - apply freq_list; [exact Hp|exact P3|]. intros full I. apply P4, I.
    - intros g. rewrite in_map_iff. split.
      + intros (full & <- & I). apply P4 in I. destruct I as [I M]. split; [apply freq_fourier; exact I|].
        apply slice_matches in M; [|exact Hd|apply (in_shape_length _ _ I)]. rewrite <- M. apply freq_cong; [exact I|exact Hd].
      + intros [G Z]. destruct (freq_surj shape g Hp G) as (full & I & <-). exists full. split; [reflexivity|]. apply P4. split; [exact I|].
        apply slice_matches; [exact Hd|apply (in_shape_length _ _ I)|]. apply (cong_small (nth d shape 0%nat)); [|apply IndexProofs.in_shape_nth; [exact I|exact Hd]|exact Hi].
        destruct (freq_cong shape full d I Hd) as (z & E). destruct Z as (z' & E'). exists (z' - z)%Z. lia.
    - rewrite D, map_map. reflexivity.
  Qed.

  Lemma momentum_plane i :
    (forall a b, (a = 0%nat /\ b = 1%nat) \/ (a = 1%nat /\ b = 0%nat) -> (i < n1)%nat ->
      exists e0 e1 L, frame 3 (reciprocal shape q a) (reciprocal shape q b) e0 e1 /\ NoDup L /\
        (forall g, In g L <-> fourier_index shape g /\ Zcong (Z.of_nat n1) (nth 1 g 0%Z) (Z.of_nat i)) /\
        plot_fundamental_k_in_plane_projected_2d shape shape inv (a, b) [i] = Some (map (fun g => drawn 3 e0 e1 (q g)) L)) /\
    (forall a b, (a = 0%nat /\ b = 2%nat) \/ (a = 2%nat /\ b = 0%nat) -> (i < n0)%nat ->
      exists e0 e1 L, frame 3 (reciprocal shape q a) (reciprocal shape q b) e0 e1 /\ NoDup L /\
        (forall g, In g L <-> fourier_index shape g /\ Zcong (Z.of_nat n0) (nth 0 g 0%Z) (Z.of_nat i)) /\
        plot_fundamental_k_in_plane_projected_2d shape shape inv (a, b) [i] = Some (map (fun g => drawn 3 e0 e1 (q g)) L)) /\
    (forall a b, (a = 1%nat /\ b = 2%nat) \/ (a = 2%nat /\ b = 1%nat) -> (n0 * n1 * n2) mod 3 <> 0%nat ->
      plot_fundamental_k_in_plane_projected_2d shape shape inv (a, b) [i] = None).
  Proof using Hc Hv.
    split; [|split].
    - intros a b H Hi. destruct (plane_of a b 1 i) as (e0 & e1 & L & points & P & F & N & I & D); try lia; [cbn; exact Hi|]. exists e0, e1, L. split; [exact F|]. split; [exact N|]. split; [exact I|].
      rewrite <- D. unfold plot_fundamental_k_in_plane_projected_2d. change (length shape) with 3%nat. rewrite Nat.eqb_refl.
      assert (E : slice_ignoring_axes [i] [fst (a, b); snd (a, b)] = [None; None; Some i]) by (destruct H as [[-> ->]|[-> ->]]; reflexivity). rewrite E.
      change (sliced_points 3 shape ?f [None; None; Some i]) with (sliced_points 3 shape f (None :: slice_of 1 i)). rewrite P. reflexivity.
    - intros a b H Hi. destruct (plane_of a b 0 i) as (e0 & e1 & L & points & P & F & N & I & D); try lia; [cbn; exact Hi|]. exists e0, e1, L. split; [exact F|]. split; [exact N|]. split; [exact I|].
      rewrite <- D. unfold plot_fundamental_k_in_plane_projected_2d. change (length shape) with 3%nat. rewrite Nat.eqb_refl.
      assert (E : slice_ignoring_axes [i] [fst (a, b); snd (a, b)] = [None; Some i; None]) by (destruct H as [[-> ->]|[-> ->]]; reflexivity). rewrite E.
      change (sliced_points 3 shape ?f [None; Some i; None]) with (sliced_points 3 shape f (None :: slice_of 0 i)). rewrite P. reflexivity.
    - intros a b H Hm. unfold plot_fundamental_k_in_plane_projected_2d. change (length shape) with 3%nat. rewrite Nat.eqb_refl.
      assert (E : slice_ignoring_axes [i] [fst (a, b); snd (a, b)] = [Some i; None; None]) by (destruct H as [[-> ->]|[-> ->]]; reflexivity). rewrite E.
      unfold sliced_points. cbn [length Nat.sub repeat app sliced_shape nprod].
      replace ((n0 * (n1 * (n2 * 1))) mod 3 =? 0)%nat with false; [rewrite andb_false_r; reflexivity|]. symmetry. apply Nat.eqb_neq.
      replace (n0 * (n1 * (n2 * 1)))%nat with (n0 * n1 * n2)%nat by ring. exact Hm.
  Qed.

  (** ** The first Brillouin zone *)

  Lemma decrement_folds g : length g = 3%nat -> exists g', decrement_brillouin_zone shape inv binv g = Some g' /\ folded 1 shape q g g'.
  Proof using Hc Hv.
    intros L. destruct (decrement_facts shape delta inv binv q g Hc Hv L) as (g' & t & D & _ & _ & _ & K). exists g'. split; [exact D|].
    destruct K as [[-> _]|(m & M & -> & _ & Lt & _)].
    - split; [exact L|]. split; [|lra]. intros a Ha. exists 0%Z. split; [cbn; lia|]. lia.
    - split; [reflexivity|]. split; [|lra]. intros a Ha. exists (- nth a m 0)%Z. destruct M as (Lm & Fm & _). split.
      + destruct m as [|m0 [|m1 [|m2 [|]]]]; try discriminate. inversion Fm as [|? ? B0 Fm1]; subst. inversion Fm1 as [|? ? B1 Fm2]; subst. inversion Fm2 as [|? ? B2 _]; subst.
        destruct a as [|[|[|]]]; cbn [nth]; lia.
      + destruct a as [|[|[|]]]; try lia; cbn; ring.
  Qed.
  Lemma folded_trans g g' g'' : folded 1 shape q g g' -> folded 1 shape q g' g'' -> folded 2 shape q g g''.
  Proof using.
    intros (_ & A & B) (L & A' & B'). split; [exact L|]. split; [|lra]. intros a Ha. destruct (A a Ha) as (z & Hz & E). destruct (A' a Ha) as (z' & Hz' & E').
    exists (z + z')%Z. split; [lia|]. rewrite E', E. ring.
  Qed.
  Lemma decremented_folds G : Forall (fun g => length g = 3%nat) G ->
    exists G', decremented (decrement_brillouin_zone shape inv binv) G = Some G' /\ Forall2 (folded 1 shape q) G G'.
  Proof using Hc Hv.
    induction 1 as [|g G L F IH]; [exists []; split; [reflexivity|constructor]|]. destruct IH as (G' & E & K).
    destruct (decrement_folds g L) as (g' & D & Fo). exists (g' :: G'). cbn [decremented]. rewrite D, E. split; [reflexivity|constructor; assumption].
  Qed.

  Lemma brillouin_points a b : (a < 3)%nat -> (b < 3)%nat -> a <> b ->
    exists e0 e1 G L, frame 3 (reciprocal shape q a) (reciprocal shape q b) e0 e1 /\ NoDup G /\
      (forall g, In g G <-> fourier_index [n0; n1; 1%nat] g) /\ Forall2 (folded 2 shape q) G L /\
      plot_brillouin_zone_points_projected_2d shape inv binv (a, b) = Some (map (fun idx => drawn 3 e0 e1 (q idx)) L).
  Proof using Hc Hv.
    intros Ha Hb Hab. set (single := [n0; n1; 1%nat]). set (G := map (freq single) (map (unravel single) (seq 0 (nprod single)))).
    assert (Hp : Forall (fun n => (0 < n)%nat) single).
    { pose proof (shape_pos shape delta q Hc) as F. inversion F as [|? ? X F']; subst. inversion F' as [|? ? Y ?]; subst. repeat constructor; assumption. }
    assert (EG : map (fun i => map (fun a => stacked_nk_points single a i) [0; 1; 2]%nat) (seq 0 (nprod single)) = G).
    { unfold G. rewrite map_map. apply map_ext. intros i. reflexivity. }
    assert (Lg : Forall (fun g => length g = 3%nat) G).
    { unfold G. apply Forall_forall. intros g I. apply in_map_iff in I. destruct I as (f & <- & _). apply freq_length. }
    destruct (decremented_folds G Lg) as (G1 & E1 & F1).
    assert (L1 : Forall (fun g => length g = 3%nat) G1).
    { clear - F1. induction F1 as [|g g' G G' H ? IH]; constructor; [apply H|exact IH]. }
    destruct (decremented_folds G1 L1) as (G2 & E2 & F2).
    destruct (momentum_points shape delta inv binv q Hc Hv a b (map (k_point_at_index 3 inv) G2) Ha Hb Hab) as (e0 & e1 & Fr & D).
    exists e0, e1, G, G2. split; [exact Fr|]. split; [|split; [|split]].
    - unfold G. apply freq_list; [exact Hp| |].
      + apply NoDup_map_in; [|apply seq_NoDup]. intros x y Hx Hy E. apply in_seq in Hx, Hy.
        rewrite <- (ravel_unravel single x), <- (ravel_unravel single y) by lia. rewrite E. reflexivity.
      + intros full I. apply in_map_iff in I. destruct I as (i & <- & I). apply in_seq in I. apply unravel_in_shape. lia.
    - intros g. unfold G. rewrite in_map_iff. split.
      + intros (full & <- & I). apply in_map_iff in I. destruct I as (i & <- & I). apply in_seq in I. apply freq_fourier, unravel_in_shape. lia.
      + intros H. destruct (freq_surj single g Hp H) as (full & I & <-). exists full. split; [reflexivity|]. apply in_map_iff. exists (ravel single full).
        split; [apply unravel_ravel; exact I|]. apply in_seq. pose proof (ravel_lt single full I). lia.
    - clear - F1 F2. revert G2 F2. induction F1 as [|g g' G G' H ? IH]; intros G2 F2; inversion F2; subst; constructor; [eapply folded_trans; eassumption|auto].
    - unfold plot_brillouin_zone_points_projected_2d. fold single. cbv zeta. rewrite EG, E1, E2, D. f_equal. rewrite map_map. apply map_ext. intros g. apply drawn_ext. intros c Hc'.
      apply (point_q shape delta inv binv q Hc Hv). exact Hc'.
  Qed.
End Planes.

(** ** A skew crystal of two points *)

Definition thin_shape : list nat := [1; 2; 1]%nat.
Definition thin_dk (a c : nat) : R := match a, c with 0%nat, 0%nat => 1 | 1%nat, 0%nat => 3 | 1%nat, 1%nat => 1 | 2%nat, 2%nat => 1 | _, _ => 0 end.
Definition thin_dk_inv (c a : nat) : R := match c, a with 0%nat, 0%nat => 1 | 1%nat, 0%nat => -3 | 1%nat, 1%nat => 1 | 2%nat, 2%nat => 1 | _, _ => 0 end.
Definition thin_delta (a c : nat) : R := 2 * PI * thin_dk_inv c a.
Definition thin_inv (c a : nat) : R := thin_dk a c / (2 * PI).
Definition thin_binv (c a : nat) : R := INR (nth a thin_shape 0%nat) * thin_dk a c / (2 * PI).
Definition thin_q (idx : list Z) (c : nat) : R := rsum (fun a => IZR (nth a idx 0%Z) * thin_dk a c) 3.

Lemma thin_crystal : crystal thin_shape thin_delta thin_q.
Proof.
  split; [reflexivity|]. split; [repeat constructor|].
  intros idx a Ha. unfold dot, thin_q, thin_delta. destruct a as [|[|[|]]]; try lia; cbn [rsum thin_dk thin_dk_inv]; ring.
Qed.
Lemma thin_inverses : inverses thin_shape thin_delta thin_inv thin_binv.
Proof.
  pose proof PI_RGT_0 as P. split; split; intros a b Ha Hb;
    unfold thin_inv, thin_binv, thin_delta, rdelta;
    destruct a as [|[|[|]]]; try lia; destruct b as [|[|[|]]]; try lia; cbn [rsum nth thin_shape thin_dk thin_dk_inv Nat.eqb INR]; field; lra.
Qed.
Lemma thin_length2 idx : length2 (thin_q idx) =
  IZR ((nth 0 idx 0 + 3 * nth 1 idx 0) * (nth 0 idx 0 + 3 * nth 1 idx 0) + nth 1 idx 0 * nth 1 idx 0 + nth 2 idx 0 * nth 2 idx 0)%Z.
Proof. unfold length2, dot, thin_q. cbn [rsum thin_dk]. repeat rewrite ?plus_IZR, ?mult_IZR. ring. Qed.

Lemma thin_fourier g : fourier_index [1; 2; 1]%nat g <-> g = [0; 0; 0]%Z \/ g = [0; -1; 0]%Z.
Proof.
  split.
  - intros [L H]. destruct g as [|g0 [|g1 [|g2 [|]]]]; try discriminate. assert (H0 := H 0%nat ltac:(cbn; lia)). assert (H1 := H 1%nat ltac:(cbn; lia)). assert (H2 := H 2%nat ltac:(cbn; lia)).
    cbn [nth] in H0, H1, H2. assert (g0 = 0)%Z as -> by lia. assert (g2 = 0)%Z as -> by lia. assert (g1 = 0 \/ g1 = -1)%Z as [-> | ->] by lia; auto.
  - intros [-> | ->]; (split; [reflexivity|]); intros [|[|[|a]]] Ha; cbn [nth length] in *; lia.
Qed.

(** A point drawn is not in the first zone. *)
Lemma drawn_outside : exists L, plot_brillouin_zone_points_projected_2d thin_shape thin_inv thin_binv (0, 1)%nat = Some (map (drawn 3 (fun c => if Nat.eqb c 0 then 1 else 0) (fun c => if Nat.eqb c 1 then 1 else 0)) (map thin_q L)) /\
  exists idx m, In idx L /\ length idx = 3%nat /\ length m = 3%nat /\ length2 (thin_q (moved_back thin_shape idx m)) < length2 (thin_q idx).
Proof.
  destruct (brillouin_points 1 2 1 thin_delta thin_inv thin_binv thin_q thin_crystal thin_inverses 0 1) as (e0 & e1 & G & L & Fr & N & I & F & D); try lia.
  exists L. split.
  - fold thin_shape in D. rewrite D. f_equal. rewrite map_map. apply map_ext. intros g.
    apply (frame_unique 3 _ _ _ _ _ _ Fr). split; [|split; [|split]]; try (rewrite dot3; cbn; ring).
    exists 1, 6, 2. split; [lra|]. split; [lra|]. intros c Hc. unfold reciprocal, thin_q.
    destruct c as [|[|[|]]]; try lia; cbn; split; ring.
  - assert (Ig : In [0; -1; 0]%Z G) by (apply I, thin_fourier; auto).
    assert (K : exists idx, In idx L /\ folded 2 thin_shape thin_q [0; -1; 0]%Z idx).
    { clear - F Ig. induction F as [|g l G L H ? IH]; [destruct Ig|]. destruct Ig as [->|Ig]; [exists l; split; [left; reflexivity|exact H]|].
      destruct (IH Ig) as (x & A & B). exists x. split; [right; exact A|exact B]. }
    destruct K as (idx & Hi & L3 & Z & _). destruct (Z 0%nat ltac:(lia)) as (z0 & A0 & E0). destruct (Z 1%nat ltac:(lia)) as (z1 & A1 & E1).
    cbn [nth thin_shape] in E0, E1. set (x := (nth 0 idx 0 + 3 * nth 1 idx 0)%Z). exists idx, [x; 0; 0]%Z. split; [exact Hi|]. split; [exact L3|]. split; [reflexivity|].
    rewrite !thin_length2. apply IZR_lt. unfold moved_back, thin_shape. cbn [map seq nth].
    assert (X : x <> 0%Z) by (unfold x; lia). unfold x in *. nia.
Qed.

(** A plane of momenta is not the plane asked for. *)
Lemma plane_missed : exists out g, plot_fundamental_k_in_plane_projected_2d thin_shape thin_shape thin_inv (0, 1)%nat [0%nat] = Some out /\
  fourier_index thin_shape g /\ nth 2 g 0%Z = 0%Z /\
  forall e0 e1, frame 3 (reciprocal thin_shape thin_q 0) (reciprocal thin_shape thin_q 1) e0 e1 -> ~ In (drawn 3 e0 e1 (thin_q g)) out.
Proof.
  destruct (momentum_plane 1 2 1 thin_delta thin_inv thin_binv thin_q thin_crystal thin_inverses 0) as (M & _ & _).
  destruct (M 0%nat 1%nat ltac:(lia) ltac:(lia)) as (e0 & e1 & L & Fr & N & I & D). fold thin_shape in D, Fr.
  assert (EL : L = [[0; 0; 0]%Z]).
  { apply single_list; [exact N|]. intros g. rewrite I. split.
    - intros [Fg (z & E)]. apply thin_fourier in Fg. destruct Fg as [->| ->]; [reflexivity|]. cbn in E. exfalso. lia.
    - intros ->. split; [apply thin_fourier; auto|]. exists 0%Z. reflexivity. }
  subst L. exists [drawn 3 e0 e1 (thin_q [0; 0; 0]%Z)], [0; -1; 0]%Z. split; [exact D|]. split; [apply thin_fourier; auto|]. split; [reflexivity|].
  intros f0 f1 Fr' [X|[]]. rewrite (frame_unique 3 _ _ _ _ _ _ Fr' Fr) in X.
  destruct Fr as (_ & F1 & F01 & x & y & z & Hx & Hz & E).
  apply (f_equal snd) in X. unfold drawn in X. cbn [snd] in X.
  assert (Z : dot 3 e1 (thin_q [0; 0; 0]%Z) = 0) by (rewrite dot3; unfold thin_q; cbn; ring).
  rewrite Z in X.
  assert (Q : forall c, (c < 3)%nat -> thin_q [0; -1; 0]%Z c = (- y / 2) * e0 c - (z / 2) * e1 c).
  { intros c Hc. destruct (E c Hc) as [_ E1]. transitivity (- reciprocal thin_shape thin_q 1 c / 2).
    - unfold reciprocal, thin_q, thin_shape. destruct c as [|[|[|]]]; try lia; cbn; lra.
    - rewrite E1. field. }
  rewrite (dot_ext 3 e1 e1 _ _ (fun _ _ => eq_refl) Q), (dot_sub 3 e1 (fun c => - y / 2 * e0 c)), !dot_scale, F1, (dot_sym 3 e1 e0), F01 in X. lra.
Qed.

(** A grid index is drawn as if it were a position. *)
Definition unit_delta (a c : nat) : R := if Nat.eqb a c then 1 else 0.
Lemma unit_independent : independent 2 (unit_delta 0) (unit_delta 1).
Proof. intros x y H. pose proof (H 0%nat ltac:(lia)). pose proof (H 1%nat ltac:(lia)). cbn in *. lra. Qed.
Lemma index_not_position : exists e0 e1 p, frame 2 (unit_delta 0) (unit_delta 1) e0 e1 /\
  plot_fundamental_x_at_index_projected_2d [2; 2]%nat [2; 2]%nat unit_delta (inr [1; 0]%nat) (0, 1)%nat = Some [p] /\
  p <> drawn 2 e0 e1 (lattice_point [2; 2]%nat unit_delta (fun k => Z.of_nat (nth k [1; 0]%nat 0%nat))).
Proof.
  destruct (position_at_index [2; 2]%nat [2; 2]%nat unit_delta 0 1 [1; 0]%nat) as (e0 & e1 & F & D);
    [repeat constructor|repeat constructor|cbn; lia|cbn; lia|exact unit_independent|].
  exists e0, e1, (drawn 2 e0 e1 (fun k => INR (nth k [1; 0]%nat 0%nat))). split; [exact F|]. split; [exact D|].
  intros E. destruct F as (F0 & _ & _ & x & y & z & Hx & Hz & F).
  destruct (F 0%nat ltac:(cbn; lia)) as [A0 _].
  apply (f_equal fst) in E. unfold drawn, dot, lattice_point in E. cbn in E. cbn in A0.
  assert (H : e0 0%nat = e0 0%nat / 2) by (field_simplify in E; lra). assert (e0 0%nat = 0) by lra. nra.
Qed.
