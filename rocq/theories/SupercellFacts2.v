(** Truncated plane waves have no component at the edge. *)
From Coq Require Import Reals Psatz.
From Verif Require Import ZLib Csum DFT NumPy Spec Index IndexProofs
  Basis SpecBasis BasisProofs BasisProofs2 BasisProofs3 BasisFacts SpecWavepacket WavepacketProofs WavepacketProofs2 SpecSupercellHamiltonian.
Local Open Scope R_scope.
Local Open Scope C_scope.

Definition no_edge (b : basis) : Prop := Nat.Odd (bfund b) \/ exists n N, b = BTrans n N /\ (n < N)%nat.

Lemma edge_overlap b j i : no_edge b -> bwf b -> (2 * j = bfund b)%nat -> (j < bfund b)%nat -> (i < bsize b)%nat -> overlap (BFundT (bfund b)) b j i = 0.
Proof.
  intros [[m Hm]|[n [N [-> Hn]]]] Hw Hj Hlt Hi; [lia|]. cbn [bfund bsize bwf] in *. unfold overlap. cbn [bfund bstate].
  assert (P : (0 < N)%nat) by lia.
  rewrite (csum_ext _ (fun x => Cconj (plane_wave N (Z.of_nat j) x) * plane_wave N (Z.of_nat (slot N (freq n i))) x)).
  - rewrite plane_wave_orth; [|lia|apply slot_lt; exact P]. apply cdelta_neq. intros E.
    destruct (freq_is_freq n i Hi) as [_ B]. pose proof (slot_cong N (freq n i) P) as [c Hc]. rewrite <- E in Hc.
    assert (L : (- Z.of_nat N < 2 * freq n i < Z.of_nat N)%Z) by lia. destruct (Z_lt_le_dec c 0); destruct (Z_lt_le_dec c 1); nia.
  - intros x Hx. f_equal.
    + f_equal. apply plane_wave_cong; [exact P|]. apply freq_is_freq. exact Hlt.
    + apply plane_wave_cong; [exact P|]. apply Zcong_sym, slot_cong. exact P.
Qed.

Lemma axis_zero l : forall k i a, in_shape k (map bfund l) -> in_shape i (map bsize l) -> Forall no_edge l -> Forall bwf l ->
  (a < length l)%nat -> (2 * nth a k 0 = nth a (map bfund l) 0)%nat ->
  axis_overlaps (map BFundT (map bfund l)) l k i = 0.
Proof.
  induction l as [|b l IH]; intros k i a K I Hn Hw Ha E; [cbn in Ha; lia|].
  inversion K as [|k0 ? k' ? K0 K']; subst. inversion I as [|i0 ? i' ? I0 I']; subst.
  inversion Hn; subst. inversion Hw; subst. cbn [map axis_overlaps]. destruct a as [|a]; cbn [nth map] in E.
  - rewrite edge_overlap by assumption. ring.
  - rewrite (IH k' i' a) by (try assumption; cbn in Ha; lia). ring.
Qed.

Lemma truncated_below_edge saxes u : bwf (BTuple saxes) -> Forall no_edge saxes -> below_edge saxes u.
Proof.
  intros Hw Hn k a K Ha E. set (ss := map bfund saxes) in *. unfold inner_product, amplitude.
  rewrite (csum_ext _ (fun x => csum (fun i => u i * (Cconj (bstate (momenta ss) (ravel ss k) x) * bstate (BTuple saxes) i x)) (bsize (BTuple saxes)))).
  2:{ intros x Hx. rewrite <- csum_scal_l. apply csum_ext. intros; ring. }
  rewrite csum_swap. rewrite (csum_ext _ (fun _ => 0)); [apply csum_zero|]. intros i Hi. rewrite csum_scal_l.
  change (csum (fun x => Cconj (bstate (momenta ss) (ravel ss k) x) * bstate (BTuple saxes) i x) (nprod ss))
    with (overlap (momenta ss) (BTuple saxes) (ravel ss k) i).
  unfold momenta. rewrite axis_overlaps_unravel.
  2:{ unfold ss. clear. induction saxes; constructor; auto. }
  rewrite map_bsize_FundT, unravel_ravel by exact K.
  rewrite (axis_zero saxes k _ a); [ring|exact K| |exact Hn|apply tuple_wf_forall; exact Hw| |exact E].
  - apply unravel_in_shape. exact Hi.
  - unfold ss in Ha. rewrite map_length in Ha. exact Ha.
Qed.
