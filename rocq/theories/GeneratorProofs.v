(** Proofs about the compiled Hamiltonian generator. *)
From Coq Require Import Reals List ZArith Arith Lia Lra Bool.
From Verif Require Import ZLib Csum DFT NumPy Spec Index IndexProofs Lattice Basis SpecBasis BasisProofs BasisProofs2 Operator SpecOperator
  Wavepacket Hamiltonian Localize Oscillator Generator KernelProofs3.
Import ListNotations.
Local Open Scope R_scope.
Local Open Scope C_scope.

(** ** Coordinates *)

Lemma x_coordinates_spec n : x_coordinates n = map (freq n) (seq 0 n).
Proof.
  unfold x_coordinates. 
  assert (E2 : (Z.of_nat ((n + 1) / 2) = (Z.of_nat n + 1) / 2)%Z) by (rewrite Nat2Z.inj_div; f_equal; lia).
  assert (E3 : (Z.of_nat (n / 2) = Z.of_nat n / 2)%Z) by (rewrite Nat2Z.inj_div; reflexivity).
  assert (E : n = ((n + 1) / 2 + n / 2)%nat) by (apply Nat2Z.inj; rewrite Nat2Z.inj_add, E2, E3; Z.div_mod_to_equations; lia).
  apply nth_ext with (d := 0%Z) (d' := 0%Z).
  - rewrite app_length, !map_length, !seq_length. lia.
  - intros k Hk. rewrite app_length, !map_length, !seq_length in Hk. rewrite nth_map_seq' by lia.
    unfold freq. destruct (Nat.lt_ge_cases k ((n + 1) / 2)) as [L|L].
    + rewrite app_nth1 by (rewrite map_length, seq_length; exact L). rewrite nth_map_seq' by exact L.
      destruct (Z.leb_spec (Z.of_nat k) ((Z.of_nat n - 1) / 2)) as [G|G]; [reflexivity|exfalso].
      apply Nat2Z.inj_lt in L. rewrite E2 in L. Z.div_mod_to_equations. lia.
    + rewrite app_nth2 by (rewrite map_length, seq_length; exact L). rewrite map_length, seq_length. rewrite (nth_map_seq' (fun i => Z.of_nat i - Z.of_nat (n / 2))%Z) by lia.
      destruct (Z.leb_spec (Z.of_nat k) ((Z.of_nat n - 1) / 2)) as [G|G].
      * exfalso. apply Nat2Z.inj_le in L. rewrite E2 in L. Z.div_mod_to_equations. lia.
      * lia.
Qed.

Lemma flat_map_seq {A B} (f : nat -> A) (g : A -> nat -> B) n m :
  flat_map (fun x => map (g x) (seq 0 m)) (map f (seq 0 n)) = map (fun i => g (f (i / m)%nat) (i mod m)%nat) (seq 0 (n * m)).
Proof.
  induction n as [|n IH]; [reflexivity|].
  rewrite seq_S, map_app, flat_map_app, IH. replace (S n * m)%nat with (n * m + m)%nat by lia. rewrite seq_app, map_app. f_equal.
  cbn [map flat_map Nat.add]. rewrite app_nil_r. 
  apply nth_ext with (d := g (f 0%nat) 0%nat) (d' := g (f 0%nat) 0%nat); [rewrite !map_length, !seq_length; reflexivity|].
  intros k Hk. rewrite map_length, seq_length in Hk. rewrite nth_map_seq' by exact Hk.
  rewrite (nth_indep _ (g (f 0%nat) 0%nat) ((fun i => g (f (i / m)%nat) (i mod m)%nat) 0%nat)) by (rewrite map_length, seq_length; exact Hk).
  rewrite (map_nth (fun i => g (f (i / m)%nat) (i mod m)%nat)), seq_nth by exact Hk.
  rewrite Nat.div_add_l, Nat.div_small by lia. rewrite Nat.add_0_r.
  replace (n * m + k)%nat with (k + n * m)%nat by lia. rewrite Nat.mod_add, Nat.mod_small by lia. reflexivity.
Qed.

(** Frequencies and z state number of a flat index. *)
Definition coordinate (r0 r1 r2 i : nat) : Z * Z * nat :=
  (freq r0 (i / (r1 * r2)), freq r1 (i mod (r1 * r2) / r2), i mod (r1 * r2) mod r2)%nat.

Lemma coordinates_spec r0 r1 r2 : coordinates r0 r1 r2 = map (coordinate r0 r1 r2) (seq 0 (r0 * (r1 * r2))).
Proof.
  unfold coordinates. rewrite !x_coordinates_spec.
  etransitivity; [|exact (flat_map_seq (freq r0) (fun x i => (x, freq r1 (i / r2), i mod r2)%nat) r0 (r1 * r2))].
  apply flat_map_ext. intros x. exact (flat_map_seq (freq r1) (fun y z => (x, y, z)) r1 r2).
Qed.

(** ** The hash map *)

Lemma map_accum_spec {St A B} (P : St -> Prop) (f : St -> A -> option (St * B)) (g : A -> B) l :
  (forall s a, In a l -> P s -> exists s', f s a = Some (s', g a) /\ P s') ->
  forall s, P s -> exists s', map_accum f s l = Some (s', map g l) /\ P s'.
Proof.
  induction l as [|a l IH]; intros H s Hs; [exists s; split; [reflexivity|exact Hs]|].
  destruct (H s a (or_introl eq_refl) Hs) as [s1 [E1 P1]].
  destruct (IH (fun s a Ha => H s a (or_intror Ha)) s1 P1) as [s2 [E2 P2]].
  exists s2. cbn [map_accum map]. rewrite E1, E2. split; [reflexivity|exact P2].
Qed.

Lemma key_eqb_eq a b : key_eqb a b = true -> a = b.
Proof.
  destruct a as [[[a0 a1] a2] a3], b as [[[b0 b1] b2] b3]. cbn. rewrite !andb_true_iff, !Nat.eqb_eq.
  intros [[[-> ->] ->] ->]. reflexivity.
Qed.

Lemma to_list3_cons {A} n0 n1 nz (ft : nat -> nat -> nat -> A) : (0 < n0)%nat ->
  to_list3 n0 n1 nz ft = to_list2 n1 nz (ft 0%nat) :: map (fun i => to_list2 n1 nz (ft i)) (seq 1 (n0 - 1)).
Proof. intros H. unfold to_list3. destruct n0 as [|k]; [lia|]. cbn [seq map]. rewrite Nat.sub_succ, Nat.sub_0_r. reflexivity. Qed.

Lemma nth_error_map_seq {A} (f : nat -> A) n k : (k < n)%nat -> nth_error (map f (seq 0 n)) k = Some (f k).
Proof.
  intros H. rewrite (nth_error_nth' _ (f 0%nat)) by (rewrite map_length, seq_length; exact H). rewrite nth_map_seq' by exact H. reflexivity.
Qed.

Lemma coordinate_z r0 r1 r2 i : (i < r0 * (r1 * r2))%nat -> (snd (coordinate r0 r1 r2 i) < r2)%nat.
Proof. intros H. cbn. apply Nat.mod_upper_bound. intros ->. lia. Qed.

Section Body.
  Variable body : nat -> nat -> list C -> option C.
  Variables n0 n1 nz : nat.
  Variable ft : nat -> nat -> nat -> C.
  Hypothesis Hn0 : (0 < n0)%nat.
  Hypothesis Hn1 : (0 < n1)%nat.
  Variable r2 : nat.
  Variable value : nat -> nat -> nat -> nat -> C.
  Hypothesis Hbody : forall k0 k1 z1 z2, (k0 < n0)%nat -> (k1 < n1)%nat -> (z1 < r2)%nat -> (z2 < r2)%nat ->
    body z1 z2 (map (ft k0 k1) (seq 0 nz)) = Some (value k0 k1 z1 z2).

  Definition ok_key (k : memo_key) (c : C) : Prop := let '(k0, k1, z1, z2) := k in c = value k0 k1 z1 z2.
  Definition memo_ok (m : memo) : Prop := forall k c, memo_get m k = Some c -> ok_key k c.

  Definition out (c1 c2 : Z * Z * nat) : C :=
    let '(a0, a1, z1) := c1 in let '(b0, b1, z2) := c2 in value (slot n0 (b0 - a0)) (slot n1 (b1 - a1)) z1 z2.

  Lemma step_spec c1 c2 m : (snd c1 < r2)%nat -> (snd c2 < r2)%nat -> memo_ok m ->
    exists m', off_diagonal_step body (to_list3 n0 n1 nz ft) c1 m c2 = Some (m', out c1 c2) /\ memo_ok m'.
  Proof using Hn0 Hn1 Hbody.
    destruct c1 as [[a0 a1] z1], c2 as [[b0 b1] z2]. cbn [snd]. intros Hz1 Hz2 Hm.
    assert (L0 : length (to_list3 n0 n1 nz ft) = n0) by (unfold to_list3; rewrite map_length, seq_length; reflexivity).
    assert (L1 : length (to_list2 n1 nz (ft 0%nat)) = n1) by (unfold to_list2; rewrite map_length, seq_length; reflexivity).
    assert (E : off_diagonal_step body (to_list3 n0 n1 nz ft) (a0, a1, z1) m (b0, b1, z2)
      = let nx0 := Z.of_nat (length (to_list3 n0 n1 nz ft)) in
        let nx1 := Z.of_nat (length (to_list2 n1 nz (ft 0%nat))) in
        if (nx1 =? 0)%Z then None else
        match memo_get m (Z.to_nat ((b0 - a0) mod nx0), Z.to_nat ((b1 - a1) mod nx1), z1, z2) with
        | Some a => Some (m, a)
        | None =>
          match nth_error (to_list3 n0 n1 nz ft) (Z.to_nat ((b0 - a0) mod nx0)) with
          | None => None
          | Some r => match nth_error r (Z.to_nat ((b1 - a1) mod nx1)) with
             | None => None
             | Some points => match body z1 z2 points with None => None
               | Some out => Some (((Z.to_nat ((b0 - a0) mod nx0), Z.to_nat ((b1 - a1) mod nx1), z1, z2), out) :: m, out) end end end end).
    { rewrite (to_list3_cons n0 n1 nz ft Hn0). reflexivity. }
    rewrite E. clear E. cbv zeta. rewrite L1, L0.
    destruct (Z.eqb_spec (Z.of_nat n1) 0) as [E|_]; [lia|].
    fold (slot n0 (b0 - a0)) (slot n1 (b1 - a1)).
    destruct (memo_get m (slot n0 (b0 - a0), slot n1 (b1 - a1), z1, z2)) as [c|] eqn:Eg.
    - exists m. split; [|exact Hm]. specialize (Hm _ _ Eg). cbn in Hm. rewrite Hm. reflexivity.
    - pose proof (slot_lt n0 (b0 - a0) Hn0) as S0. pose proof (slot_lt n1 (b1 - a1) Hn1) as S1.
      unfold to_list3. rewrite nth_error_map_seq by exact S0. unfold to_list2. rewrite nth_error_map_seq by exact S1.
      rewrite Hbody by assumption. eexists. split; [reflexivity|].
      intros k c. cbn [memo_get]. destruct (key_eqb _ k) eqn:Ek; [|apply Hm].
      apply key_eqb_eq in Ek. subst k. intros E. injection E as <-. cbn. reflexivity.
  Qed.

  Lemma off_diagonal_spec r0 r1 : off_diagonal body (to_list3 n0 n1 nz ft) r0 r1 r2
    = Some (to_list2 (r0 * (r1 * r2)) (r0 * (r1 * r2)) (fun i j => out (coordinate r0 r1 r2 i) (coordinate r0 r1 r2 j))).
  Proof using Hn0 Hn1 Hbody.
    unfold off_diagonal. rewrite coordinates_spec. set (cs := map (coordinate r0 r1 r2) _).
    assert (Hin : forall c, In c cs -> (snd c < r2)%nat).
    { intros c Hc. apply in_map_iff in Hc. destruct Hc as [i [<- Hi]]. apply in_seq in Hi. apply coordinate_z. lia. }
    destruct (map_accum_spec memo_ok (fun m c1 => map_accum (off_diagonal_step body (to_list3 n0 n1 nz ft) c1) m cs)
      (fun c1 => map (out c1) cs) cs) with (s := @nil (memo_key * C)) as [m [E _]].
    - intros m c1 Hc1 Hm. apply (map_accum_spec memo_ok); [|exact Hm]. intros m' c2 Hc2 Hm'.
      apply step_spec; auto.
    - intros k c Hk. discriminate.
    - rewrite E. f_equal. unfold to_list2, cs. rewrite map_map. apply map_ext. intros i. rewrite map_map. reflexivity.
  Qed.
End Body.

Lemma csum_S_head (f : nat -> C) n : csum f (S n) = f 0%nat + csum (fun m => f (S m)) n.
Proof. induction n as [|n IH]; [cbn; ring|]. cbn [csum] in *. rewrite IH. ring. Qed.

Lemma zip_sum_seq {A B} (f : C -> A -> B -> C) (p : nat -> C) (u : nat -> A) (v : nat -> B) n : forall a,
  zip_sum f (map p (seq a n)) (map u (seq a n)) (map v (seq a n)) = csum (fun i => f (p (a + i)%nat) (u (a + i)%nat) (v (a + i)%nat)) n.
Proof.
  induction n as [|n IH]; intros a; [reflexivity|]. rewrite csum_S_head. cbn [seq map zip_sum]. rewrite IH, Nat.add_0_r.
  f_equal. apply csum_ext. intros i _. rewrite !Nat.add_succ_r. reflexivity.
Qed.

Lemma energies2_spec n0 n1 nz ft m eig r0 r1 : (0 < n0)%nat -> (0 < n1)%nat ->
  calculate_off_diagonal_energies2 (to_list3 n0 n1 nz ft) (to_list2 m nz eig) r0 r1 m
  = Some (to_list2 (r0 * (r1 * m)) (r0 * (r1 * m)) (fun i j =>
      out n0 n1 (fun k0 k1 z1 z2 => csum (fun z => ft k0 k1 z * eig z1 z * Cconj (eig z2 z)) nz)
        (coordinate r0 r1 m i) (coordinate r0 r1 m j))).
Proof.
  intros H0 H1. apply off_diagonal_spec; try assumption. intros k0 k1 z1 z2 _ _ Hz1 Hz2.
  unfold to_list2. rewrite !nth_error_map_seq by assumption. f_equal. rewrite zip_sum_seq. reflexivity.
Qed.

Lemma energies1_spec hbar n0 n1 nz ft r0 r1 r2 dz mass omega z_offset : (0 < n0)%nat -> (0 < n1)%nat ->
  calculate_off_diagonal_energies hbar (to_list3 n0 n1 nz ft) r0 r1 r2 dz mass omega z_offset
  = Some (to_list2 (r0 * (r1 * r2)) (r0 * (r1 * r2)) (fun i j =>
      out n0 n1 (fun k0 k1 z1 z2 => csum (fun z => ft k0 k1 z * RtoC (rust_sho_wavefunction hbar (dz * INR z + z_offset) omega mass z1)
            * RtoC (rust_sho_wavefunction hbar (dz * INR z + z_offset) omega mass z2)) nz * RtoC dz)
        (coordinate r0 r1 r2 i) (coordinate r0 r1 r2 j))).
Proof.
  intros H0 H1. 
  assert (E : to_list2 n1 nz (ft 0%nat) = map (ft 0%nat 0%nat) (seq 0 nz) :: map (fun i => map (ft 0%nat i) (seq 0 nz)) (seq 1 (n1 - 1))).
  { unfold to_list2. destruct n1 as [|k]; [lia|]. cbn [seq map]. rewrite Nat.sub_succ, Nat.sub_0_r. reflexivity. }
  assert (E' : calculate_off_diagonal_energies hbar (to_list3 n0 n1 nz ft) r0 r1 r2 dz mass omega z_offset =
      let z_points := map (fun i => dz * INR i + z_offset)%R (seq 0 (length (map (ft 0%nat 0%nat) (seq 0 nz)))) in
      let cache := map (fun nz => map (fun p => rust_sho_wavefunction hbar p omega mass nz) z_points) (seq 0 r2) in
      off_diagonal (fun nz1 nz2 points =>
          match nth_error cache nz1, nth_error cache nz2 with
          | Some sho1, Some sho2 =>
              Some (Cmult (zip_sum (fun i j k => Cmult (Cmult i (RtoC j)) (RtoC k)) points sho1 sho2) (RtoC dz))
          | _, _ => None
          end) (to_list3 n0 n1 nz ft) r0 r1 r2) by (rewrite (to_list3_cons n0 n1 nz ft H0), E; reflexivity).
  rewrite E'. clear E'. cbv zeta. rewrite map_length, seq_length.
  apply off_diagonal_spec; try assumption. intros k0 k1 z1 z2 _ _ Hz1 Hz2.
  rewrite !nth_error_map_seq by assumption. f_equal. f_equal. rewrite !map_map, zip_sum_seq. reflexivity.
Qed.
