(** A metal in units where the constants are one. *)
From Coq Require Import Reals Lra Psatz.
From Coquelicot Require Import Coquelicot.
From Verif Require Import Csum DFT GammaIntegral SpecGamma GammaProofs4.
Local Open Scope R_scope.

Definition gm_c : constants := {| hbar := 1; electron_mass := 1; elementary_charge := 1; epsilon_0 := 1 |}.
Definition gm_overlap (q : R) : C := (exp (- q), sin q).
Definition gm_real (q : R) : C := (exp (- q), 0).

Lemma gm_physical : physical gm_c.
Proof. unfold physical, gm_c. cbn. lra. Qed.

Lemma gm_energies : 0 < 1 /\ 0 < / 100 /\
  (forall k, 1 - 40 * / 100 * electron_mass gm_c / ((hbar gm_c) ^ 2 * 1) <= k <= 1 + 40 * / 100 * electron_mass gm_c / ((hbar gm_c) ^ 2 * 1) ->
     0 <= electron_energy gm_c k + - (/ 10)) /\
  (exists k, 1 - 40 * / 100 * electron_mass gm_c / ((hbar gm_c) ^ 2 * 1) <= k <= 1 + 40 * / 100 * electron_mass gm_c / ((hbar gm_c) ^ 2 * 1) /\
     electron_energy gm_c k + - (1) < 0).
Proof.
  cbn [hbar electron_mass gm_c]. unfold electron_energy. cbn [hbar electron_mass gm_c].
  replace (40 * / 100 * 1 / (1 ^ 2 * 1)) with (2 / 5) by field. split; [lra|]. split; [lra|]. split.
  - intros k Hk. nra.
  - exists 1. lra.
Qed.

Lemma gm_continuous : continuous_overlap gm_overlap /\ continuous_overlap gm_real.
Proof.
  split; intros q; split; cbn [gm_overlap gm_real fst snd]; try apply continuous_const;
    apply (@ex_derive_continuous R_AbsRing R_NormedModule); auto_derive; trivial.
Qed.

Lemma gm_bounded : (forall q, 0 <= q <= 1 -> Cmod (gm_overlap q) <= 2) /\ (forall q, 0 <= q <= 1 -> snd (gm_real q) = 0 /\ 0 < fst (gm_real q) <= 1).
Proof.
  assert (E : forall q, 0 <= q <= 1 -> 0 < exp (- q) <= 1).
  { intros q Hq. split; [apply exp_pos|]. rewrite <- exp_0. destruct (Req_dec q 0) as [->|N]; [right; f_equal; lra|]. left. apply exp_increasing. lra. }
  split; intros q Hq; assert (B := E q Hq).
  - unfold Cmod, gm_overlap. cbn [fst snd]. assert (S1 := SIN_bound q). replace 2 with (sqrt (2 ^ 2)) by (apply sqrt_pow2; lra). apply sqrt_le_1_alt. nra.
  - cbn [gm_real fst snd]. split; [reflexivity|exact B].
Qed.

Lemma gm_total : exists g g', real_gamma_integral gm_c (- / 10) 1 (/ 100) gm_real = Some g /\ real_gamma_integral gm_c 0 1 (/ 100) gm_real = Some g'.
Proof.
  destruct gm_energies as [H1 [H2 [H3 _]]]. unfold real_gamma_integral.
  destruct (occupation_spec gm_c (- / 10) 1 (/ 100) gm_physical H1 H2) as [A _]. destruct (A H3) as [i [-> _]].
  destruct (occupation_spec gm_c 0 1 (/ 100) gm_physical H1 H2) as [B _]. destruct B as [j [-> _]].
  - intros k Hk. assert (Z := H3 k Hk). lra.
  - eexists. eexists. split; reflexivity.
Qed.
