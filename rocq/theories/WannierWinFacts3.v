(** Concrete runs: two samples, one or two bands. *)
From Coq Require Import Reals Lra Ascii String.
From Verif Require Import ZLib Csum DFT NumPy Interp Index Spec Basis SpecBasis Operator SpecOperator Wavepacket SpecWavepacket Localize SpecLocalize
  Lattice VolumeBasis SpecVolumeBasis VolumeBasisProofs Wannier SpecWannier WannierProofs WannierProofs2 WannierProofs5 WannierFacts WannierWin SpecWannierWin WannierWinFacts2.
Local Open Scope R_scope.
Local Open Scope C_scope.

Definition two_u_mat : text :=
  file_of_lines [txt " written on 16Nov2026"; txt "  2  1  1"; []; txt " 0.0 0.0 0.0"; txt "   0   1"; []; txt " 0.5 0.0 0.0"; txt "   1   0"].
Definition two_U (s i j : nat) : C := match s with O => Ci | _ => RtoC 1%R end.
Lemma two_u_mat_ok : u_mat_file integer_float 2 1 two_U two_u_mat.
Proof.
  exists (txt " written on 16Nov2026"), (txt "  2  1  1"), (fun s => match s with O => txt " 0.0 0.0 0.0" | _ => txt " 0.5 0.0 0.0" end),
    (fun s _ _ => match s with O => txt "   0   1" | _ => txt "   1   0" end).
  split; [apply file_of_lines_text|]. split; [reflexivity|]. split; [|split; [intros [|s] _; reflexivity|]].
  - exists [txt "2"; txt "1"; txt "1"]. split.
    + constructor; [apply (integer_digit 2); lia|]. do 2 (constructor; [apply (integer_digit 1); lia|]). constructor.
    + apply (first_word 2 (txt "2") _ (txt " 1  1")); [|cbn; lia].
      apply (first_word 1 (txt "1") _ (txt " 1")); [|cbn; lia]. exact (last_word 1 (txt "1") 0).
  - assert (Z0 : forall a b za zb, integer_float (txt a) = Some za -> integer_float (txt b) = Some zb -> txt a <> [] -> txt b <> [] ->
      forallb (fun c => negb (is_space c)) (txt a ++ txt b) = true ->
      complex_line integer_float (za, zb) (repeat " "%char 3 ++ txt a ++ " "%char :: (repeat " "%char 2 ++ txt b ++ repeat " "%char 0))).
    { intros a b za zb Ea Eb Na Nb Ns. exists (txt a), (txt b). split; [|auto 6].
      apply (first_word 3 (txt a) [txt b]); [|cbn; lia]. apply (last_word 2 (txt b) 0). }
    intros [|s] i j Hs Hi Hj.
    + apply (Z0 "0"%string "1"%string 0%R 1%R); try reflexivity; discriminate.
    + apply (Z0 "1"%string "0"%string 1%R 0%R); try reflexivity; discriminate.
Qed.

Lemma ex_answers : answers_setup 2 (fun _ => Some ex_nnkp) /\ answers_files integer_float 2 1 two_U (fun _ => Some two_u_mat).
Proof.
  split; [intros win _; exists 2%Z, ex_neighbours, ex_nnkp|intros files; exists two_u_mat]; (split; [reflexivity|]).
  - split; [exact ex_nnkp_ok|exact (proj2 ex_neighbours_ok)].
  - exact two_u_mat_ok.
Qed.

Definition ex_two_bands : ndarray := {| ashape := [16%nat]; aflat := fun t => RtoC (INR t) |}.
Definition ex_options : w90_options :=
  {| w_projections := BFund 1; w_states := Some (BTuple ex_paxes, {| ashape := [12%nat]; aflat := fun t => RtoC (INR t) |});
     w_num_iter := 10000%Z; w_window := 3%Z; w_tolerance := 0%R; w_symmetry := None; w_ignore := map Z.of_nat [1%nat] |}.

Lemma ex_axes_ok : (0 < List.length ex_cell_axes <= 3)%nat /\ List.length ex_laxes = List.length ex_cell_axes /\
  in_space (List.length ex_cell_axes) ex_cell_axes /\ bwf (BTuple ex_laxes) /\ Forall (fun b => is_transformed b = true) ex_laxes /\
  bwf (stacked ex_cell_axes) /\ explicit_orthonormal (stacked ex_cell_axes) /\
  nprod (ashape ex_wave_data) = (bsize (BFund 1) * nprod (map bsize ex_laxes) * bsize (stacked ex_cell_axes))%nat /\
  nprod (ashape ex_two_bands) = (bsize (BFund 2) * nprod (map bsize ex_laxes) * bsize (stacked ex_cell_axes))%nat.
Proof.
  split; [cbn; lia|]. split; [reflexivity|]. split; [repeat constructor|]. split; [cbn; repeat split; lia|]. split; [repeat constructor|].
  split; [cbn; repeat split; lia|]. split; [cbn; repeat split|]. split; reflexivity.
Qed.
Lemma ex_states_ok : forall pb states, w_states ex_options = Some (pb, states) -> exists paxes, pb = BTuple paxes /\ bwf pb /\ explicit_orthonormal pb /\
       map bfund paxes = supercell (map bsize ex_laxes) (fundamental_shape ex_cell_axes) /\
       nprod (ashape states) = (bsize (w_projections ex_options) * bsize pb)%nat.
Proof.
  intros pb states E. injection E as <- <-. exists ex_paxes. split; [reflexivity|]. split; [cbn; repeat split; lia|].
  split; [cbn; repeat split|]. split; reflexivity.
Qed.

(** The vectors reciprocal to the cell written for [ex_cell_axes]. *)
Definition ex_cell : list (list R) := [[2 * 10 ^ 10; 1 * 10 ^ 10; 0]; [0 * 10 ^ 10; 3 * 10 ^ 10; 0]; [0; 0; 1]]%R.
Definition ex_reciprocal (j c : nat) : R :=
  match j, c with
  | 0%nat, 0%nat => PI / 10 ^ 10 | 1%nat, 0%nat => - (PI / 3) / 10 ^ 10 | 1%nat, 1%nat => 2 * PI / 3 / 10 ^ 10
  | 2%nat, 2%nat => 2 * PI | _, _ => 0
  end%R.
Lemma ex_win same : identity_test same -> exists win, build_win_file same (BFund 1) ex_laxes ex_cell_axes true ex_options = Some win /\
  win_cell win = ex_cell /\ win_grid win = [2; 1; 1]%nat /\ reciprocal (win_cell win) ex_reciprocal.
Proof.
  intros H. destruct (WannierWinFacts.win_vectors same (BFund 1) ex_laxes ex_cell_axes true ex_options H) as [win [E _]];
    try (apply ex_axes_ok).
  assert (Ec : win_cell win = ex_cell /\ win_grid win = [2; 1; 1]%nat).
  { unfold build_win_file in E. destruct (delta_x_stacked ex_cell_axes) as [d|] eqn:D; [|discriminate].
    rewrite (delta_x_stacked_some 2) in D. 2: { repeat constructor. } injection D as <-.
    unfold build_k_points_block in E. destruct (sample_fractions same ex_laxes) as [fr|]; [|discriminate].
    cbn -[IZR pow] in E. injection E as <-. cbn [win_cell win_grid]. split; reflexivity. }
  exists win. split; [exact E|]. split; [apply Ec|]. split; [apply Ec|]. rewrite (proj1 Ec).
  intros i j Hi Hj. destruct i as [|[|[|i]]]; try lia; destruct j as [|[|[|j]]]; try lia;
    unfold rsum, ex_cell, cell_at, ex_reciprocal; cbn -[IZR pow]; field.
Qed.
