(** Concrete files and wavepackets. *)
From Coq Require Import Reals Ascii String.
From Verif Require Import ZLib Csum DFT NumPy Interp Index IndexProofs Spec Basis SpecBasis BasisProofs
  Operator SpecOperator Wavepacket SpecWavepacket SpecMatrix Localize SpecLocalize Wannier SpecWannier WannierProofs WannierProofs2 WannierProofs4 WannierProofs5.
Local Open Scope R_scope.
Local Open Scope C_scope.

(** ** A file of neighbours *)
Definition ex_nnkp : text :=
  (txt "recip_lattice" ++ [newline] ++ txt "begin nnkpts" ++ [newline] ++ txt "  2" ++ [newline] ++
   txt "   1     2      0   0   0" ++ [newline] ++ txt "   2     1      1   0  -1" ++ [newline] ++ txt "end nnkpts" ++ [newline])%list.
Definition ex_neighbours : list (list Z) := [[1; 2; 0; 0; 0]; [2; 1; 1; 0; -1]]%Z.

Lemma integer_digit d : (d < 10)%nat -> integer (Z.of_nat d) [ascii_of_nat (48 + d)].
Proof. intros H. constructor. constructor. exact H. Qed.
Lemma integer_minus d : (d < 10)%nat -> integer (- Z.of_nat d)%Z ("-"%char :: [ascii_of_nat (48 + d)]).
Proof. intros H. constructor. constructor. exact H. Qed.

Lemma ex_nnkp_ok : nnkp_file 2 ex_neighbours ex_nnkp.
Proof.
  exists (txt "recip_lattice" ++ [newline])%list, [], (txt "  2"), [txt "   1     2      0   0   0"; txt "   2     1      1   0  -1"], [newline].
  split; [reflexivity|]. split.
  { intros a b E. apply (f_equal (fun l => existsb (Ascii.eqb "b"%char) l)) in E. rewrite !existsb_app in E.
    replace (existsb (Ascii.eqb "b"%char) (txt "begin nnkpts")) with true in E by reflexivity.
    rewrite orb_true_r in E. vm_compute in E. discriminate. }
  split; [exists 0%nat; reflexivity|]. split; [|constructor; [|constructor; [|constructor]]].
  - exists [txt "2"]. split; [constructor; [apply (integer_digit 2); lia|constructor]|]. exact (last_word 2 (txt "2") 0).
  - exists [txt "1"; txt "2"; txt "0"; txt "0"; txt "0"]. split.
    + constructor; [apply (integer_digit 1); lia|]. constructor; [apply (integer_digit 2); lia|].
      do 3 (constructor; [apply (integer_digit 0); lia|]). constructor.
    + apply (first_word 3 (txt "1") _ (txt "    2      0   0   0")); [|cbn; lia].
      apply (first_word 4 (txt "2") _ (txt "     0   0   0")); [|cbn; lia].
      apply (first_word 5 (txt "0") _ (txt "  0   0")); [|cbn; lia].
      apply (first_word 2 (txt "0") _ (txt "  0")); [|cbn; lia]. exact (last_word 2 (txt "0") 0).
  - exists [txt "2"; txt "1"; txt "1"; txt "0"; txt "-1"]. split.
    + constructor; [apply (integer_digit 2); lia|]. do 2 (constructor; [apply (integer_digit 1); lia|]).
      constructor; [apply (integer_digit 0); lia|]. constructor; [apply (integer_minus 1); lia|]. constructor.
    + apply (first_word 3 (txt "2") _ (txt "    1      1   0  -1")); [|cbn; lia].
      apply (first_word 4 (txt "1") _ (txt "     1   0  -1")); [|cbn; lia].
      apply (first_word 5 (txt "1") _ (txt "  0  -1")); [|cbn; lia].
      apply (first_word 2 (txt "0") _ (txt " -1")); [|cbn; lia]. exact (last_word 1 (txt "-1") 0).
Qed.

Lemma ex_neighbours_ok : Forall (fun e => List.length e = 5%nat) ex_neighbours /\ Forall (neighbour 2) ex_neighbours.
Proof.
  split; [repeat constructor|]. constructor; [|constructor; [|constructor]].
  - exists 1%Z, 2%Z, [0; 0; 0]%Z. repeat split; lia.
  - exists 2%Z, 1%Z, [1; 0; -1]%Z. repeat split; lia.
Qed.

(** ** One band, two samples along an axis of three momenta and one kept in position *)
Definition ex_saxes : list basis := [BTrunc 2 3; BFund 2].
Definition ex_wave_data : ndarray :=
  {| ashape := [8%nat]; aflat := fun t => match t with 0%nat | 5%nat => RtoC 1%R | _ => RtoC 0%R end |}.
Lemma ex_wave_ok : Forall bwf ex_saxes /\ explicit_orthonormal (BTuple ex_saxes) /\ (List.length ex_saxes <= 3)%nat /\
  Forall (fun a => (a < 3)%nat) [1%nat] /\
  nprod (ashape ex_wave_data) = (bsize (BFund 1) * 2 * bsize (BTuple ex_saxes))%nat.
Proof. repeat split; cbn; repeat constructor; cbn; lia. Qed.

(** Projections onto two points of the supercell of shape [6; 2]. *)
Definition ex_laxes : list basis := [BFundT 2; BFundT 1].
Definition ex_paxes : list basis := [BFund 6; BFund 2].
Definition ex_points : ndarray :=
  {| ashape := [24%nat]; aflat := fun t => match t with 0%nat | 19%nat => RtoC 1%R | _ => RtoC 0%R end |}.
Lemma ex_projection_ok : bwf (BTuple ex_saxes) /\ List.length ex_laxes = List.length ex_saxes /\
  bwf (BTuple ex_paxes) /\ explicit_orthonormal (BTuple ex_paxes) /\
  map bfund ex_paxes = supercell (map bsize ex_laxes) (map bfund ex_saxes) /\
  nprod (ashape ex_wave_data) = (1 * nprod (map bsize ex_laxes) * bsize (BTuple ex_saxes))%nat /\
  nprod (ashape ex_points) = (2 * bsize (BTuple ex_paxes))%nat.
Proof. repeat split; cbn; lia. Qed.

(** ** A result file *)
Definition integer_float (t : text) : option R := option_map IZR (python_int t).
Definition ex_u_mat : text :=
  (txt " written on 16Nov2026" ++ carriage_return :: txt "  1  2  2" ++ carriage_return :: newline ::
   file_of_lines [[]; txt " 0.0 0.0 0.0"; txt "   0   0"; txt "   0   1"; txt "   1   0"; txt "   0   0"])%list.
(** U = ((0, 1), (i, 0)), listed by columns. *)
Definition ex_U (s i j : nat) : C := match i, j with 1%nat, 0%nat => Ci | 0%nat, 1%nat => RtoC 1%R | _, _ => RtoC 0%R end.
Lemma ex_u_mat_ok : u_mat_file integer_float 1 2 ex_U ex_u_mat.
Proof.
  exists (txt " written on 16Nov2026"), (txt "  1  2  2"), (fun _ => txt " 0.0 0.0 0.0"),
    (fun _ i j => match i, j with 1%nat, 0%nat => txt "   0   1" | 0%nat, 1%nat => txt "   1   0" | _, _ => txt "   0   0" end).
  split; [apply mac_line; [apply windows_line, file_of_lines_text|discriminate]|]. split; [reflexivity|]. split; [|split; [intros; reflexivity|]].
  - exists [txt "1"; txt "2"; txt "2"]. split.
    + constructor; [apply (integer_digit 1); lia|]. do 2 (constructor; [apply (integer_digit 2); lia|]). constructor.
    + apply (first_word 2 (txt "1") _ (txt " 2  2")); [|cbn; lia].
      apply (first_word 1 (txt "2") _ (txt " 2")); [|cbn; lia]. exact (last_word 1 (txt "2") 0).
  - assert (Z0 : forall a b za zb, integer_float (txt a) = Some za -> integer_float (txt b) = Some zb -> txt a <> [] -> txt b <> [] ->
      forallb (fun c => negb (is_space c)) (txt a ++ txt b) = true ->
      complex_line integer_float (za, zb) (repeat " "%char 3 ++ txt a ++ " "%char :: (repeat " "%char 2 ++ txt b ++ repeat " "%char 0))).
    { intros a b za zb Ea Eb Na Nb Ns. exists (txt a), (txt b). split; [|auto 6].
      apply (first_word 3 (txt a) [txt b]); [|cbn; lia]. apply (last_word 2 (txt b) 0). }
    intros s i j Hs Hi Hj. destruct i as [|[|i]]; [| |lia]; destruct j as [|[|j]]; try lia.
    + apply (Z0 "0"%string "0"%string 0%R 0%R); try reflexivity; discriminate.
    + apply (Z0 "1"%string "0"%string 1%R 0%R); try reflexivity; discriminate.
    + apply (Z0 "0"%string "1"%string 0%R 1%R); try reflexivity; discriminate.
    + apply (Z0 "0"%string "0"%string 0%R 0%R); try reflexivity; discriminate.
Qed.
Lemma ex_U_unitary : unitary 2 (ex_U 0).
Proof.
  split; intros i j Hi Hj; destruct i as [|[|i]]; try lia; destruct j as [|[|j]]; try lia;
    unfold csum, cdelta; cbn; apply injective_projections; cbn; ring.
Qed.
