(** Properties of the sites at which potentials are compared (C116). *)
From Coq Require Import Reals ZArith String List.
From Verif Require Import Sites SpecSites SitesProofs.
Local Open Scope R_scope.

(** The names are those of the dictionaries. *)
Example ex_C116_names : exists t b f h, site_named "Top Site" (get_111_comparison_points_x2 (6, 12)%Z (1, 2)%Z) = Some t /\
  site_named "Bridge Site" (get_111_comparison_points_x2 (6, 12)%Z (1, 2)%Z) = Some b /\
  site_named "FCC Site" (get_111_comparison_points_x2 (6, 12)%Z (1, 2)%Z) = Some f /\
  site_named "HCP Site" (get_111_comparison_points_x2 (6, 12)%Z (1, 2)%Z) = Some h.
Proof. exact (names_exist (6, 12)%Z (1, 2)%Z). Qed.

(** On a (111) surface with a multiple of three points along both axes the FCC, HCP and top sites
    are three different sites and just those about which, as about FCC, the lattice with them is
    symmetric: a point of the grid keeps its site under the third of a turn about FCC if and only
    if it is one of them. *)
Theorem C116_symmetric_sites_111 :
  forall a, 0 < a -> forall k0 k1 o t b f h, (0 < k0)%Z -> (0 < k1)%Z ->
  let n := (3 * k0, 3 * k1)%Z in let pos := grid_position (hex0 a) (hex1 a) n in let same := same_site (hex0 a) (hex1 a) in
  (site_named "Top Site" (get_111_comparison_points_x2 n o) = Some t /\ site_named "Bridge Site" (get_111_comparison_points_x2 n o) = Some b /\
   site_named "FCC Site" (get_111_comparison_points_x2 n o) = Some f /\ site_named "HCP Site" (get_111_comparison_points_x2 n o) = Some h) ->
  (forall p, same (third_turn (pos f) (pos p)) (pos p) <-> same (pos p) (pos f) \/ same (pos p) (pos h) \/ same (pos p) (pos t)) /\
  ~ same (pos f) (pos h) /\ ~ same (pos h) (pos t) /\ ~ same (pos t) (pos f).
Proof. exact symmetric_111. Qed.
Print Assumptions C116_symmetric_sites_111.

(** With a multiple of six points the bridge site is in the middle of FCC and HCP and of two
    top sites a lattice vector apart. *)
Theorem C116_bridge_111 :
  forall a, 0 < a -> forall k0 k1 o t b f h, (0 < k0)%Z -> (0 < k1)%Z ->
  let n := (6 * k0, 6 * k1)%Z in let pos := grid_position (hex0 a) (hex1 a) n in let same := same_site (hex0 a) (hex1 a) in
  (site_named "Top Site" (get_111_comparison_points_x2 n o) = Some t /\ site_named "Bridge Site" (get_111_comparison_points_x2 n o) = Some b /\
   site_named "FCC Site" (get_111_comparison_points_x2 n o) = Some f /\ site_named "HCP Site" (get_111_comparison_points_x2 n o) = Some h) ->
  pos b = middle (pos f) (pos h) /\
  exists u v, same u (pos t) /\ same v (pos t) /\ pos b = middle u v /\ plane_distance u v = a.
Proof. exact bridge_111. Qed.
Print Assumptions C116_bridge_111.

(** With any other number of points HCP and top are rounded towards FCC by less than a point of
    the grid, and are not symmetric sites. *)
Theorem C116_rounded_111 :
  forall a, 0 < a -> forall n0 n1 o t b f h, (3 <= n0)%Z -> (0 < n1)%Z -> (n0 mod 3 <> 0)%Z ->
  let n := (n0, n1) in let pos := grid_position (hex0 a) (hex1 a) n in let same := same_site (hex0 a) (hex1 a) in
  (site_named "Top Site" (get_111_comparison_points_x2 n o) = Some t /\ site_named "Bridge Site" (get_111_comparison_points_x2 n o) = Some b /\
   site_named "FCC Site" (get_111_comparison_points_x2 n o) = Some f /\ site_named "HCP Site" (get_111_comparison_points_x2 n o) = Some h) ->
  (0 < IZR n0 / 3 - IZR (fst h - fst f) < 1 /\ 0 < 2 * IZR n0 / 3 - IZR (fst t - fst f) < 1) /\
  ~ same (third_turn (pos f) (pos h)) (pos h) /\ ~ same (third_turn (pos f) (pos t)) (pos t).
Proof. exact rounded_111. Qed.
Print Assumptions C116_rounded_111.
Example ex_C116_rounded : (3 <= 4)%Z /\ (0 < 1)%Z /\ (4 mod 3 <> 0)%Z.
Proof. repeat split; discriminate. Qed.

(** On a (100) surface with even numbers of points hollow and top are just the sites kept by a
    quarter of a turn about hollow; half a turn keeps in addition the bridge and the bridge along
    the other axis.  All are different. *)
Theorem C116_symmetric_sites_100 :
  forall a, 0 < a -> forall k0 k1 o ho b t, (0 < k0)%Z -> (0 < k1)%Z ->
  let n := (2 * k0, 2 * k1)%Z in let pos := grid_position (square0 a) (square1 a) n in let same := same_site (square0 a) (square1 a) in
  (site_named "Hollow Site" (get_100_comparison_points_x2 n o) = Some ho /\ site_named "Bridge Site" (get_100_comparison_points_x2 n o) = Some b /\
   site_named "Top Site" (get_100_comparison_points_x2 n o) = Some t) ->
  (forall p, same (quarter_turn (pos ho) (pos p)) (pos p) <-> same (pos p) (pos ho) \/ same (pos p) (pos t)) /\
  (forall p, same (half_turn (pos ho) (pos p)) (pos p) <->
     same (pos p) (pos ho) \/ same (pos p) (pos t) \/ same (pos p) (pos b) \/ same (pos p) (quarter_turn (pos ho) (pos b))) /\
  ~ same (pos ho) (pos t) /\ ~ same (pos b) (pos ho) /\ ~ same (pos b) (pos t) /\ ~ same (pos b) (quarter_turn (pos ho) (pos b)).
Proof. exact symmetric_100. Qed.
Print Assumptions C116_symmetric_sites_100.
Example ex_C116_100 : exists ho b t, site_named "Hollow Site" (get_100_comparison_points_x2 (4, 6)%Z (1, 2)%Z) = Some ho /\
  site_named "Bridge Site" (get_100_comparison_points_x2 (4, 6)%Z (1, 2)%Z) = Some b /\
  site_named "Top Site" (get_100_comparison_points_x2 (4, 6)%Z (1, 2)%Z) = Some t.
Proof. exact (names_100_exist (4, 6)%Z (1, 2)%Z). Qed.

Theorem C116_bridge_100 :
  forall a, 0 < a -> forall k0 n1 o ho b t, (0 < k0)%Z -> (0 < n1)%Z ->
  let n := (2 * k0, n1)%Z in let pos := grid_position (square0 a) (square1 a) n in let same := same_site (square0 a) (square1 a) in
  (site_named "Hollow Site" (get_100_comparison_points_x2 n o) = Some ho /\ site_named "Bridge Site" (get_100_comparison_points_x2 n o) = Some b /\
   site_named "Top Site" (get_100_comparison_points_x2 n o) = Some t) ->
  exists h', same h' (pos ho) /\ pos b = middle (pos ho) h' /\ plane_distance (pos ho) h' = a.
Proof. exact bridge_100. Qed.
Print Assumptions C116_bridge_100.
