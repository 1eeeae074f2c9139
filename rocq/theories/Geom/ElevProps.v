(** * C66: elevation puts one node in the middle of every edge, face and cell *)
From Coq Require Import Reals List ZArith Permutation.
From Verif Require Import Base.Prelude Geom.ElemModel Geom.PeriodicModel Geom.PeriodicSpec Geom.ElevModel Geom.ElevSpec Geom.ElevProofs
  Geom.ElevShare Geom.ElevMore Geom.ElevDone Geom.ElevTotal Geom.ElevSmooth Geom.ElevExample.
Import ListNotations.
Local Open Scope Z_scope.

(** Cells keep their place, their neighbours and their bits and get the elevated type with all
    its nodes; every rank keeps its nodes; an old node keeps its place in the cell and its
    coordinates. *)
Theorem C66_old_nodes_stay : forall m o, elevate m = Ok o -> sound_cells m ->
  length (o_cells o) = length (all_cells m) /\ Forall2 (fun p X => exists new, X = p_coords p ++ new) (parts m) (o_coords o) /\
  forall i c, is_cell m i c -> exists c2, nth_error (o_cells o) i = Some c2 /\ c_type c2 = GetElemElevation_O1O2_ElevatedType (c_type c) /\
    length (c_nodes c2) = GetNumNodes (c_type c2) /\ c_nb c2 = c_nb c /\ firstn (length (c_bits c)) (c_bits c2) = c_bits c /\
    forall k g, nth_error (c_nodes c) k = Some g -> exists h x, nth_error (c_nodes c2) k = Some h /\ renamed m o g h /\ coord1 m g x /\ coord2 o h x.
Proof. exact shape. Qed.
Print Assumptions C66_old_nodes_stay.

(** An old node has one new number, no two share one, and no new node takes it. *)
Theorem C66_numbers : forall m o, elevate m = Ok o ->
  (forall g h h', renamed m o g h -> renamed m o g h' -> h = h') /\ (forall g g' h, renamed m o g h -> renamed m o g' h -> g = g') /\
  (sound_cells m -> forall i k g g1, new_node m o i k g -> ~ renamed m o g1 g).
Proof. exact numbers. Qed.
Print Assumptions C66_numbers.

(** Every node of the elevated mesh is an old one or a new one of some cell. *)
Theorem C66_every_node : forall m o g x, elevate m = Ok o -> sound_cells m -> coord2 o g x ->
  (exists g1, renamed m o g1 g) \/ exists i k, new_node m o i k g.
Proof. exact every_node. Qed.
Print Assumptions C66_every_node.

(** Two cells, on whatever ranks, that have the same nodes around a new node get the same one. *)
Theorem C66_shared : forall m o i j a b k l s s' g g', elevate m = Ok o -> sound_cells m -> point_neighbours m -> same_places m ->
  is_cell m i a -> is_cell m j b -> is_span a k s -> is_span b l s' -> new_node m o i k g -> new_node m o j l g' ->
  Permutation s s' -> g = g'.
Proof. exact same_node. Qed.
Print Assumptions C66_shared.

(** Different nodes around: different new nodes. *)
Theorem C66_distinct : forall m o i j a b k l s s' g, elevate m = Ok o -> sound_cells m -> point_neighbours m -> same_places m -> conforming m ->
  is_cell m i a -> is_cell m j b -> is_span a k s -> is_span b l s' -> new_node m o i k g -> new_node m o j l g -> Permutation s s'.
Proof. exact different_node. Qed.
Print Assumptions C66_distinct.

(** No cell holds a node twice. *)
Theorem C66_cell_nodes_distinct : forall m o i c2, elevate m = Ok o -> sound_cells m -> point_neighbours m -> same_places m -> conforming m ->
  nth_error (o_cells o) i = Some c2 -> NoDup (c_nodes c2).
Proof. exact distinct_nodes. Qed.
Print Assumptions C66_cell_nodes_distinct.

(** Without periods the places always agree. *)
Theorem C66_places_agree : forall m, periodic m = false -> same_places m.
Proof. exact plain_same_places. Qed.
Print Assumptions C66_places_agree.

(** A new node lies in the middle of the nodes around it, in every cell that has it; *)
Theorem C66_in_the_middle : forall m o i k g, elevate m = Ok o -> sound_cells m -> point_neighbours m -> conforming m -> periodic m = false -> new_node m o i k g ->
  exists c s xs y, is_cell m i c /\ is_span c k s /\ Forall2 (coord1 m) s xs /\ coord2 o g y /\ same_vec 3 y (mean xs).
Proof. exact plain_middle. Qed.
Print Assumptions C66_in_the_middle.

(** and within 1e-10 of it whatever the neighbours are. *)
Theorem C66_near_the_middle : forall m o i k g, elevate m = Ok o -> sound_cells m -> periodic m = false -> new_node m o i k g ->
  exists c s xs y, is_cell m i c /\ is_span c k s /\ Forall2 (coord1 m) s xs /\ coord2 o g y /\ (dist2 y (mean xs) < / 10 ^ 20)%R.
Proof. exact plain_near. Qed.
Print Assumptions C66_near_the_middle.

(** With periods: the node, moved by its bits in the cell, is in the middle of the nodes as
    the cell sees them; the bits are the common ones. *)
Theorem C66_in_the_middle_periodic : forall m o i k g b,
  elevate m = Ok o -> sound_cells m -> point_neighbours m -> same_places m -> conforming m -> complete m -> periodic m = true ->
  new_node m o i k g -> new_bits m o i k b ->
  exists c qs xs y z, is_cell m i c /\ ExtractElevNodeSpanNodes (c_type c) k (combine (c_nodes c) (c_bits c)) = Ok qs /\ Forall2 (seen m) qs xs /\
    coord2 o g y /\ GetCoordByBits (info m) y b = Ok z /\ same_vec 3 z (mean xs) /\ b = bitandReduce (map snd qs).
Proof. exact periodic_middle. Qed.
Print Assumptions C66_in_the_middle_periodic.

(** A complete, conforming mesh with no coinciding middles is elevated. *)
Theorem C66_succeeds : forall m, complete m -> sound_cells m -> point_neighbours m -> same_places m -> conforming m -> apart m -> bnds_are_faces m ->
  exists o, elevate m = Ok o.
Proof. exact success. Qed.
Print Assumptions C66_succeeds.

Example C66_two_ranks : complete two /\ sound_cells two /\ point_neighbours two /\ same_places two /\ conforming two /\ apart two /\ bnds_are_faces two.
Proof. exact two_good. Qed.
Example C66_two_ranks_elevated : exists o, elevate two = Ok o.
Proof. exact two_elevates. Qed.
Example C66_three_layers : complete ring3 /\ sound_cells ring3 /\ point_neighbours ring3 /\ same_places ring3 /\ conforming ring3 /\ apart ring3 /\ bnds_are_faces ring3.
Proof. exact ring3_good. Qed.
Example C66_three_layers_elevated : exists o, elevate ring3 = Ok o.
Proof. exact ring3_elevates. Qed.
Example C66_shared_nv : is_span (quad [0; 1; 3; 2] [] [1]) 1 [1; 3] /\ is_span (quad [1; 4; 5; 3] [] [0]) 3 [3; 1].
Proof. split; reflexivity. Qed.

(** A boundary element becomes a face of its cell, with all its old nodes. *)
Theorem C66_boundary : forall m o j b, elevate m = Ok o -> sound_cells m -> nth_error (concat (map p_bnds (parts m))) j = Some b -> exists b2 c2 f,
  nth_error (o_bnds o) j = Some b2 /\ b_cell b2 = b_cell b /\ nth_error (o_cells o) (Z.to_nat (b_cell b)) = Some c2 /\
  (f < GetNumFaces (c_type c2))%nat /\ ExtractFaceNodes (c_type c2) f (c_nodes c2) = Ok (b_nodes b2) /\ b_type b2 = GetFaceType (c_type c2) f /\
  forall g, In g (b_nodes b) -> exists h, renamed m o g h /\ In h (b_nodes b2).
Proof. exact boundary. Qed.
Print Assumptions C66_boundary.
Example C66_boundary_nv : nth_error (concat (map p_bnds (parts two))) 2 = Some (line [4; 5] 1).
Proof. reflexivity. Qed.

(** Two layers of cells in a periodic direction are not enough, though the source says so: *)
Theorem C66_two_layers_refuted : exists m, (complete m /\ sound_cells m /\ point_neighbours m /\ conforming m /\ apart m /\ bnds_are_faces m) /\
  forall o, elevate m <> Ok o.
Proof. exact (ex_intro _ ring2 (conj ring2_good ring2_stops)). Qed.
Print Assumptions C66_two_layers_refuted.

(** and one layer is accepted but leaves two nodes where there should be one. *)
Theorem C66_one_layer_refuted : exists o x y, elevate ring1 = Ok o /\ new_node ring1 o 0 1 3 /\ new_node ring1 o 0 3 5 /\ coord2 o 3 x /\ coord2 o 5 y /\ same_vec 3 x y.
Proof. exact ring1_twice. Qed.
Print Assumptions C66_one_layer_refuted.

(** Moving the nodes of a smooth boundary: both faces at an edge, and however a face is
    walked, give the same point; *)
Theorem C66_smooth_edge_symmetric : forall c0 c1 n0 n1 i, line_mid c0 c1 n0 n1 i = line_mid c1 c0 n1 n0 i.
Proof. exact line_swap. Qed.
Print Assumptions C66_smooth_edge_symmetric.
Theorem C66_smooth_face_symmetric : forall c0 c1 c2 c3 n0 n1 n2 n3 i,
  quad_mid c0 c1 c2 c3 n0 n1 n2 n3 i = quad_mid c1 c2 c3 c0 n1 n2 n3 n0 i /\ quad_mid c0 c1 c2 c3 n0 n1 n2 n3 i = quad_mid c3 c2 c1 c0 n3 n2 n1 n0 i.
Proof. exact (fun c0 c1 c2 c3 n0 n1 n2 n3 i => conj (quad_rot c0 c1 c2 c3 n0 n1 n2 n3 i) (quad_rev c0 c1 c2 c3 n0 n1 n2 n3 i)). Qed.
Print Assumptions C66_smooth_face_symmetric.

(** an edge perpendicular to the normals at its ends keeps its middle, so does a flat face; *)
Theorem C66_smooth_keeps_straight : forall c0 c1 n0 n1 i, (i < 3)%nat -> straight c0 c1 n0 -> straight c0 c1 n1 ->
  line_mid c0 c1 n0 n1 i = (1 / 2 * (c0 i + c1 i))%R.
Proof. exact line_straight. Qed.
Print Assumptions C66_smooth_keeps_straight.
Example C66_straight_nv : straight (half (0, 0)) (half (2, 0)) (half (0, 2)).
Proof. unfold straight, vdot, half. cbn. field. Qed.
Theorem C66_smooth_keeps_flat : forall c0 c1 c2 c3 n0 n1 n2 n3 i, (i < 3)%nat ->
  straight c0 c1 n0 -> straight c0 c1 n1 -> straight c1 c2 n1 -> straight c1 c2 n2 -> straight c2 c3 n2 -> straight c2 c3 n3 -> straight c3 c0 n3 -> straight c3 c0 n0 ->
  quad_mid c0 c1 c2 c3 n0 n1 n2 n3 i = ((c0 i + c1 i + c2 i + c3 i) / 4)%R.
Proof. exact quad_flat. Qed.
Print Assumptions C66_smooth_keeps_flat.

(** the tangent used at an end is perpendicular to the normal there and no longer than the
    edge, and the point stays within half an edge length of the middle. *)
Theorem C66_smooth_tangent : forall c n, vdot (tangent c n) n = 0%R /\ (vnorm (tangent c n) <= vnorm c)%R.
Proof. exact (fun c n => conj (tangent_perp c n) (tangent_length c n)). Qed.
Print Assumptions C66_smooth_tangent.
Theorem C66_smooth_close : forall c0 c1 n0 n1, (dist2 (line_mid c0 c1 n0 n1) (fun i => 1 / 2 * (c0 i + c1 i)) <= / 4 * dist2 c0 c1)%R.
Proof. exact line_close. Qed.
Print Assumptions C66_smooth_close.
