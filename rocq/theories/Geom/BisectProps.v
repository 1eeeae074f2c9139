(** * C67: bisection cuts every second-order cell into first-order cells that fit *)
From Coq Require Import Reals List ZArith.
From Verif Require Import Base.Prelude Geom.ElemModel Geom.ElemSpec Geom.PeriodicModel Geom.PeriodicSpec Geom.ElevModel Geom.ElevSpec Geom.ElevExample
  Geom.BisectModel Geom.BisectSpec Geom.BisectProofs Geom.BisectFaces Geom.BisectMore Geom.BisectDone Geom.BisectElev Geom.BisectExample.
Import ListNotations.
Local Open Scope nat_scope.

(** Every rank keeps its nodes and holds the pieces of its own cells and boundary elements. *)
Theorem C67_sizes : forall m r, bisect m = Ok r -> Forall2 sizes_ok (parts m) r.
Proof. exact sizes. Qed.
Print Assumptions C67_sizes.
(** Every cell has all its pieces *)
Theorem C67_piece : forall m r i c k,
  bisect m = Ok r -> is_cell m i c -> (k < GetO2ElemBisectNum (c_type c))%nat -> exists s, piece m r i k s.
Proof. exact piece_exists. Qed.
Print Assumptions C67_piece.
(** and every cell afterwards is a piece. *)
Theorem C67_nothing_else : forall m r n s,
  bisect m = Ok r -> nth_error (concat (map q_cells r)) n = Some s -> exists i k, piece m r i k s.
Proof. exact nothing_else. Qed.
Print Assumptions C67_nothing_else.
(** A piece is a first-order cell of the same dimension, on distinct nodes of its cell. *)
Theorem C67_piece_sound : forall m r i k s c,
  bisect m = Ok r -> sound_cells m -> is_cell m i c -> piece m r i k s ->
  GetOrder (c_type s) = Some 1%nat /\ GetDim (c_type s) = GetDim (c_type c) /\ length (c_nodes s) = GetNumNodes (c_type s) /\ NoDup (c_nodes s) /\ incl (c_nodes s) (c_nodes c).
Proof. exact piece_sound. Qed.
Print Assumptions C67_piece_sound.
(** No node is lost. *)
Theorem C67_every_node : forall m r i c g,
  bisect m = Ok r -> sound_cells m -> is_cell m i c -> In g (c_nodes c) -> exists k s, piece m r i k s /\ In g (c_nodes s).
Proof. exact every_node. Qed.
Print Assumptions C67_every_node.
(** A piece sees its nodes, through the periods, where the cell sees them. *)
Theorem C67_places : forall m r i k s c,
  bisect m = Ok r -> sound_cells m -> is_cell m i c -> piece m r i k s ->
  exists xs ys, coords_on_cell m c = Ok xs /\ coords_on_cell m s = Ok ys /\ length ys = length (c_nodes s) /\ incl (combine (c_nodes s) ys) (combine (c_nodes c) xs).
Proof. exact seen_alike. Qed.
Print Assumptions C67_places.
Example C67_piece_nv : exists r s, bisect tets = Ok r /\ piece tets r 1 3 s.
Proof. exact tets_piece. Qed.
(** A face of a piece lies against another piece of the cell, in the opposite sense, or is a piece of a
    face of the cell, *)
Theorem C67_inside_or_skin : forall m r i c k f x,
  bisect m = Ok r -> sound_cells m -> is_cell m i c -> flat (c_type c) = true ->
  piece_face m r i k f x ->
  (exists k' f' x', piece_face m r i k' f' x' /\ k' <> k /\ turned x' (rev x)) \/ (exists f' k' y, face_piece c f' k' y /\ turned x y).
Proof. exact (fun m r i c k f x H SC C D => inside_or_skin m r i c H SC C D k f x). Qed.
Print Assumptions C67_inside_or_skin.
(** never both; *)
Theorem C67_not_both : forall m r i c k f x k' f' x' f2 k2 y,
  bisect m = Ok r -> sound_cells m -> is_cell m i c -> flat (c_type c) = true ->
  piece_face m r i k f x -> piece_face m r i k' f' x' -> face_piece c f2 k2 y -> turned x' (rev x) -> turned x y -> False.
Proof. exact (fun m r i c k f x k' f' x' f2 k2 y H SC C D => not_both m r i c H SC C D k f x k' f' x' f2 k2 y). Qed.
Print Assumptions C67_not_both.
(** no two faces of pieces are the same; *)
Theorem C67_unique : forall m r i c k f x k' f' x',
  bisect m = Ok r -> sound_cells m -> is_cell m i c -> flat (c_type c) = true ->
  piece_face m r i k f x -> piece_face m r i k' f' x' -> turned x x' -> k = k' /\ f = f'.
Proof. exact (fun m r i c k f x k' f' x' H SC C D => unique m r i c H SC C D k f x k' f' x'). Qed.
Print Assumptions C67_unique.
(** and every piece of a face of the cell is a face of a piece. *)
Theorem C67_skin : forall m r i c f k y,
  bisect m = Ok r -> sound_cells m -> is_cell m i c -> flat (c_type c) = true ->
  face_piece c f k y -> exists k' f' x, piece_face m r i k' f' x /\ turned x y.
Proof. exact (fun m r i c f k y H SC C D => skin m r i c H SC C D f k y). Qed.
Print Assumptions C67_skin.
(** Where there is a choice, the diagonal that is taken is the shortest, *)
Theorem C67_shortest : forall m r i k s c xs p q a b p' q' x y x' y',
  bisect m = Ok r -> sound_cells m -> is_cell m i c -> piece m r i k s -> coords_on_cell m c = Ok xs ->
  In (p, q) (diagonals (c_type c)) -> nth_error (c_nodes c) p = Some a -> nth_error (c_nodes c) q = Some b -> In a (c_nodes s) -> In b (c_nodes s) ->
  In (p', q') (diagonals (c_type c)) -> nth_error xs p = Some x -> nth_error xs q = Some y -> nth_error xs p' = Some x' -> nth_error xs q' = Some y' ->
  (vnorm (fun j => x j - y j) <= vnorm (fun j => x' j - y' j))%R.
Proof. exact shortest. Qed.
Print Assumptions C67_shortest.
(** and one is taken. *)
Theorem C67_diagonal : forall m r i c,
  bisect m = Ok r -> sound_cells m -> is_cell m i c -> diagonals (c_type c) <> [] ->
  exists p q a b k s, In (p, q) (diagonals (c_type c)) /\ nth_error (c_nodes c) p = Some a /\ nth_error (c_nodes c) q = Some b /\ piece m r i k s /\ In a (c_nodes s) /\ In b (c_nodes s).
Proof. exact taken. Qed.
Print Assumptions C67_diagonal.
(** Cells that have a face in common, seen in opposite senses, keep fitting: each piece of the face is
    a face of a piece on either side, in opposite senses. *)
Theorem C67_conform : forall m r i j a b f f' k fa,
  bisect m = Ok r -> sound_cells m -> is_cell m i a -> is_cell m j b -> flat (c_type a) = true -> flat (c_type b) = true ->
  ExtractFaceNodes (c_type a) f (c_nodes a) = Ok fa -> GetFaceType (c_type b) f' = GetFaceType (c_type a) f -> k < GetNumVertices (GetFaceType (c_type a) f) -> (GetFaceType (c_type a) f = Line3 -> k = 0) ->
  ExtractFaceNodes (c_type b) f' (c_nodes b) = Ok (seen_from (GetFaceType (c_type a) f) k true fa) ->
  forall n z, face_piece a f n z -> exists ka ga x kb gb y, piece_face m r i ka ga x /\ turned x z /\ piece_face m r j kb gb y /\ turned y (rev x).
Proof. exact conform. Qed.
Print Assumptions C67_conform.
Example C67_conform_nv : is_cell tets 0 tet_a /\ is_cell tets 1 tet_b /\ flat Tet10 = true /\ ExtractFaceNodes Tet10 2 (c_nodes tet_a) = Ok [1; 2; 3; 5; 9; 8]%Z /\
  ExtractFaceNodes Tet10 0 (c_nodes tet_b) = Ok (seen_from Tri6 2 true [1; 2; 3; 5; 9; 8]%Z) /\ exists z, face_piece tet_a 2 3 z.
Proof. repeat split. exists [8; 9; 3]%Z, [1; 2; 3; 5; 9; 8]%Z. split; reflexivity. Qed.
(** A piece of a boundary element is a face of a piece of its cell, in the same sense. *)
Theorem C67_boundary : forall m r j k s,
  bisect m = Ok r -> sound_cells m -> (forall i c, is_cell m i c -> flat (c_type c) = true) -> bnds_on_faces m -> bnd_piece m r j k s ->
  exists b k' f' x, nth_error (all_bnds m) j = Some b /\ piece_face m r (Z.to_nat (b_cell b)) k' f' x /\ turned x (snd s) /\ GetOrder (fst s) = Some 1 /\ length (snd s) = GetNumNodes (fst s).
Proof. exact BisectDone.boundary. Qed.
Print Assumptions C67_boundary.
Example C67_boundary_nv : exists r s, bisect tets = Ok r /\ bnd_piece tets r 0 3 s.
Proof. exact tets_bnd_piece. Qed.
(** A complete second-order mesh is bisected without failure. *)
Theorem C67_succeeds : forall m,
  second_order m -> (forall i c, is_cell m i c -> flat (c_type c) = true) -> bnds_on_faces m -> exists r, bisect m = Ok r.
Proof. exact BisectDone.success. Qed.
Print Assumptions C67_succeeds.
Example C67_succeeds_nv : second_order tets /\ sound_cells tets /\ (forall i c, is_cell tets i c -> flat (c_type c) = true) /\ bnds_on_faces tets.
Proof. exact tets_good. Qed.
(** With straight edges, the pieces of a triangle or tetrahedron have equal shares of its volume. *)
Theorem C67_equal_pieces : forall m r i k s c xs t1 n,
  bisect m = Ok r -> sound_cells m -> is_cell m i c -> piece m r i k s -> coords_on_cell m c = Ok xs ->
  part_of (c_type c) = Some (t1, n) -> straight_edges t1 xs ->
  exists ys w W, coords_on_cell m s = Ok ys /\ volume (c_type s) ys = Some w /\ volume t1 (firstn (GetNumNodes t1) xs) = Some W /\ (w * INR n = W)%R.
Proof. exact equal_pieces. Qed.
Print Assumptions C67_equal_pieces.
Example C67_equal_pieces_nv : exists xs, coords_on_cell tets tet_b = Ok xs /\ straight_edges Tet4 xs.
Proof. exact tets_coords. Qed.
(** Wherever the nodes are, the volumes of the pieces of a triangle, quadrilateral or tetrahedron add up
    to the volume inside the pieces of its faces. *)
Theorem C67_total_volume : forall m r i c xs,
  bisect m = Ok r -> sound_cells m -> is_cell m i c -> simple (c_type c) = true -> coords_on_cell m c = Ok xs ->
  exists vs B us, length vs = GetO2ElemBisectNum (c_type c) /\
    (forall k s w, piece m r i k s -> nth_error vs k = Some w -> exists ys, coords_on_cell m s = Ok ys /\ volume (c_type s) ys = Some w) /\
    bisected_faces (c_type c) xs = Ok B /\ map under B = map Some us /\ sumR vs = sumR us.
Proof. exact total_volume. Qed.
Print Assumptions C67_total_volume.
(** A mesh that was elevated can be bisected, *)
Theorem C67_elevated : forall m o m2,
  made_of m o m2 -> elevate m = Ok o -> sound_cells m -> complete m -> bnds_are_faces m -> (forall i c, is_cell m i c -> flat (c_type c) = true) -> exists r, bisect m2 = Ok r.
Proof. exact refine. Qed.
Print Assumptions C67_elevated.
(** and two cells with a common face keep fitting through both. *)
Theorem C67_refined_fit : forall m o m2 r i j a b f f' k fa,
  made_of m o m2 -> elevate m = Ok o -> sound_cells m -> point_neighbours m -> same_places m -> conforming m -> (forall i c, is_cell m i c -> flat (c_type c) = true) ->
  bisect m2 = Ok r -> is_cell m i a -> is_cell m j b -> ExtractFaceNodes (c_type a) f (c_nodes a) = Ok fa -> k < GetNumNodes (GetFaceType (c_type a) f) -> (GetFaceType (c_type a) f = Line2 -> k = 0) ->
  GetFaceType (c_type b) f' = GetFaceType (c_type a) f -> ExtractFaceNodes (c_type b) f' (c_nodes b) = Ok (rotate k (rev fa)) ->
  exists a2, is_cell m2 i a2 /\ forall n z, face_piece a2 f n z -> exists ka ga x kb gb y, piece_face m2 r i ka ga x /\ turned x z /\ piece_face m2 r j kb gb y /\ turned y (rev x).
Proof. exact refined_fit. Qed.
Print Assumptions C67_refined_fit.
Example C67_refined : exists o m2 r, elevate two = Ok o /\ made_of two o m2 /\ bisect m2 = Ok r.
Proof. exact two_refined. Qed.
Example C67_refined_periodic : exists o m2 r, elevate ring3 = Ok o /\ made_of ring3 o m2 /\ bisect m2 = Ok r.
Proof. exact ring3_refined. Qed.
Example C67_refined_fit_nv : ExtractFaceNodes Quad4 1 [0; 1; 3; 2]%Z = Ok [1; 3]%Z /\ ExtractFaceNodes Quad4 3 [1; 4; 5; 3]%Z = Ok (rotate 0 (rev [1; 3]%Z)).
Proof. split; reflexivity. Qed.
