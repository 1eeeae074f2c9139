(** C53: the triangles between the nodes and integration points of a face cover it once. *)
From Coq Require Import List ZArith QArith Reals Lra.
From Verif Require Import Base.Prelude Geom.ElemModel Geom.QuadratureModel Geom.PatchModel
  Geom.PatchSpec Geom.PatchProofs Geom.PatchFaceProofs.
Import ListNotations.

(** For every face type and every order up to six, the triangles of the reference face
    exist, every point strictly inside the face that is on no side of a triangle is strictly
    inside exactly one of them, and no point outside the face is inside any. *)
Theorem C53_face_covered_once : forall t o, face_type t -> (o <= 6)%nat ->
  exists pts, quadrature_points (ElemType_to_ParamSpace t) (Z.of_nat o) = Ok (map Some pts) /\
  forall up, exists tris, face_triangles t (GetStandardCoord t) (map fst pts) up = Ok tris /\
    (forall x, inside_face (ElemType_to_ParamSpace t) x -> Forall (fun tri => ~ on_side tri x) tris ->
       exactly_one (fun tri => in_triangle tri x) tris) /\
    (forall x, outside_face (ElemType_to_ParamSpace t) x -> Forall (fun tri => ~ in_triangle tri x) tris).
Proof. exact cover_once. Qed.
Print Assumptions C53_face_covered_once.

(** Wherever the nodes and integration points of a face are in space, the area vectors
    of its triangles add up to that of the polygon of the nodes around it. *)
Theorem C53_area_is_that_of_the_rim : forall t o coords qpts up, face_type t -> (o <= 6)%nat ->
  length coords = GetNumNodes t -> zlen qpts = GetQuadratureScheme (ElemType_to_ParamSpace t) (Z.of_nat o) ->
  exists tris rim, face_triangles t coords qpts up = Ok tris /\
    mapM (fun i => vget coords (Z.of_nat i)) (around t) = Ok rim /\
    vsum (map area2 tris) = polygon_area2 rim.
Proof. exact face_area. Qed.
Print Assumptions C53_area_is_that_of_the_rim.

(** An edge of a planar mesh is cut into the segments between consecutive integration
    points, from its first node to its second, each raised to the same point. *)
Theorem C53_line_is_a_chain : forall A t (p1 p2 : A) rest qpts up, t = Line2 \/ t = Line3 -> qpts <> [] ->
  face_triangles t (p1 :: p2 :: rest) qpts up =
  Ok (map (fun '(a, b) => (a, b, up)) (combine (p1 :: qpts) (qpts ++ [p2]))).
Proof. exact line_triangles. Qed.
Print Assumptions C53_line_is_a_chain.

(** On the reference line the segments cover every point once. *)
Theorem C53_line_covered_once : forall t o, t = Line2 \/ t = Line3 -> (o <= 6)%nat ->
  exists pts, quadrature_points LineSpace (Z.of_nat o) = Ok (map Some pts) /\
  forall up, exists tris, face_triangles t (GetStandardCoord t) (map fst pts) up = Ok tris /\
    forall x, (-1 < x < 1)%R -> (forall p, In p (map fst pts) -> x <> fst (plane p)) ->
      exactly_one (fun tri => in_piece tri x) tris.
Proof. exact line_cover. Qed.
Print Assumptions C53_line_covered_once.

(** A rule without points (C52_unsupported_order_refuted) is refused for triangles
    only: for lines and quadrilaterals an integration point that does not exist is read. *)
Theorem C53_rule_without_points_refuted : forall up : Q * Q * Q,
  face_triangles Line2 (GetStandardCoord Line2) [] up = UB /\
  face_triangles Quad4 (GetStandardCoord Quad4) [] up = UB /\
  face_triangles Tri3 (GetStandardCoord Tri3) [] up = Abort.
Proof. exact no_points. Qed.
Print Assumptions C53_rule_without_points_refuted.

(** The rule of order 2 cuts the triangle with six nodes into ten triangles, and the
    point (1/3, 1/4) is inside one. *)
Example C53_example : face_type Tri6 /\ inside_face TriSpace (1/3, 1/4)%R /\
  exists pts tris, quadrature_points TriSpace 2 = Ok (map Some pts) /\
    face_triangles Tri6 (GetStandardCoord Tri6) (map fst pts) (0, 0, 0)%Q = Ok tris /\ length tris = 10%nat.
Proof.
  split; [right; left; reflexivity|]. split; [cbn; lra|].
  eexists [_; _; _], _. split; [vm_compute; reflexivity|]. split; [vm_compute; reflexivity|reflexivity].
Qed.
