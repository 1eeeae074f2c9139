(** * C42: the element tables describe a closed, conforming cell boundary *)

From Coq Require Import List Arith QArith Bool.
From Verif Require Import Base.Prelude.
From Verif Require Import Geom.ElemModel Geom.ElemSpec Geom.ElemProofs.
Import ListNotations.
Open Scope nat_scope.

(** Faces use existing nodes, each once; their vertices are vertices of the
    cell, their other nodes are not; dimension and order fit. *)
Theorem C42_faces_well_formed : forall A t f (nodes : list A),
  f < GetNumFaces t -> length nodes = GetNumNodes t -> NoDup nodes ->
  exists fn,
    ExtractFaceNodes t f nodes = Ok fn
    /\ length fn = GetNumNodes (GetFaceType t f)
    /\ NoDup fn
    /\ incl fn nodes
    /\ incl (firstn (GetNumVertices (GetFaceType t f)) fn)
            (firstn (GetNumVertices t) nodes)
    /\ incl (skipn (GetNumVertices (GetFaceType t f)) fn)
            (skipn (GetNumVertices t) nodes)
    /\ (exists d, GetDim (GetFaceType t f) = Some d
                  /\ GetDim t = Some (S d))
    /\ (exists o, GetOrder (GetFaceType t f) = Some o
                  /\ GetOrder t = Some o).
Proof. exact faces_well_formed. Qed.
Print Assumptions C42_faces_well_formed.

Example C42_faces_nv :
  ExtractFaceNodes Prism6 1 [10; 20; 30; 40; 50; 60] = Ok [20; 30; 60; 50].
Proof. reflexivity. Qed.

(** The faces of a 3D cell close up: every directed edge is met exactly once,
    and so is its reverse. *)
Theorem C42_boundary_closed : forall A t (nodes : list A),
  GetDim t = Some 3 -> length nodes = GetNumNodes t -> NoDup nodes ->
  exists es,
    boundary_edges t nodes = Ok es
    /\ es <> []
    /\ NoDup es
    /\ (forall a b, In (a, b) es -> a <> b /\ In (b, a) es).
Proof. exact boundary_closed. Qed.
Print Assumptions C42_boundary_closed.

Example C42_closed_nv :
  boundary_edges Tet4 [7; 5; 3; 1]
  = Ok [(7, 3); (3, 5); (5, 7); (7, 5); (5, 1); (1, 7);
        (5, 3); (3, 1); (1, 5); (3, 7); (7, 1); (1, 3)].
Proof. reflexivity. Qed.

(** The faces of a 2D cell are the edges of its vertex cycle. *)
Theorem C42_boundary_cycle_2d : forall A t (nodes : list A),
  GetDim t = Some 2 -> length nodes = GetNumNodes t ->
  exists fs,
    all_face_vertices t nodes = Ok fs
    /\ map (fun e => [fst e; snd e])
           (cycle_edges (firstn (GetNumVertices t) nodes)) = fs.
Proof. exact boundary_cycle_2d. Qed.
Print Assumptions C42_boundary_cycle_2d.

Example C42_cycle_nv :
  all_face_vertices Quad9 [1; 2; 3; 4; 5; 6; 7; 8; 9]
  = Ok [[1; 2]; [2; 3]; [3; 4]; [4; 1]].
Proof. reflexivity. Qed.

(** The edges of a first-order 3D cell are exactly the pairs of nodes for which
    elevation creates a mid-node, one for each edge. *)
Theorem C42_edges_have_midnodes : forall t es,
  GetDim t = Some 3 -> GetOrder t = Some 1 ->
  boundary_edges t (seq 0 (GetNumNodes t)) = Ok es ->
  exists n, GetElemElevation_O1O2_NumNode t = Some n
  /\ (forall a b, In (a, b) es ->
      exists ine, ine < n
        /\ (ExtractElevNodeSpanNodes t ine (seq 0 (GetNumNodes t)) = Ok [a; b]
            \/ ExtractElevNodeSpanNodes t ine (seq 0 (GetNumNodes t)) = Ok [b; a])
        /\ forall j, j < n ->
             (ExtractElevNodeSpanNodes t j (seq 0 (GetNumNodes t)) = Ok [a; b]
              \/ ExtractElevNodeSpanNodes t j (seq 0 (GetNumNodes t)) = Ok [b; a]) ->
             j = ine)
  /\ (forall ine a b, ine < n ->
      ExtractElevNodeSpanNodes t ine (seq 0 (GetNumNodes t)) = Ok [a; b] ->
      In (a, b) es).
Proof. exact edges_have_midnodes. Qed.
Print Assumptions C42_edges_have_midnodes.

Example C42_midnodes_nv :
  ExtractElevNodeSpanNodes Hex8 5 (seq 0 8) = Ok [1; 5].
Proof. reflexivity. Qed.

(** Euler's formula: V - E + F = 2, every edge being listed in both senses. *)
Theorem C42_euler : forall t es,
  GetDim t = Some 3 ->
  boundary_edges t (seq 0 (GetNumNodes t)) = Ok es ->
  2 * GetNumVertices t + 2 * GetNumFaces t = length es + 4.
Proof. exact euler. Qed.
Print Assumptions C42_euler.

Example C42_euler_nv :
  match boundary_edges Hex27 (seq 0 27) with
  | Ok es => length es | _ => 0 end = 24.
Proof. reflexivity. Qed.

(** A face of the second-order cell is the elevated face of the first-order
    cell: same vertices in the same order, and its j-th further node is the
    node of the cell created in the middle of the very vertices which the j-th
    further node of the face is the middle of. *)
Theorem C42_second_order_faces : forall t1 f,
  GetOrder t1 = Some 1 -> f < GetNumFaces t1 ->
  let t2 := GetElemElevation_O1O2_ElevatedType t1 in
  let ft1 := GetFaceType t1 f in
  let nv := GetNumNodes t1 in
  exists fn1 fn2 m,
    GetNumFaces t2 = GetNumFaces t1
    /\ GetFaceType t2 f = GetElemElevation_O1O2_ElevatedType ft1
    /\ ExtractFaceNodes t1 f (seq 0 nv) = Ok fn1
    /\ ExtractFaceNodes t2 f (seq 0 (GetNumNodes t2)) = Ok fn2
    /\ firstn (GetNumNodes ft1) fn2 = fn1
    /\ GetElemElevation_O1O2_NumNode ft1 = Some m
    /\ length fn2 = GetNumNodes ft1 + m
    /\ forall j, j < m ->
       exists ine sf sc,
         nth_error fn2 (GetNumNodes ft1 + j) = Some (nv + ine)
         /\ ExtractElevNodeSpanNodes ft1 j fn1 = Ok sf
         /\ ExtractElevNodeSpanNodes t1 ine (seq 0 nv) = Ok sc
         /\ same_set sf sc /\ length sf = length sc.
Proof. exact second_order_faces. Qed.
Print Assumptions C42_second_order_faces.

Example C42_second_order_nv :
  ExtractFaceNodes Prism18 2 (seq 0 18) = Ok [2; 0; 3; 5; 8; 9; 14; 11; 17].
Proof. reflexivity. Qed.

(** In the standard coordinates the vertices of a face lie in its plane and all
    the others strictly behind it: the normal points out of the cell. *)
Theorem C42_faces_outward : forall t f,
  f < GetNumFaces t ->
  exists d ids fv,
    GetDim t = Some d
    /\ face_vertices t f (seq 0 (GetNumNodes t)) = Ok ids
    /\ face_vertices t f (GetStandardCoord t) = Ok fv
    /\ forall k, k < GetNumVertices t ->
       exists q s, nth_error (GetStandardCoord t) k = Some q
         /\ side d fv q = Some s
         /\ (In k ids -> (s == 0)%Q)
         /\ (~ In k ids -> (s < 0)%Q).
Proof. exact faces_outward. Qed.
Print Assumptions C42_faces_outward.

Example C42_outward_nv :
  face_vertices Pyramid5 0 (seq 0 5) = Ok [0; 3; 2; 1].
Proof. reflexivity. Qed.

(** Elevation keeps the nodes and puts every new node in the middle of its
    span; the two orders have the same parameter space. *)
Theorem C42_standard_coordinates : forall t1,
  GetOrder t1 = Some 1 ->
  let t2 := GetElemElevation_O1O2_ElevatedType t1 in
  length (StandardCoordStream t1) = 3 * GetNumNodes t1
  /\ length (StandardCoordStream t2) = 3 * GetNumNodes t2
  /\ GetOrder t2 = Some 2
  /\ ElemType_to_ParamSpace t2 = ElemType_to_ParamSpace t1
  /\ exists n, GetElemElevation_O1O2_NumNode t1 = Some n
  /\ GetNumNodes t2 = GetNumNodes t1 + n
  /\ (forall k, k < GetNumNodes t1 ->
      exists p q, nth_error (GetStandardCoord t1) k = Some p
                  /\ nth_error (GetStandardCoord t2) k = Some q /\ peq p q)
  /\ (forall ine, ine < n ->
      exists s q, ExtractElevNodeSpanNodes t1 ine (GetStandardCoord t1) = Ok s
        /\ nth_error (GetStandardCoord t2) (GetNumNodes t1 + ine) = Some q
        /\ peq q (mean s)).
Proof. exact standard_coordinates. Qed.
Print Assumptions C42_standard_coordinates.

Example C42_coordinates_nv : GetOrder Pyramid5 = Some 1.
Proof. reflexivity. Qed.

(** The volume enclosed by the faces in standard coordinates is the tabulated
    volume of the parameter space. *)
Theorem C42_standard_volume : forall t,
  t <> UnknownElem ->
  exists v, cell_volume t (GetStandardCoord t) = Ok v
            /\ (v == ParamSpaceVol (ElemType_to_ParamSpace t))%Q.
Proof. exact standard_volume. Qed.
Print Assumptions C42_standard_volume.

Example C42_volume_nv : Pyramid14 <> UnknownElem.
Proof. discriminate. Qed.

(** Every variant of the bisection of a second-order element consists of
    positively oriented elements which fill the volume. *)
Theorem C42_bisection_volume : forall t v,
  GetOrder t = Some 2 -> variant_ok t v = true ->
  exists subs vs,
    sub_elements t v (GetStandardCoord t) = Ok subs
    /\ mapM (fun s => cell_volume (fst s) (snd s)) subs = Ok vs
    /\ length vs = GetO2ElemBisectNum t
    /\ Forall (fun x => (0 < x)%Q) vs
    /\ (fold_right Qplus 0 vs == ParamSpaceVol (ElemType_to_ParamSpace t))%Q.
Proof. exact bisection_volume. Qed.
Print Assumptions C42_bisection_volume.

Example C42_bisection_nv :
  variant_ok Tet10 2 = true /\ variant_ok Pyramid14 1 = true
  /\ variant_ok Hex27 0 = true.
Proof. repeat split. Qed.

(** The sub-elements fit together and to the neighbours: counted with their
    orientation, the faces of the sub-elements cancel except for the
    sub-elements of the faces of the cell. *)
Theorem C42_bisection_conforming : forall t v,
  GetOrder t = Some 2 -> GetDim t = Some 3 -> variant_ok t v = true ->
  exists F B,
    sub_faces t v (seq 0 (GetNumNodes t)) = Ok F
    /\ bisected_faces t (seq 0 (GetNumNodes t)) = Ok B
    /\ forall c,
         count_cycle c F + count_cycle (rev c) B
         = count_cycle (rev c) F + count_cycle c B
         /\ count_cycle c F <= 1 /\ count_cycle c B <= 1.
Proof. exact bisection_conforming. Qed.
Print Assumptions C42_bisection_conforming.

Example C42_conforming_nv :
  match sub_faces Pyramid14 1 (seq 0 14), bisected_faces Pyramid14 (seq 0 14)
  with Ok F, Ok B => (length F, length B) | _, _ => (0, 0) end = (52, 20).
Proof. reflexivity. Qed.

Theorem C42_bisection_conforming_2d : forall t,
  GetOrder t = Some 2 -> GetDim t = Some 2 ->
  exists F B,
    sub_faces t 0 (seq 0 (GetNumNodes t)) = Ok F
    /\ bisected_faces t (seq 0 (GetNumNodes t)) = Ok B
    /\ forall a b,
         count_edge [a; b] F + count_edge [b; a] B
         = count_edge [b; a] F + count_edge [a; b] B
         /\ count_edge [a; b] F <= 1 /\ count_edge [a; b] B <= 1.
Proof. exact bisection_conforming_2d. Qed.
Print Assumptions C42_bisection_conforming_2d.

Example C42_conforming_2d_nv :
  bisected_faces Tri6 (seq 0 6)
  = Ok [[0; 3]; [3; 1]; [1; 4]; [4; 2]; [2; 5]; [5; 0]].
Proof. reflexivity. Qed.

(** Two cells which list the nodes of a common face from different vertices or
    in opposite senses cut it into the same pieces. *)
Theorem C42_bisection_of_shared_face : forall t k opposite,
  GetOrder t = Some 2 -> GetDim t = Some 2 -> k < GetNumVertices t ->
  let nodes := seq 0 (GetNumNodes t) in
  exists A B,
    sub_elements t 0 nodes = Ok A
    /\ sub_elements t 0 (seen_from t k opposite nodes) = Ok B
    /\ same_sets (map snd A) (map snd B).
Proof. exact bisection_of_shared_face. Qed.
Print Assumptions C42_bisection_of_shared_face.

Example C42_shared_nv :
  seen_from Quad9 1 true (seq 0 9) = [2; 1; 0; 3; 5; 4; 7; 6; 8].
Proof. reflexivity. Qed.
