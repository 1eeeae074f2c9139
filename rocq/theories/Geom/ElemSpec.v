(** * What the element tables must say

    Everything here speaks of the faces, spans and sub-elements a caller gets
    from the extraction functions for a cell with given node labels.  *)

From Coq Require Import List Arith QArith Bool Permutation.
From Verif Require Import Base.Prelude Geom.ElemModel.
Import ListNotations.
Open Scope nat_scope.

(** The vertices of a face: its first nodes, in cyclic order. *)
Definition face_vertices {A} (t : ElemType) (f : nat) (nodes : list A)
  : res (list A) :=
  do fn <- ExtractFaceNodes t f nodes;
  Ok (firstn (GetNumVertices (GetFaceType t f)) fn).

(** The directed edges met when walking once around a vertex cycle. *)
Definition cycle_edges {A} (l : list A) : list (A * A) :=
  match l with
  | [] => []
  | x :: r => combine l (r ++ [x])
  end.

(** All the directed edges met when walking around all faces of a 3D cell. *)
Definition boundary_edges {A} (t : ElemType) (nodes : list A)
  : res (list (A * A)) :=
  do fs <- mapM (fun f => face_vertices t f nodes) (seq 0 (GetNumFaces t));
  Ok (concat (map cycle_edges fs)).

(** The vertex lists of all faces. *)
Definition all_face_vertices {A} (t : ElemType) (nodes : list A)
  : res (list (list A)) :=
  mapM (fun f => face_vertices t f nodes) (seq 0 (GetNumFaces t)).

(** ** Geometry, over the rationals *)

Definition pt : Type := (Q * Q * Q)%type.
Definition px (p : pt) : Q := fst (fst p).
Definition py (p : pt) : Q := snd (fst p).
Definition pz (p : pt) : Q := snd p.
Definition pminus (a b : pt) : pt :=
  (px a - px b, py a - py b, pz a - pz b)%Q.
Definition padd (a b : pt) : pt :=
  (px a + px b, py a + py b, pz a + pz b)%Q.
Definition pscale (c : Q) (a : pt) : pt := (c * px a, c * py a, c * pz a)%Q.
Definition peq (a b : pt) : Prop :=
  (px a == px b /\ py a == py b /\ pz a == pz b)%Q.

Definition det3 (a b c : pt) : Q :=
  (px a * (py b * pz c - pz b * py c)
   - py a * (px b * pz c - pz b * px c)
   + pz a * (px b * py c - py b * px c))%Q.
Definition det2 (a b : pt) : Q := (px a * py b - py a * px b)%Q.

Definition mean (l : list pt) : pt :=
  pscale (/ inject_Z (Z.of_nat (length l))) (fold_right padd (0, 0, 0)%Q l).

(** On which side of a face a point lies: positive on the side the face's
    normal (right hand rule along its vertices) points to.  In 2D the face is
    an edge, the normal is on its right. *)
Definition side (dim : nat) (fv : list pt) (q : pt) : option Q :=
  match dim, fv with
  | 3, p0 :: p1 :: p2 :: _ =>
      Some (det3 (pminus p1 p0) (pminus p2 p0) (pminus q p0))
  | 2, p0 :: p1 :: _ => Some (- det2 (pminus p1 p0) (pminus q p0))%Q
  | _, _ => None
  end.

(** The volume enclosed by faces with the given vertices, by the divergence
    theorem, each face being cut into a fan of triangles (edges in 2D). *)
Fixpoint fan3 (p0 : pt) (l : list pt) : Q :=
  match l with
  | p1 :: ((p2 :: _) as r) => (det3 p0 p1 p2 + fan3 p0 r)%Q
  | _ => 0%Q
  end.
Definition enclosed (dim : nat) (faces : list (list pt)) : Q :=
  match dim with
  | 3 => ((1#6) * fold_right Qplus 0
            (map (fun fv => match fv with
                            | p0 :: r => fan3 p0 r | [] => 0 end) faces))%Q
  | 2 => ((1#2) * fold_right Qplus 0
            (map (fun fv => match fv with
                            | [p0; p1] => det2 p0 p1 | _ => 0 end) faces))%Q
  | _ => 0%Q
  end.

(** The volume (area, length) of a cell whose nodes are at [coords]. *)
Definition cell_volume (t : ElemType) (coords : list pt) : res Q :=
  match GetDim t with
  | Some 1 => match coords with
              | p0 :: p1 :: _ => Ok (px p1 - px p0)%Q | _ => UB end
  | Some d => do fs <- all_face_vertices t coords; Ok (enclosed d fs)
  | None => UB
  end.

(** ** Cycles up to rotation, and sub-elements *)

Definition rotate {A} (k : nat) (l : list A) : list A :=
  skipn k l ++ firstn k l.

Fixpoint list_eqb (a b : list nat) : bool :=
  match a, b with
  | [], [] => true
  | x :: a', y :: b' => (x =? y) && list_eqb a' b'
  | _, _ => false
  end.

Definition same_cycle (a b : list nat) : bool :=
  existsb (fun k => list_eqb (rotate k a) b) (seq 0 (S (length a))).

(** How often a cycle occurs, with its orientation, in a list of cycles. *)
Definition count_cycle (c : list nat) (L : list (list nat)) : nat :=
  length (filter (same_cycle c) L).

(** The same for the directed edges of 2D cells. *)
Definition count_edge (c : list nat) (L : list (list nat)) : nat :=
  count_occ (list_eq_dec Nat.eq_dec) L c.

(** The sub-elements of a second-order element, with their types. *)
Definition sub_elements {A} (t : ElemType) (variant : nat) (nodes : list A)
  : res (list (ElemType * list A)) :=
  mapM (fun i => do l <- ExtractO2BisectElemNodes t i variant nodes;
                 Ok (GetO2ElemBisectElem t i, l))
       (seq 0 (GetO2ElemBisectNum t)).

(** All faces of all sub-elements. *)
Definition sub_faces {A} (t : ElemType) (variant : nat) (nodes : list A)
  : res (list (list A)) :=
  do subs <- sub_elements t variant nodes;
  do fs <- mapM (fun s => all_face_vertices (fst s) (snd s)) subs;
  Ok (concat fs).

(** The sub-elements of the faces: what a neighbour sees of the bisection. *)
Definition bisected_faces {A} (t : ElemType) (nodes : list A)
  : res (list (list A)) :=
  do fs <- mapM (fun f => do fn <- ExtractFaceNodes t f nodes;
                          do ss <- sub_elements (GetFaceType t f) 0 fn;
                          Ok (map snd ss))
                (seq 0 (GetNumFaces t));
  Ok (concat fs).

(** The second-order triangle or quadrilateral as seen from a node list that
    starts at vertex [k], in the same or in the opposite sense. *)
Definition seen_from {A} (t : ElemType) (k : nat) (opposite : bool)
  (nodes : list A) : list A :=
  let nv := GetNumVertices t in
  let verts := firstn nv nodes in
  let mids := firstn nv (skipn nv nodes) in
  let centre := skipn (2 * nv) nodes in
  if opposite
  then rotate k (rev verts) ++ rotate k (rotate 1 (rev mids)) ++ centre
  else rotate k verts ++ rotate k mids ++ centre.

(** The same set of cells, each as a set of nodes. *)
Definition same_set (a b : list nat) : Prop := incl a b /\ incl b a.
Definition same_sets (A B : list (list nat)) : Prop :=
  (forall a, In a A -> exists b, In b B /\ same_set a b)
  /\ (forall b, In b B -> exists a, In a A /\ same_set a b).
