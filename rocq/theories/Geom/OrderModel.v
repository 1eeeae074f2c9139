(** * Asking the mesh for its order

    UnstructuredMesh::IsO1 and IsO2, /repo/src/Geom/Mesh.cpp 431-485, run by all
    ranks.  A rank is the list of the element types of the cells it stores, its
    own ones and ghosts ([cellElemInfo] counts both). *)
From Coq Require Import List ZArith Bool.
From Verif Require Import Base.Prelude Base.MPIModel Geom.ElemModel.
Import ListNotations.
Local Open Scope Z_scope.

(** The list of types accepted by IsO1, 437-443. *)
Definition listed_O1 (t : ElemType) : bool :=
  match t with
  | Line2 | Tri3 | Quad4 | Tet4 | Hex8 | Prism6 | Pyramid5 => true
  | _ => false
  end.
(** The list of types accepted by IsO2, 465-471. *)
Definition listed_O2 (t : ElemType) : bool :=
  match t with
  | Line3 | Tri6 | Quad9 | Tet10 | Hex27 | Prism18 | Pyramid14 => true
  | _ => false
  end.

(** The loop with its [break], 434-453. *)
Fixpoint hasBad (ok : ElemType -> bool) (cells : list ElemType) : Z :=
  match cells with
  | [] => 0
  | t :: r => if ok t then hasBad ok r else 1
  end.

(** 432-457: every rank computes [hasBad], all take part in the reduction into
    [hasBadAll], and each returns its own [hasBad == 0]. *)
Definition IsOrder (ok : ElemType -> bool) (world : list (list ElemType))
  : list bool :=
  let bad := map (hasBad ok) world in
  let hasBadAll := allreduce Z.add 0 bad in
  map (fun p : Z * Z => Z.eqb (fst p) 0) (combine bad hasBadAll).
Definition IsO1 := IsOrder listed_O1.
Definition IsO2 := IsOrder listed_O2.
