(** What the mesh made from a polyMesh must look like. *)
From Coq Require Import List ZArith Bool String Permutation.
From Verif Require Import Base.Prelude Geom.ElemModel Geom.ElemSpec Geom.BoundaryModel Geom.BisectSpec Geom.FoamModel.
Import ListNotations.
Local Open Scope list_scope.
Local Open Scope Z_scope.

(** the number of face [k], and its cell *)
Definition indices (l : list Z) (c : Z) : list nat := filter (fun k => match nth_error l k with Some x => x =? c | None => false end) (seq 0 (List.length l)).
(** the faces of cell [c], seen from outside: as they stand for the owner, backwards for
    the neighbour *)
Definition outside (d : foam) (c : Z) : list (list Z) :=
  map (fun k => nth k (faces d) []) (indices (owner d) c) ++ map (fun k => rev (nth k (faces d) [])) (indices (neighbour d) c).
(** the faces of the hexahedron on eight nodes, seen from outside *)
Definition hex_faces (h : list Z) : list (list Z) :=
  match mapM (fun f => ExtractFaceNodes Hex8 f h) (seq 0 6) with Ok l => l | _ => [] end.
(** the lists are the faces of the hexahedron, in any order and started anywhere *)
Definition bounds (fs : list (list Z)) (h : list Z) : Prop :=
  List.length h = 8%nat /\ exists p, Permutation fs p /\ Forall2 turned p (hex_faces h).
(** cells are numbered without gaps, faces have four nodes that are natural numbers, and
    every cell is a hexahedron *)
Definition hexahedral (d : foam) : Prop :=
  List.length (faces d) = List.length (owner d) /\ (List.length (neighbour d) <= List.length (owner d))%nat /\
  (forall c, In c (owner d) \/ In c (neighbour d) -> 0 <= c) /\
  (forall f x, In f (faces d) -> In x f -> 0 <= x) /\
  forall c, 0 <= c < num_cells d -> exists h, NoDup h /\ bounds (outside d c) h.
(** patch [p] has boundary element [i] *)
Definition has (d : foam) (p : patch) (i : nat) : Prop :=
  startFace p <= zlen (neighbour d) + Z.of_nat i < startFace p + nFaces p.
Definition zone_of (rename : string -> option string) (code : string -> Z) (name : string) : Z :=
  code (match rename name with Some n => n | None => name end).
(** every patch is named in the table and consists of boundary faces; every boundary face is
    in a patch *)
Definition patched (rename : string -> option string) (code : string -> Z) (d : foam) : Prop :=
  (forall name p, In (name, p) (patches d) -> zone_of rename code name <> BC_ID_NULL /\
    (0 < nFaces p -> zlen (neighbour d) <= startFace p /\ startFace p + nFaces p <= zlen (owner d))) /\
  (forall i, (List.length (neighbour d) + i < List.length (owner d))%nat -> exists name p, In (name, p) (patches d) /\ has d p i).
