(** What the exported file must show: VTK's own conventions, and the mesh. *)
From Coq Require Import List ZArith QArith Bool Arith Permutation.
From Verif Require Import Base.Prelude Geom.ElemModel Geom.VtkModel.
Import ListNotations.
Local Open Scope Z_scope.

(** ** VTK cell types (VTK File Formats; vtkCellType.h)

    For each type the shape and the places of its points in the unit cell (line, square, cube:
    from 0 to 1; the apex of a pyramid above the middle of its base).  Points of a quadratic cell
    after its corners are in the middles of the edges listed. *)
Definition point3 := (Q * Q * Q)%type.
Definition mid (a b : point3) : point3 :=
  let '(x, y, z) := a in let '(u, v, w) := b in ((x + u) / 2, (y + v) / 2, (z + w) / 2)%Q.
Definition with_edges (cs : list point3) (es : list (nat * nat)) : list point3 :=
  cs ++ map (fun e => mid (nth (fst e) cs (0, 0, 0)%Q) (nth (snd e) cs (0, 0, 0)%Q)) es.

Definition tri_corners : list point3 := [(0, 0, 0); (1, 0, 0); (0, 1, 0)]%Q.
Definition quad_corners : list point3 := [(0, 0, 0); (1, 0, 0); (1, 1, 0); (0, 1, 0)]%Q.
Definition tet_corners : list point3 := [(0, 0, 0); (1, 0, 0); (0, 1, 0); (0, 0, 1)]%Q.
Definition hex_corners : list point3 :=
  [(0, 0, 0); (1, 0, 0); (1, 1, 0); (0, 1, 0); (0, 0, 1); (1, 0, 1); (1, 1, 1); (0, 1, 1)]%Q.
Definition wedge_corners : list point3 :=
  [(0, 0, 0); (1, 0, 0); (0, 1, 0); (0, 0, 1); (1, 0, 1); (0, 1, 1)]%Q.
Definition pyramid_corners : list point3 :=
  [(0, 0, 0); (1, 0, 0); (1, 1, 0); (0, 1, 0); (1 # 2, 1 # 2, 1)]%Q.

Definition vtk_shape (ty : Z) : option (ParamSpace * list point3) :=
  match ty with
  | 3 => Some (LineSpace, [(0, 0, 0); (1, 0, 0)]%Q)                      (* VTK_LINE *)
  | 4 => Some (LineSpace, [(0, 0, 0); (1 # 2, 0, 0); (1, 0, 0)]%Q)       (* VTK_POLY_LINE *)
  | 5 => Some (TriSpace, tri_corners)                                    (* VTK_TRIANGLE *)
  | 9 => Some (QuadSpace, quad_corners)                                  (* VTK_QUAD *)
  | 10 => Some (TetSpace, tet_corners)                                   (* VTK_TETRA *)
  | 12 => Some (HexSpace, hex_corners)                                   (* VTK_HEXAHEDRON *)
  | 13 => Some (PrismSpace, wedge_corners)                               (* VTK_WEDGE *)
  | 14 => Some (PyramidSpace, pyramid_corners)                           (* VTK_PYRAMID *)
  | 22 => Some (TriSpace, with_edges tri_corners [(0, 1); (1, 2); (2, 0)]%nat)
  | 23 => Some (QuadSpace, with_edges quad_corners [(0, 1); (1, 2); (2, 3); (3, 0)]%nat)
  | 24 => Some (TetSpace, with_edges tet_corners [(0, 1); (1, 2); (2, 0); (0, 3); (1, 3); (2, 3)]%nat)
  | 25 => Some (HexSpace, with_edges hex_corners
      [(0, 1); (1, 2); (2, 3); (3, 0); (4, 5); (5, 6); (6, 7); (7, 4); (0, 4); (1, 5); (2, 6); (3, 7)]%nat)
  | 26 => Some (PrismSpace, with_edges wedge_corners
      [(0, 1); (1, 2); (2, 0); (3, 4); (4, 5); (5, 3); (0, 3); (1, 4); (2, 5)]%nat)
  | 27 => Some (PyramidSpace, with_edges pyramid_corners
      [(0, 1); (1, 2); (2, 3); (3, 0); (0, 4); (1, 4); (2, 4); (3, 4)]%nat)
  | _ => None
  end.

(** Cells are shown as VTK's cells of the same order: a second-order cell as a quadratic one with
    points at corners and middles of edges, a second-order line as a line through its three nodes. *)
Definition vtk_type (t : ElemType) : option Z :=
  match t with
  | Line2 => Some 3 | Line3 => Some 4
  | Tri3 => Some 5 | Tri6 => Some 22
  | Quad4 => Some 9 | Quad9 => Some 23
  | Tet4 => Some 10 | Tet10 => Some 24
  | Hex8 => Some 12 | Hex27 => Some 25
  | Prism6 => Some 13 | Prism18 => Some 26
  | Pyramid5 => Some 14 | Pyramid14 => Some 27
  | UnknownElem => None
  end.

(** The reference cells of the library, in which node [n] is at [GetStandardCoord], onto VTK's:
    sides from -1 to 1 become sides from 0 to 1. *)
Definition to_unit (t : ElemType) (p : point3) : point3 :=
  let '(x, y, z) := p in
  let h u := ((u + 1) / 2)%Q in
  match ElemType_to_ParamSpace t with
  | LineSpace => (h x, y, z)
  | QuadSpace => (h x, h y, z)
  | HexSpace => (h x, h y, h z)
  | PrismSpace => (x, y, h z)
  | PyramidSpace => (h x, h y, z)
  | _ => p
  end.
Definition same_point (a b : point3) : Prop :=
  let '(x, y, z) := a in let '(u, v, w) := b in (x == u /\ y == v /\ z == w)%Q.

(** Node [n] of a cell of type [t] is where VTK expects point [k] of a cell of type [ty]. *)
Definition belongs (t : ElemType) (n : nat) (ty : Z) (k : nat) : Prop :=
  exists a s ps b, nth_error (GetStandardCoord t) n = Some a /\ vtk_shape ty = Some (s, ps) /\
    s = ElemType_to_ParamSpace t /\ nth_error ps k = Some b /\ same_point (to_unit t a) b.

(** ** The mesh *)
Section Spec.
Variable P : Type.
Variable turn : P -> Z -> res P.
Notation mesh := (list (part P)).

Definition all_nodes (m : mesh) : list P := concat (map p_nodes m).
(** Nodes, cells on the ranks before [r]: the first number of the rank. *)
Definition nodes_before (m : mesh) (r : nat) : nat := length (all_nodes (firstn r m)).
Definition cells_before (m : mesh) (r : nat) : nat := length (concat (map p_cells (firstn r m))).

(** The number of the node rank [r] calls [l]. *)
Definition node_number (m : mesh) (r : nat) (l g : Z) : Prop :=
  exists p, nth_error m r = Some p /\
    (0 <= l < nOwn p /\ g = Z.of_nat (nodes_before m r) + l \/
     nOwn p <= l /\ nth_error (p_ghosts p) (Z.to_nat (l - nOwn p)) = Some g).

(** Corner [n] of cell [c] of rank [r]: the node and the periods by which it is moved. *)
Definition has_corner (m : mesh) (periodic : bool) (r : nat) (c : cell) (n : nat) (g b : Z) : Prop :=
  exists l, nth_error (c_nodes c) n = Some l /\ node_number m r l g /\
    (if periodic then nth_error (c_bits c) n = Some b else b = 0).
(** The point where node [g] is, moved by [b]. *)
Definition place (m : mesh) (g b : Z) (y : P) : Prop :=
  exists x, 0 <= g /\ nth_error (all_nodes m) (Z.to_nat g) = Some x /\
    (if b =? 0 then y = x else turn x b = Ok y).
Definition cell_of (m : mesh) (r j : nat) (c : cell) : Prop :=
  exists p, nth_error m r = Some p /\ nth_error (p_cells p) j = Some c.

(** A distributed mesh: ghosts are nodes of other ranks, cells name nodes the rank has, as many
    as their type asks for, each with the periods 0 to 7. *)
Record distributed (m : mesh) : Prop := {
  d_some : m <> [];
  d_ghosts : forall r p g, nth_error m r = Some p -> In g (p_ghosts p) ->
    0 <= g < zlen (all_nodes m) /\ ~ (Z.of_nat (nodes_before m r) <= g < Z.of_nat (nodes_before m r) + nOwn p);
  d_cells : forall r j c p, cell_of m r j c -> nth_error m r = Some p ->
    c_type c <> UnknownElem /\ length (c_nodes c) = GetNumNodes (c_type c) /\
    length (c_bits c) = length (c_nodes c) /\
    Forall (fun l => 0 <= l < nOwn p + zlen (p_ghosts p)) (c_nodes c) /\
    Forall (fun b => 0 <= b < 8) (c_bits c) }.

(** Points can be moved by all periods. *)
Definition can_turn : Prop := forall x b, 0 < b < 8 -> exists y, turn x b = Ok y.

(** ** Reading the file *)

(** The numbers of the points of cell [i]: the part of the connectivity between two offsets. *)
Definition cell_ids (f : grid P) (i : nat) (ids : list Z) : Prop :=
  exists a b, nth_error (f_offsets f) i = Some (Some a) /\ nth_error (f_offsets f) (S i) = Some (Some b) /\
    0 <= a <= b /\
    firstn (Z.to_nat (b - a)) (skipn (Z.to_nat a) (f_conn f)) = map Some ids /\ length ids = Z.to_nat (b - a).
Definition point_at (f : grid P) (id : Z) (y : P) : Prop :=
  0 <= id /\ nth_error (f_points f) (Z.to_nat id) = Some (Some y).
(** Cell [i] of the file is of type [ty] and has the points [ids]. *)
Definition file_cell (f : grid P) (i : nat) (ty : Z) (ids : list Z) : Prop :=
  nth_error (f_types f) i = Some (Some ty) /\ cell_ids f i ids.

(** The file shows the mesh.  [keys]: for each point of the file its node and the periods by which
    it is moved: every node unmoved and every node of a corner that is moved, once each. *)
Record picture (m : mesh) (periodic : bool) (keys : list (Z * Z)) (f : grid P) : Prop := {
  pic_once : NoDup keys;
  pic_keys : forall g b, In (g, b) keys <->
    0 <= g < zlen (all_nodes m) /\ (b = 0 \/ exists r j c n, cell_of m r j c /\ has_corner m periodic r c n g b);
  pic_counts : f_npoints f = zlen keys /\ f_ncells f = Z.of_nat (cells_before m (length m)) /\
    zlen (f_points f) = f_npoints f /\ zlen (f_types f) = f_ncells f /\ zlen (f_offsets f) = f_ncells f + 1 /\
    zlen (f_conn f) = f_nconn f;
  pic_full : ~ In None (f_points f) /\ ~ In None (f_types f) /\ ~ In None (f_offsets f) /\ ~ In None (f_conn f);
  pic_ends : nth_error (f_offsets f) 0 = Some (Some 0) /\
    nth_error (f_offsets f) (cells_before m (length m)) = Some (Some (f_nconn f));
  pic_points : forall k g b, nth_error keys k = Some (g, b) ->
    exists y, point_at f (Z.of_nat k) y /\ place m g b y;
  pic_cells : forall r j c, cell_of m r j c -> exists ty ids s ps,
    vtk_type (c_type c) = Some ty /\ file_cell f (cells_before m r + j) ty ids /\ vtk_shape ty = Some (s, ps) /\
    s = ElemType_to_ParamSpace (c_type c) /\ length ids = length ps /\
    forall k id, nth_error ids k = Some id -> exists n g b,
      belongs (c_type c) n ty k /\ has_corner m periodic r c n g b /\
      0 <= id /\ nth_error keys (Z.to_nat id) = Some (g, b) }.

(** The orders in which the ranks may write. *)
Definition any_order (m : mesh) (s : list nat) : Prop := Permutation s (seq 0 (length m)).
End Spec.
Arguments all_nodes {P}. Arguments nodes_before {P}. Arguments cells_before {P}.
Arguments node_number {P}. Arguments has_corner {P}. Arguments place {P}. Arguments cell_of {P}.
Arguments distributed {P}. Arguments can_turn {P}. Arguments cell_ids {P}. Arguments point_at {P}.
Arguments file_cell {P}. Arguments picture {P}. Arguments any_order {P}.
