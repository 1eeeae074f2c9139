(** What a bisected mesh must look like. *)
From Coq Require Import Reals List ZArith Bool.
From Verif Require Import Base.Prelude Geom.ElemModel Geom.ElemSpec Geom.PeriodicModel Geom.PeriodicSpec Geom.ElevModel Geom.ElevSpec Geom.BisectModel.
Import ListNotations.
Local Open Scope Z_scope.

Definition all_bnds (m : mesh) : list bnd := concat (map p_bnds (parts m)).
Definition total (ts : list ElemType) : nat := list_sum (map GetO2ElemBisectNum ts).
(** piece [k] of cell [i]: the pieces of all cells stand one behind the other *)
Definition piece (m : mesh) (r : list bpart) (i k : nat) (s : cell) : Prop :=
  exists c, is_cell m i c /\ (k < GetO2ElemBisectNum (c_type c))%nat /\
    nth_error (concat (map q_cells r)) (total (map c_type (firstn i (all_cells m))) + k) = Some s.
(** piece [k] of boundary element [j] *)
Definition bnd_piece (m : mesh) (r : list bpart) (j k : nat) (s : ElemType * list Z) : Prop :=
  exists b, nth_error (all_bnds m) j = Some b /\ (k < GetO2ElemBisectNum (b_type b))%nat /\
    nth_error (concat (map q_bnds r)) (total (map b_type (firstn j (all_bnds m))) + k) = Some s.

(** the same polygon walked in the same sense; edges have a first and a last node *)
Definition turned {A} (x y : list A) : Prop :=
  x = y \/ ((3 <= length x)%nat /\ exists k, (k <= length x)%nat /\ rotate k x = y).
(** [x] are the vertices of face [f] of piece [k] of cell [i] *)
Definition piece_face (m : mesh) (r : list bpart) (i k f : nat) (x : list Z) : Prop :=
  exists s, piece m r i k s /\ face_vertices (c_type s) f (c_nodes s) = Ok x.
(** [x] are the nodes of piece [k] of the face [f] of the cell [c] *)
Definition face_piece (c : cell) (f k : nat) (x : list Z) : Prop :=
  exists fn, ExtractFaceNodes (c_type c) f (c_nodes c) = Ok fn /\ ExtractO2BisectElemNodes (GetFaceType (c_type c) f) k 0 fn = Ok x.
(** the pairs of nodes at the ends of the diagonals among which the code chooses *)
Definition diagonals (t : ElemType) : list (nat * nat) :=
  match t with Tet10 => [(4, 9); (5, 7); (6, 8)]%nat | Pyramid14 => [(9, 11); (10, 12)]%nat | _ => [] end.

(** what is read exists *)
Definition second_order (m : mesh) : Prop :=
  forall i c, is_cell m i c ->
    GetOrder (c_type c) = Some 2%nat /\ length (c_nodes c) = GetNumNodes (c_type c) /\
    (forall g, In g (c_nodes c) -> 0 <= g < zlen (all_coords m)) /\
    (periodic m = true -> length (c_bits c) = length (c_nodes c) /\ well_formed 3 (info m)).
(** every boundary element is a second-order face of a cell of its rank *)
Definition bnds_on_faces (m : mesh) : Prop :=
  forall lo hi b, bnd_at m lo hi b -> lo <= b_cell b < hi /\
    exists c f, is_cell m (Z.to_nat (b_cell b)) c /\ (f < GetNumFaces (c_type c))%nat /\ b_type b = GetFaceType (c_type c) f /\
      ExtractFaceNodes (c_type c) f (c_nodes c) = Ok (b_nodes b).

(** every rank holds its nodes and the pieces of its own cells and boundary elements *)
Definition sizes_ok (p : part) (q : bpart) : Prop :=
  q_coords q = p_coords p /\ length (q_cells q) = total (map c_type (p_cells p)) /\ length (q_bnds q) = total (map b_type (p_bnds p)).

(** the mesh that elevation leaves behind *)
Record made_of (m : mesh) (o : elevated) (m2 : mesh) : Prop := {
  mo_periodic : periodic m2 = periodic m;
  mo_info : info m2 = info m;
  mo_coords : map p_coords (parts m2) = o_coords o;
  mo_cells : all_cells m2 = o_cells o;
  mo_bnds : all_bnds m2 = o_bnds o;
  mo_ranks : Forall2 (fun p q => length (p_cells q) = length (p_cells p) /\ length (p_bnds q) = length (p_bnds p)) (parts m) (parts m2) }.
(** plane or solid cells *)
Definition flat (t : ElemType) : bool := match GetDim t with Some 2%nat | Some 3%nat => true | _ => false end.

(** volumes of tetrahedra and areas of polygons in the plane, with their sign *)
Definition tri_area (a b c : vec) : R := (((b 0%nat - a 0%nat) * (c 1%nat - a 1%nat) - (b 1%nat - a 1%nat) * (c 0%nat - a 0%nat)) / 2)%R.
Definition tet_volume (a b c d : vec) : R :=
  (vdot (vcross (fun i => b i - a i) (fun i => c i - a i)) (fun i => d i - a i) / 6)%R.
(** the volume under a triangle seen from the origin; summed over a closed surface, the
    volume inside *)
Definition cone (a b c : vec) : R := (vdot (vcross a b) c / 6)%R.
Definition sector (a b : vec) : R := ((a 0%nat * b 1%nat - a 1%nat * b 0%nat) / 2)%R.
(** [Some]: the volume of a straight piece *)
Definition volume (t : ElemType) (xs : list vec) : option R :=
  match t, xs with
  | Tri3, [a; b; c] => Some (tri_area a b c)
  | Quad4, [a; b; c; d] => Some (tri_area a b c + tri_area a c d)%R
  | Tet4, [a; b; c; d] => Some (tet_volume a b c d)
  | _, _ => None
  end.
(** the part of the surface integral over one face *)
Definition under (x : list vec) : option R :=
  match x with [a; b] => Some (sector a b) | [a; b; c] => Some (cone a b c) | _ => None end.
Definition sumR (l : list R) : R := fold_right Rplus 0%R l.
Definition middle (x a b : vec) : Prop := forall i, (i < 3)%nat -> x i = ((a i + b i) / 2)%R.
(** the middle nodes of the second-order cell, seen at [xs], lie in the middle of its edges *)
Definition straight_edges (t1 : ElemType) (xs : list vec) : Prop :=
  forall k a b x, ExtractElevNodeSpanNodes t1 k xs = Ok [a; b] -> nth_error xs (GetNumNodes t1 + k) = Some x -> middle x a b.
(** types whose pieces are equal, with the straight type and the number of pieces *)
Definition part_of (t : ElemType) : option (ElemType * nat) := match t with Tri6 => Some (Tri3, 4%nat) | Tet10 => Some (Tet4, 8%nat) | _ => None end.
(** types whose pieces have flat faces *)
Definition simple (t : ElemType) : bool := match t with Tri6 | Quad9 | Tet10 => true | _ => false end.
