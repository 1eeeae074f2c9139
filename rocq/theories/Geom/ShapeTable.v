(** * The shape functions and their derivatives, as written in the source

    ShapeFunc_DiNj, /repo/src/Geom/Elements.hpp 638-2178, transcribed by a
    script: one entry for every assignment [v(i, j) = ...], in program order, the
    right hand side being parsed with the precedences of C++. *)
From Coq Require Import List ZArith.
From Verif Require Import Geom.ElemModel Geom.ShapeExpr.
Import ListNotations.

(** ShapeFunc_DiNj<0> for Line2, Elements.hpp 651-672. *)
Definition Line2_D0 : list assignment :=
  [((0, 0), xi * (- #1 / #2) + #1 / #2);
   ((0, 1), xi / #2 + #1 / #2)]%expr.

(** ShapeFunc_DiNj<1> for Line2, Elements.hpp 651-672. *)
Definition Line2_D1 : list assignment :=
  [((0, 0), - #1 / #2);
   ((0, 1), #1 / #2)]%expr.

(** ShapeFunc_DiNj<2> for Line2, Elements.hpp 651-672. *)
Definition Line2_D2 : list assignment :=
  [((0, 1), #0);
   ((0, 0), #0)]%expr.

(** ShapeFunc_DiNj<3> for Line2, Elements.hpp 651-672. *)
Definition Line2_D3 : list assignment :=
  []%expr.

(** ShapeFunc_DiNj<0> for Line3, Elements.hpp 673-696. *)
Definition Line3_D0 : list assignment :=
  [((0, 0), xi * (xi - #1) / #2);
   ((0, 1), xi * (xi + #1) / #2);
   ((0, 2), - xi * xi + #1)]%expr.

(** ShapeFunc_DiNj<1> for Line3, Elements.hpp 673-696. *)
Definition Line3_D1 : list assignment :=
  [((0, 0), xi - #1 / #2);
   ((0, 1), xi + #1 / #2);
   ((0, 2), xi * - #2)]%expr.

(** ShapeFunc_DiNj<2> for Line3, Elements.hpp 673-696. *)
Definition Line3_D2 : list assignment :=
  [((0, 1), #1);
   ((0, 0), #1);
   ((0, 2), - #2)]%expr.

(** ShapeFunc_DiNj<3> for Line3, Elements.hpp 673-696. *)
Definition Line3_D3 : list assignment :=
  []%expr.

(** ShapeFunc_DiNj<0> for Tri3, Elements.hpp 697-721. *)
Definition Tri3_D0 : list assignment :=
  [((0, 0), - et - xi + #1);
   ((0, 1), xi);
   ((0, 2), et)]%expr.

(** ShapeFunc_DiNj<1> for Tri3, Elements.hpp 697-721. *)
Definition Tri3_D1 : list assignment :=
  [((0, 0), - #1);
   ((0, 1), #1);
   ((1, 0), - #1);
   ((1, 2), #1)]%expr.

(** ShapeFunc_DiNj<2> for Tri3, Elements.hpp 697-721. *)
Definition Tri3_D2 : list assignment :=
  []%expr.

(** ShapeFunc_DiNj<3> for Tri3, Elements.hpp 697-721. *)
Definition Tri3_D3 : list assignment :=
  []%expr.

(** ShapeFunc_DiNj<0> for Tri6, Elements.hpp 722-764. *)
Definition Tri6_D0 : list assignment :=
  [((0, 0), (et + xi - #1) * (et + xi - #1 / #2) * #2);
   ((0, 1), xi * (xi - #1 / #2) * #2);
   ((0, 2), et * (et - #1 / #2) * #2);
   ((0, 3), xi * (et * #2 + xi * #2 - #2) * - #2);
   ((0, 4), et * xi * #4);
   ((0, 5), et * (et + xi - #1) * - #4)]%expr.

(** ShapeFunc_DiNj<1> for Tri6, Elements.hpp 722-764. *)
Definition Tri6_D1 : list assignment :=
  [((0, 0), et * #4 + xi * #4 - #3);
   ((0, 1), xi * #4 - #1);
   ((0, 3), et * - #4 - xi * #8 + #4);
   ((0, 4), et * #4);
   ((0, 5), et * - #4);
   ((1, 0), et * #4 + xi * #4 - #3);
   ((1, 2), et * #4 - #1);
   ((1, 3), xi * - #4);
   ((1, 4), xi * #4);
   ((1, 5), et * - #8 - xi * #4 + #4)]%expr.

(** ShapeFunc_DiNj<2> for Tri6, Elements.hpp 722-764. *)
Definition Tri6_D2 : list assignment :=
  [((0, 0), #4);
   ((0, 1), #4);
   ((0, 3), - #8);
   ((1, 0), #4);
   ((1, 3), - #4);
   ((1, 4), #4);
   ((1, 5), - #4);
   ((2, 0), #4);
   ((2, 2), #4);
   ((2, 5), - #8)]%expr.

(** ShapeFunc_DiNj<3> for Tri6, Elements.hpp 722-764. *)
Definition Tri6_D3 : list assignment :=
  []%expr.

(** ShapeFunc_DiNj<0> for Quad4, Elements.hpp 765-797. *)
Definition Quad4_D0 : list assignment :=
  [((0, 0), (et / #2 - #1 / #2) * (xi / #2 - #1 / #2));
   ((0, 1), - (et / #2 - #1 / #2) * (xi / #2 + #1 / #2));
   ((0, 2), (et / #2 + #1 / #2) * (xi / #2 + #1 / #2));
   ((0, 3), - (et / #2 + #1 / #2) * (xi / #2 - #1 / #2))]%expr.

(** ShapeFunc_DiNj<1> for Quad4, Elements.hpp 765-797. *)
Definition Quad4_D1 : list assignment :=
  [((0, 0), et / #4 - #1 / #4);
   ((0, 1), et * (- #1 / #4) + #1 / #4);
   ((0, 2), et / #4 + #1 / #4);
   ((0, 3), et * (- #1 / #4) - #1 / #4);
   ((1, 0), xi / #4 - #1 / #4);
   ((1, 1), xi * (- #1 / #4) - #1 / #4);
   ((1, 2), xi / #4 + #1 / #4);
   ((1, 3), xi * (- #1 / #4) + #1 / #4)]%expr.

(** ShapeFunc_DiNj<2> for Quad4, Elements.hpp 765-797. *)
Definition Quad4_D2 : list assignment :=
  [((1, 0), #1 / #4);
   ((1, 1), - #1 / #4);
   ((1, 2), #1 / #4);
   ((1, 3), - #1 / #4)]%expr.

(** ShapeFunc_DiNj<3> for Quad4, Elements.hpp 765-797. *)
Definition Quad4_D3 : list assignment :=
  []%expr.

(** ShapeFunc_DiNj<0> for Quad9, Elements.hpp 798-885. *)
Definition Quad9_D0 : list assignment :=
  [((0, 0), et * xi * (et - #1) * (xi - #1) / #4);
   ((0, 1), et * xi * (et - #1) * (xi + #1) / #4);
   ((0, 2), et * xi * (et + #1) * (xi + #1) / #4);
   ((0, 3), et * xi * (et + #1) * (xi - #1) / #4);
   ((0, 4), et * (et - #1) * (xi - #1) * (xi + #1) * (- #1 / #2));
   ((0, 5), xi * (et - #1) * (et + #1) * (xi + #1) * (- #1 / #2));
   ((0, 6), et * (et + #1) * (xi - #1) * (xi + #1) * (- #1 / #2));
   ((0, 7), xi * (et - #1) * (et + #1) * (xi - #1) * (- #1 / #2));
   ((0, 8), (et - #1) * (et + #1) * (xi - #1) * (xi + #1))]%expr.

(** ShapeFunc_DiNj<1> for Quad9, Elements.hpp 798-885. *)
Definition Quad9_D1 : list assignment :=
  [((0, 0), et * (xi * #2 - #1) * (et - #1) / #4);
   ((0, 1), et * (xi * #2 + #1) * (et - #1) / #4);
   ((0, 2), et * (xi * #2 + #1) * (et + #1) / #4);
   ((0, 3), et * (xi * #2 - #1) * (et + #1) / #4);
   ((0, 4), - et * xi * (et - #1));
   ((0, 5), (et * et - #1) * (xi * #2 + #1) * (- #1 / #2));
   ((0, 6), - et * xi * (et + #1));
   ((0, 7), (et * et - #1) * (xi * #2 - #1) * (- #1 / #2));
   ((0, 8), xi * (et * et - #1) * #2);
   ((1, 0), xi * (et * #2 - #1) * (xi - #1) / #4);
   ((1, 1), xi * (et * #2 - #1) * (xi + #1) / #4);
   ((1, 2), xi * (et * #2 + #1) * (xi + #1) / #4);
   ((1, 3), xi * (et * #2 + #1) * (xi - #1) / #4);
   ((1, 4), (et * #2 - #1) * (xi * xi - #1) * (- #1 / #2));
   ((1, 5), - et * xi * (xi + #1));
   ((1, 6), (et * #2 + #1) * (xi * xi - #1) * (- #1 / #2));
   ((1, 7), - et * xi * (xi - #1));
   ((1, 8), et * (xi * xi - #1) * #2)]%expr.

(** ShapeFunc_DiNj<2> for Quad9, Elements.hpp 798-885. *)
Definition Quad9_D2 : list assignment :=
  [((0, 0), et * (et - #1) / #2);
   ((0, 1), et * (et - #1) / #2);
   ((0, 2), et * (et + #1) / #2);
   ((0, 3), et * (et + #1) / #2);
   ((0, 4), - et * (et - #1));
   ((0, 5), - et * et + #1);
   ((0, 6), - et * (et + #1));
   ((0, 7), - et * et + #1);
   ((0, 8), et * et * #2 - #2);
   ((1, 0), (et * #2 - #1) * (xi * #2 - #1) / #4);
   ((1, 1), (et * #2 - #1) * (xi * #2 + #1) / #4);
   ((1, 2), (et * #2 + #1) * (xi * #2 + #1) / #4);
   ((1, 3), (et * #2 + #1) * (xi * #2 - #1) / #4);
   ((1, 4), - xi * (et * #2 - #1));
   ((1, 5), - et * (xi * #2 + #1));
   ((1, 6), - xi * (et * #2 + #1));
   ((1, 7), - et * (xi * #2 - #1));
   ((1, 8), et * xi * #4);
   ((2, 0), xi * (xi - #1) / #2);
   ((2, 1), xi * (xi + #1) / #2);
   ((2, 2), xi * (xi + #1) / #2);
   ((2, 3), xi * (xi - #1) / #2);
   ((2, 4), - xi * xi + #1);
   ((2, 5), - xi * (xi + #1));
   ((2, 6), - xi * xi + #1);
   ((2, 7), - xi * (xi - #1));
   ((2, 8), xi * xi * #2 - #2)]%expr.

(** ShapeFunc_DiNj<3> for Quad9, Elements.hpp 798-885. *)
Definition Quad9_D3 : list assignment :=
  [((1, 0), et - #1 / #2);
   ((1, 1), et - #1 / #2);
   ((1, 2), et + #1 / #2);
   ((1, 3), et + #1 / #2);
   ((1, 4), et * - #2 + #1);
   ((1, 5), et * - #2);
   ((1, 6), et * - #2 - #1);
   ((1, 7), et * - #2);
   ((1, 8), et * #4);
   ((2, 0), xi - #1 / #2);
   ((2, 1), xi + #1 / #2);
   ((2, 2), xi + #1 / #2);
   ((2, 3), xi - #1 / #2);
   ((2, 4), xi * - #2);
   ((2, 5), xi * - #2 - #1);
   ((2, 6), xi * - #2);
   ((2, 7), xi * - #2 + #1);
   ((2, 8), xi * #4)]%expr.

(** ShapeFunc_DiNj<0> for Tet4, Elements.hpp 886-913. *)
Definition Tet4_D0 : list assignment :=
  [((0, 0), - et - xi - zt + #1);
   ((0, 1), xi);
   ((0, 2), et);
   ((0, 3), zt)]%expr.

(** ShapeFunc_DiNj<1> for Tet4, Elements.hpp 886-913. *)
Definition Tet4_D1 : list assignment :=
  [((0, 0), - #1);
   ((0, 1), #1);
   ((1, 0), - #1);
   ((1, 2), #1);
   ((2, 0), - #1);
   ((2, 3), #1)]%expr.

(** ShapeFunc_DiNj<2> for Tet4, Elements.hpp 886-913. *)
Definition Tet4_D2 : list assignment :=
  []%expr.

(** ShapeFunc_DiNj<3> for Tet4, Elements.hpp 886-913. *)
Definition Tet4_D3 : list assignment :=
  []%expr.

(** ShapeFunc_DiNj<0> for Tet10, Elements.hpp 914-982. *)
Definition Tet10_D0 : list assignment :=
  [((0, 0), (et + xi + zt - #1) * (et + xi + zt - #1 / #2) * #2);
   ((0, 1), xi * (xi - #1 / #2) * #2);
   ((0, 2), et * (et - #1 / #2) * #2);
   ((0, 3), zt * (zt - #1 / #2) * #2);
   ((0, 4), xi * (et * #2 + xi * #2 + zt * #2 - #2) * - #2);
   ((0, 5), et * xi * #4);
   ((0, 6), et * (et + xi + zt - #1) * - #4);
   ((0, 7), zt * (et * #2 + xi * #2 + zt * #2 - #2) * - #2);
   ((0, 8), xi * zt * #4);
   ((0, 9), et * zt * #4)]%expr.

(** ShapeFunc_DiNj<1> for Tet10, Elements.hpp 914-982. *)
Definition Tet10_D1 : list assignment :=
  [((0, 0), et * #4 + xi * #4 + zt * #4 - #3);
   ((0, 1), xi * #4 - #1);
   ((0, 4), et * - #4 - xi * #8 - zt * #4 + #4);
   ((0, 5), et * #4);
   ((0, 6), et * - #4);
   ((0, 7), zt * - #4);
   ((0, 8), zt * #4);
   ((1, 0), et * #4 + xi * #4 + zt * #4 - #3);
   ((1, 2), et * #4 - #1);
   ((1, 4), xi * - #4);
   ((1, 5), xi * #4);
   ((1, 6), et * - #8 - xi * #4 - zt * #4 + #4);
   ((1, 7), zt * - #4);
   ((1, 9), zt * #4);
   ((2, 0), et * #4 + xi * #4 + zt * #4 - #3);
   ((2, 3), zt * #4 - #1);
   ((2, 4), xi * - #4);
   ((2, 6), et * - #4);
   ((2, 7), et * - #4 - xi * #4 - zt * #8 + #4);
   ((2, 8), xi * #4);
   ((2, 9), et * #4)]%expr.

(** ShapeFunc_DiNj<2> for Tet10, Elements.hpp 914-982. *)
Definition Tet10_D2 : list assignment :=
  [((0, 0), #4);
   ((0, 1), #4);
   ((0, 4), - #8);
   ((1, 0), #4);
   ((1, 2), #4);
   ((1, 6), - #8);
   ((2, 0), #4);
   ((2, 3), #4);
   ((2, 7), - #8);
   ((3, 0), #4);
   ((3, 4), - #4);
   ((3, 5), #4);
   ((3, 6), - #4);
   ((4, 0), #4);
   ((4, 6), - #4);
   ((4, 7), - #4);
   ((4, 9), #4);
   ((5, 0), #4);
   ((5, 4), - #4);
   ((5, 7), - #4);
   ((5, 8), #4)]%expr.

(** ShapeFunc_DiNj<3> for Tet10, Elements.hpp 914-982. *)
Definition Tet10_D3 : list assignment :=
  []%expr.

(** ShapeFunc_DiNj<0> for Hex8, Elements.hpp 983-1061. *)
Definition Hex8_D0 : list assignment :=
  [((0, 0), - (et / #2 - #1 / #2) * (xi / #2 - #1 / #2) * (zt / #2 - #1 /
     #2));
   ((0, 1), (et / #2 - #1 / #2) * (xi / #2 + #1 / #2) * (zt / #2 - #1 / #2));
   ((0, 2), - (et / #2 + #1 / #2) * (xi / #2 + #1 / #2) * (zt / #2 - #1 /
     #2));
   ((0, 3), (et / #2 + #1 / #2) * (xi / #2 - #1 / #2) * (zt / #2 - #1 / #2));
   ((0, 4), (et / #2 - #1 / #2) * (xi / #2 - #1 / #2) * (zt / #2 + #1 / #2));
   ((0, 5), - (et / #2 - #1 / #2) * (xi / #2 + #1 / #2) * (zt / #2 + #1 /
     #2));
   ((0, 6), (et / #2 + #1 / #2) * (xi / #2 + #1 / #2) * (zt / #2 + #1 / #2));
   ((0, 7), - (et / #2 + #1 / #2) * (xi / #2 - #1 / #2) * (zt / #2 + #1 /
     #2))]%expr.

(** ShapeFunc_DiNj<1> for Hex8, Elements.hpp 983-1061. *)
Definition Hex8_D1 : list assignment :=
  [((0, 0), (et / #2 - #1 / #2) * (zt / #2 - #1 / #2) * (- #1 / #2));
   ((0, 1), (et / #2 - #1 / #2) * (zt / #2 - #1 / #2) / #2);
   ((0, 2), (et / #2 + #1 / #2) * (zt / #2 - #1 / #2) * (- #1 / #2));
   ((0, 3), (et / #2 + #1 / #2) * (zt / #2 - #1 / #2) / #2);
   ((0, 4), (et / #2 - #1 / #2) * (zt / #2 + #1 / #2) / #2);
   ((0, 5), (et / #2 - #1 / #2) * (zt / #2 + #1 / #2) * (- #1 / #2));
   ((0, 6), (et / #2 + #1 / #2) * (zt / #2 + #1 / #2) / #2);
   ((0, 7), (et / #2 + #1 / #2) * (zt / #2 + #1 / #2) * (- #1 / #2));
   ((1, 0), (xi / #2 - #1 / #2) * (zt / #2 - #1 / #2) * (- #1 / #2));
   ((1, 1), (xi / #2 + #1 / #2) * (zt / #2 - #1 / #2) / #2);
   ((1, 2), (xi / #2 + #1 / #2) * (zt / #2 - #1 / #2) * (- #1 / #2));
   ((1, 3), (xi / #2 - #1 / #2) * (zt / #2 - #1 / #2) / #2);
   ((1, 4), (xi / #2 - #1 / #2) * (zt / #2 + #1 / #2) / #2);
   ((1, 5), (xi / #2 + #1 / #2) * (zt / #2 + #1 / #2) * (- #1 / #2));
   ((1, 6), (xi / #2 + #1 / #2) * (zt / #2 + #1 / #2) / #2);
   ((1, 7), (xi / #2 - #1 / #2) * (zt / #2 + #1 / #2) * (- #1 / #2));
   ((2, 0), (et / #2 - #1 / #2) * (xi / #2 - #1 / #2) * (- #1 / #2));
   ((2, 1), (et / #2 - #1 / #2) * (xi / #2 + #1 / #2) / #2);
   ((2, 2), (et / #2 + #1 / #2) * (xi / #2 + #1 / #2) * (- #1 / #2));
   ((2, 3), (et / #2 + #1 / #2) * (xi / #2 - #1 / #2) / #2);
   ((2, 4), (et / #2 - #1 / #2) * (xi / #2 - #1 / #2) / #2);
   ((2, 5), (et / #2 - #1 / #2) * (xi / #2 + #1 / #2) * (- #1 / #2));
   ((2, 6), (et / #2 + #1 / #2) * (xi / #2 + #1 / #2) / #2);
   ((2, 7), (et / #2 + #1 / #2) * (xi / #2 - #1 / #2) * (- #1 / #2))]%expr.

(** ShapeFunc_DiNj<2> for Hex8, Elements.hpp 983-1061. *)
Definition Hex8_D2 : list assignment :=
  [((3, 0), zt * (- #1 / #8) + #1 / #8);
   ((3, 1), zt / #8 - #1 / #8);
   ((3, 2), zt * (- #1 / #8) + #1 / #8);
   ((3, 3), zt / #8 - #1 / #8);
   ((3, 4), zt / #8 + #1 / #8);
   ((3, 5), zt * (- #1 / #8) - #1 / #8);
   ((3, 6), zt / #8 + #1 / #8);
   ((3, 7), zt * (- #1 / #8) - #1 / #8);
   ((4, 0), xi * (- #1 / #8) + #1 / #8);
   ((4, 1), xi / #8 + #1 / #8);
   ((4, 2), xi * (- #1 / #8) - #1 / #8);
   ((4, 3), xi / #8 - #1 / #8);
   ((4, 4), xi / #8 - #1 / #8);
   ((4, 5), xi * (- #1 / #8) - #1 / #8);
   ((4, 6), xi / #8 + #1 / #8);
   ((4, 7), xi * (- #1 / #8) + #1 / #8);
   ((5, 0), et * (- #1 / #8) + #1 / #8);
   ((5, 1), et / #8 - #1 / #8);
   ((5, 2), et * (- #1 / #8) - #1 / #8);
   ((5, 3), et / #8 + #1 / #8);
   ((5, 4), et / #8 - #1 / #8);
   ((5, 5), et * (- #1 / #8) + #1 / #8);
   ((5, 6), et / #8 + #1 / #8);
   ((5, 7), et * (- #1 / #8) - #1 / #8)]%expr.

(** ShapeFunc_DiNj<3> for Hex8, Elements.hpp 983-1061. *)
Definition Hex8_D3 : list assignment :=
  [((9, 0), - #1 / #8);
   ((9, 1), #1 / #8);
   ((9, 2), - #1 / #8);
   ((9, 3), #1 / #8);
   ((9, 4), #1 / #8);
   ((9, 5), - #1 / #8);
   ((9, 6), #1 / #8);
   ((9, 7), - #1 / #8)]%expr.

(** ShapeFunc_DiNj<0> for Hex27, Elements.hpp 1062-1536. *)
Definition Hex27_D0 : list assignment :=
  [((0, 0), et * xi * zt * (et - #1) * (xi - #1) * (zt - #1) / #8);
   ((0, 1), et * xi * zt * (et - #1) * (xi + #1) * (zt - #1) / #8);
   ((0, 2), et * xi * zt * (et + #1) * (xi + #1) * (zt - #1) / #8);
   ((0, 3), et * xi * zt * (et + #1) * (xi - #1) * (zt - #1) / #8);
   ((0, 4), et * xi * zt * (et - #1) * (xi - #1) * (zt + #1) / #8);
   ((0, 5), et * xi * zt * (et - #1) * (xi + #1) * (zt + #1) / #8);
   ((0, 6), et * xi * zt * (et + #1) * (xi + #1) * (zt + #1) / #8);
   ((0, 7), et * xi * zt * (et + #1) * (xi - #1) * (zt + #1) / #8);
   ((0, 8), et * zt * (et - #1) * (xi - #1) * (xi + #1) * (zt - #1) * (- #1
     / #4));
   ((0, 9), xi * zt * (et - #1) * (et + #1) * (xi + #1) * (zt - #1) * (- #1
     / #4));
   ((0, 10), et * zt * (et + #1) * (xi - #1) * (xi + #1) * (zt - #1) * (- #1
     / #4));
   ((0, 11), xi * zt * (et - #1) * (et + #1) * (xi - #1) * (zt - #1) * (- #1
     / #4));
   ((0, 12), et * xi * (et - #1) * (xi - #1) * (zt - #1) * (zt + #1) * (- #1
     / #4));
   ((0, 13), et * xi * (et - #1) * (xi + #1) * (zt - #1) * (zt + #1) * (- #1
     / #4));
   ((0, 14), et * xi * (et + #1) * (xi + #1) * (zt - #1) * (zt + #1) * (- #1
     / #4));
   ((0, 15), et * xi * (et + #1) * (xi - #1) * (zt - #1) * (zt + #1) * (- #1
     / #4));
   ((0, 16), et * zt * (et - #1) * (xi - #1) * (xi + #1) * (zt + #1) * (- #1
     / #4));
   ((0, 17), xi * zt * (et - #1) * (et + #1) * (xi + #1) * (zt + #1) * (- #1
     / #4));
   ((0, 18), et * zt * (et + #1) * (xi - #1) * (xi + #1) * (zt + #1) * (- #1
     / #4));
   ((0, 19), xi * zt * (et - #1) * (et + #1) * (xi - #1) * (zt + #1) * (- #1
     / #4));
   ((0, 20), zt * (et - #1) * (et + #1) * (xi - #1) * (xi + #1) * (zt - #1)
     / #2);
   ((0, 21), et * (et - #1) * (xi - #1) * (xi + #1) * (zt - #1) * (zt + #1)
     / #2);
   ((0, 22), xi * (et - #1) * (et + #1) * (xi + #1) * (zt - #1) * (zt + #1)
     / #2);
   ((0, 23), et * (et + #1) * (xi - #1) * (xi + #1) * (zt - #1) * (zt + #1)
     / #2);
   ((0, 24), xi * (et - #1) * (et + #1) * (xi - #1) * (zt - #1) * (zt + #1)
     / #2);
   ((0, 25), zt * (et - #1) * (et + #1) * (xi - #1) * (xi + #1) * (zt + #1)
     / #2);
   ((0, 26), - (et - #1) * (et + #1) * (xi - #1) * (xi + #1) * (zt - #1) *
     (zt + #1))]%expr.

(** ShapeFunc_DiNj<1> for Hex27, Elements.hpp 1062-1536. *)
Definition Hex27_D1 : list assignment :=
  [((0, 0), et * zt * (xi * #2 - #1) * (et - #1) * (zt - #1) / #8);
   ((0, 1), et * zt * (xi * #2 + #1) * (et - #1) * (zt - #1) / #8);
   ((0, 2), et * zt * (xi * #2 + #1) * (et + #1) * (zt - #1) / #8);
   ((0, 3), et * zt * (xi * #2 - #1) * (et + #1) * (zt - #1) / #8);
   ((0, 4), et * zt * (xi * #2 - #1) * (et - #1) * (zt + #1) / #8);
   ((0, 5), et * zt * (xi * #2 + #1) * (et - #1) * (zt + #1) / #8);
   ((0, 6), et * zt * (xi * #2 + #1) * (et + #1) * (zt + #1) / #8);
   ((0, 7), et * zt * (xi * #2 - #1) * (et + #1) * (zt + #1) / #8);
   ((0, 8), et * xi * zt * (et - #1) * (zt - #1) * (- #1 / #2));
   ((0, 9), zt * (et * et - #1) * (xi * #2 + #1) * (zt - #1) * (- #1 / #4));
   ((0, 10), et * xi * zt * (et + #1) * (zt - #1) * (- #1 / #2));
   ((0, 11), zt * (et * et - #1) * (xi * #2 - #1) * (zt - #1) * (- #1 / #4));
   ((0, 12), et * (xi * #2 - #1) * (zt * zt - #1) * (et - #1) * (- #1 / #4));
   ((0, 13), et * (xi * #2 + #1) * (zt * zt - #1) * (et - #1) * (- #1 / #4));
   ((0, 14), et * (xi * #2 + #1) * (zt * zt - #1) * (et + #1) * (- #1 / #4));
   ((0, 15), et * (xi * #2 - #1) * (zt * zt - #1) * (et + #1) * (- #1 / #4));
   ((0, 16), et * xi * zt * (et - #1) * (zt + #1) * (- #1 / #2));
   ((0, 17), zt * (et * et - #1) * (xi * #2 + #1) * (zt + #1) * (- #1 / #4));
   ((0, 18), et * xi * zt * (et + #1) * (zt + #1) * (- #1 / #2));
   ((0, 19), zt * (et * et - #1) * (xi * #2 - #1) * (zt + #1) * (- #1 / #4));
   ((0, 20), xi * zt * (et * et - #1) * (zt - #1));
   ((0, 21), et * xi * (zt * zt - #1) * (et - #1));
   ((0, 22), (et * et - #1) * (xi * #2 + #1) * (zt * zt - #1) / #2);
   ((0, 23), et * xi * (zt * zt - #1) * (et + #1));
   ((0, 24), (et * et - #1) * (xi * #2 - #1) * (zt * zt - #1) / #2);
   ((0, 25), xi * zt * (et * et - #1) * (zt + #1));
   ((0, 26), xi * (et * et - #1) * (zt * zt - #1) * - #2);
   ((1, 0), xi * zt * (et * #2 - #1) * (xi - #1) * (zt - #1) / #8);
   ((1, 1), xi * zt * (et * #2 - #1) * (xi + #1) * (zt - #1) / #8);
   ((1, 2), xi * zt * (et * #2 + #1) * (xi + #1) * (zt - #1) / #8);
   ((1, 3), xi * zt * (et * #2 + #1) * (xi - #1) * (zt - #1) / #8);
   ((1, 4), xi * zt * (et * #2 - #1) * (xi - #1) * (zt + #1) / #8);
   ((1, 5), xi * zt * (et * #2 - #1) * (xi + #1) * (zt + #1) / #8);
   ((1, 6), xi * zt * (et * #2 + #1) * (xi + #1) * (zt + #1) / #8);
   ((1, 7), xi * zt * (et * #2 + #1) * (xi - #1) * (zt + #1) / #8);
   ((1, 8), zt * (et * #2 - #1) * (xi * xi - #1) * (zt - #1) * (- #1 / #4));
   ((1, 9), et * xi * zt * (xi + #1) * (zt - #1) * (- #1 / #2));
   ((1, 10), zt * (et * #2 + #1) * (xi * xi - #1) * (zt - #1) * (- #1 / #4));
   ((1, 11), et * xi * zt * (xi - #1) * (zt - #1) * (- #1 / #2));
   ((1, 12), xi * (et * #2 - #1) * (zt * zt - #1) * (xi - #1) * (- #1 / #4));
   ((1, 13), xi * (et * #2 - #1) * (zt * zt - #1) * (xi + #1) * (- #1 / #4));
   ((1, 14), xi * (et * #2 + #1) * (zt * zt - #1) * (xi + #1) * (- #1 / #4));
   ((1, 15), xi * (et * #2 + #1) * (zt * zt - #1) * (xi - #1) * (- #1 / #4));
   ((1, 16), zt * (et * #2 - #1) * (xi * xi - #1) * (zt + #1) * (- #1 / #4));
   ((1, 17), et * xi * zt * (xi + #1) * (zt + #1) * (- #1 / #2));
   ((1, 18), zt * (et * #2 + #1) * (xi * xi - #1) * (zt + #1) * (- #1 / #4));
   ((1, 19), et * xi * zt * (xi - #1) * (zt + #1) * (- #1 / #2));
   ((1, 20), et * zt * (xi * xi - #1) * (zt - #1));
   ((1, 21), (et * #2 - #1) * (xi * xi - #1) * (zt * zt - #1) / #2);
   ((1, 22), et * xi * (zt * zt - #1) * (xi + #1));
   ((1, 23), (et * #2 + #1) * (xi * xi - #1) * (zt * zt - #1) / #2);
   ((1, 24), et * xi * (zt * zt - #1) * (xi - #1));
   ((1, 25), et * zt * (xi * xi - #1) * (zt + #1));
   ((1, 26), et * (xi * xi - #1) * (zt * zt - #1) * - #2);
   ((2, 0), et * xi * (zt * #2 - #1) * (et - #1) * (xi - #1) / #8);
   ((2, 1), et * xi * (zt * #2 - #1) * (et - #1) * (xi + #1) / #8);
   ((2, 2), et * xi * (zt * #2 - #1) * (et + #1) * (xi + #1) / #8);
   ((2, 3), et * xi * (zt * #2 - #1) * (et + #1) * (xi - #1) / #8);
   ((2, 4), et * xi * (zt * #2 + #1) * (et - #1) * (xi - #1) / #8);
   ((2, 5), et * xi * (zt * #2 + #1) * (et - #1) * (xi + #1) / #8);
   ((2, 6), et * xi * (zt * #2 + #1) * (et + #1) * (xi + #1) / #8);
   ((2, 7), et * xi * (zt * #2 + #1) * (et + #1) * (xi - #1) / #8);
   ((2, 8), et * (xi * xi - #1) * (zt * #2 - #1) * (et - #1) * (- #1 / #4));
   ((2, 9), xi * (et * et - #1) * (zt * #2 - #1) * (xi + #1) * (- #1 / #4));
   ((2, 10), et * (xi * xi - #1) * (zt * #2 - #1) * (et + #1) * (- #1 / #4));
   ((2, 11), xi * (et * et - #1) * (zt * #2 - #1) * (xi - #1) * (- #1 / #4));
   ((2, 12), et * xi * zt * (et - #1) * (xi - #1) * (- #1 / #2));
   ((2, 13), et * xi * zt * (et - #1) * (xi + #1) * (- #1 / #2));
   ((2, 14), et * xi * zt * (et + #1) * (xi + #1) * (- #1 / #2));
   ((2, 15), et * xi * zt * (et + #1) * (xi - #1) * (- #1 / #2));
   ((2, 16), et * (xi * xi - #1) * (zt * #2 + #1) * (et - #1) * (- #1 / #4));
   ((2, 17), xi * (et * et - #1) * (zt * #2 + #1) * (xi + #1) * (- #1 / #4));
   ((2, 18), et * (xi * xi - #1) * (zt * #2 + #1) * (et + #1) * (- #1 / #4));
   ((2, 19), xi * (et * et - #1) * (zt * #2 + #1) * (xi - #1) * (- #1 / #4));
   ((2, 20), (et * et - #1) * (xi * xi - #1) * (zt * #2 - #1) / #2);
   ((2, 21), et * zt * (xi * xi - #1) * (et - #1));
   ((2, 22), xi * zt * (et * et - #1) * (xi + #1));
   ((2, 23), et * zt * (xi * xi - #1) * (et + #1));
   ((2, 24), xi * zt * (et * et - #1) * (xi - #1));
   ((2, 25), (et * et - #1) * (xi * xi - #1) * (zt * #2 + #1) / #2);
   ((2, 26), zt * (et * et - #1) * (xi * xi - #1) * - #2)]%expr.

(** ShapeFunc_DiNj<2> for Hex27, Elements.hpp 1062-1536. *)
Definition Hex27_D2 : list assignment :=
  [((0, 0), et * zt * (et - #1) * (zt - #1) / #4);
   ((0, 1), et * zt * (et - #1) * (zt - #1) / #4);
   ((0, 2), et * zt * (et + #1) * (zt - #1) / #4);
   ((0, 3), et * zt * (et + #1) * (zt - #1) / #4);
   ((0, 4), et * zt * (et - #1) * (zt + #1) / #4);
   ((0, 5), et * zt * (et - #1) * (zt + #1) / #4);
   ((0, 6), et * zt * (et + #1) * (zt + #1) / #4);
   ((0, 7), et * zt * (et + #1) * (zt + #1) / #4);
   ((0, 8), et * zt * (et - #1) * (zt - #1) * (- #1 / #2));
   ((0, 9), zt * (et - #1) * (et + #1) * (zt - #1) * (- #1 / #2));
   ((0, 10), et * zt * (et + #1) * (zt - #1) * (- #1 / #2));
   ((0, 11), zt * (et - #1) * (et + #1) * (zt - #1) * (- #1 / #2));
   ((0, 12), et * (et - #1) * (zt - #1) * (zt + #1) * (- #1 / #2));
   ((0, 13), et * (et - #1) * (zt - #1) * (zt + #1) * (- #1 / #2));
   ((0, 14), et * (et + #1) * (zt - #1) * (zt + #1) * (- #1 / #2));
   ((0, 15), et * (et + #1) * (zt - #1) * (zt + #1) * (- #1 / #2));
   ((0, 16), et * zt * (et - #1) * (zt + #1) * (- #1 / #2));
   ((0, 17), zt * (et - #1) * (et + #1) * (zt + #1) * (- #1 / #2));
   ((0, 18), et * zt * (et + #1) * (zt + #1) * (- #1 / #2));
   ((0, 19), zt * (et - #1) * (et + #1) * (zt + #1) * (- #1 / #2));
   ((0, 20), zt * (et - #1) * (et + #1) * (zt - #1));
   ((0, 21), et * (et - #1) * (zt - #1) * (zt + #1));
   ((0, 22), (et - #1) * (et + #1) * (zt - #1) * (zt + #1));
   ((0, 23), et * (et + #1) * (zt - #1) * (zt + #1));
   ((0, 24), (et - #1) * (et + #1) * (zt - #1) * (zt + #1));
   ((0, 25), zt * (et - #1) * (et + #1) * (zt + #1));
   ((0, 26), (et - #1) * (et + #1) * (zt - #1) * (zt + #1) * - #2);
   ((1, 0), xi * zt * (xi - #1) * (zt - #1) / #4);
   ((1, 1), xi * zt * (xi + #1) * (zt - #1) / #4);
   ((1, 2), xi * zt * (xi + #1) * (zt - #1) / #4);
   ((1, 3), xi * zt * (xi - #1) * (zt - #1) / #4);
   ((1, 4), xi * zt * (xi - #1) * (zt + #1) / #4);
   ((1, 5), xi * zt * (xi + #1) * (zt + #1) / #4);
   ((1, 6), xi * zt * (xi + #1) * (zt + #1) / #4);
   ((1, 7), xi * zt * (xi - #1) * (zt + #1) / #4);
   ((1, 8), zt * (xi - #1) * (xi + #1) * (zt - #1) * (- #1 / #2));
   ((1, 9), xi * zt * (xi + #1) * (zt - #1) * (- #1 / #2));
   ((1, 10), zt * (xi - #1) * (xi + #1) * (zt - #1) * (- #1 / #2));
   ((1, 11), xi * zt * (xi - #1) * (zt - #1) * (- #1 / #2));
   ((1, 12), xi * (xi - #1) * (zt - #1) * (zt + #1) * (- #1 / #2));
   ((1, 13), xi * (xi + #1) * (zt - #1) * (zt + #1) * (- #1 / #2));
   ((1, 14), xi * (xi + #1) * (zt - #1) * (zt + #1) * (- #1 / #2));
   ((1, 15), xi * (xi - #1) * (zt - #1) * (zt + #1) * (- #1 / #2));
   ((1, 16), zt * (xi - #1) * (xi + #1) * (zt + #1) * (- #1 / #2));
   ((1, 17), xi * zt * (xi + #1) * (zt + #1) * (- #1 / #2));
   ((1, 18), zt * (xi - #1) * (xi + #1) * (zt + #1) * (- #1 / #2));
   ((1, 19), xi * zt * (xi - #1) * (zt + #1) * (- #1 / #2));
   ((1, 20), zt * (xi - #1) * (xi + #1) * (zt - #1));
   ((1, 21), (xi - #1) * (xi + #1) * (zt - #1) * (zt + #1));
   ((1, 22), xi * (xi + #1) * (zt - #1) * (zt + #1));
   ((1, 23), (xi - #1) * (xi + #1) * (zt - #1) * (zt + #1));
   ((1, 24), xi * (xi - #1) * (zt - #1) * (zt + #1));
   ((1, 25), zt * (xi - #1) * (xi + #1) * (zt + #1));
   ((1, 26), (xi - #1) * (xi + #1) * (zt - #1) * (zt + #1) * - #2);
   ((2, 0), et * xi * (et - #1) * (xi - #1) / #4);
   ((2, 1), et * xi * (et - #1) * (xi + #1) / #4);
   ((2, 2), et * xi * (et + #1) * (xi + #1) / #4);
   ((2, 3), et * xi * (et + #1) * (xi - #1) / #4);
   ((2, 4), et * xi * (et - #1) * (xi - #1) / #4);
   ((2, 5), et * xi * (et - #1) * (xi + #1) / #4);
   ((2, 6), et * xi * (et + #1) * (xi + #1) / #4);
   ((2, 7), et * xi * (et + #1) * (xi - #1) / #4);
   ((2, 8), et * (et - #1) * (xi - #1) * (xi + #1) * (- #1 / #2));
   ((2, 9), xi * (et - #1) * (et + #1) * (xi + #1) * (- #1 / #2));
   ((2, 10), et * (et + #1) * (xi - #1) * (xi + #1) * (- #1 / #2));
   ((2, 11), xi * (et - #1) * (et + #1) * (xi - #1) * (- #1 / #2));
   ((2, 12), et * xi * (et - #1) * (xi - #1) * (- #1 / #2));
   ((2, 13), et * xi * (et - #1) * (xi + #1) * (- #1 / #2));
   ((2, 14), et * xi * (et + #1) * (xi + #1) * (- #1 / #2));
   ((2, 15), et * xi * (et + #1) * (xi - #1) * (- #1 / #2));
   ((2, 16), et * (et - #1) * (xi - #1) * (xi + #1) * (- #1 / #2));
   ((2, 17), xi * (et - #1) * (et + #1) * (xi + #1) * (- #1 / #2));
   ((2, 18), et * (et + #1) * (xi - #1) * (xi + #1) * (- #1 / #2));
   ((2, 19), xi * (et - #1) * (et + #1) * (xi - #1) * (- #1 / #2));
   ((2, 20), (et - #1) * (et + #1) * (xi - #1) * (xi + #1));
   ((2, 21), et * (et - #1) * (xi - #1) * (xi + #1));
   ((2, 22), xi * (et - #1) * (et + #1) * (xi + #1));
   ((2, 23), et * (et + #1) * (xi - #1) * (xi + #1));
   ((2, 24), xi * (et - #1) * (et + #1) * (xi - #1));
   ((2, 25), (et - #1) * (et + #1) * (xi - #1) * (xi + #1));
   ((2, 26), (et - #1) * (et + #1) * (xi - #1) * (xi + #1) * - #2);
   ((3, 0), zt * (et * #2 - #1) * (xi * #2 - #1) * (zt - #1) / #8);
   ((3, 1), zt * (et * #2 - #1) * (xi * #2 + #1) * (zt - #1) / #8);
   ((3, 2), zt * (et * #2 + #1) * (xi * #2 + #1) * (zt - #1) / #8);
   ((3, 3), zt * (et * #2 + #1) * (xi * #2 - #1) * (zt - #1) / #8);
   ((3, 4), zt * (et * #2 - #1) * (xi * #2 - #1) * (zt + #1) / #8);
   ((3, 5), zt * (et * #2 - #1) * (xi * #2 + #1) * (zt + #1) / #8);
   ((3, 6), zt * (et * #2 + #1) * (xi * #2 + #1) * (zt + #1) / #8);
   ((3, 7), zt * (et * #2 + #1) * (xi * #2 - #1) * (zt + #1) / #8);
   ((3, 8), xi * zt * (et * #2 - #1) * (zt - #1) * (- #1 / #2));
   ((3, 9), et * zt * (xi * #2 + #1) * (zt - #1) * (- #1 / #2));
   ((3, 10), xi * zt * (et * #2 + #1) * (zt - #1) * (- #1 / #2));
   ((3, 11), et * zt * (xi * #2 - #1) * (zt - #1) * (- #1 / #2));
   ((3, 12), (et * #2 - #1) * (xi * #2 - #1) * (zt * zt - #1) * (- #1 / #4));
   ((3, 13), (et * #2 - #1) * (xi * #2 + #1) * (zt * zt - #1) * (- #1 / #4));
   ((3, 14), (et * #2 + #1) * (xi * #2 + #1) * (zt * zt - #1) * (- #1 / #4));
   ((3, 15), (et * #2 + #1) * (xi * #2 - #1) * (zt * zt - #1) * (- #1 / #4));
   ((3, 16), xi * zt * (et * #2 - #1) * (zt + #1) * (- #1 / #2));
   ((3, 17), et * zt * (xi * #2 + #1) * (zt + #1) * (- #1 / #2));
   ((3, 18), xi * zt * (et * #2 + #1) * (zt + #1) * (- #1 / #2));
   ((3, 19), et * zt * (xi * #2 - #1) * (zt + #1) * (- #1 / #2));
   ((3, 20), et * xi * zt * (zt - #1) * #2);
   ((3, 21), xi * (et * #2 - #1) * (zt * zt - #1));
   ((3, 22), et * (xi * #2 + #1) * (zt * zt - #1));
   ((3, 23), xi * (et * #2 + #1) * (zt * zt - #1));
   ((3, 24), et * (xi * #2 - #1) * (zt * zt - #1));
   ((3, 25), et * xi * zt * (zt + #1) * #2);
   ((3, 26), et * xi * (zt * zt - #1) * - #4);
   ((4, 0), xi * (et * #2 - #1) * (zt * #2 - #1) * (xi - #1) / #8);
   ((4, 1), xi * (et * #2 - #1) * (zt * #2 - #1) * (xi + #1) / #8);
   ((4, 2), xi * (et * #2 + #1) * (zt * #2 - #1) * (xi + #1) / #8);
   ((4, 3), xi * (et * #2 + #1) * (zt * #2 - #1) * (xi - #1) / #8);
   ((4, 4), xi * (et * #2 - #1) * (zt * #2 + #1) * (xi - #1) / #8);
   ((4, 5), xi * (et * #2 - #1) * (zt * #2 + #1) * (xi + #1) / #8);
   ((4, 6), xi * (et * #2 + #1) * (zt * #2 + #1) * (xi + #1) / #8);
   ((4, 7), xi * (et * #2 + #1) * (zt * #2 + #1) * (xi - #1) / #8);
   ((4, 8), (et * #2 - #1) * (xi * xi - #1) * (zt * #2 - #1) * (- #1 / #4));
   ((4, 9), et * xi * (zt * #2 - #1) * (xi + #1) * (- #1 / #2));
   ((4, 10), (et * #2 + #1) * (xi * xi - #1) * (zt * #2 - #1) * (- #1 / #4));
   ((4, 11), et * xi * (zt * #2 - #1) * (xi - #1) * (- #1 / #2));
   ((4, 12), xi * zt * (et * #2 - #1) * (xi - #1) * (- #1 / #2));
   ((4, 13), xi * zt * (et * #2 - #1) * (xi + #1) * (- #1 / #2));
   ((4, 14), xi * zt * (et * #2 + #1) * (xi + #1) * (- #1 / #2));
   ((4, 15), xi * zt * (et * #2 + #1) * (xi - #1) * (- #1 / #2));
   ((4, 16), (et * #2 - #1) * (xi * xi - #1) * (zt * #2 + #1) * (- #1 / #4));
   ((4, 17), et * xi * (zt * #2 + #1) * (xi + #1) * (- #1 / #2));
   ((4, 18), (et * #2 + #1) * (xi * xi - #1) * (zt * #2 + #1) * (- #1 / #4));
   ((4, 19), et * xi * (zt * #2 + #1) * (xi - #1) * (- #1 / #2));
   ((4, 20), et * (xi * xi - #1) * (zt * #2 - #1));
   ((4, 21), zt * (et * #2 - #1) * (xi * xi - #1));
   ((4, 22), et * xi * zt * (xi + #1) * #2);
   ((4, 23), zt * (et * #2 + #1) * (xi * xi - #1));
   ((4, 24), et * xi * zt * (xi - #1) * #2);
   ((4, 25), et * (xi * xi - #1) * (zt * #2 + #1));
   ((4, 26), et * zt * (xi * xi - #1) * - #4);
   ((5, 0), et * (xi * #2 - #1) * (zt * #2 - #1) * (et - #1) / #8);
   ((5, 1), et * (xi * #2 + #1) * (zt * #2 - #1) * (et - #1) / #8);
   ((5, 2), et * (xi * #2 + #1) * (zt * #2 - #1) * (et + #1) / #8);
   ((5, 3), et * (xi * #2 - #1) * (zt * #2 - #1) * (et + #1) / #8);
   ((5, 4), et * (xi * #2 - #1) * (zt * #2 + #1) * (et - #1) / #8);
   ((5, 5), et * (xi * #2 + #1) * (zt * #2 + #1) * (et - #1) / #8);
   ((5, 6), et * (xi * #2 + #1) * (zt * #2 + #1) * (et + #1) / #8);
   ((5, 7), et * (xi * #2 - #1) * (zt * #2 + #1) * (et + #1) / #8);
   ((5, 8), et * xi * (zt * #2 - #1) * (et - #1) * (- #1 / #2));
   ((5, 9), (et * et - #1) * (xi * #2 + #1) * (zt * #2 - #1) * (- #1 / #4));
   ((5, 10), et * xi * (zt * #2 - #1) * (et + #1) * (- #1 / #2));
   ((5, 11), (et * et - #1) * (xi * #2 - #1) * (zt * #2 - #1) * (- #1 / #4));
   ((5, 12), et * zt * (xi * #2 - #1) * (et - #1) * (- #1 / #2));
   ((5, 13), et * zt * (xi * #2 + #1) * (et - #1) * (- #1 / #2));
   ((5, 14), et * zt * (xi * #2 + #1) * (et + #1) * (- #1 / #2));
   ((5, 15), et * zt * (xi * #2 - #1) * (et + #1) * (- #1 / #2));
   ((5, 16), et * xi * (zt * #2 + #1) * (et - #1) * (- #1 / #2));
   ((5, 17), (et * et - #1) * (xi * #2 + #1) * (zt * #2 + #1) * (- #1 / #4));
   ((5, 18), et * xi * (zt * #2 + #1) * (et + #1) * (- #1 / #2));
   ((5, 19), (et * et - #1) * (xi * #2 - #1) * (zt * #2 + #1) * (- #1 / #4));
   ((5, 20), xi * (et * et - #1) * (zt * #2 - #1));
   ((5, 21), et * xi * zt * (et - #1) * #2);
   ((5, 22), zt * (et * et - #1) * (xi * #2 + #1));
   ((5, 23), et * xi * zt * (et + #1) * #2);
   ((5, 24), zt * (et * et - #1) * (xi * #2 - #1));
   ((5, 25), xi * (et * et - #1) * (zt * #2 + #1));
   ((5, 26), xi * zt * (et * et - #1) * - #4)]%expr.

(** ShapeFunc_DiNj<3> for Hex27, Elements.hpp 1062-1536. *)
Definition Hex27_D3 : list assignment :=
  [((3, 0), zt * (et * #2 - #1) * (zt - #1) / #4);
   ((3, 1), zt * (et * #2 - #1) * (zt - #1) / #4);
   ((3, 2), zt * (et * #2 + #1) * (zt - #1) / #4);
   ((3, 3), zt * (et * #2 + #1) * (zt - #1) / #4);
   ((3, 4), zt * (et * #2 - #1) * (zt + #1) / #4);
   ((3, 5), zt * (et * #2 - #1) * (zt + #1) / #4);
   ((3, 6), zt * (et * #2 + #1) * (zt + #1) / #4);
   ((3, 7), zt * (et * #2 + #1) * (zt + #1) / #4);
   ((3, 8), zt * (et * #2 - #1) * (zt - #1) * (- #1 / #2));
   ((3, 9), - et * zt * (zt - #1));
   ((3, 10), zt * (et * #2 + #1) * (zt - #1) * (- #1 / #2));
   ((3, 11), - et * zt * (zt - #1));
   ((3, 12), (et * #2 - #1) * (zt * zt - #1) * (- #1 / #2));
   ((3, 13), (et * #2 - #1) * (zt * zt - #1) * (- #1 / #2));
   ((3, 14), (et * #2 + #1) * (zt * zt - #1) * (- #1 / #2));
   ((3, 15), (et * #2 + #1) * (zt * zt - #1) * (- #1 / #2));
   ((3, 16), zt * (et * #2 - #1) * (zt + #1) * (- #1 / #2));
   ((3, 17), - et * zt * (zt + #1));
   ((3, 18), zt * (et * #2 + #1) * (zt + #1) * (- #1 / #2));
   ((3, 19), - et * zt * (zt + #1));
   ((3, 20), et * zt * (zt - #1) * #2);
   ((3, 21), (et * #2 - #1) * (zt * zt - #1));
   ((3, 22), et * (zt * zt - #1) * #2);
   ((3, 23), (et * #2 + #1) * (zt * zt - #1));
   ((3, 24), et * (zt * zt - #1) * #2);
   ((3, 25), et * zt * (zt + #1) * #2);
   ((3, 26), et * (zt * zt - #1) * - #4);
   ((4, 0), zt * (xi * #2 - #1) * (zt - #1) / #4);
   ((4, 1), zt * (xi * #2 + #1) * (zt - #1) / #4);
   ((4, 2), zt * (xi * #2 + #1) * (zt - #1) / #4);
   ((4, 3), zt * (xi * #2 - #1) * (zt - #1) / #4);
   ((4, 4), zt * (xi * #2 - #1) * (zt + #1) / #4);
   ((4, 5), zt * (xi * #2 + #1) * (zt + #1) / #4);
   ((4, 6), zt * (xi * #2 + #1) * (zt + #1) / #4);
   ((4, 7), zt * (xi * #2 - #1) * (zt + #1) / #4);
   ((4, 8), - xi * zt * (zt - #1));
   ((4, 9), zt * (xi * #2 + #1) * (zt - #1) * (- #1 / #2));
   ((4, 10), - xi * zt * (zt - #1));
   ((4, 11), zt * (xi * #2 - #1) * (zt - #1) * (- #1 / #2));
   ((4, 12), (xi * #2 - #1) * (zt * zt - #1) * (- #1 / #2));
   ((4, 13), (xi * #2 + #1) * (zt * zt - #1) * (- #1 / #2));
   ((4, 14), (xi * #2 + #1) * (zt * zt - #1) * (- #1 / #2));
   ((4, 15), (xi * #2 - #1) * (zt * zt - #1) * (- #1 / #2));
   ((4, 16), - xi * zt * (zt + #1));
   ((4, 17), zt * (xi * #2 + #1) * (zt + #1) * (- #1 / #2));
   ((4, 18), - xi * zt * (zt + #1));
   ((4, 19), zt * (xi * #2 - #1) * (zt + #1) * (- #1 / #2));
   ((4, 20), xi * zt * (zt - #1) * #2);
   ((4, 21), xi * (zt * zt - #1) * #2);
   ((4, 22), (xi * #2 + #1) * (zt * zt - #1));
   ((4, 23), xi * (zt * zt - #1) * #2);
   ((4, 24), (xi * #2 - #1) * (zt * zt - #1));
   ((4, 25), xi * zt * (zt + #1) * #2);
   ((4, 26), xi * (zt * zt - #1) * - #4);
   ((5, 0), xi * (zt * #2 - #1) * (xi - #1) / #4);
   ((5, 1), xi * (zt * #2 - #1) * (xi + #1) / #4);
   ((5, 2), xi * (zt * #2 - #1) * (xi + #1) / #4);
   ((5, 3), xi * (zt * #2 - #1) * (xi - #1) / #4);
   ((5, 4), xi * (zt * #2 + #1) * (xi - #1) / #4);
   ((5, 5), xi * (zt * #2 + #1) * (xi + #1) / #4);
   ((5, 6), xi * (zt * #2 + #1) * (xi + #1) / #4);
   ((5, 7), xi * (zt * #2 + #1) * (xi - #1) / #4);
   ((5, 8), (xi * xi - #1) * (zt * #2 - #1) * (- #1 / #2));
   ((5, 9), xi * (zt * #2 - #1) * (xi + #1) * (- #1 / #2));
   ((5, 10), (xi * xi - #1) * (zt * #2 - #1) * (- #1 / #2));
   ((5, 11), xi * (zt * #2 - #1) * (xi - #1) * (- #1 / #2));
   ((5, 12), - xi * zt * (xi - #1));
   ((5, 13), - xi * zt * (xi + #1));
   ((5, 14), - xi * zt * (xi + #1));
   ((5, 15), - xi * zt * (xi - #1));
   ((5, 16), (xi * xi - #1) * (zt * #2 + #1) * (- #1 / #2));
   ((5, 17), xi * (zt * #2 + #1) * (xi + #1) * (- #1 / #2));
   ((5, 18), (xi * xi - #1) * (zt * #2 + #1) * (- #1 / #2));
   ((5, 19), xi * (zt * #2 + #1) * (xi - #1) * (- #1 / #2));
   ((5, 20), (xi * xi - #1) * (zt * #2 - #1));
   ((5, 21), zt * (xi * xi - #1) * #2);
   ((5, 22), xi * zt * (xi + #1) * #2);
   ((5, 23), zt * (xi * xi - #1) * #2);
   ((5, 24), xi * zt * (xi - #1) * #2);
   ((5, 25), (xi * xi - #1) * (zt * #2 + #1));
   ((5, 26), zt * (xi * xi - #1) * - #4);
   ((6, 0), xi * (et * #2 - #1) * (xi - #1) / #4);
   ((6, 1), xi * (et * #2 - #1) * (xi + #1) / #4);
   ((6, 2), xi * (et * #2 + #1) * (xi + #1) / #4);
   ((6, 3), xi * (et * #2 + #1) * (xi - #1) / #4);
   ((6, 4), xi * (et * #2 - #1) * (xi - #1) / #4);
   ((6, 5), xi * (et * #2 - #1) * (xi + #1) / #4);
   ((6, 6), xi * (et * #2 + #1) * (xi + #1) / #4);
   ((6, 7), xi * (et * #2 + #1) * (xi - #1) / #4);
   ((6, 8), (et * #2 - #1) * (xi * xi - #1) * (- #1 / #2));
   ((6, 9), - et * xi * (xi + #1));
   ((6, 10), (et * #2 + #1) * (xi * xi - #1) * (- #1 / #2));
   ((6, 11), - et * xi * (xi - #1));
   ((6, 12), xi * (et * #2 - #1) * (xi - #1) * (- #1 / #2));
   ((6, 13), xi * (et * #2 - #1) * (xi + #1) * (- #1 / #2));
   ((6, 14), xi * (et * #2 + #1) * (xi + #1) * (- #1 / #2));
   ((6, 15), xi * (et * #2 + #1) * (xi - #1) * (- #1 / #2));
   ((6, 16), (et * #2 - #1) * (xi * xi - #1) * (- #1 / #2));
   ((6, 17), - et * xi * (xi + #1));
   ((6, 18), (et * #2 + #1) * (xi * xi - #1) * (- #1 / #2));
   ((6, 19), - et * xi * (xi - #1));
   ((6, 20), et * (xi * xi - #1) * #2);
   ((6, 21), (et * #2 - #1) * (xi * xi - #1));
   ((6, 22), et * xi * (xi + #1) * #2);
   ((6, 23), (et * #2 + #1) * (xi * xi - #1));
   ((6, 24), et * xi * (xi - #1) * #2);
   ((6, 25), et * (xi * xi - #1) * #2);
   ((6, 26), et * (xi * xi - #1) * - #4);
   ((7, 0), et * (xi * #2 - #1) * (et - #1) / #4);
   ((7, 1), et * (xi * #2 + #1) * (et - #1) / #4);
   ((7, 2), et * (xi * #2 + #1) * (et + #1) / #4);
   ((7, 3), et * (xi * #2 - #1) * (et + #1) / #4);
   ((7, 4), et * (xi * #2 - #1) * (et - #1) / #4);
   ((7, 5), et * (xi * #2 + #1) * (et - #1) / #4);
   ((7, 6), et * (xi * #2 + #1) * (et + #1) / #4);
   ((7, 7), et * (xi * #2 - #1) * (et + #1) / #4);
   ((7, 8), - et * xi * (et - #1));
   ((7, 9), (et * et - #1) * (xi * #2 + #1) * (- #1 / #2));
   ((7, 10), - et * xi * (et + #1));
   ((7, 11), (et * et - #1) * (xi * #2 - #1) * (- #1 / #2));
   ((7, 12), et * (xi * #2 - #1) * (et - #1) * (- #1 / #2));
   ((7, 13), et * (xi * #2 + #1) * (et - #1) * (- #1 / #2));
   ((7, 14), et * (xi * #2 + #1) * (et + #1) * (- #1 / #2));
   ((7, 15), et * (xi * #2 - #1) * (et + #1) * (- #1 / #2));
   ((7, 16), - et * xi * (et - #1));
   ((7, 17), (et * et - #1) * (xi * #2 + #1) * (- #1 / #2));
   ((7, 18), - et * xi * (et + #1));
   ((7, 19), (et * et - #1) * (xi * #2 - #1) * (- #1 / #2));
   ((7, 20), xi * (et * et - #1) * #2);
   ((7, 21), et * xi * (et - #1) * #2);
   ((7, 22), (et * et - #1) * (xi * #2 + #1));
   ((7, 23), et * xi * (et + #1) * #2);
   ((7, 24), (et * et - #1) * (xi * #2 - #1));
   ((7, 25), xi * (et * et - #1) * #2);
   ((7, 26), xi * (et * et - #1) * - #4);
   ((8, 0), et * (zt * #2 - #1) * (et - #1) / #4);
   ((8, 1), et * (zt * #2 - #1) * (et - #1) / #4);
   ((8, 2), et * (zt * #2 - #1) * (et + #1) / #4);
   ((8, 3), et * (zt * #2 - #1) * (et + #1) / #4);
   ((8, 4), et * (zt * #2 + #1) * (et - #1) / #4);
   ((8, 5), et * (zt * #2 + #1) * (et - #1) / #4);
   ((8, 6), et * (zt * #2 + #1) * (et + #1) / #4);
   ((8, 7), et * (zt * #2 + #1) * (et + #1) / #4);
   ((8, 8), et * (zt * #2 - #1) * (et - #1) * (- #1 / #2));
   ((8, 9), (et * et - #1) * (zt * #2 - #1) * (- #1 / #2));
   ((8, 10), et * (zt * #2 - #1) * (et + #1) * (- #1 / #2));
   ((8, 11), (et * et - #1) * (zt * #2 - #1) * (- #1 / #2));
   ((8, 12), - et * zt * (et - #1));
   ((8, 13), - et * zt * (et - #1));
   ((8, 14), - et * zt * (et + #1));
   ((8, 15), - et * zt * (et + #1));
   ((8, 16), et * (zt * #2 + #1) * (et - #1) * (- #1 / #2));
   ((8, 17), (et * et - #1) * (zt * #2 + #1) * (- #1 / #2));
   ((8, 18), et * (zt * #2 + #1) * (et + #1) * (- #1 / #2));
   ((8, 19), (et * et - #1) * (zt * #2 + #1) * (- #1 / #2));
   ((8, 20), (et * et - #1) * (zt * #2 - #1));
   ((8, 21), et * zt * (et - #1) * #2);
   ((8, 22), zt * (et * et - #1) * #2);
   ((8, 23), et * zt * (et + #1) * #2);
   ((8, 24), zt * (et * et - #1) * #2);
   ((8, 25), (et * et - #1) * (zt * #2 + #1));
   ((8, 26), zt * (et * et - #1) * - #4);
   ((9, 0), (et * #2 - #1) * (xi * #2 - #1) * (zt * #2 - #1) / #8);
   ((9, 1), (et * #2 - #1) * (xi * #2 + #1) * (zt * #2 - #1) / #8);
   ((9, 2), (et * #2 + #1) * (xi * #2 + #1) * (zt * #2 - #1) / #8);
   ((9, 3), (et * #2 + #1) * (xi * #2 - #1) * (zt * #2 - #1) / #8);
   ((9, 4), (et * #2 - #1) * (xi * #2 - #1) * (zt * #2 + #1) / #8);
   ((9, 5), (et * #2 - #1) * (xi * #2 + #1) * (zt * #2 + #1) / #8);
   ((9, 6), (et * #2 + #1) * (xi * #2 + #1) * (zt * #2 + #1) / #8);
   ((9, 7), (et * #2 + #1) * (xi * #2 - #1) * (zt * #2 + #1) / #8);
   ((9, 8), xi * (et * #2 - #1) * (zt * #2 - #1) * (- #1 / #2));
   ((9, 9), et * (xi * #2 + #1) * (zt * #2 - #1) * (- #1 / #2));
   ((9, 10), xi * (et * #2 + #1) * (zt * #2 - #1) * (- #1 / #2));
   ((9, 11), et * (xi * #2 - #1) * (zt * #2 - #1) * (- #1 / #2));
   ((9, 12), zt * (et * #2 - #1) * (xi * #2 - #1) * (- #1 / #2));
   ((9, 13), zt * (et * #2 - #1) * (xi * #2 + #1) * (- #1 / #2));
   ((9, 14), zt * (et * #2 + #1) * (xi * #2 + #1) * (- #1 / #2));
   ((9, 15), zt * (et * #2 + #1) * (xi * #2 - #1) * (- #1 / #2));
   ((9, 16), xi * (et * #2 - #1) * (zt * #2 + #1) * (- #1 / #2));
   ((9, 17), et * (xi * #2 + #1) * (zt * #2 + #1) * (- #1 / #2));
   ((9, 18), xi * (et * #2 + #1) * (zt * #2 + #1) * (- #1 / #2));
   ((9, 19), et * (xi * #2 - #1) * (zt * #2 + #1) * (- #1 / #2));
   ((9, 20), et * xi * (zt * #2 - #1) * #2);
   ((9, 21), xi * zt * (et * #2 - #1) * #2);
   ((9, 22), et * zt * (xi * #2 + #1) * #2);
   ((9, 23), xi * zt * (et * #2 + #1) * #2);
   ((9, 24), et * zt * (xi * #2 - #1) * #2);
   ((9, 25), et * xi * (zt * #2 + #1) * #2);
   ((9, 26), et * xi * zt * - #8)]%expr.

(** ShapeFunc_DiNj<0> for Prism6, Elements.hpp 1537-1581. *)
Definition Prism6_D0 : list assignment :=
  [((0, 0), (zt / #2 - #1 / #2) * (et + xi - #1));
   ((0, 1), xi * (zt - #1) * (- #1 / #2));
   ((0, 2), et * (zt - #1) * (- #1 / #2));
   ((0, 3), - (zt / #2 + #1 / #2) * (et + xi - #1));
   ((0, 4), xi * (zt / #2 + #1 / #2));
   ((0, 5), et * (zt / #2 + #1 / #2))]%expr.

(** ShapeFunc_DiNj<1> for Prism6, Elements.hpp 1537-1581. *)
Definition Prism6_D1 : list assignment :=
  [((0, 0), zt / #2 - #1 / #2);
   ((0, 1), zt * (- #1 / #2) + #1 / #2);
   ((0, 3), zt * (- #1 / #2) - #1 / #2);
   ((0, 4), zt / #2 + #1 / #2);
   ((1, 0), zt / #2 - #1 / #2);
   ((1, 2), zt * (- #1 / #2) + #1 / #2);
   ((1, 3), zt * (- #1 / #2) - #1 / #2);
   ((1, 5), zt / #2 + #1 / #2);
   ((2, 0), et / #2 + xi / #2 - #1 / #2);
   ((2, 1), xi * (- #1 / #2));
   ((2, 2), et * (- #1 / #2));
   ((2, 3), et * (- #1 / #2) - xi / #2 + #1 / #2);
   ((2, 4), xi / #2);
   ((2, 5), et / #2)]%expr.

(** ShapeFunc_DiNj<2> for Prism6, Elements.hpp 1537-1581. *)
Definition Prism6_D2 : list assignment :=
  [((4, 0), #1 / #2);
   ((4, 2), - #1 / #2);
   ((4, 3), - #1 / #2);
   ((4, 5), #1 / #2);
   ((5, 0), #1 / #2);
   ((5, 1), - #1 / #2);
   ((5, 3), - #1 / #2);
   ((5, 4), #1 / #2)]%expr.

(** ShapeFunc_DiNj<3> for Prism6, Elements.hpp 1537-1581. *)
Definition Prism6_D3 : list assignment :=
  []%expr.

(** ShapeFunc_DiNj<0> for Prism18, Elements.hpp 1582-1801. *)
Definition Prism18_D0 : list assignment :=
  [((0, 0), zt * (zt - #1) * (et + xi - #1) * (et + xi - #1 / #2));
   ((0, 1), xi * zt * (xi - #1 / #2) * (zt - #1));
   ((0, 2), et * zt * (et - #1 / #2) * (zt - #1));
   ((0, 3), zt * (zt + #1) * (et + xi - #1) * (et + xi - #1 / #2));
   ((0, 4), xi * zt * (xi - #1 / #2) * (zt + #1));
   ((0, 5), et * zt * (et - #1 / #2) * (zt + #1));
   ((0, 6), - xi * zt * (zt - #1) * (et * #2 + xi * #2 - #2));
   ((0, 7), et * xi * zt * (zt - #1) * #2);
   ((0, 8), et * zt * (zt - #1) * (et + xi - #1) * - #2);
   ((0, 9), (zt - #1) * (zt + #1) * (et + xi - #1) * (et + xi - #1 / #2) * -
     #2);
   ((0, 10), xi * (xi - #1 / #2) * (zt - #1) * (zt + #1) * - #2);
   ((0, 11), et * (et - #1 / #2) * (zt - #1) * (zt + #1) * - #2);
   ((0, 12), - xi * zt * (zt + #1) * (et * #2 + xi * #2 - #2));
   ((0, 13), et * xi * zt * (zt + #1) * #2);
   ((0, 14), et * zt * (zt + #1) * (et + xi - #1) * - #2);
   ((0, 15), xi * (zt - #1) * (zt + #1) * (et * #2 + xi * #2 - #2) * #2);
   ((0, 16), et * xi * (zt - #1) * (zt + #1) * - #4);
   ((0, 17), et * (zt - #1) * (zt + #1) * (et + xi - #1) * #4)]%expr.

(** ShapeFunc_DiNj<1> for Prism18, Elements.hpp 1582-1801. *)
Definition Prism18_D1 : list assignment :=
  [((0, 0), zt * (zt - #1) * (et * #4 + xi * #4 - #3) / #2);
   ((0, 1), zt * (xi * #4 - #1) * (zt - #1) / #2);
   ((0, 3), zt * (zt + #1) * (et * #4 + xi * #4 - #3) / #2);
   ((0, 4), zt * (xi * #4 - #1) * (zt + #1) / #2);
   ((0, 6), zt * (zt - #1) * (et + xi * #2 - #1) * - #2);
   ((0, 7), et * zt * (zt - #1) * #2);
   ((0, 8), et * zt * (zt - #1) * - #2);
   ((0, 9), - (zt * zt - #1) * (et * #4 + xi * #4 - #3));
   ((0, 10), - (xi * #4 - #1) * (zt * zt - #1));
   ((0, 12), zt * (zt + #1) * (et + xi * #2 - #1) * - #2);
   ((0, 13), et * zt * (zt + #1) * #2);
   ((0, 14), et * zt * (zt + #1) * - #2);
   ((0, 15), (zt * zt - #1) * (et + xi * #2 - #1) * #4);
   ((0, 16), et * (zt - #1) * (zt + #1) * - #4);
   ((0, 17), et * (zt - #1) * (zt + #1) * #4);
   ((1, 0), zt * (zt - #1) * (et * #4 + xi * #4 - #3) / #2);
   ((1, 2), zt * (et * #4 - #1) * (zt - #1) / #2);
   ((1, 3), zt * (zt + #1) * (et * #4 + xi * #4 - #3) / #2);
   ((1, 5), zt * (et * #4 - #1) * (zt + #1) / #2);
   ((1, 6), xi * zt * (zt - #1) * - #2);
   ((1, 7), xi * zt * (zt - #1) * #2);
   ((1, 8), zt * (zt - #1) * (et * #2 + xi - #1) * - #2);
   ((1, 9), - (zt * zt - #1) * (et * #4 + xi * #4 - #3));
   ((1, 11), - (et * #4 - #1) * (zt * zt - #1));
   ((1, 12), xi * zt * (zt + #1) * - #2);
   ((1, 13), xi * zt * (zt + #1) * #2);
   ((1, 14), zt * (zt + #1) * (et * #2 + xi - #1) * - #2);
   ((1, 15), xi * (zt - #1) * (zt + #1) * #4);
   ((1, 16), xi * (zt - #1) * (zt + #1) * - #4);
   ((1, 17), (zt * zt - #1) * (et * #2 + xi - #1) * #4);
   ((2, 0), zt * (et + xi - #1) * (et + xi - #1 / #2) + (zt - #1) * (et + xi
     - #1) * (et + xi - #1 / #2));
   ((2, 1), xi * (xi * #2 - #1) * (zt * #2 - #1) / #2);
   ((2, 2), et * (et * #2 - #1) * (zt * #2 - #1) / #2);
   ((2, 3), zt * (et + xi - #1) * (et + xi - #1 / #2) + (zt + #1) * (et + xi
     - #1) * (et + xi - #1 / #2));
   ((2, 4), xi * (xi * #2 - #1) * (zt * #2 + #1) / #2);
   ((2, 5), et * (et * #2 - #1) * (zt * #2 + #1) / #2);
   ((2, 6), xi * (zt * #2 - #1) * (et + xi - #1) * - #2);
   ((2, 7), et * xi * (zt * #2 - #1) * #2);
   ((2, 8), et * (zt * #2 - #1) * (et + xi - #1) * - #2);
   ((2, 9), (zt - #1) * (et + xi - #1) * (et + xi - #1 / #2) * - #2 - (zt +
     #1) * (et + xi - #1) * (et + xi - #1 / #2) * #2);
   ((2, 10), xi * zt * (xi * #2 - #1) * - #2);
   ((2, 11), et * zt * (et * #2 - #1) * - #2);
   ((2, 12), xi * (zt * #2 + #1) * (et + xi - #1) * - #2);
   ((2, 13), et * xi * (zt * #2 + #1) * #2);
   ((2, 14), et * (zt * #2 + #1) * (et + xi - #1) * - #2);
   ((2, 15), xi * zt * (et + xi - #1) * #8);
   ((2, 16), et * xi * zt * - #8);
   ((2, 17), et * zt * (et + xi - #1) * #8)]%expr.

(** ShapeFunc_DiNj<2> for Prism18, Elements.hpp 1582-1801. *)
Definition Prism18_D2 : list assignment :=
  [((0, 0), zt * (zt - #1) * #2);
   ((0, 1), zt * (zt - #1) * #2);
   ((0, 3), zt * (zt + #1) * #2);
   ((0, 4), zt * (zt + #1) * #2);
   ((0, 6), zt * (zt - #1) * - #4);
   ((0, 9), zt * zt * - #4 + #4);
   ((0, 10), zt * zt * - #4 + #4);
   ((0, 12), zt * (zt + #1) * - #4);
   ((0, 15), (zt - #1) * (zt + #1) * #8);
   ((1, 0), zt * (zt - #1) * #2);
   ((1, 2), zt * (zt - #1) * #2);
   ((1, 3), zt * (zt + #1) * #2);
   ((1, 5), zt * (zt + #1) * #2);
   ((1, 8), zt * (zt - #1) * - #4);
   ((1, 9), zt * zt * - #4 + #4);
   ((1, 11), zt * zt * - #4 + #4);
   ((1, 14), zt * (zt + #1) * - #4);
   ((1, 17), (zt - #1) * (zt + #1) * #8);
   ((2, 0), (et + xi - #1) * (et + xi - #1 / #2) * #2);
   ((2, 1), xi * (xi - #1 / #2) * #2);
   ((2, 2), et * (et - #1 / #2) * #2);
   ((2, 3), (et + xi - #1) * (et + xi - #1 / #2) * #2);
   ((2, 4), xi * (xi - #1 / #2) * #2);
   ((2, 5), et * (et - #1 / #2) * #2);
   ((2, 6), xi * (et * #2 + xi * #2 - #2) * - #2);
   ((2, 7), et * xi * #4);
   ((2, 8), et * (et + xi - #1) * - #4);
   ((2, 9), (et + xi - #1) * (et + xi - #1 / #2) * - #4);
   ((2, 10), xi * (xi - #1 / #2) * - #4);
   ((2, 11), et * (et - #1 / #2) * - #4);
   ((2, 12), xi * (et * #2 + xi * #2 - #2) * - #2);
   ((2, 13), et * xi * #4);
   ((2, 14), et * (et + xi - #1) * - #4);
   ((2, 15), xi * (et * #2 + xi * #2 - #2) * #4);
   ((2, 16), et * xi * - #8);
   ((2, 17), et * (et + xi - #1) * #8);
   ((3, 0), zt * (zt - #1) * #2);
   ((3, 3), zt * (zt + #1) * #2);
   ((3, 6), zt * (zt - #1) * - #2);
   ((3, 7), zt * (zt - #1) * #2);
   ((3, 8), zt * (zt - #1) * - #2);
   ((3, 9), zt * zt * - #4 + #4);
   ((3, 12), zt * (zt + #1) * - #2);
   ((3, 13), zt * (zt + #1) * #2);
   ((3, 14), zt * (zt + #1) * - #2);
   ((3, 15), zt * zt * #4 - #4);
   ((3, 16), zt * zt * - #4 + #4);
   ((3, 17), zt * zt * #4 - #4);
   ((4, 0), (zt * #2 - #1) * (et * #4 + xi * #4 - #3) / #2);
   ((4, 2), (et * #4 - #1) * (zt * #2 - #1) / #2);
   ((4, 3), (zt * #2 + #1) * (et * #4 + xi * #4 - #3) / #2);
   ((4, 5), (et * #4 - #1) * (zt * #2 + #1) / #2);
   ((4, 6), xi * (zt * #2 - #1) * - #2);
   ((4, 7), xi * (zt * #2 - #1) * #2);
   ((4, 8), (zt * #2 - #1) * (et * #2 + xi - #1) * - #2);
   ((4, 9), zt * (et * #4 + xi * #4 - #3) * - #2);
   ((4, 11), zt * (et * #4 - #1) * - #2);
   ((4, 12), xi * (zt * #2 + #1) * - #2);
   ((4, 13), xi * (zt * #2 + #1) * #2);
   ((4, 14), (zt * #2 + #1) * (et * #2 + xi - #1) * - #2);
   ((4, 15), xi * zt * #8);
   ((4, 16), xi * zt * - #8);
   ((4, 17), zt * (et * #2 + xi - #1) * #8);
   ((5, 0), (zt * #2 - #1) * (et * #4 + xi * #4 - #3) / #2);
   ((5, 1), (xi * #4 - #1) * (zt * #2 - #1) / #2);
   ((5, 3), (zt * #2 + #1) * (et * #4 + xi * #4 - #3) / #2);
   ((5, 4), (xi * #4 - #1) * (zt * #2 + #1) / #2);
   ((5, 6), (zt * #2 - #1) * (et + xi * #2 - #1) * - #2);
   ((5, 7), et * (zt * #2 - #1) * #2);
   ((5, 8), et * (zt * #2 - #1) * - #2);
   ((5, 9), zt * (et * #4 + xi * #4 - #3) * - #2);
   ((5, 10), zt * (xi * #4 - #1) * - #2);
   ((5, 12), (zt * #2 + #1) * (et + xi * #2 - #1) * - #2);
   ((5, 13), et * (zt * #2 + #1) * #2);
   ((5, 14), et * (zt * #2 + #1) * - #2);
   ((5, 15), zt * (et + xi * #2 - #1) * #8);
   ((5, 16), et * zt * - #8);
   ((5, 17), et * zt * #8)]%expr.

(** ShapeFunc_DiNj<3> for Prism18, Elements.hpp 1582-1801. *)
Definition Prism18_D3 : list assignment :=
  [((5, 0), zt * #4 - #2);
   ((5, 2), zt * #4 - #2);
   ((5, 3), zt * #4 + #2);
   ((5, 5), zt * #4 + #2);
   ((5, 8), zt * - #8 + #4);
   ((5, 9), zt * - #8);
   ((5, 11), zt * - #8);
   ((5, 14), zt * - #8 - #4);
   ((5, 17), zt * #16);
   ((6, 0), et * #4 + xi * #4 - #3);
   ((6, 2), et * #4 - #1);
   ((6, 3), et * #4 + xi * #4 - #3);
   ((6, 5), et * #4 - #1);
   ((6, 6), xi * - #4);
   ((6, 7), xi * #4);
   ((6, 8), et * - #8 - xi * #4 + #4);
   ((6, 9), et * - #8 - xi * #8 + #6);
   ((6, 11), et * - #8 + #2);
   ((6, 12), xi * - #4);
   ((6, 13), xi * #4);
   ((6, 14), et * - #8 - xi * #4 + #4);
   ((6, 15), xi * #8);
   ((6, 16), xi * - #8);
   ((6, 17), et * #16 + xi * #8 - #8);
   ((7, 0), et * #4 + xi * #4 - #3);
   ((7, 1), xi * #4 - #1);
   ((7, 3), et * #4 + xi * #4 - #3);
   ((7, 4), xi * #4 - #1);
   ((7, 6), et * - #4 - xi * #8 + #4);
   ((7, 7), et * #4);
   ((7, 8), et * - #4);
   ((7, 9), et * - #8 - xi * #8 + #6);
   ((7, 10), xi * - #8 + #2);
   ((7, 12), et * - #4 - xi * #8 + #4);
   ((7, 13), et * #4);
   ((7, 14), et * - #4);
   ((7, 15), et * #8 + xi * #16 - #8);
   ((7, 16), et * - #8);
   ((7, 17), et * #8);
   ((8, 0), zt * #4 - #2);
   ((8, 1), zt * #4 - #2);
   ((8, 3), zt * #4 + #2);
   ((8, 4), zt * #4 + #2);
   ((8, 6), zt * - #8 + #4);
   ((8, 9), zt * - #8);
   ((8, 10), zt * - #8);
   ((8, 12), zt * - #8 - #4);
   ((8, 15), zt * #16);
   ((9, 0), zt * #4 - #2);
   ((9, 3), zt * #4 + #2);
   ((9, 6), zt * - #4 + #2);
   ((9, 7), zt * #4 - #2);
   ((9, 8), zt * - #4 + #2);
   ((9, 9), zt * - #8);
   ((9, 12), zt * - #4 - #2);
   ((9, 13), zt * #4 + #2);
   ((9, 14), zt * - #4 - #2);
   ((9, 15), zt * #8);
   ((9, 16), zt * - #8);
   ((9, 17), zt * #8)]%expr.

(** ShapeFunc_DiNj<0> for Pyramid5, Elements.hpp 1802-1890. *)
Definition Pyramid5_D0 : list assignment :=
  [((0, 0), (et + zt - #1) * (xi + zt - #1) * (- #1 / #4) / (zt - #1));
   ((0, 1), (et + zt - #1) * (xi - zt + #1) / (zt * #4 - #4));
   ((0, 2), (et - zt + #1) * (xi - zt + #1) * (- #1 / #4) / (zt - #1));
   ((0, 3), (xi + zt - #1) * (et - zt + #1) / (zt * #4 - #4));
   ((0, 4), zt)]%expr.

(** ShapeFunc_DiNj<1> for Pyramid5, Elements.hpp 1802-1890. *)
Definition Pyramid5_D1 : list assignment :=
  [((0, 0), (et + zt - #1) * (- #1 / #4) / (zt - #1));
   ((0, 1), (et + zt - #1) / (zt * #4 - #4));
   ((0, 2), (et - zt + #1) * (- #1 / #4) / (zt - #1));
   ((0, 3), (et - zt + #1) / (zt * #4 - #4));
   ((1, 0), (xi + zt - #1) * (- #1 / #4) / (zt - #1));
   ((1, 1), (xi - zt + #1) / (zt * #4 - #4));
   ((1, 2), (xi - zt + #1) * (- #1 / #4) / (zt - #1));
   ((1, 3), (xi + zt - #1) / (zt * #4 - #4));
   ((2, 0), #1 / (zt - #1) ^ 2 * (zt * #2 + et * xi - zt * zt - #1) / #4);
   ((2, 1), #1 / (zt - #1) ^ 2 * (zt * - #2 + et * xi + zt * zt + #1) * (-
     #1 / #4));
   ((2, 2), #1 / (zt - #1) ^ 2 * (zt * #2 + et * xi - zt * zt - #1) / #4);
   ((2, 3), #1 / (zt - #1) ^ 2 * (zt * - #2 + et * xi + zt * zt + #1) * (-
     #1 / #4));
   ((2, 4), #1)]%expr.

(** ShapeFunc_DiNj<2> for Pyramid5, Elements.hpp 1802-1890. *)
Definition Pyramid5_D2 : list assignment :=
  [((2, 0), et * xi * #1 / (zt - #1) ^ 3 * (- #1 / #2));
   ((2, 1), et * xi * #1 / (zt - #1) ^ 3 / #2);
   ((2, 2), et * xi * #1 / (zt - #1) ^ 3 * (- #1 / #2));
   ((2, 3), et * xi * #1 / (zt - #1) ^ 3 / #2);
   ((3, 0), - #1 / #4 / (zt - #1));
   ((3, 1), #1 / (zt * #4 - #4));
   ((3, 2), - #1 / #4 / (zt - #1));
   ((3, 3), #1 / (zt * #4 - #4));
   ((4, 0), xi * #1 / (zt - #1) ^ 2 / #4);
   ((4, 1), xi * #1 / (zt - #1) ^ 2 * (- #1 / #4));
   ((4, 2), xi * #1 / (zt - #1) ^ 2 / #4);
   ((4, 3), xi * #1 / (zt - #1) ^ 2 * (- #1 / #4));
   ((5, 0), et * #1 / (zt - #1) ^ 2 / #4);
   ((5, 1), et * #1 / (zt - #1) ^ 2 * (- #1 / #4));
   ((5, 2), et * #1 / (zt - #1) ^ 2 / #4);
   ((5, 3), et * #1 / (zt - #1) ^ 2 * (- #1 / #4))]%expr.

(** ShapeFunc_DiNj<3> for Pyramid5, Elements.hpp 1802-1890. *)
Definition Pyramid5_D3 : list assignment :=
  [((2, 0), et * xi * #1 / (zt - #1) ^ 4 * (#3 / #2));
   ((2, 1), et * xi * #1 / (zt - #1) ^ 4 * (- #3 / #2));
   ((2, 2), et * xi * #1 / (zt - #1) ^ 4 * (#3 / #2));
   ((2, 3), et * xi * #1 / (zt - #1) ^ 4 * (- #3 / #2));
   ((6, 0), xi * #1 / (zt - #1) ^ 3 * (- #1 / #2));
   ((6, 1), xi * #1 / (zt - #1) ^ 3 / #2);
   ((6, 2), xi * #1 / (zt - #1) ^ 3 * (- #1 / #2));
   ((6, 3), xi * #1 / (zt - #1) ^ 3 / #2);
   ((7, 0), et * #1 / (zt - #1) ^ 3 * (- #1 / #2));
   ((7, 1), et * #1 / (zt - #1) ^ 3 / #2);
   ((7, 2), et * #1 / (zt - #1) ^ 3 * (- #1 / #2));
   ((7, 3), et * #1 / (zt - #1) ^ 3 / #2);
   ((9, 0), #1 / (zt - #1) ^ 2 / #4);
   ((9, 1), #1 / (zt - #1) ^ 2 * (- #1 / #4));
   ((9, 2), #1 / (zt - #1) ^ 2 / #4);
   ((9, 3), #1 / (zt - #1) ^ 2 * (- #1 / #4))]%expr.

(** ShapeFunc_DiNj<0> for Pyramid14, Elements.hpp 1891-2178. *)
Definition Pyramid14_D0 : list assignment :=
  [((0, 0), et * xi * (zt * #2 - #1) * (zt * #2 - #2) * #1 / (zt - #1) ^ 4 *
     (et + zt - #1) * (xi + zt - #1) / #8);
   ((0, 1), et * xi * (zt * #2 - #1) * (zt * #2 - #2) * #1 / (zt - #1) ^ 4 *
     (et + zt - #1) * (xi - zt + #1) / #8);
   ((0, 2), et * xi * (zt * #2 - #1) * (zt * #2 - #2) * #1 / (zt - #1) ^ 4 *
     (et - zt + #1) * (xi - zt + #1) / #8);
   ((0, 3), et * xi * (zt * #2 - #1) * (zt * #2 - #2) * #1 / (zt - #1) ^ 4 *
     (xi + zt - #1) * (et - zt + #1) / #8);
   ((0, 4), zt * (zt * #2 - #1));
   ((0, 5), et * (zt * #2 - #1) * (zt * #2 - #2) * #1 / (zt - #1) ^ 4 * (et
     + zt - #1) * (xi + zt - #1) * (xi - zt + #1) * (- #1 / #4));
   ((0, 6), xi * (zt * #2 - #1) * (zt * #2 - #2) * #1 / (zt - #1) ^ 4 * (et
     + zt - #1) * (et - zt + #1) * (xi - zt + #1) * (- #1 / #4));
   ((0, 7), et * (zt * #2 - #1) * (zt * #2 - #2) * #1 / (zt - #1) ^ 4 * (xi
     + zt - #1) * (et - zt + #1) * (xi - zt + #1) * (- #1 / #4));
   ((0, 8), xi * (zt * #2 - #1) * (zt * #2 - #2) * #1 / (zt - #1) ^ 4 * (et
     + zt - #1) * (xi + zt - #1) * (et - zt + #1) * (- #1 / #4));
   ((0, 9), zt * (zt * #2 - #2) * #1 / (zt - #1) ^ 2 * (et + zt - #1) * (xi
     + zt - #1) * (- #1 / #2));
   ((0, 10), zt * (zt * #2 - #2) * #1 / (zt - #1) ^ 2 * (et + zt - #1) * (xi
     - zt + #1) / #2);
   ((0, 11), zt * (zt * #2 - #2) * #1 / (zt - #1) ^ 2 * (et - zt + #1) * (xi
     - zt + #1) * (- #1 / #2));
   ((0, 12), zt * (zt * #2 - #2) * #1 / (zt - #1) ^ 2 * (xi + zt - #1) * (et
     - zt + #1) / #2);
   ((0, 13), (zt * #2 - #1) * (zt * #2 - #2) * #1 / (zt - #1) ^ 4 * (et + zt
     - #1) * (xi + zt - #1) * (et - zt + #1) * (xi - zt + #1) / #2)]%expr.

(** ShapeFunc_DiNj<1> for Pyramid14, Elements.hpp 1891-2178. *)
Definition Pyramid14_D1 : list assignment :=
  [((0, 0), et * (zt * #2 - #1) * #1 / (zt - #1) ^ 3 * (et + zt - #1) * (xi
     * #2 + zt - #1) / #4);
   ((0, 1), et * (zt * #2 - #1) * #1 / (zt - #1) ^ 3 * (xi * #2 - zt + #1) *
     (et + zt - #1) / #4);
   ((0, 2), et * (zt * #2 - #1) * #1 / (zt - #1) ^ 3 * (xi * #2 - zt + #1) *
     (et - zt + #1) / #4);
   ((0, 3), et * (zt * #2 - #1) * #1 / (zt - #1) ^ 3 * (et - zt + #1) * (xi
     * #2 + zt - #1) / #4);
   ((0, 5), - et * xi * (zt * #2 - #1) * #1 / (zt - #1) ^ 3 * (et + zt -
     #1));
   ((0, 6), (zt * #2 - #1) * #1 / (zt - #1) ^ 3 * (xi * #2 - zt + #1) * (zt
     * #2 + et * et - zt * zt - #1) * (- #1 / #2));
   ((0, 7), - et * xi * (zt * #2 - #1) * #1 / (zt - #1) ^ 3 * (et - zt +
     #1));
   ((0, 8), (zt * #2 - #1) * #1 / (zt - #1) ^ 3 * (xi * #2 + zt - #1) * (zt
     * #2 + et * et - zt * zt - #1) * (- #1 / #2));
   ((0, 9), - (zt * (et + zt - #1)) / (zt - #1));
   ((0, 10), zt * (et + zt - #1) / (zt - #1));
   ((0, 11), - (zt * (et - zt + #1)) / (zt - #1));
   ((0, 12), zt * (et - zt + #1) / (zt - #1));
   ((0, 13), xi * (zt * #2 - #1) * #1 / (zt - #1) ^ 3 * (zt * #2 + et * et -
     zt * zt - #1) * #2);
   ((1, 0), xi * (zt * #2 - #1) * #1 / (zt - #1) ^ 3 * (xi + zt - #1) * (et
     * #2 + zt - #1) / #4);
   ((1, 1), xi * (zt * #2 - #1) * #1 / (zt - #1) ^ 3 * (et * #2 + zt - #1) *
     (xi - zt + #1) / #4);
   ((1, 2), xi * (zt * #2 - #1) * #1 / (zt - #1) ^ 3 * (xi - zt + #1) * (et
     * #2 - zt + #1) / #4);
   ((1, 3), xi * (zt * #2 - #1) * #1 / (zt - #1) ^ 3 * (xi + zt - #1) * (et
     * #2 - zt + #1) / #4);
   ((1, 5), (zt * #2 - #1) * #1 / (zt - #1) ^ 3 * (et * #2 + zt - #1) * (zt
     * #2 + xi * xi - zt * zt - #1) * (- #1 / #2));
   ((1, 6), - et * xi * (zt * #2 - #1) * #1 / (zt - #1) ^ 3 * (xi - zt +
     #1));
   ((1, 7), (zt * #2 - #1) * #1 / (zt - #1) ^ 3 * (et * #2 - zt + #1) * (zt
     * #2 + xi * xi - zt * zt - #1) * (- #1 / #2));
   ((1, 8), - et * xi * (zt * #2 - #1) * #1 / (zt - #1) ^ 3 * (xi + zt -
     #1));
   ((1, 9), - (zt * (xi + zt - #1)) / (zt - #1));
   ((1, 10), zt * (xi - zt + #1) / (zt - #1));
   ((1, 11), - (zt * (xi - zt + #1)) / (zt - #1));
   ((1, 12), zt * (xi + zt - #1) / (zt - #1));
   ((1, 13), et * (zt * #2 - #1) * #1 / (zt - #1) ^ 3 * (zt * #2 + xi * xi -
     zt * zt - #1) * #2);
   ((2, 0), et * xi * #1 / (zt - #1) ^ 4 * (zt * - #2 - et * xi - et * zt *
     #2 - xi * zt * #2 + et * (zt * zt) * #2 + xi * (zt * zt) * #2 + zt * zt
     + et * xi * zt * #4 + #1) * (- #1 / #4));
   ((2, 1), et * xi * #1 / (zt - #1) ^ 4 * (zt * - #2 + et * xi - et * zt *
     #2 + xi * zt * #2 + et * (zt * zt) * #2 - xi * (zt * zt) * #2 + zt * zt
     - et * xi * zt * #4 + #1) / #4);
   ((2, 2), et * xi * #1 / (zt - #1) ^ 4 * (zt * - #2 - et * xi + et * zt *
     #2 + xi * zt * #2 - et * (zt * zt) * #2 - xi * (zt * zt) * #2 + zt * zt
     + et * xi * zt * #4 + #1) * (- #1 / #4));
   ((2, 3), et * xi * #1 / (zt - #1) ^ 4 * (zt * - #2 + et * xi + et * zt *
     #2 - xi * zt * #2 - et * (zt * zt) * #2 + xi * (zt * zt) * #2 + zt * zt
     - et * xi * zt * #4 + #1) / #4);
   ((2, 4), zt * #4 - #1);
   ((2, 5), et * #1 / (zt - #1) ^ 4 * (et + zt * #8 - xi * xi * (zt * zt) *
     #2 - et * zt * #2 + et * (xi * xi) + et * (zt * zt) + xi * xi * zt * #2
     - zt * zt * #12 + zt * zt * zt * #8 - zt * zt * zt * zt * #2 - et * (xi
     * xi) * zt * #4 - #2) * (- #1 / #2));
   ((2, 6), xi * #1 / (zt - #1) ^ 4 * (xi - zt * #8 - xi * zt * #2 + et * et
     * xi - et * et * zt * #2 + xi * (zt * zt) + zt * zt * #12 - zt * zt *
     zt * #8 + zt * zt * zt * zt * #2 + et * et * (zt * zt) * #2 - et * et *
     xi * zt * #4 + #2) * (- #1 / #2));
   ((2, 7), et * #1 / (zt - #1) ^ 4 * (et - zt * #8 + xi * xi * (zt * zt) *
     #2 - et * zt * #2 + et * (xi * xi) + et * (zt * zt) - xi * xi * zt * #2
     + zt * zt * #12 - zt * zt * zt * #8 + zt * zt * zt * zt * #2 - et * (xi
     * xi) * zt * #4 + #2) * (- #1 / #2));
   ((2, 8), xi * #1 / (zt - #1) ^ 4 * (xi + zt * #8 - xi * zt * #2 + et * et
     * xi + et * et * zt * #2 + xi * (zt * zt) - zt * zt * #12 + zt * zt *
     zt * #8 - zt * zt * zt * zt * #2 - et * et * (zt * zt) * #2 - et * et *
     xi * zt * #4 - #2) * (- #1 / #2));
   ((2, 9), - #1 / (zt - #1) ^ 2 * (et + xi + zt * #4 - et * xi - et * zt *
     #2 - xi * zt * #2 + et * (zt * zt) + xi * (zt * zt) - zt * zt * #5 + zt
     * zt * zt * #2 - #1));
   ((2, 10), - #1 / (zt - #1) ^ 2 * (et - xi + zt * #4 + et * xi - et * zt *
     #2 + xi * zt * #2 + et * (zt * zt) - xi * (zt * zt) - zt * zt * #5 + zt
     * zt * zt * #2 - #1));
   ((2, 11), #1 / (zt - #1) ^ 2 * (et + xi - zt * #4 + et * xi - et * zt *
     #2 - xi * zt * #2 + et * (zt * zt) + xi * (zt * zt) + zt * zt * #5 - zt
     * zt * zt * #2 + #1));
   ((2, 12), - #1 / (zt - #1) ^ 2 * (- et + xi + zt * #4 + et * xi + et * zt
     * #2 - xi * zt * #2 - et * (zt * zt) + xi * (zt * zt) - zt * zt * #5 +
     zt * zt * zt * #2 - #1));
   ((2, 13), #1 / (zt - #1) ^ 4 * (zt * #16 + xi * xi * (zt * zt) - et * et
     * zt * #2 - xi * xi * zt * #2 + et * et + xi * xi - zt * zt * #34 + zt
     * zt * zt * #36 - zt * zt * zt * zt * #19 + zt * zt * zt * zt * zt * #4
     + et * et * (xi * xi) + et * et * (zt * zt) - et * et * (xi * xi) * zt
     * #4 - #3))]%expr.

(** ShapeFunc_DiNj<2> for Pyramid14, Elements.hpp 1891-2178. *)
Definition Pyramid14_D2 : list assignment :=
  [((0, 0), et * (zt * #2 - #1) * (zt * #2 - #2) * #1 / (zt - #1) ^ 4 * (et
     + zt - #1) / #4);
   ((0, 1), et * (zt * #2 - #1) * (zt * #2 - #2) * #1 / (zt - #1) ^ 4 * (et
     + zt - #1) / #4);
   ((0, 2), et * (zt * #2 - #1) * (zt * #2 - #2) * #1 / (zt - #1) ^ 4 * (et
     - zt + #1) / #4);
   ((0, 3), et * (zt * #2 - #1) * (zt * #2 - #2) * #1 / (zt - #1) ^ 4 * (et
     - zt + #1) / #4);
   ((0, 5), et * (zt * #2 - #1) * (zt * #2 - #2) * #1 / (zt - #1) ^ 4 * (et
     + zt - #1) * (- #1 / #2));
   ((0, 6), (zt * #2 - #1) * (zt * #2 - #2) * #1 / (zt - #1) ^ 4 * (et + zt
     - #1) * (et - zt + #1) * (- #1 / #2));
   ((0, 7), et * (zt * #2 - #1) * (zt * #2 - #2) * #1 / (zt - #1) ^ 4 * (et
     - zt + #1) * (- #1 / #2));
   ((0, 8), (zt * #2 - #1) * (zt * #2 - #2) * #1 / (zt - #1) ^ 4 * (et + zt
     - #1) * (et - zt + #1) * (- #1 / #2));
   ((0, 13), (zt * #2 - #1) * (zt * #2 - #2) * #1 / (zt - #1) ^ 4 * (et + zt
     - #1) * (et - zt + #1));
   ((1, 0), xi * (zt * #2 - #1) * (zt * #2 - #2) * #1 / (zt - #1) ^ 4 * (xi
     + zt - #1) / #4);
   ((1, 1), xi * (zt * #2 - #1) * (zt * #2 - #2) * #1 / (zt - #1) ^ 4 * (xi
     - zt + #1) / #4);
   ((1, 2), xi * (zt * #2 - #1) * (zt * #2 - #2) * #1 / (zt - #1) ^ 4 * (xi
     - zt + #1) / #4);
   ((1, 3), xi * (zt * #2 - #1) * (zt * #2 - #2) * #1 / (zt - #1) ^ 4 * (xi
     + zt - #1) / #4);
   ((1, 5), (zt * #2 - #1) * (zt * #2 - #2) * #1 / (zt - #1) ^ 4 * (xi + zt
     - #1) * (xi - zt + #1) * (- #1 / #2));
   ((1, 6), xi * (zt * #2 - #1) * (zt * #2 - #2) * #1 / (zt - #1) ^ 4 * (xi
     - zt + #1) * (- #1 / #2));
   ((1, 7), (zt * #2 - #1) * (zt * #2 - #2) * #1 / (zt - #1) ^ 4 * (xi + zt
     - #1) * (xi - zt + #1) * (- #1 / #2));
   ((1, 8), xi * (zt * #2 - #1) * (zt * #2 - #2) * #1 / (zt - #1) ^ 4 * (xi
     + zt - #1) * (- #1 / #2));
   ((1, 13), (zt * #2 - #1) * (zt * #2 - #2) * #1 / (zt - #1) ^ 4 * (xi + zt
     - #1) * (xi - zt + #1));
   ((2, 0), et * xi * #1 / (zt - #1) ^ 5 * (et + xi + zt * #2 + et * zt + xi
     * zt - et * (zt * zt) * #2 - xi * (zt * zt) * #2 - zt * zt - et * xi *
     zt * #6 - #1) * (- #1 / #2));
   ((2, 1), et * xi * #1 / (zt - #1) ^ 5 * (et - xi + zt * #2 + et * zt - xi
     * zt - et * (zt * zt) * #2 + xi * (zt * zt) * #2 - zt * zt + et * xi *
     zt * #6 - #1) / #2);
   ((2, 2), et * xi * #1 / (zt - #1) ^ 5 * (et + xi - zt * #2 + et * zt + xi
     * zt - et * (zt * zt) * #2 - xi * (zt * zt) * #2 + zt * zt + et * xi *
     zt * #6 + #1) / #2);
   ((2, 3), et * xi * #1 / (zt - #1) ^ 5 * (et - xi - zt * #2 + et * zt - xi
     * zt - et * (zt * zt) * #2 + xi * (zt * zt) * #2 + zt * zt - et * xi *
     zt * #6 + #1) * (- #1 / #2));
   ((2, 4), #4);
   ((2, 5), et * #1 / (zt - #1) ^ 5 * (et - xi * xi * (zt * zt) * #2 - et *
     zt * #2 + et * (zt * zt) + xi * xi * zt + xi * xi - et * (xi * xi) * zt
     * #6));
   ((2, 6), - xi * #1 / (zt - #1) ^ 5 * (- xi + xi * zt * #2 + et * et * zt
     - xi * (zt * zt) + et * et - et * et * (zt * zt) * #2 + et * et * xi *
     zt * #6));
   ((2, 7), - et * #1 / (zt - #1) ^ 5 * (- et - xi * xi * (zt * zt) * #2 +
     et * zt * #2 - et * (zt * zt) + xi * xi * zt + xi * xi + et * (xi * xi)
     * zt * #6));
   ((2, 8), xi * #1 / (zt - #1) ^ 5 * (xi - xi * zt * #2 + et * et * zt + xi
     * (zt * zt) + et * et - et * et * (zt * zt) * #2 - et * et * xi * zt *
     #6));
   ((2, 9), #1 / (zt - #1) ^ 3 * (zt * #3 + et * xi - zt * zt * #3 + zt * zt
     * zt - #1) * - #2);
   ((2, 10), #1 / (zt - #1) ^ 3 * (zt * - #3 + et * xi + zt * zt * #3 - zt *
     zt * zt + #1) * #2);
   ((2, 11), #1 / (zt - #1) ^ 3 * (zt * #3 + et * xi - zt * zt * #3 + zt *
     zt * zt - #1) * - #2);
   ((2, 12), #1 / (zt - #1) ^ 3 * (zt * - #3 + et * xi + zt * zt * #3 - zt *
     zt * zt + #1) * #2);
   ((2, 13), #1 / (zt - #1) ^ 5 * (zt * - #10 + xi * xi * (zt * zt) - et *
     et * zt * #2 - xi * xi * zt * #2 + et * et + xi * xi + zt * zt * #20 -
     zt * zt * zt * #20 + zt * zt * zt * zt * #10 - zt * zt * zt * zt * zt *
     #2 + et * et * (zt * zt) - et * et * (xi * xi) * zt * #6 + #2) * - #2);
   ((3, 0), (zt * #2 - #1) * #1 / (zt - #1) ^ 3 * (et * #2 + zt - #1) * (xi
     * #2 + zt - #1) / #4);
   ((3, 1), (zt * #2 - #1) * #1 / (zt - #1) ^ 3 * (xi * #2 - zt + #1) * (et
     * #2 + zt - #1) / #4);
   ((3, 2), (zt * #2 - #1) * #1 / (zt - #1) ^ 3 * (xi * #2 - zt + #1) * (et
     * #2 - zt + #1) / #4);
   ((3, 3), (zt * #2 - #1) * #1 / (zt - #1) ^ 3 * (xi * #2 + zt - #1) * (et
     * #2 - zt + #1) / #4);
   ((3, 5), - xi * (zt * #2 - #1) * #1 / (zt - #1) ^ 3 * (et * #2 + zt -
     #1));
   ((3, 6), - et * (zt * #2 - #1) * #1 / (zt - #1) ^ 3 * (xi * #2 - zt +
     #1));
   ((3, 7), - xi * (zt * #2 - #1) * #1 / (zt - #1) ^ 3 * (et * #2 - zt +
     #1));
   ((3, 8), - et * (zt * #2 - #1) * #1 / (zt - #1) ^ 3 * (xi * #2 + zt -
     #1));
   ((3, 9), - zt / (zt - #1));
   ((3, 10), zt / (zt - #1));
   ((3, 11), - zt / (zt - #1));
   ((3, 12), zt / (zt - #1));
   ((3, 13), et * xi * (zt * #2 - #1) * #1 / (zt - #1) ^ 3 * #4);
   ((4, 0), xi * #1 / (zt - #1) ^ 4 * (zt * - #2 - et * xi * #2 - et * zt *
     #4 - xi * zt * #2 + et * (zt * zt) * #4 + xi * (zt * zt) * #2 + zt * zt
     + et * xi * zt * #8 + #1) * (- #1 / #4));
   ((4, 1), xi * #1 / (zt - #1) ^ 4 * (zt * - #2 + et * xi * #2 - et * zt *
     #4 + xi * zt * #2 + et * (zt * zt) * #4 - xi * (zt * zt) * #2 + zt * zt
     - et * xi * zt * #8 + #1) / #4);
   ((4, 2), xi * #1 / (zt - #1) ^ 4 * (zt * - #2 - et * xi * #2 + et * zt *
     #4 + xi * zt * #2 - et * (zt * zt) * #4 - xi * (zt * zt) * #2 + zt * zt
     + et * xi * zt * #8 + #1) * (- #1 / #4));
   ((4, 3), xi * #1 / (zt - #1) ^ 4 * (zt * - #2 + et * xi * #2 + et * zt *
     #4 - xi * zt * #2 - et * (zt * zt) * #4 + xi * (zt * zt) * #2 + zt * zt
     - et * xi * zt * #8 + #1) / #4);
   ((4, 5), - #1 / (zt - #1) ^ 4 * (et + zt * #4 - xi * xi * (zt * zt) - et
     * zt * #2 + et * (xi * xi) + et * (zt * zt) + xi * xi * zt - zt * zt *
     #6 + zt * zt * zt * #4 - zt * zt * zt * zt - et * (xi * xi) * zt * #4 -
     #1));
   ((4, 6), - et * xi * #1 / (zt - #1) ^ 4 * (xi - zt * #2 - xi * zt * #4 +
     zt * zt * #2));
   ((4, 7), - #1 / (zt - #1) ^ 4 * (et - zt * #4 + xi * xi * (zt * zt) - et
     * zt * #2 + et * (xi * xi) + et * (zt * zt) - xi * xi * zt + zt * zt *
     #6 - zt * zt * zt * #4 + zt * zt * zt * zt - et * (xi * xi) * zt * #4 +
     #1));
   ((4, 8), - et * xi * #1 / (zt - #1) ^ 4 * (xi + zt * #2 - xi * zt * #4 -
     zt * zt * #2));
   ((4, 9), #1 / (zt - #1) ^ 2 * (xi + zt * #2 - zt * zt - #1));
   ((4, 10), - #1 / (zt - #1) ^ 2 * (xi - zt * #2 + zt * zt + #1));
   ((4, 11), #1 / (zt - #1) ^ 2 * (xi - zt * #2 + zt * zt + #1));
   ((4, 12), - #1 / (zt - #1) ^ 2 * (xi + zt * #2 - zt * zt - #1));
   ((4, 13), et * #1 / (zt - #1) ^ 4 * (zt * - #2 - xi * xi * zt * #4 + xi *
     xi + zt * zt + #1) * #2);
   ((5, 0), et * #1 / (zt - #1) ^ 4 * (zt * - #2 - et * xi * #2 - et * zt *
     #2 - xi * zt * #4 + et * (zt * zt) * #2 + xi * (zt * zt) * #4 + zt * zt
     + et * xi * zt * #8 + #1) * (- #1 / #4));
   ((5, 1), et * #1 / (zt - #1) ^ 4 * (zt * - #2 + et * xi * #2 - et * zt *
     #2 + xi * zt * #4 + et * (zt * zt) * #2 - xi * (zt * zt) * #4 + zt * zt
     - et * xi * zt * #8 + #1) / #4);
   ((5, 2), et * #1 / (zt - #1) ^ 4 * (zt * - #2 - et * xi * #2 + et * zt *
     #2 + xi * zt * #4 - et * (zt * zt) * #2 - xi * (zt * zt) * #4 + zt * zt
     + et * xi * zt * #8 + #1) * (- #1 / #4));
   ((5, 3), et * #1 / (zt - #1) ^ 4 * (zt * - #2 + et * xi * #2 + et * zt *
     #2 - xi * zt * #4 - et * (zt * zt) * #2 + xi * (zt * zt) * #4 + zt * zt
     - et * xi * zt * #8 + #1) / #4);
   ((5, 5), - et * xi * #1 / (zt - #1) ^ 4 * (et + zt * #2 - et * zt * #4 -
     zt * zt * #2));
   ((5, 6), - #1 / (zt - #1) ^ 4 * (xi - zt * #4 - xi * zt * #2 + et * et *
     xi - et * et * zt + xi * (zt * zt) + zt * zt * #6 - zt * zt * zt * #4 +
     zt * zt * zt * zt + et * et * (zt * zt) - et * et * xi * zt * #4 + #1));
   ((5, 7), - et * xi * #1 / (zt - #1) ^ 4 * (et - zt * #2 - et * zt * #4 +
     zt * zt * #2));
   ((5, 8), - #1 / (zt - #1) ^ 4 * (xi + zt * #4 - xi * zt * #2 + et * et *
     xi + et * et * zt + xi * (zt * zt) - zt * zt * #6 + zt * zt * zt * #4 -
     zt * zt * zt * zt - et * et * (zt * zt) - et * et * xi * zt * #4 - #1));
   ((5, 9), #1 / (zt - #1) ^ 2 * (et + zt * #2 - zt * zt - #1));
   ((5, 10), - #1 / (zt - #1) ^ 2 * (et + zt * #2 - zt * zt - #1));
   ((5, 11), #1 / (zt - #1) ^ 2 * (et - zt * #2 + zt * zt + #1));
   ((5, 12), - #1 / (zt - #1) ^ 2 * (et - zt * #2 + zt * zt + #1));
   ((5, 13), xi * #1 / (zt - #1) ^ 4 * (zt * - #2 - et * et * zt * #4 + et *
     et + zt * zt + #1) * #2)]%expr.

(** ShapeFunc_DiNj<3> for Pyramid14, Elements.hpp 1891-2178. *)
Definition Pyramid14_D3 : list assignment :=
  [((2, 0), et * xi * #1 / (zt - #1) ^ 6 * (et * - #2 - xi * #2 - zt * #2 +
     et * xi * #2 + et * (zt * zt) * #2 + xi * (zt * zt) * #2 + zt * zt + et
     * xi * zt * #8 + #1) * (- #3 / #2));
   ((2, 1), et * xi * #1 / (zt - #1) ^ 6 * (et * #2 - xi * #2 + zt * #2 + et
     * xi * #2 - et * (zt * zt) * #2 + xi * (zt * zt) * #2 - zt * zt + et *
     xi * zt * #8 - #1) * (- #3 / #2));
   ((2, 2), et * xi * #1 / (zt - #1) ^ 6 * (et * #2 + xi * #2 - zt * #2 + et
     * xi * #2 - et * (zt * zt) * #2 - xi * (zt * zt) * #2 + zt * zt + et *
     xi * zt * #8 + #1) * (- #3 / #2));
   ((2, 3), et * xi * #1 / (zt - #1) ^ 6 * (et * - #2 + xi * #2 + zt * #2 +
     et * xi * #2 + et * (zt * zt) * #2 - xi * (zt * zt) * #2 - zt * zt + et
     * xi * zt * #8 - #1) * (- #3 / #2));
   ((2, 5), et * #1 / (zt - #1) ^ 6 * (- et + xi * xi * (zt * zt) * #2 + et
     * zt * #2 + et * (xi * xi) * #2 - et * (zt * zt) - xi * xi * #2 + et *
     (xi * xi) * zt * #8) * #3);
   ((2, 6), xi * #1 / (zt - #1) ^ 6 * (- xi + xi * zt * #2 + et * et * xi *
     #2 - xi * (zt * zt) + et * et * #2 - et * et * (zt * zt) * #2 + et * et
     * xi * zt * #8) * #3);
   ((2, 7), et * #1 / (zt - #1) ^ 6 * (- et - xi * xi * (zt * zt) * #2 + et
     * zt * #2 + et * (xi * xi) * #2 - et * (zt * zt) + xi * xi * #2 + et *
     (xi * xi) * zt * #8) * #3);
   ((2, 8), xi * #1 / (zt - #1) ^ 6 * (- xi + xi * zt * #2 + et * et * xi *
     #2 - xi * (zt * zt) - et * et * #2 + et * et * (zt * zt) * #2 + et * et
     * xi * zt * #8) * #3);
   ((2, 9), et * xi * #1 / (zt - #1) ^ 4 * #6);
   ((2, 10), et * xi * #1 / (zt - #1) ^ 4 * - #6);
   ((2, 11), et * xi * #1 / (zt - #1) ^ 4 * #6);
   ((2, 12), et * xi * #1 / (zt - #1) ^ 4 * - #6);
   ((2, 13), #1 / (zt - #1) ^ 6 * (xi * xi * (zt * zt) - et * et * zt * #2 -
     xi * xi * zt * #2 + et * et + xi * xi - et * et * (xi * xi) * #2 + et *
     et * (zt * zt) - et * et * (xi * xi) * zt * #8) * #6);
   ((3, 0), (zt * #2 - #1) * #1 / (zt - #1) ^ 3 * (et * #2 + zt - #1) / #2);
   ((3, 1), (zt * #2 - #1) * #1 / (zt - #1) ^ 3 * (et * #2 + zt - #1) / #2);
   ((3, 2), (zt * #2 - #1) * #1 / (zt - #1) ^ 3 * (et * #2 - zt + #1) / #2);
   ((3, 3), (zt * #2 - #1) * #1 / (zt - #1) ^ 3 * (et * #2 - zt + #1) / #2);
   ((3, 5), - (zt * #2 - #1) * #1 / (zt - #1) ^ 3 * (et * #2 + zt - #1));
   ((3, 6), et * (zt * #2 - #1) * #1 / (zt - #1) ^ 3 * - #2);
   ((3, 7), - (zt * #2 - #1) * #1 / (zt - #1) ^ 3 * (et * #2 - zt + #1));
   ((3, 8), et * (zt * #2 - #1) * #1 / (zt - #1) ^ 3 * - #2);
   ((3, 13), et * (zt * #2 - #1) * #1 / (zt - #1) ^ 3 * #4);
   ((4, 0), (zt * #2 - #1) * #1 / (zt - #1) ^ 3 * (xi * #2 + zt - #1) / #2);
   ((4, 1), (zt * #2 - #1) * #1 / (zt - #1) ^ 3 * (xi * #2 - zt + #1) / #2);
   ((4, 2), (zt * #2 - #1) * #1 / (zt - #1) ^ 3 * (xi * #2 - zt + #1) / #2);
   ((4, 3), (zt * #2 - #1) * #1 / (zt - #1) ^ 3 * (xi * #2 + zt - #1) / #2);
   ((4, 5), xi * (zt * #2 - #1) * #1 / (zt - #1) ^ 3 * - #2);
   ((4, 6), - (zt * #2 - #1) * #1 / (zt - #1) ^ 3 * (xi * #2 - zt + #1));
   ((4, 7), xi * (zt * #2 - #1) * #1 / (zt - #1) ^ 3 * - #2);
   ((4, 8), - (zt * #2 - #1) * #1 / (zt - #1) ^ 3 * (xi * #2 + zt - #1));
   ((4, 13), xi * (zt * #2 - #1) * #1 / (zt - #1) ^ 3 * #4);
   ((5, 0), xi * #1 / (zt - #1) ^ 4 * (xi + zt * #2 - xi * zt * #4 - zt * zt
     * #2) / #2);
   ((5, 1), xi * #1 / (zt - #1) ^ 4 * (xi - zt * #2 - xi * zt * #4 + zt * zt
     * #2) / #2);
   ((5, 2), xi * #1 / (zt - #1) ^ 4 * (xi - zt * #2 - xi * zt * #4 + zt * zt
     * #2) / #2);
   ((5, 3), xi * #1 / (zt - #1) ^ 4 * (xi + zt * #2 - xi * zt * #4 - zt * zt
     * #2) / #2);
   ((5, 5), - #1 / (zt - #1) ^ 4 * (zt * - #2 - xi * xi * zt * #4 + xi * xi
     + zt * zt + #1));
   ((5, 6), - xi * #1 / (zt - #1) ^ 4 * (xi - zt * #2 - xi * zt * #4 + zt *
     zt * #2));
   ((5, 7), - #1 / (zt - #1) ^ 4 * (zt * - #2 - xi * xi * zt * #4 + xi * xi
     + zt * zt + #1));
   ((5, 8), - xi * #1 / (zt - #1) ^ 4 * (xi + zt * #2 - xi * zt * #4 - zt *
     zt * #2));
   ((5, 13), #1 / (zt - #1) ^ 4 * (zt * - #2 - xi * xi * zt * #4 + xi * xi +
     zt * zt + #1) * #2);
   ((6, 0), xi * #1 / (zt - #1) ^ 5 * (et * #2 + xi + zt * #2 + et * zt * #2
     + xi * zt - et * (zt * zt) * #4 - xi * (zt * zt) * #2 - zt * zt - et *
     xi * zt * #12 - #1) * (- #1 / #2));
   ((6, 1), xi * #1 / (zt - #1) ^ 5 * (et * #2 - xi + zt * #2 + et * zt * #2
     - xi * zt - et * (zt * zt) * #4 + xi * (zt * zt) * #2 - zt * zt + et *
     xi * zt * #12 - #1) / #2);
   ((6, 2), xi * #1 / (zt - #1) ^ 5 * (et * #2 + xi - zt * #2 + et * zt * #2
     + xi * zt - et * (zt * zt) * #4 - xi * (zt * zt) * #2 + zt * zt + et *
     xi * zt * #12 + #1) / #2);
   ((6, 3), xi * #1 / (zt - #1) ^ 5 * (et * #2 - xi - zt * #2 + et * zt * #2
     - xi * zt - et * (zt * zt) * #4 + xi * (zt * zt) * #2 + zt * zt - et *
     xi * zt * #12 + #1) * (- #1 / #2));
   ((6, 5), #1 / (zt - #1) ^ 5 * (et * #2 - xi * xi * (zt * zt) * #2 - et *
     zt * #4 + et * (zt * zt) * #2 + xi * xi * zt + xi * xi - et * (xi * xi)
     * zt * #12));
   ((6, 6), et * xi * #1 / (zt - #1) ^ 5 * (zt + xi * zt * #6 - zt * zt * #2
     + #1) * - #2);
   ((6, 7), - #1 / (zt - #1) ^ 5 * (et * - #2 - xi * xi * (zt * zt) * #2 +
     et * zt * #4 - et * (zt * zt) * #2 + xi * xi * zt + xi * xi + et * (xi
     * xi) * zt * #12));
   ((6, 8), et * xi * #1 / (zt - #1) ^ 5 * (zt - xi * zt * #6 - zt * zt * #2
     + #1) * #2);
   ((6, 9), xi * #1 / (zt - #1) ^ 3 * - #2);
   ((6, 10), xi * #1 / (zt - #1) ^ 3 * #2);
   ((6, 11), xi * #1 / (zt - #1) ^ 3 * - #2);
   ((6, 12), xi * #1 / (zt - #1) ^ 3 * #2);
   ((6, 13), et * #1 / (zt - #1) ^ 5 * (zt * #2 + xi * xi * zt * #6 - zt *
     zt - #1) * #4);
   ((7, 0), et * #1 / (zt - #1) ^ 5 * (et + xi * #2 + zt * #2 + et * zt + xi
     * zt * #2 - et * (zt * zt) * #2 - xi * (zt * zt) * #4 - zt * zt - et *
     xi * zt * #12 - #1) * (- #1 / #2));
   ((7, 1), et * #1 / (zt - #1) ^ 5 * (et - xi * #2 + zt * #2 + et * zt - xi
     * zt * #2 - et * (zt * zt) * #2 + xi * (zt * zt) * #4 - zt * zt + et *
     xi * zt * #12 - #1) / #2);
   ((7, 2), et * #1 / (zt - #1) ^ 5 * (et + xi * #2 - zt * #2 + et * zt + xi
     * zt * #2 - et * (zt * zt) * #2 - xi * (zt * zt) * #4 + zt * zt + et *
     xi * zt * #12 + #1) / #2);
   ((7, 3), et * #1 / (zt - #1) ^ 5 * (et - xi * #2 - zt * #2 + et * zt - xi
     * zt * #2 - et * (zt * zt) * #2 + xi * (zt * zt) * #4 + zt * zt - et *
     xi * zt * #12 + #1) * (- #1 / #2));
   ((7, 5), et * xi * #1 / (zt - #1) ^ 5 * (zt - et * zt * #6 - zt * zt * #2
     + #1) * #2);
   ((7, 6), - #1 / (zt - #1) ^ 5 * (xi * - #2 + xi * zt * #4 + et * et * zt
     - xi * (zt * zt) * #2 + et * et - et * et * (zt * zt) * #2 + et * et *
     xi * zt * #12));
   ((7, 7), et * xi * #1 / (zt - #1) ^ 5 * (zt + et * zt * #6 - zt * zt * #2
     + #1) * - #2);
   ((7, 8), #1 / (zt - #1) ^ 5 * (xi * #2 - xi * zt * #4 + et * et * zt + xi
     * (zt * zt) * #2 + et * et - et * et * (zt * zt) * #2 - et * et * xi *
     zt * #12));
   ((7, 9), et * #1 / (zt - #1) ^ 3 * - #2);
   ((7, 10), et * #1 / (zt - #1) ^ 3 * #2);
   ((7, 11), et * #1 / (zt - #1) ^ 3 * - #2);
   ((7, 12), et * #1 / (zt - #1) ^ 3 * #2);
   ((7, 13), xi * #1 / (zt - #1) ^ 5 * (zt * #2 + et * et * zt * #6 - zt *
     zt - #1) * #4);
   ((8, 0), et * #1 / (zt - #1) ^ 4 * (et + zt * #2 - et * zt * #4 - zt * zt
     * #2) / #2);
   ((8, 1), et * #1 / (zt - #1) ^ 4 * (et + zt * #2 - et * zt * #4 - zt * zt
     * #2) / #2);
   ((8, 2), et * #1 / (zt - #1) ^ 4 * (et - zt * #2 - et * zt * #4 + zt * zt
     * #2) / #2);
   ((8, 3), et * #1 / (zt - #1) ^ 4 * (et - zt * #2 - et * zt * #4 + zt * zt
     * #2) / #2);
   ((8, 5), - et * #1 / (zt - #1) ^ 4 * (et + zt * #2 - et * zt * #4 - zt *
     zt * #2));
   ((8, 6), - #1 / (zt - #1) ^ 4 * (zt * - #2 - et * et * zt * #4 + et * et
     + zt * zt + #1));
   ((8, 7), - et * #1 / (zt - #1) ^ 4 * (et - zt * #2 - et * zt * #4 + zt *
     zt * #2));
   ((8, 8), - #1 / (zt - #1) ^ 4 * (zt * - #2 - et * et * zt * #4 + et * et
     + zt * zt + #1));
   ((8, 13), #1 / (zt - #1) ^ 4 * (zt * - #2 - et * et * zt * #4 + et * et +
     zt * zt + #1) * #2);
   ((9, 0), #1 / (zt - #1) ^ 4 * (zt * - #2 - et * xi * #4 - et * zt * #4 -
     xi * zt * #4 + et * (zt * zt) * #4 + xi * (zt * zt) * #4 + zt * zt + et
     * xi * zt * #16 + #1) * (- #1 / #4));
   ((9, 1), #1 / (zt - #1) ^ 4 * (zt * - #2 + et * xi * #4 - et * zt * #4 +
     xi * zt * #4 + et * (zt * zt) * #4 - xi * (zt * zt) * #4 + zt * zt - et
     * xi * zt * #16 + #1) / #4);
   ((9, 2), #1 / (zt - #1) ^ 4 * (zt * - #2 - et * xi * #4 + et * zt * #4 +
     xi * zt * #4 - et * (zt * zt) * #4 - xi * (zt * zt) * #4 + zt * zt + et
     * xi * zt * #16 + #1) * (- #1 / #4));
   ((9, 3), #1 / (zt - #1) ^ 4 * (zt * - #2 + et * xi * #4 + et * zt * #4 -
     xi * zt * #4 - et * (zt * zt) * #4 + xi * (zt * zt) * #4 + zt * zt - et
     * xi * zt * #16 + #1) / #4);
   ((9, 5), xi * #1 / (zt - #1) ^ 4 * (et + zt - et * zt * #4 - zt * zt) * -
     #2);
   ((9, 6), et * #1 / (zt - #1) ^ 4 * (xi - zt - xi * zt * #4 + zt * zt) * -
     #2);
   ((9, 7), xi * #1 / (zt - #1) ^ 4 * (et - zt - et * zt * #4 + zt * zt) * -
     #2);
   ((9, 8), et * #1 / (zt - #1) ^ 4 * (xi + zt - xi * zt * #4 - zt * zt) * -
     #2);
   ((9, 9), #1 / (zt - #1) ^ 2);
   ((9, 10), - #1 / (zt - #1) ^ 2);
   ((9, 11), #1 / (zt - #1) ^ 2);
   ((9, 12), - #1 / (zt - #1) ^ 2);
   ((9, 13), et * xi * (zt * #4 - #1) * #1 / (zt - #1) ^ 4 * - #4)]%expr.

(** The branch taken for a type and a [diffOrder]; an unknown type writes
    nothing. *)
Definition ShapeTable (t : ElemType) (d : nat) : list assignment :=
  match t, d with
  | Line2, 0 => Line2_D0
  | Line2, 1 => Line2_D1
  | Line2, 2 => Line2_D2
  | Line2, 3 => Line2_D3
  | Line3, 0 => Line3_D0
  | Line3, 1 => Line3_D1
  | Line3, 2 => Line3_D2
  | Line3, 3 => Line3_D3
  | Tri3, 0 => Tri3_D0
  | Tri3, 1 => Tri3_D1
  | Tri3, 2 => Tri3_D2
  | Tri3, 3 => Tri3_D3
  | Tri6, 0 => Tri6_D0
  | Tri6, 1 => Tri6_D1
  | Tri6, 2 => Tri6_D2
  | Tri6, 3 => Tri6_D3
  | Quad4, 0 => Quad4_D0
  | Quad4, 1 => Quad4_D1
  | Quad4, 2 => Quad4_D2
  | Quad4, 3 => Quad4_D3
  | Quad9, 0 => Quad9_D0
  | Quad9, 1 => Quad9_D1
  | Quad9, 2 => Quad9_D2
  | Quad9, 3 => Quad9_D3
  | Tet4, 0 => Tet4_D0
  | Tet4, 1 => Tet4_D1
  | Tet4, 2 => Tet4_D2
  | Tet4, 3 => Tet4_D3
  | Tet10, 0 => Tet10_D0
  | Tet10, 1 => Tet10_D1
  | Tet10, 2 => Tet10_D2
  | Tet10, 3 => Tet10_D3
  | Hex8, 0 => Hex8_D0
  | Hex8, 1 => Hex8_D1
  | Hex8, 2 => Hex8_D2
  | Hex8, 3 => Hex8_D3
  | Hex27, 0 => Hex27_D0
  | Hex27, 1 => Hex27_D1
  | Hex27, 2 => Hex27_D2
  | Hex27, 3 => Hex27_D3
  | Prism6, 0 => Prism6_D0
  | Prism6, 1 => Prism6_D1
  | Prism6, 2 => Prism6_D2
  | Prism6, 3 => Prism6_D3
  | Prism18, 0 => Prism18_D0
  | Prism18, 1 => Prism18_D1
  | Prism18, 2 => Prism18_D2
  | Prism18, 3 => Prism18_D3
  | Pyramid5, 0 => Pyramid5_D0
  | Pyramid5, 1 => Pyramid5_D1
  | Pyramid5, 2 => Pyramid5_D2
  | Pyramid5, 3 => Pyramid5_D3
  | Pyramid14, 0 => Pyramid14_D0
  | Pyramid14, 1 => Pyramid14_D1
  | Pyramid14, 2 => Pyramid14_D2
  | Pyramid14, 3 => Pyramid14_D3
  | _, _ => []
  end.
