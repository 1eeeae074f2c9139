(** Splitting a face into triangles between its nodes and its integration points.
    Models GetQuadPatches of src/Geom/Quadrature.hpp and its use in the wall distance
    search of src/Euler/EulerEvaluator_EvaluateDt.hxx. *)
From Coq Require Import List ZArith Bool.
From Verif Require Import Base.Prelude Geom.ElemModel.
Import ListNotations.
Local Open Scope Z_scope.

(** Quadrature.hpp 769-770: three corners; [k > 0] is the node [k] and [k < 0] the
    integration point [- k], both counted from 1. *)
Definition patch : Type := Z * Z * Z.

(** [for (i = 0; i < n; i++)]. *)
Definition upto (n : Z) : list Z := map Z.of_nat (seq 0 (Z.to_nat n)).

(** Quadrature.hpp 772-781: the chain of a line. *)
Definition line_patches (n : Z) : list patch :=
  [(1, -1, 0)] ++ map (fun i => (- (i + 1), -1 - (i + 1), 0)) (upto (n - 1)) ++ [(- n, 2, 0)].

(** Quadrature.hpp 786 round(sqrt(n)), exactly. *)
Definition round_sqrt (n : Z) : Z := let s := Z.sqrt n in if n - s * s <=? s then s else s + 1.

(** Quadrature.hpp 791-806: the fans of a quadrilateral with four nodes. *)
Definition quad_border_1 (ijG : Z -> Z -> Z) (iMax : Z) : list patch :=
  [(1, 2, -1 - ijG 0 0)] ++
  map (fun i => (-1 - ijG (i + 1) 0, -1 - ijG i 0, 2)) (upto iMax) ++
  [(3, 4, -1 - ijG iMax iMax)] ++
  map (fun i => (-1 - ijG i iMax, -1 - ijG (i + 1) iMax, 4)) (upto iMax) ++
  [(2, 3, -1 - ijG iMax 0)] ++
  map (fun i => (-1 - ijG iMax (i + 1), -1 - ijG iMax i, 3)) (upto iMax) ++
  [(4, 1, -1 - ijG 0 iMax)] ++
  map (fun i => (-1 - ijG 0 i, -1 - ijG 0 (i + 1), 1)) (upto iMax).
(** Quadrature.hpp 808-826: with nine nodes. *)
Definition quad_border_2 (ijG : Z -> Z -> Z) (iMax : Z) : list patch :=
  [(1, 5, -1 - ijG 0 0); (5, 2, -1 - ijG iMax 0)] ++
  map (fun i => (-1 - ijG (i + 1) 0, -1 - ijG i 0, 5)) (upto iMax) ++
  [(3, 7, -1 - ijG iMax iMax); (7, 4, -1 - ijG 0 iMax)] ++
  map (fun i => (-1 - ijG i iMax, -1 - ijG (i + 1) iMax, 7)) (upto iMax) ++
  [(2, 6, -1 - ijG iMax 0); (6, 3, -1 - ijG iMax iMax)] ++
  map (fun i => (-1 - ijG iMax (i + 1), -1 - ijG iMax i, 6)) (upto iMax) ++
  [(4, 8, -1 - ijG 0 iMax); (8, 1, -1 - ijG 0 0)] ++
  map (fun i => (-1 - ijG 0 i, -1 - ijG 0 (i + 1), 8)) (upto iMax).
(** Quadrature.hpp 828-833: between the integration points. *)
Definition quad_inner (ijG : Z -> Z -> Z) (iMax : Z) : list patch :=
  flat_map (fun i => flat_map (fun j =>
    [(-1 - ijG i j, -1 - ijG (i + 1) j, -1 - ijG i (j + 1));
     (-1 - ijG (i + 1) (j + 1), -1 - ijG i (j + 1), -1 - ijG (i + 1) j)]) (upto iMax)) (upto iMax).

(** Quadrature.hpp 927-928. *)
Definition idxTri6ToTri7 : list Z := [-1; 5; 6; 7; 2; 3; 4].
(** Quadrature.hpp 840-842. *)
Definition tri_1_1 : list patch :=
  [(1, 2, -1); (2, 3, -1); (3, 1, -1)].
(** Quadrature.hpp 846-851. *)
Definition tri_1_2 : list patch :=
  [(1, 4, -1); (4, 2, -1); (2, 5, -1); (5, 3, -1); (3, 6, -1); (6, 1, -1)].
(** Quadrature.hpp 858-865. *)
Definition tri_3_1 : list patch :=
  [(1, 2, -3); (2, -1, -3); (2, 3, -1); (3, -2, -1); (3, 1, -2); (1, -3, -2); (-1, -2, -3)].
(** Quadrature.hpp 869-880. *)
Definition tri_3_2 : list patch :=
  [(1, 4, -3); (4, 2, -1); (2, 5, -1); (5, 3, -2); (3, 6, -2); (6, 1, -3); (-1, -3, 4);
   (-2, -1, 5); (-3, -2, 6); (-1, -2, -3)].
(** Quadrature.hpp 887-901. *)
Definition tri_6_1 : list patch :=
  [(1, 2, -6); (2, 3, -4); (3, 1, -5); (-6, -1, 1); (-2, -6, 2); (-4, -2, 2); (-3, -4, 3);
   (-5, -3, 3); (-1, -5, 1); (-4, -5, -6); (-1, -6, -5); (-6, -2, -4); (-5, -4, -3)].
(** Quadrature.hpp 905-922. *)
Definition tri_6_2 : list patch :=
  [(1, 4, -6); (4, 2, -6); (2, 5, -4); (5, 3, -4); (3, 6, -5); (6, 1, -5); (-6, -1, 1);
   (-2, -6, 2); (-4, -2, 2); (-3, -4, 3); (-5, -3, 3); (-1, -5, 1); (-4, -5, -6); (-1, -6, -5);
   (-6, -2, -4); (-5, -4, -3)].
(** Quadrature.hpp 931-948. *)
Definition tri_7_1 : list patch :=
  let m i := - nth (Z.to_nat i) idxTri6ToTri7 (-1) in
  [(1, 2, m 6); (2, 3, m 4); (3, 1, m 5); (m 6, m 1, 1); (m 2, m 6, 2); (m 4, m 2, 2);
   (m 3, m 4, 3); (m 5, m 3, 3); (m 1, m 5, 1); (m 4, m 5, -1); (m 5, m 6, -1); (m 6, m 4, -1);
   (m 1, m 6, m 5); (m 6, m 2, m 4); (m 5, m 4, m 3)].
(** Quadrature.hpp 952-972. *)
Definition tri_7_2 : list patch :=
  let m i := - nth (Z.to_nat i) idxTri6ToTri7 (-1) in
  [(1, 4, m 6); (4, 2, m 6); (2, 5, m 4); (5, 3, m 4); (3, 6, m 5); (6, 1, m 5); (m 6, m 1, 1);
   (m 2, m 6, 2); (m 4, m 2, 2); (m 3, m 4, 3); (m 5, m 3, 3); (m 1, m 5, 1); (m 4, m 5, -1);
   (m 5, m 6, -1); (m 6, m 4, -1); (m 1, m 6, m 5); (m 6, m 2, m 4); (m 5, m 4, m 3)].
(** Quadrature.hpp 979-1009. *)
Definition tri_12_1 : list patch :=
  [(1, 2, -4); (2, 3, -5); (3, 1, -6); (-7, -4, 2); (-9, -7, 2); (-5, -9, 2); (-11, -5, 3);
   (-12, -11, 3); (-6, -12, 3); (-10, -6, 1); (-8, -10, 1); (-4, -8, 1); (-4, -7, -8);
   (-9, -5, -11); (-10, -12, -6); (-8, -7, -1); (-2, -9, -11); (-3, -12, -10); (-7, -9, -2);
   (-7, -2, -1); (-11, -12, -3); (-11, -3, -2); (-10, -8, -1); (-10, -1, -3); (-1, -2, -3)].
(** Quadrature.hpp 1013-1046. *)
Definition tri_12_2 : list patch :=
  [(1, 4, -4); (4, 2, -5); (2, 5, -5); (5, 3, -6); (3, 6, -6); (6, 1, -4); (-7, -4, 4);
   (-9, -7, 4); (-5, -9, 4); (-11, -5, 5); (-12, -11, 5); (-6, -12, 5); (-10, -6, 6);
   (-8, -10, 6); (-4, -8, 6); (-4, -7, -8); (-9, -5, -11); (-10, -12, -6); (-8, -7, -1);
   (-2, -9, -11); (-3, -12, -10); (-7, -9, -2); (-7, -2, -1); (-11, -12, -3); (-11, -3, -2);
   (-10, -8, -1); (-10, -1, -3); (-1, -2, -3)].

(** Quadrature.hpp 767-1055 GetQuadPatches, for the element type and the number of
    points of the rule.  An order other than 1 and 2 adds no patch; a triangle rule with
    another number of points, and a solid, fail an assertion. *)
Definition GetQuadPatches (t : ElemType) (n : Z) : res (list patch) :=
  let o := GetOrder t in
  let by_order a b := match o with Some 1%nat => a | Some 2%nat => b | _ => [] end in
  match ElemType_to_ParamSpace t with
  | LineSpace => Ok (by_order (line_patches n) (line_patches n))
  | QuadSpace =>
      let nGL := round_sqrt n in
      let ijG i j := nGL * j + i in
      let iMax := nGL - 1 in
      Ok (by_order (quad_border_1 ijG iMax ++ quad_inner ijG iMax)
                   (quad_border_2 ijG iMax ++ quad_inner ijG iMax))
  | TriSpace =>
      if n =? 1 then Ok (by_order tri_1_1 tri_1_2)
      else if n =? 3 then Ok (by_order tri_3_1 tri_3_2)
      else if n =? 6 then Ok (by_order tri_6_1 tri_6_2)
      else if n =? 7 then Ok (by_order tri_7_1 tri_7_2)
      else if n =? 12 then Ok (by_order tri_12_1 tri_12_2)
      else Abort
  | _ => Abort
  end.

(** EulerEvaluator_EvaluateDt.hxx 88-94: where the corner [k] of a patch is, for the
    coordinates of the nodes of the face and its integration points.  [up] is the point
    used for corner 0: node 2 raised out of the plane by the length of the face. *)
Definition patch_corner {A} (coords qpts : list A) (up : A) (k : Z) : res A :=
  if 0 <? k then vget coords (k - 1)
  else if k <? 0 then vget qpts (- k - 1)
  else Ok up.

(** EulerEvaluator_EvaluateDt.hxx 82-97: the triangles of a face. *)
Definition face_triangles {A} (t : ElemType) (coords qpts : list A) (up : A) : res (list (A * A * A)) :=
  do ps <- GetQuadPatches t (zlen qpts);
  mapM (fun '(i, j, k) =>
    do a <- patch_corner coords qpts up i;
    do b <- patch_corner coords qpts up j;
    do c <- patch_corner coords qpts up k;
    Ok (a, b, c)) ps.
