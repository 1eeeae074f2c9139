(** * Evaluating the shape functions

    ShapeFunc_DiNj and the callers GetNj, GetD1Nj, GetDiNj,
    /repo/src/Geom/Elements.hpp 638-2178 and 2292-2425, over the real numbers:
    rounding is not modelled. *)
From Coq Require Import List ZArith Reals Bool.
From Verif Require Import Geom.ElemModel Geom.ShapeExpr Geom.ShapeTable.
Import ListNotations.
Local Open Scope R_scope.

(** A point of the parameter space. *)
Record point := Pt { p_xi : R; p_et : R; p_zt : R }.

Fixpoint eval (p : point) (e : expr) : R :=
  match e with
  | Xi => p_xi p
  | Et => p_et p
  | Zt => p_zt p
  | Cst z => IZR z
  | Neg a => - eval p a
  | Add a b => eval p a + eval p b
  | Sub a b => eval p a - eval p b
  | Mul a b => eval p a * eval p b
  | Div a b => eval p a / eval p b
  | Pow a n => eval p a ^ n
  end.

(** The expression finally held by entry (i, j): the callers zero the matrix,
    every assignment overwrites. *)
Fixpoint entry_from (acc : expr) (l : list assignment) (i j : nat) : expr :=
  match l with
  | [] => acc
  | ((i', j'), e) :: r =>
      entry_from (if ((i =? i') && (j =? j'))%nat then e else acc) r i j
  end.
Definition entry (t : ElemType) (d i j : nat) : expr :=
  entry_from (Cst 0) (ShapeTable t d) i j.

(** 1e-15, as a real number. *)
Definition apex_eps : R := / 10 ^ 15.
Definition is_pyramid (t : ElemType) : bool :=
  match t with Pyramid5 | Pyramid14 => true | _ => false end.
(** DNDS::signP, /repo/src/DNDS/Defines.hpp 355-358. *)
Definition signP (a : R) : R := if Rle_dec 0 a then 1 else -1.
(** The points near the apex of a pyramid are moved, 1805-1806, 1897-1898. *)
Definition used_point (t : ElemType) (p : point) : point :=
  if is_pyramid t then
    if Rlt_dec (Rabs (1 - p_zt p)) apex_eps
    then Pt (p_xi p) (p_et p) (p_zt p - signP (1 - p_zt p) * apex_eps)
    else p
  else p.

(** ShapeFunc_DiNj<d>: the entry (i, j) of the result. *)
Definition ShapeFunc (t : ElemType) (d : nat) (p : point) (i j : nat) : R :=
  eval (used_point t p) (entry t d i j).

(** GetNj, 2294-2298. *)
Definition GetNj (t : ElemType) (p : point) (j : nat) : R :=
  ShapeFunc t 0 p 0 j.
(** GetD1Nj, 2303-2307: three rows for every type. *)
Definition GetD1Nj (t : ElemType) (p : point) (i j : nat) : R :=
  ShapeFunc t 1 p i j.

(** Base::ndiffSizC and ndiffSizC2D, /repo/src/Geom/BaseFunction.hpp 15-16, and
    the row numbers of the branch for curves, Elements.hpp 2388-2422. *)
Definition ndiffSizC (dim : nat) : list nat :=
  match dim with
  | 1%nat => [1; 2; 3; 4]
  | 2%nat => [1; 3; 6; 10]
  | 3%nat => [1; 4; 10; 20]
  | _ => []
  end%nat.

(** GetDiNj, Elements.hpp 2326-2424, with maxOrder 3 (a smaller one only leaves
    out the last rows): row [r] is row [r - offset] of the block of its order. *)
Definition block_of (dim r : nat) : nat * nat :=
  match ndiffSizC dim with
  | [n0; n1; n2; _] =>
      if r <? n0 then (0, r)
      else if r <? n1 then (1, r - n0)
      else if r <? n2 then (2, r - n1)
      else (3, r - n2)
  | _ => (0, r)
  end%nat.
Definition GetDiNj (t : ElemType) (p : point) (r j : nat) : R :=
  match GetDim t with
  | Some dim => let '(d, i) := block_of dim r in ShapeFunc t d p i j
  | None => 0
  end.

(** diffOperatorOrderList and diffOperatorOrderList2D,
    /repo/src/Geom/BaseFunction.hpp 55-92; for curves the order of the row. *)
Definition diffOperatorOrderList (dim : nat) : list (nat * nat * nat) :=
  match dim with
  | 1%nat => [(0,0,0); (1,0,0); (2,0,0); (3,0,0)]
  | 2%nat => [(0,0,0); (1,0,0); (0,1,0); (2,0,0); (1,1,0); (0,2,0);
          (3,0,0); (2,1,0); (1,2,0); (0,3,0)]
  | 3%nat => [(0,0,0); (1,0,0); (0,1,0); (0,0,1);
          (2,0,0); (0,2,0); (0,0,2); (1,1,0); (0,1,1); (1,0,1);
          (3,0,0); (0,3,0); (0,0,3); (2,1,0); (1,2,0); (0,2,1); (0,1,2);
          (1,0,2); (2,0,1); (1,1,1)]
  | _ => []
  end%nat.
