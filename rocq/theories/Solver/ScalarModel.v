(** Model of the scalar bisection solver. Rounding is not modelled: [real] is
    the Coq real line and [F] an arbitrary function on it. *)
From Coq Require Import Reals ZArith Lra.
From Verif Require Import Base.Prelude.
Open Scope R_scope.

(** src/DNDS/Defines.hpp 154: [verySmallReal = 1e-200]. *)
Definition verySmallReal : R := / 10 ^ 200.

(** src/Solver/Scalar.hpp 17-27, the loop body run while [left] iterations
    remain. [f0] is the value computed at line 12: the loop never refreshes it. *)
Fixpoint bisect_loop (F : R -> R) (f0 fT : R) (left : nat) (v0 v1 : R) : R * R :=
  match left with
  | O => (v0, v1)
  | Datatypes.S k =>
      if Rle_dec (fT - verySmallReal) f0 then (v0, v1) else
      let vm := 0.5 * (v0 + v1) in
      let v0 := Rmin v0 vm in
      let v1 := Rmax v1 vm in
      if Rle_dec (F vm) fT then bisect_loop F f0 fT k vm v1
      else bisect_loop F f0 fT k v0 vm
  end.

(** src/Solver/Scalar.hpp 10-30. A negative [maxIter] runs no iteration. *)
Definition BisectSolveLower (F : R -> R) (v0 v1 fT : R) (maxIter : Z) : res R :=
  let f0 := F v0 in
  let f1 := F v1 in
  if Rle_dec f0 fT then
    if Rle_dec fT f1 then
      if Rlt_dec v0 v1 then
        Ok (fst (bisect_loop F f0 fT (Z.to_nat maxIter) v0 v1))
      else Abort
    else Abort
  else Abort.
