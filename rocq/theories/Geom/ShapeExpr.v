(** * Arithmetic expressions of the shape functions

    The right hand sides in ShapeFunc_DiNj, /repo/src/Geom/Elements.hpp
    638-2178, are built from the coordinates [xi], [et], [zt], integer literals,
    + - * / and [pow] with a small natural exponent ([__iipow], 612-625). *)
From Coq Require Import List ZArith.
Import ListNotations.

Inductive expr :=
| Xi | Et | Zt
| Cst (z : Z)
| Neg (a : expr)
| Add (a b : expr) | Sub (a b : expr) | Mul (a b : expr) | Div (a b : expr)
| Pow (a : expr) (n : nat).

Declare Scope expr_scope.
Delimit Scope expr_scope with expr.
Bind Scope expr_scope with expr.
Notation xi := Xi.
Notation et := Et.
Notation zt := Zt.
Notation "# z" := (Cst z%Z) (at level 1, z at level 0) : expr_scope.
Notation "- a" := (Neg a) : expr_scope.
Notation "a + b" := (Add a b) : expr_scope.
Notation "a - b" := (Sub a b) : expr_scope.
Notation "a * b" := (Mul a b) : expr_scope.
Notation "a / b" := (Div a b) : expr_scope.
Notation "a ^ n" := (Pow a n%nat) : expr_scope.

(** [v(i, j) = e]. *)
Definition assignment : Type := ((nat * nat) * expr)%type.
