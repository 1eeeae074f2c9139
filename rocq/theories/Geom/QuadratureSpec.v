(** What integrals over reference elements are (C52). *)
From Coq Require Import List ZArith QArith Reals.
From Verif Require Import Base.Prelude Geom.ElemModel.
Import ListNotations.
Local Open Scope R_scope.

(** [v] is the integral of [f] from [a] to [b]: the difference of an antiderivative. *)
Definition integral (f : R -> R) (a b v : R) : Prop :=
  exists F, (forall t, derivable_pt_lim F t (f t)) /\ v = F b - F a.

(** [v] is the integral of [f] over the reference element: the line [-1, 1], the square
    and cube over it, the triangle and tetrahedron with unit legs, the prism of the
    triangle and the line, and the pyramid with apex (0, 0, 1) over the square. *)
Definition integral_over (ps : ParamSpace) (f : R -> R -> R -> R) (v : R) : Prop :=
  match ps with
  | LineSpace => integral (fun x => f x 0 0) (-1) 1 v
  | QuadSpace => exists h, (forall x, integral (fun y => f x y 0) (-1) 1 (h x)) /\ integral h (-1) 1 v
  | TriSpace => exists h, (forall x, integral (fun y => f x y 0) 0 (1 - x) (h x)) /\ integral h 0 1 v
  | HexSpace => exists h k, (forall x y, integral (fun z => f x y z) (-1) 1 (h x y)) /\
      (forall x, integral (fun y => h x y) (-1) 1 (k x)) /\ integral k (-1) 1 v
  | TetSpace => exists h k, (forall x y, integral (fun z => f x y z) 0 (1 - x - y) (h x y)) /\
      (forall x, integral (fun y => h x y) 0 (1 - x) (k x)) /\ integral k 0 1 v
  | PrismSpace => exists h k, (forall x y, integral (fun z => f x y z) (-1) 1 (h x y)) /\
      (forall x, integral (fun y => h x y) 0 (1 - x) (k x)) /\ integral k 0 1 v
  | PyramidSpace => exists h k, (forall y z, integral (fun x => f x y z) (- (1 - z)) (1 - z) (h y z)) /\
      (forall z, integral (fun y => h y z) (- (1 - z)) (1 - z) (k z)) /\ integral k 0 1 v
  | UnknownPSpace => False
  end.

(** Polynomials: coefficients and exponents. *)
Definition poly : Type := list (R * (nat * nat * nat)).
Definition eval (p : poly) (x y z : R) : R :=
  fold_right (fun '(q, (a, b, c)) s => q * (x ^ a * y ^ b * z ^ c) + s) 0 p.
Definition degree_at_most (p : poly) (n : nat) : Prop :=
  Forall (fun '(_, (a, b, c)) => (a + b + c <= n)%nat) p.
(** The sum of the absolute values of the coefficients. *)
Definition weight (p : poly) : R := fold_right (fun '(q, _) s => Rabs q + s) 0 p.

(** Strictly inside the reference element. *)
Definition inside (ps : ParamSpace) (x y z : Q) : Prop :=
  match ps with
  | LineSpace => -1 < x < 1 /\ y == 0 /\ z == 0
  | QuadSpace => -1 < x < 1 /\ -1 < y < 1 /\ z == 0
  | TriSpace => 0 < x /\ 0 < y /\ x + y < 1 /\ z == 0
  | HexSpace => -1 < x < 1 /\ -1 < y < 1 /\ -1 < z < 1
  | TetSpace => 0 < x /\ 0 < y /\ 0 < z /\ x + y + z < 1
  | PrismSpace => 0 < x /\ 0 < y /\ x + y < 1 /\ -1 < z < 1
  | PyramidSpace => 0 < z < 1 /\ - (1 - z) < x < 1 - z /\ - (1 - z) < y < 1 - z
  | UnknownPSpace => False
  end%Q.
