(** What the limiters are asked to do, stated without the model. *)
From Coq Require Import Reals List.
Import ListNotations.
Open Scope R_scope.

(** [x] lies on the closed segment between [a] and [b]. *)
Definition between (a b x : R) : Prop := Rmin a b <= x <= Rmax a b.

(** [y] is the average of [a] with weight [p] and [b] with weight [q]. *)
Definition average (p a q b y : R) : Prop :=
  0 <= p /\ 0 <= q /\ 0 < p + q /\ y = (p * a + q * b) / (p + q).

(** The value pulled away from zero by [e]. *)
Definition away (e u s : R) : Prop := (0 < u /\ s = u + e) \/ (u < 0 /\ s = u - e).

(** Homogeneous polynomials of degree 1, 2 and 3 in two variables in the
    order of the rows: x, y; xx, xy, yy; xxx, xxy, xyy, yyy. *)
Definition hpoly2 (u : list R) (x y : R) : R :=
  match u with
  | [a; b] => a * x + b * y
  | [a; b; c] => a * x * x + b * x * y + c * y * y
  | [a; b; c; d] => a * x * x * x + b * x * x * y + c * x * y * y + d * y * y * y
  | _ => 0
  end.

(** In three variables, in the order of diffOperatorOrderList. *)
Definition hpoly3 (u : list R) (x y z : R) : R :=
  match u with
  | [a; b; c] => a * x + b * y + c * z
  | [a; b; c; d; e; f] =>
    a * x * x + b * y * y + c * z * z + d * x * y + e * y * z + f * x * z
  | [a; b; c; d; e; f; g; h; i; j] =>
    a * x * x * x + b * y * y * y + c * z * z * z
    + d * x * x * y + e * x * y * y + f * y * y * z + g * y * z * z
    + h * x * z * z + i * x * x * z + j * x * y * z
  | _ => 0
  end.

(** Row [i] of the matrix, and orthonormal rows. *)
Definition orthonormal (q : nat -> nat -> R) : Prop :=
  forall i j, (i < 3)%nat -> (j < 3)%nat ->
    q i 0%nat * q j 0%nat + q i 1%nat * q j 1%nat + q i 2%nat * q j 2%nat
    = if Nat.eqb i j then 1 else 0.

(** Sum of a function over a list. *)
Definition total (f : R -> R) (l : list R) : R := fold_right (fun x a => f x + a) 0 l.
