(** Words used in the statements about rotations and local bases. *)
From Coq Require Import Reals Arith.
From Verif Require Import Base.Prelude Euler.GasModel Geom.RotationModel.
Local Open Scope R_scope.

(** equal in the first [d] components *)
Definition same_vec (d : nat) (u v : vec) : Prop := forall i, (i < d)%nat -> u i = v i.
(** a rigid turn: lengths, angles and the hand are kept *)
Definition is_rotation (M : mat) : Prop :=
  (forall u v, dot 3 (mat_vec 3 M u) (mat_vec 3 M v) = dot 3 u v) /\
  (forall u v, same_vec 3 (mat_vec 3 M (cross u v)) (cross (mat_vec 3 M u) (mat_vec 3 M v))).
(** the axes *)
Definition axis_x : vec := v3 1 0 0.
Definition axis_y : vec := v3 0 1 0.
Definition axis_z : vec := v3 0 0 1.
(** [B 0], [B 1], ... are of length one and at right angles *)
Definition orthonormal (d : nat) (B : nat -> vec) : Prop :=
  forall i j, (i < d)%nat -> (j < d)%nat -> dot d (B i) (B j) = if (i =? j)%nat then 1 else 0.
