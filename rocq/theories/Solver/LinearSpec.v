(** What the Krylov solvers are meant to do. *)
From Coq Require Import List ZArith Reals.
From Verif Require Import Base.Prelude Solver.ScalarModel Solver.OdeModel Solver.OdeSpec Solver.RkSpec Solver.LinearModel.
Import ListNotations.
Local Open Scope R_scope.

(** A symmetric bilinear form that is not negative on the diagonal. *)
Record form (dot : D -> D -> R) : Prop := {
  f_sym : forall x y, dot x y = dot y x;
  f_lin : forall a b x y z, dot (fun i => a * x i + b * y i) z = a * dot x z + b * dot y z;
  f_pos : forall x, 0 <= dot x x
}.

(** The size of the preconditioned residual at [x]. *)
Definition minus (x y : D) : D := fun i => x i - y i.
Definition norm (dot : D -> D -> R) (x : D) : R := sqrt (dot x x).
Definition res_size (FA FML : D -> D) (dot : D -> D -> R) (b x : D) : R := norm dot (minus (FML (FA x)) (FML b)).

(** What is needed of the routine for small systems: its answer is at least as good as no step. *)
Definition defect (j : nat) (h : nat -> nat -> R) (beta : R) (y : nat -> R) : R :=
  Rsum (map (fun i => let d := (if Nat.eqb i 0 then beta else 0) - Rsum (map (fun k => h i k * y k) (seq 0 j)) in d * d)
            (seq 0 (S j))).
Definition never_worse (lsq : nat -> (nat -> nat -> R) -> R -> (nat -> R) * nat) : Prop :=
  forall j h beta, defect j h beta (fst (lsq j h beta)) <= defect j h beta (fun _ => 0).

(** The functional the conjugate gradients minimise for A x = b. *)
Definition energy (FA : D -> D) (dot : D -> D -> R) (b x : D) : R := dot x (FA x) / 2 - dot b x.

(** The setting of the conjugate gradients: symmetric operators that are not negative, and
    callbacks that give the preconditioned residual and undo the preconditioning. *)
Record pcg_setting (FA FM FResPrec P : D -> D) (dot : D -> D -> R) (b : D) : Prop := {
  s_form : form dot;
  s_lin : linear FA;
  s_sym : forall x y, dot x (FA y) = dot (FA x) y;
  s_pos : forall x, 0 <= dot x (FA x);
  s_prec : forall x, FResPrec x = P (minus b (FA x));
  s_undo : forall v, FM (P v) = v;
  s_ppos : forall v, 0 <= dot (P v) v
}.
