(** What the one-step steppers are meant to do. *)
From Coq Require Import List ZArith Reals.
From Verif Require Import Base.Prelude Solver.OdeModel Solver.OdeSpec Solver.RkModel.
Import ListNotations.
Local Open Scope R_scope.

(** The right-hand side of x' = f(t) in the step of size [dt] from [t0]: the callback is given
    the time as a fraction of the step (EulerSolver.hxx 149, 188). *)
Definition writes {E T} (C : calls E T) (t0 dt : R) (f : R -> D) : Prop :=
  forall e r x t it ct p, exists e' x' t', frhs C e r x t it ct p = (e', f (t0 + ct * dt), x', t').
Definition time_only {E T} (C : calls E T) (t0 dt : R) (f : R -> D) : Prop :=
  forall e r x t it ct p, exists e' t', frhs C e r x t it ct p = (e', f (t0 + ct * dt), x, t').

(** The other callbacks: the solver of the equation linearised at the state, which for such
    right-hand sides is xinc / dt = res, and the addition of the increment. *)
Record solver {E T} (C : calls E T) (dt : R) : Prop := {
  sv_dt : forall e x t a p, exists e' t', fdt C e x t a p = (e', x, t');
  sv_solve : forall e x r ro t al xi it ct p, exists e' r' ro' t',
      fsolve C e x r ro t dt al xi it ct p = (e', x, r', ro', t', scale r dt);
  sv_inc : forall e x xi al p, exists e' xi', fincrement C e x xi al p = (e', addTo x xi al, xi')
}.

(** [a] are polynomial solutions of x' = f(t) *)
Definition solution (a : nat -> list R) (f : R -> D) : Prop := forall t, slope a t (f t).

(** A quadrature on the step. *)
Definition quad (b c : list R) (f : R -> D) (t0 dt : R) : D :=
  fun i => Rsum (map (fun bc => fst bc * f (t0 + snd bc * dt) i) (combine b c)).

(** Runs: each step with its own callbacks, which know the time the step starts at. *)
Fixpoint follows {E T} (ok : calls E T -> R -> R -> Prop) (t : R) (todo : list (calls E T * Z * R)) : Prop :=
  match todo with
  | [] => True
  | (C, mi, dt) :: r => ok C t dt /\ (1 <= mi)%Z /\ follows ok (t + dt) r
  end.
Definition end_time {E T} (t : R) (todo : list (calls E T * Z * R)) : R := t + Rsum (map snd todo).

(** The iteration does not stop before it has been through once. *)
Definition patient {E T} (C : calls E T) : Prop := forall e r st, snd (fstop C e 1 r st) = false.

(** x' = L x with a linear L that does not depend on time. *)
Definition linear (L : D -> D) : Prop := forall a b x y i, L (fun j => a * x j + b * y j) i = a * L x i + b * L y i.
Definition autonomous {E T} (C : calls E T) (L : D -> D) : Prop :=
  forall e r x t it ct p, exists e' t', frhs C e r x t it ct p = (e', L x, x, t').

(** The coefficients of the Hermite interpolation reproduce the value at [alpha] from the values
    at 0 and 1, the slope at 1 and either the slope at 0 or the value at [-h]. *)
Definition interpolates (co : hcoef) (third : list R -> R -> Prop) (alpha : R) (n : nat) : Prop :=
  forall a v s, (length a <= S n)%nat -> derivable_pt_lim (poly a) 1 s -> third a v ->
    poly a alpha = cI0 co * poly a 0 + cI1 co * poly a 1 + cI2 co * v + cI3 co * s.

(** Weights and abscissae of a scheme up to [tol]: the weights sum to one and the rows of the
    matrix to the abscissae. *)
Definition consistent (tb : tableau) (tol : R) : Prop :=
  Rabs (Rsum (bB tb) - 1) <= tol /\
  forall i r, nth_error (bA tb) i = Some r -> exists c, nth_error (bC tb) i = Some c /\ Rabs (Rsum r - c) <= tol.
