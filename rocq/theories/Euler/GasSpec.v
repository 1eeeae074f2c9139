(** Words used in the statements about the gas relations. *)
From Coq Require Import Reals List Arith.
From Verif Require Import Base.Prelude Euler.GasModel.
Local Open Scope R_scope.

Definition mat_mul (n : nat) (A B : nat -> nat -> R) (i j : nat) : R := sumn n (fun k => A i k * B k j).
Definition delta (i j : nat) : R := if (i =? j)%nat then 1 else 0.

(** velocity, pressure, squared sound speed and enthalpy of a conservative state *)
Definition velocity (U : state) : vec := fun i => mom U i / rho U.
Definition pressure (d : nat) (g : R) (U : state) : R := th_p (ene U) (rho U) (sqnorm d (velocity U)) g.
Definition sound2 (d : nat) (g : R) (U : state) : R := th_asqr (ene U) (rho U) (sqnorm d (velocity U)) g.
Definition enthalpy (d : nat) (g : R) (U : state) : R := th_H (ene U) (rho U) (sqnorm d (velocity U)) g.

(** the exact flux of a state through a face with normal [n] moving with [vg] *)
Definition exact_flux (d : nat) (g : R) (vg n : vec) (U : state) : state :=
  flux d U (velocity U) vg n (pressure d g U).

(** column [k] of a characteristic matrix as an increment of the state *)
Definition column (d : nat) (M : nat -> nat -> R) (k : nat) : state :=
  {| rho := M 0%nat k; mom := fun i => M (S i) k; ene := M (d + 1)%nat k; extra := fun _ => 0 |}.
Definition ex : vec := fun i => if (i =? 0)%nat then 1 else 0.
Definition scale_state (c : R) (U : state) : state :=
  {| rho := c * rho U; mom := fun i => c * mom U i; ene := c * ene U; extra := fun i => c * extra U i |}.
(** wave speeds of the x direction *)
Definition wave (d : nat) (u a : R) (k : nat) : R :=
  if (k =? 0)%nat then u - a else if (k =? d + 1)%nat then u + a else u.

(** [dU] is the derivative of the curve of states [U] at [x] *)
Definition has_derivative (d n : nat) (U : R -> state) (x : R) (dU : state) : Prop :=
  derivable_pt_lim (fun t => rho (U t)) x (rho dU) /\
  (forall i, (i < d)%nat -> derivable_pt_lim (fun t => mom (U t) i) x (mom dU i)) /\
  derivable_pt_lim (fun t => ene (U t)) x (ene dU) /\
  (forall i, (i < n)%nat -> derivable_pt_lim (fun t => extra (U t) i) x (extra dU i)).

(** the primitive variables, as a total function *)
Definition primitive (d : nat) (g : R) (U : state) : state :=
  {| rho := rho U; mom := velocity U; ene := pressure d g U; extra := fun i => extra U i / rho U |}.

Definition opp (v : vec) : vec := fun i => - v i.
Definition opp_state (U : state) : state := scale_state (-1) U.
