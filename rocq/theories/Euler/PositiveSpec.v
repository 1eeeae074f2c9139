(** Vocabulary of property C57, independent of the limiters' code. *)
From Coq Require Import Reals List Arith.
From Verif Require Import Base.Prelude Euler.GasModel Euler.CompressModel Euler.PositiveModel.
Import ListNotations.
Local Open Scope R_scope.

(** internal energy per volume *)
Definition internal (d : nat) (u : state) : R := ene u - 1/2 * sqnorm d (mom u) / rho u.
Definition pressure (d : nat) (g : R) (u : state) : R := (g - 1) * internal d u.
Definition kinetic (d : nat) (u : state) : R := 1/2 * sqnorm d (mom u) / rho u.

(** positive density, density at least [r], internal energy at least [e] *)
Definition physical (d : nat) (r e : R) (u : state) : Prop :=
  0 < rho u /\ r <= rho u /\ e <= internal d u.

(** the state reached from [u] by [t] times the increment [x] *)
Definition step (u x : state) (t : R) : state := sadd u (sscale t x).

(** The state lies above a bound of the internal energy by more than the constant 1e-200
    the routines add to their divisors: the squared distance to it is at least 1e-180. *)
Definition resolved (d : nat) (e : R) (u : state) : Prop :=
  10 ^ 20 * verySmall <= 2 * rho u * (internal d u - e).
(** and the internal energy is not swamped by the kinetic energy *)
Definition not_swamped (d : nat) (u : state) : Prop :=
  verySmall * kinetic d u <= rho u * internal d u.

(** the settings make sense *)
Definition sane (st : settings) : Prop :=
  0 < ref_rho st /\ 0 < ref_p st /\ 1 < gam st < 2.

(** the bounds kept in a cell: the lower bounds weighed with the cell's own values *)
Definition kept_rho (st : settings) (rx : R) (u : state) : R := mean_rho_eps st * rx + rho u * (1 - rx).
Definition kept_e (d : nat) (st : settings) (rx : R) (u : state) : R :=
  mean_p_eps st / (gam st - 1) * rx + internal d u * (1 - rx).

(** what a mean value must satisfy for the increment limiter to be certain to work *)
Definition cell_ok (d : nat) (st : settings) (rx : R) (u : state) : Prop :=
  physical d (mean_rho_eps st) (mean_p_eps st / (gam st - 1)) u /\
  resolved d (kept_e d st rx u) u /\ not_swamped d u.

(** the relaxation factors the increment limiter accepts *)
Definition relax_allowed (st : settings) (rx : R) : Prop := 0 <= rx <= 1 /\ (relaxed st = true -> rx < 1).

(** the turbulence variables the model has *)
Definition extras_of (tb : turbulence) : list nat :=
  match tb with Laminar => [] | OneEq => [0%nat] | TwoEq => [0%nat; 1%nat] end.
Definition extras_nonneg (tb : turbulence) (u : state) : Prop := forall i, In i (extras_of tb) -> 0 <= extra u i.

(** the number of elements below one *)
Definition count_below_one (l : list R) : nat :=
  length (filter (fun a => if Rlt_dec a 1 then true else false) l).

(** the first [k] coefficient rows of a reconstruction, the others made zero *)
Definition truncated (k : nat) (c : list state) : list state :=
  firstn k c ++ map (fun _ => szero) (skipn k c).

(** the flow part of an increment is a multiple of another's *)
Definition flow_multiple (t : R) (y x : state) : Prop :=
  rho y = t * rho x /\ (forall i, mom y i = t * mom x i) /\ ene y = t * ene x.
