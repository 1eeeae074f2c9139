(** Words used in the statements about boundary states. *)
From Coq Require Import Reals List Arith ZArith String.
From Verif Require Import Base.Prelude Euler.GasModel Euler.GasSpec Euler.RiemannModel Euler.RiemannSpec
  Euler.BndModel Geom.RotationModel.
Import ListNotations.
Local Open Scope R_scope.

(** the state seen from a frame moving with speed [- w]: all velocities grow by [w] *)
Definition boost (d : nat) (w : vec) (U : state) : state :=
  {| rho := rho U; mom := fun i => mom U i + rho U * w i;
     ene := ene U + dot d (mom U) w + rho U * (1/2) * sqnorm d w; extra := extra U |}.
(** a linear map applied to the momentum *)
Definition turn (Q : vec -> vec) (U : state) : state := with_mom U (Q (mom U)).

Definition linear (Q : vec -> vec) : Prop :=
  forall a b u v, Q (fun i => a * u i + b * v i) = fun i => a * Q u i + b * Q v i.
Definition isometry (d : nat) (Q : vec -> vec) : Prop :=
  linear Q /\ forall u v, dot d (Q u) (Q v) = dot d u v.

(** temperature, stagnation temperature and pressure of a primitive state *)
Definition temperature (Rgas : R) (W : state) : R := ene W / (Rgas * rho W).
Definition total_temperature (d : nat) (Rgas Cp : R) (W : state) : R :=
  temperature Rgas W + sqnorm d (mom W) / (2 * Cp).
Definition total_pressure (d : nat) (g Rgas Cp : R) (W : state) : R :=
  ene W * Rpower (total_temperature d Rgas Cp W / temperature Rgas W) (g / (g - 1)).

(** the Roe solvers *)
Definition roe_family : list riemann_type := [Roe; Roe_M1; Roe_M2; Roe_M3; Roe_M4; Roe_M5].

(** a frame that does not turn *)
Definition no_frame : frame := {| fr_on := false; fr_axis := v3 0 0 1; fr_center := v3 0 0 0; fr_rpm := 0 |}.

(** the speed of a no-slip wall *)
Definition wall_speed (e : env) (b : bc) (p : vec) : vec :=
  if fr_on (e_frame e) then match b_flag b "frameOpt"%string with Some 0%Z => grid_speed (e_frame e) p | _ => fun _ => 0 end
  else fun _ => 0.

(** values of the turbulence variables at a no-slip wall: 1919, 1942 *)
Definition wall_eps (e : env) (ULm U : state) : R :=
  rho U * (2 * (e_mu e / rho ULm) * (extra ULm 0%nat / rho ULm) / (e_dwall e * e_dwall e)).
Definition wall_omega (e : env) : R := 800 * e_mu e / (e_dwall e * e_dwall e).
(** mean of the two sides *)
Definition face_mean (UL UR : state) (k : nat) : R := (extra UL k + extra UR k) / 2.

(** normal velocity relative to the face and sound speed *)
Definition rel_speed (e : env) (n pf : vec) (U : state) : R := normal_speed (e_d e) U (grid_speed (e_frame e) pf) n.
Definition sound (e : env) (U : state) : R := sqrt (sound2 (e_d e) (e_gamma e) U).
(** static pressure of a state *)
Definition static_p (e : env) (U : state) : R := pressure (e_d e) (e_gamma e) U.
