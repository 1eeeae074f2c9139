(** Model of src/Euler/Gas.hpp 42-247, 693-715, 1089-1130: ideal gas states,
    characteristic vectors, fluxes and their increments, over the real numbers
    (rounding is not modelled), for any number [d] of dimensions (the code is
    instantiated with 2 and 3).  Vectors are functions of the component number, of
    which the first [d] matter. *)
From Coq Require Import Reals List Arith.
From Verif Require Import Base.Prelude.
Local Open Scope R_scope.

Definition vec := nat -> R.
Fixpoint sumn (n : nat) (f : nat -> R) : R :=
  match n with O => 0 | S k => sumn k f + f k end.
Definition dot (d : nat) (u v : vec) : R := sumn d (fun i => u i * v i).
Definition sqnorm (d : nat) (u : vec) : R := dot d u u.

(** Conservative variables (density, momentum, total energy) or primitive ones
    (density, velocity, pressure), with extra transported scalars. *)
Record state := { rho : R; mom : vec; ene : R; extra : vec }.

Definition same_state (d n : nat) (U V : state) : Prop :=
  rho U = rho V /\ (forall i, (i < d)%nat -> mom U i = mom V i) /\ ene U = ene V /\
  (forall i, (i < n)%nat -> extra U i = extra V i).

(** 103-109 IdealGasThermal *)
Definition th_p (E rho vSqr gamma : R) : R := (gamma - 1) * (E - rho * (1/2) * vSqr).
Definition th_asqr (E rho vSqr gamma : R) : R := gamma * th_p E rho vSqr gamma / rho.
Definition th_H (E rho vSqr gamma : R) : R := (E + th_p E rho vSqr gamma) / rho.

(** 111-123 IdealGasThermalConservative2Primitive *)
Definition cons2prim (d : nat) (U : state) (gamma : R) : res state :=
  let vSqr := sqnorm d (fun i => mom U i / rho U) in
  if Rlt_dec 0 (rho U) then
    Ok {| rho := rho U; mom := fun i => mom U i / rho U;
          ene := (gamma - 1) * (ene U - rho U * (1/2) * vSqr);
          extra := fun i => extra U i / rho U |}
  else Abort.

(** 125-137 IdealGasThermalPrimitive2Conservative *)
Definition prim2cons (d : nat) (W : state) (gamma : R) : res state :=
  let vSqr := sqnorm d (mom W) in
  if Rlt_dec 0 (rho W) then
    Ok {| rho := rho W; mom := fun i => mom W i * rho W;
          ene := ene W / (gamma - 1) + rho W * (1/2) * vSqr;
          extra := fun i => extra W i * rho W |}
  else Abort.

(** 47-67 EulerGasRightEigenVector *)
Definition ReV (d : nat) (velo : vec) (Vsqr H a : R) (i j : nat) : R :=
  let acoustic := ((j =? 0) || (j =? 1) || (j =? d + 1))%nat%bool in
  if (i =? 0)%nat then (if acoustic then 1 else 0)
  else if (i <=? d)%nat then
    (if acoustic then
       velo (i - 1)%nat + (if (i =? 1)%nat then (if (j =? 0)%nat then - a else if (j =? d + 1)%nat then a else 0) else 0)
     else if (i =? j)%nat then 1 else 0)
  else
    (if (j =? 0)%nat then H - velo 0%nat * a
     else if (j =? d + 1)%nat then H + velo 0%nat * a
     else if (j =? 1)%nat then 1/2 * Vsqr
     else velo (j - 1)%nat).

(** 73-101 EulerGasLeftEigenVector *)
Definition LeV (d : nat) (velo : vec) (Vsqr H a gamma : R) (i j : nat) : R :=
  let gb := gamma - 1 in
  (if (i =? 0)%nat then
     (if (j =? 0)%nat then H + a / gb * (velo 0%nat - a)
      else if (j =? 1)%nat then - velo 0%nat - a / gb
      else if (j <=? d)%nat then - velo (j - 1)%nat
      else 1)
   else if (i =? 1)%nat then
     (if (j =? 0)%nat then -2 * H + 4 / gb * (a * a)
      else if (j <=? d)%nat then velo (j - 1)%nat * 2
      else -2)
   else if (i <=? d)%nat then
     (if (j =? 0)%nat then velo (i - 1)%nat * (-2 * (a * a) / gb)
      else if (j =? i)%nat then 2 * (a * a) / gb
      else 0)
   else
     (if (j =? 0)%nat then H - a / gb * (velo 0%nat + a)
      else if (j =? 1)%nat then - velo 0%nat + a / gb
      else if (j <=? d)%nat then - velo (j - 1)%nat
      else 1)) * (gb / (2 * a * a)).

(** 158-165 GasInviscidFlux (x direction), 167-174 GasInviscidFlux_XY.  The flux of
    the extra scalars is not set there. *)
Definition flux (d : nat) (U : state) (velo vg n : vec) (p : R) : state :=
  let w := dot d (fun i => velo i - vg i) n in
  {| rho := rho U * w; mom := fun i => mom U i * w + p * n i;
     ene := ene U * w + dot d velo n * p; extra := fun _ => 0 |}.
Definition flux_x (U : state) (velo vg : vec) (p : R) : state :=
  let w := velo 0%nat - vg 0%nat in
  {| rho := rho U * w; mom := fun i => mom U i * w + (if (i =? 0)%nat then p else 0);
     ene := ene U * w + velo 0%nat * p; extra := fun _ => 0 |}.

(** 196-205 IdealGasUIncrement: the increments of velocity and pressure. *)
Definition dvelo (U dU : state) : vec :=
  fun i => (mom dU i - mom U i / rho U * rho dU) / rho U.
Definition dpres (d : nat) (U dU : state) (velo : vec) (gamma : R) : R :=
  (gamma - 1) * (ene dU - 1/2 * (dot d (mom dU) velo + dot d (mom U) (dvelo U dU))).

(** 207-222 GasInviscidFluxFacialIncrement *)
Definition flux_increment (d : nat) (U dU : state) (n velo dv vg : vec) (dp p : R) : state :=
  let vn := dot d velo n in
  let dvn := dot d dv n in
  let vgn := dot d vg n in
  {| rho := dot d (mom dU) n - rho dU * vgn;
     mom := fun i => mom dU i * vn + mom U i * dvn + n i * dp - mom dU i * vgn;
     ene := (ene dU + dp) * vn + (ene U + p) * dvn - ene dU * vgn;
     extra := fun _ => 0 |}.

(** 1094-1115 GradientCons2Prim_IdealGas, one row (the derivatives in one
    direction): [dU] are the derivatives of the conservative variables. *)
Definition grad_prim (d : nat) (U dU : state) (gamma : R) : state :=
  let velo := fun i => mom U i / rho U in
  let gv := fun i => 1 / (rho U * rho U) * (rho U * mom dU i - rho dU * mom U i) in
  {| rho := rho dU; mom := gv;
     ene := (gamma - 1) * (ene dU - 1/2 * (dot d (mom dU) velo + dot d gv (mom U)));
     extra := fun i => (extra dU i - rho dU * extra U i / rho U) / rho U |}.
