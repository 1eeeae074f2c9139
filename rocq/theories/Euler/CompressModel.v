(** Model of src/Euler/Gas.hpp 1129-1245 IdealGasGetCompressionRatioPressure, over the
    real numbers.  A division by zero (an infinity or NaN at run time) is [UB]. *)
From Coq Require Import Reals List Arith.
From Verif Require Import Base.Prelude Euler.GasModel.
Local Open Scope R_scope.

(** src/DNDS/Defines.hpp 154-155 *)
Definition verySmall : R := / 10 ^ 200.
Definition smallR : R := / 10 ^ 10.
(** src/DNDS/Defines.hpp signP: the sign, one at zero *)
Definition signP (x : R) : R := if Rle_dec 0 x then 1 else -1.

(** the kinetic energy as 1145, 1147, 1219 compute it *)
Definition ekin (d : nat) (r : R) (m : vec) : res R :=
  if Req_EM_T (r + verySmall) 0 then UB else Ok (1/2 * sqnorm d m / (r + verySmall)).
(** internal energy of [u + a * uInc] *)
Definition einner (d : nat) (u uInc : state) (a : R) : res R :=
  do k <- ekin d (rho u + a * rho uInc) (fun i => mom u i + a * mom uInc i);
  Ok (a * ene uInc + ene u - k).

Definition safety : R := 1 - / 10 ^ 5.
Definition decay : R := 1 - / 10 ^ 2.
Definition cut (a : R) : R := if Rlt_dec a smallR then 0 else a.

(** 1216-1227: up to [n] rounds; [None] when the rounds are used up *)
Fixpoint decay_loop (d : nat) (u uInc : state) (floor : R) (n : nat) (a : R) : res R :=
  match n with
  | O => Abort
  | S k => do e <- einner d u uInc a;
           if Rlt_dec e floor then decay_loop d u uInc floor k (a * decay) else Ok a
  end.

(** 1148-1153: the convex estimate *)
Definition convex_estimate (eOld eNew floor : R) : R :=
  let a := if Rlt_dec eOld eNew then 1 else (eOld - floor) / Rmax (- eNew + eOld) verySmall in
  Rmax (Rmin a 1) 0.

(** 1157-1201: the root of the quadratic *)
Definition quadratic_estimate (d : nat) (u ret : state) (floor : R) : res R :=
  let c0 := 2 * ene u * rho u - sqnorm d (mom u) - 2 * rho u * floor in
  let c1 := 2 * ene u * rho ret + 2 * rho u * ene ret - 2 * dot d (mom u) (mom ret) - 2 * rho ret * floor in
  let c2 := 2 * ene ret * rho ret - sqnorm d (mom ret) in
  let c2 := c2 + signP c2 * verySmall in
  let deltaC := c1 * c1 - 4 * c0 * c2 in
  if Rle_dec deltaC (- (c0 * c0) * smallR) then Abort else
  let deltaC := Rmax 0 deltaC in
  let alphaL := (- sqrt deltaC - c1) / (2 * c2) in
  let alpha :=
    if Rlt_dec (Rabs c2) (/ 10 ^ 10 * c0) then
      (if Rlt_dec (Rabs c1) (/ 10 ^ 10 * c0) then 0 else Rmin (- c0 / c1) 1)
    else Rmin alphaL 1 in
  Ok (Rmax 0 alpha).

Definition compression_ratio (d : nat) (scheme : nat) (u uInc : state) (floor : R) : res R :=
  do eOld <- einner d u uInc 0;
  let floor := Rmax (smallR * eOld) floor in
  do eNew <- einner d u uInc 1;
  let est := convex_estimate eOld eNew floor in
  do alpha <- (if (scheme =? 0)%nat then quadratic_estimate d u uInc floor else Ok est);
  decay_loop d u uInc floor 1000 (cut (alpha * safety)).
