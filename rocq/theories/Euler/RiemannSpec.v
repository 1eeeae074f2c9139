(** Words used in the statements about the numerical fluxes. *)
From Coq Require Import Reals List Arith.
From Verif Require Import Base.Prelude Euler.GasModel Euler.GasSpec Euler.RiemannModel.
Local Open Scope R_scope.

(** a state a gas can be in *)
Definition admissible (d : nat) (g : R) (U : state) : Prop := 0 < rho U /\ 0 < sound2 d g U.

(** the speed below which the entropy fix of option 0 acts *)
Definition fix_width (opt : nat) (A : roe_avg) (dL : R) : R :=
  if (opt =? 0)%nat then Rmax (scaleHartenYee * (sqrt (av_vv A) + sqrt (av_a2 A))) dL else 0.
