(** Words used in the statements about fluxes seen by two observers. *)
From Coq Require Import Reals.
From Verif Require Import Base.Prelude Euler.GasModel Euler.RiemannModel Euler.RiemannSpec.
Local Open Scope R_scope.

(** the same outcome, with [f] applied to the result *)
Definition res_map {A B} (f : A -> B) (x : res A) : res B := match x with Ok a => Ok (f a) | Abort => Abort | UB => UB end.

(** the acoustic waves are faster than the threshold of the entropy fix *)
Definition no_slow_wave (d : nat) (dL : R) (vg n : vec) (A : roe_avg) : Prop :=
  fix_width 0 A dL <= Rabs (dot d (av_v A) n - dot d vg n - sqrt (av_a2 A)) /\
  fix_width 0 A dL <= Rabs (dot d (av_v A) n - dot d vg n + sqrt (av_a2 A)).
