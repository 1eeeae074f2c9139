(** C26: the bisection solver. *)
From Coq Require Import Reals ZArith Lra.
From Verif Require Import Base.Prelude Solver.ScalarModel Solver.ScalarProofs.
Open Scope R_scope.

(** The call returns a value exactly when the documented precondition holds. *)
Theorem C26_defined_iff_bracket F v0 v1 fT n :
  (exists r, BisectSolveLower F v0 v1 fT n = Ok r) <->
  (F v0 <= fT /\ fT <= F v1 /\ v0 < v1).
Proof. exact (bisect_defined F v0 v1 fT n). Qed.
Print Assumptions C26_defined_iff_bracket.

(** The returned point lies in the bracket, its value does not exceed the
    target, some point [hi] above it in the bracket has a value at least the
    target, and the distance is the initial width halved once per iteration;
    only when the left end already meets the target up to 1e-200 is it returned
    unchanged. *)
Theorem C26_bisection_brackets_target F v0 v1 fT n r :
  BisectSolveLower F v0 v1 fT n = Ok r ->
  exists hi, v0 <= r /\ r < hi /\ hi <= v1 /\ F r <= fT /\ fT <= F hi /\
    (F v0 < fT - verySmallReal -> hi - r = (v1 - v0) / 2 ^ Z.to_nat n) /\
    (fT - verySmallReal <= F v0 -> r = v0).
Proof. exact (bisect_ok F v0 v1 fT n r). Qed.
Print Assumptions C26_bisection_brackets_target.

(** For a monotone function with one solution the solution is at most the final
    width above the returned point. *)
Theorem C26_error_bound_for_monotone F v0 v1 fT n r x :
  BisectSolveLower F v0 v1 fT n = Ok r ->
  F v0 < fT - verySmallReal ->
  (forall a b, v0 <= a -> a <= b -> b <= v1 -> F a <= F b) ->
  (forall a b, v0 <= a -> a < b -> b <= v1 -> F a = fT -> F b = fT -> False) ->
  v0 <= x <= v1 -> F x = fT ->
  r <= x <= r + (v1 - v0) / 2 ^ Z.to_nat n.
Proof. exact (bisect_monotone F v0 v1 fT n r x). Qed.
Print Assumptions C26_error_bound_for_monotone.

Example C26_example : exists r, BisectSolveLower (fun x => x) 0 4 1 3 = Ok r /\ r = 1.
Proof. exact bisect_example. Qed.
