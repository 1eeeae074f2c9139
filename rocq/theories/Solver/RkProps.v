(** C29: the one-step time steppers. *)
From Coq Require Import List ZArith Reals Lra Lia.
From Verif Require Import Base.Prelude Solver.ScalarModel Solver.OdeModel Solver.OdeSpec Solver.OdePolyProofs
  Solver.RkModel Solver.RkSpec Solver.RkProofs.
Import ListNotations.
Local Open Scope R_scope.

(** The two tableaux: weights sum to one and rows to the abscissae, the second up to the
    last digit of its literals. *)
Theorem C29_sdirk_consistent tb : tableau_of 0 = Ok tb -> consistent tb 0.
Proof. exact (fun H => match H in _ = r return match r with Ok tb => consistent tb 0 | _ => True end with eq_refl => sdirk_consistent end). Qed.
Print Assumptions C29_sdirk_consistent.

Theorem C29_esdirk_consistent tb : tableau_of 1 = Ok tb -> consistent tb (1 / 1000000000000000).
Proof. exact (fun H => match H in _ = r return match r with Ok tb => consistent tb _ | _ => True end with eq_refl => esdirk_consistent end). Qed.
Print Assumptions C29_esdirk_consistent.

(** The three-stage scheme is exact for polynomial solutions of degree 4 of x' = f(t), in any
    run, with whatever solver and for whatever zeta. *)
Theorem C29_sdirk_exact {E T} z a f (todo : list (calls E T * Z * R)) : z <> 1 / 2 -> of_degree 4 a -> solution a f ->
  forall t s, follows (fun C t dt => writes C t dt f) t todo -> length (k_buf s) = 3%nat ->
  (forall i, k_x s i = at_time a t i) ->
  exists s', foldM (fun s c => SDIRK_Step (fst (fst c)) (sdirk_tableau z) s (snd (fst c)) (snd c)) s todo = Ok s' /\
    forall i, k_x s' i = at_time a (end_time t todo) i.
Proof. exact (sdirk_run z a f todo). Qed.
Print Assumptions C29_sdirk_exact.

(** The same for backward Euler and degree 1, with the solver of the linearised equation. *)
Theorem C29_euler_exact {E T} a f (todo : list (calls E T * Z * R)) : of_degree 1 a -> solution a f ->
  forall t s, follows (fun C t dt => time_only C t dt f /\ solver C dt /\ dt <> 0) t todo -> length (k_buf s) = 1%nat ->
  (forall i, k_x s i = at_time a t i) ->
  exists s', foldM (fun s c => Euler_Step (fst (fst c)) s (snd (fst c)) (snd c)) s todo = Ok s' /\
    forall i, k_x s' i = at_time a (end_time t todo) i.
Proof. exact (euler_run a f todo). Qed.
Print Assumptions C29_euler_exact.

(** The six-stage scheme is not: its fifth abscissa belongs to a mistyped row and the weights
    to another one. *)
Theorem C29_esdirk_exact_refuted :
  ~ (forall (C : calls unit unit) a f t dt s mi s', of_degree 4 a -> solution a f ->
       time_only C t dt f -> solver C dt -> dt <> 0 -> (1 <= mi)%Z -> k_has s = false -> length (k_buf s) = 6%nat ->
       (forall i, k_x s i = at_time a t i) -> SDIRK_Step C esdirk_tableau s mi dt = Ok s' ->
       Rabs (k_x s' 0%nat - at_time a (t + dt) 0%nat) <= 1 / 100000000).
Proof. exact esdirk_off. Qed.
Print Assumptions C29_esdirk_exact_refuted.

(** But it is nearly: with the solution written as a polynomial of degree 4 in the fraction of
    the step, the linear part is right up to the literals and the rest up to 1e-7.  It also
    leaves the slope at the end of the step where the next step takes it from. *)
Theorem C29_esdirk_nearly_exact_partial {E T} (C : calls E T) a f t dt s mi i c0 c1 c2 c3 c4 : solution a f ->
  (forall u, poly (a i) (t + u * dt) = poly [c0; c1; c2; c3; c4] u) ->
  time_only C t dt f -> solver C dt -> dt <> 0 -> (1 <= mi)%Z -> length (k_buf s) = 6%nat ->
  (k_has s = true -> nth_error (k_buf s) 5 = Some (f t)) ->
  (forall i, k_x s i = at_time a t i) ->
  exists s', SDIRK_Step C esdirk_tableau s mi dt = Ok s' /\
    length (k_buf s') = 6%nat /\ k_has s' = true /\ nth_error (k_buf s') 5 = Some (f (t + dt)) /\
    Rabs (k_x s' i - at_time a (t + dt) i) <= 1 / 1000000000000000 * Rabs c1 + 1 / 10000000 * (Rabs c2 + Rabs c3 + Rabs c4).
Proof. exact (esdirk_bound C a f t dt s mi i c0 c1 c2 c3 c4). Qed.
Print Assumptions C29_esdirk_nearly_exact_partial.

(** The Hermite scheme with two of its masks: exact for degree 3 in any run whose inner
    iterations go on at least twice. *)
Theorem C29_hermite_exact {E T} cf a f (todo : list (calls E T * Z * R)) : of_degree 3 a -> solution a f ->
  0 < alphaHM3 cf < 1 -> maskHM3 cf = 0%Z \/ maskHM3 cf = 1%Z -> curSolveMethod cf = 0%Z ->
  (forall C mi dt, In (C, mi, dt) todo -> (2 <= mi)%Z /\ (nStartIter cf <= mi)%Z) ->
  forall t (s : hm E T), follows (fun C t dt => time_only C t dt f /\ solver C dt /\ dt <> 0 /\ patient C) t todo ->
  (h_has s = true -> hb1 s = f t) ->
  (forall i, h_x s i = at_time a t i) ->
  exists s', foldM (fun s c => Hermite_Step (fst (fst c)) cf s (snd (fst c)) (snd c)) s todo = Ok s' /\
    forall i, h_x s' i = at_time a (end_time t todo) i.
Proof. exact (hermite_run cf a f todo). Qed.
Print Assumptions C29_hermite_exact.

(** With the third mask a step is exact if a step of like size came before ... *)
Theorem C29_hermite_three_point_exact_partial {E T} (C : calls E T) cf a f t dt (s : hm E T) mi : of_degree 3 a -> solution a f ->
  0 < alphaHM3 cf < 1 -> maskHM3 cf = 2%Z -> curSolveMethod cf = 0%Z -> (2 <= mi)%Z -> (nStartIter cf <= mi)%Z ->
  time_only C t dt f -> solver C dt -> dt <> 0 -> patient C ->
  (h_has s = true -> hb1 s = f t) ->
  h_prevSize s = 1%Z -> 1 / 100 < h_dtPrev s / (dt + verySmallReal) < 100 ->
  (forall i, h_x s i = at_time a t i) ->
  exists s', Hermite_Step C cf s mi dt = Ok s' /\ forall i, h_x s' i = at_time a (t + dt) i.
Proof. exact (hermite_three C cf a f t dt s mi). Qed.
Print Assumptions C29_hermite_three_point_exact_partial.

(** ... but its first step is wrong by more than a tenth already for t^2: the weights belong to
    another point than the one where the right-hand side is evaluated. *)
Theorem C29_hermite_first_step_refuted :
  ~ (forall (C : calls unit unit) cf a f t dt s mi s', of_degree 3 a -> solution a f ->
       0 < alphaHM3 cf < 1 -> maskHM3 cf = 2%Z -> curSolveMethod cf = 0%Z -> (2 <= mi)%Z -> (nStartIter cf <= mi)%Z ->
       time_only C t dt f -> solver C dt -> dt <> 0 -> patient C -> h_has s = false -> h_prevSize s = 0%Z ->
       (forall i, h_x s i = at_time a t i) -> Hermite_Step C cf s mi dt = Ok s' ->
       Rabs (h_x s' 0%nat - at_time a (t + dt) 0%nat) <= 1 / 10).
Proof. exact hermite_off. Qed.
Print Assumptions C29_hermite_first_step_refuted.

(** The interpolation of the middle state. *)
Theorem C29_hermite_interpolation cf p h co : SetCoefs cf p h = Ok co ->
  (maskHM3 cf = 0%Z -> interpolates co (fun a v => derivable_pt_lim (poly a) 0 v) (alphaHM3 cf) 3) /\
  (maskHM3 cf = 1%Z -> interpolates co (fun _ _ => True) (alphaHM3 cf) 2) /\
  (maskHM3 cf = 2%Z -> p = 1%Z -> 1 / 100 < h < 100 -> interpolates co (fun a v => v = poly a (- h)) (alphaHM3 cf) 3).
Proof. exact (interp_mask cf p h co). Qed.
Print Assumptions C29_hermite_interpolation.

(** The explicit scheme evaluates the right-hand side at wrong times: off by more than a tenth
    for t^2. *)
Theorem C29_ssprk3_exact_refuted :
  ~ (forall (C : calls unit unit) mulT a f t dt s s', of_degree 3 a -> solution a f ->
       time_only C t dt f -> solver C dt -> dt <> 0 -> (3 <= length (k_buf s))%nat ->
       (forall i, k_x s i = at_time a t i) -> SSPRK3_Step C mulT false s dt = Ok s' ->
       Rabs (k_x s' 0%nat - at_time a (t + dt) 0%nat) <= 1 / 10).
Proof. exact ssprk3_off. Qed.
Print Assumptions C29_ssprk3_exact_refuted.

(** For x' = L x it gives the Taylor polynomial of degree 3, so it is exact for the polynomial
    solutions of these equations. *)
Theorem C29_ssprk3_linear_partial {E T} (C : calls E T) dt L mulT (s : rk E T) : autonomous C L -> linear L -> solver C dt ->
  (3 <= length (k_buf s))%nat ->
  exists s', SSPRK3_Step C mulT false s dt = Ok s' /\
    forall i, k_x s' i = k_x s i + dt * L (k_x s) i + dt * dt / 2 * L (L (k_x s)) i + dt * dt * dt / 6 * L (L (L (k_x s))) i.
Proof. exact (ssprk3_linear C dt L mulT s). Qed.
Print Assumptions C29_ssprk3_linear_partial.

(** ** Examples: x' = 2t *)
Example C29_run_example :
  of_degree 4 (fun _ => [0; 0; 1]) /\ solution (fun _ => [0; 0; 1]) ftwo /\
  follows (fun C t dt => writes C t dt ftwo) 0 [(exact_calls 0 1 ftwo, 1%Z, 1); (exact_calls (0 + 1) 2 ftwo, 5%Z, 2)] /\
  follows (fun C t dt => time_only C t dt ftwo /\ solver C dt /\ dt <> 0 /\ patient C) 0
    [(exact_calls 0 1 ftwo, 2%Z, 1); (exact_calls (0 + 1) 2 ftwo, 5%Z, 2)].
Proof.
  split; [apply two_degree; lia|]. split; [exact two_solution|]. cbn [follows]. unfold writes. cbn [frhs exact_calls].
  repeat match goal with
  | |- _ /\ _ => split
  | |- True => exact I
  | |- time_only _ _ _ _ => apply exact_time
  | |- solver _ _ => apply exact_solver
  | |- patient _ => apply exact_patient
  | |- (_ <= _)%Z => lia
  | |- _ <> _ => lra
  | _ => eauto
  end.
Qed.
Example C29_linear_example : linear (fun x i => x (S i)) /\
  autonomous {| frhs := fun e _ x t _ _ _ => (e, fun i => x (S i), x, t); fdt := fdt (exact_calls 0 1 ftwo);
     fsolve := fsolve (exact_calls 0 1 ftwo); fstop := fstop (exact_calls 0 1 ftwo); fincrement := fincrement (exact_calls 0 1 ftwo) |}
    (fun x i => x (S i)).
Proof. split; [intros a b x y i; reflexivity|]. intros e r x t it ct p. cbn. eauto. Qed.
