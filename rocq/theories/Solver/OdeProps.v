(** C27, C28, C30: the multistep time steppers. *)
From Coq Require Import List ZArith Reals Lra Lia.
From Verif Require Import Base.Prelude Solver.OdeModel Solver.OdeSpec Solver.OdeProofs Solver.OdePP Solver.OdePolyProofs.
Import ListNotations.
Local Open Scope R_scope.

(** ** C27

    Any run of the constant-step formula from a new stepper of maximal order 1 to 4, whatever
    the buffers first contain, whatever the callbacks do and whatever the caller does to the
    data between the steps, is the run of the specification: it keeps the unbounded list of all
    steps, and each step has the order given by the number of steps before it and sees only
    the newest of them, in order.  The sizes of the steps in use must agree. *)
Theorem C27_bdf_history {E T} (C : calls E T) k xi di x0 l todo :
  (1 <= k <= 4)%nat -> steady k [] (map snd todo) ->
  exists st0 st, bdf_init (Z.of_nat k) xi di x0 = Ok st0 /\
    steps (BDF_Step C) st0 l todo = Ok (st, snd (spec_steps C k BDF_formula [] l todo)) /\
    holds_history st k (fst (spec_steps C k BDF_formula [] l todo)).
Proof. exact (bdf_run C k xi di x0 l todo). Qed.
Print Assumptions C27_bdf_history.

(** A step whose size differs from one of those in use is refused. *)
Theorem C27_bdf_refuses_other_step {E T} (C : calls E T) k xi di x0 l todo ch mi dt :
  (1 <= k <= 4)%nat -> steady k [] (map snd todo) ->
  ~ Forall (alike dt) (firstn (k - 1) (rev (map snd todo))) ->
  exists st0, bdf_init (Z.of_nat k) xi di x0 = Ok st0 /\ steps (BDF_Step C) st0 l (todo ++ [(ch, mi, dt)]) = Abort.
Proof. exact (bdf_run_change C k xi di x0 l todo ch mi dt). Qed.
Print Assumptions C27_bdf_refuses_other_step.

(** The variable-step formula takes any sequence of positive steps. *)
Theorem C27_vbdf_history {E T} (C : calls E T) k xi di x0 l todo :
  (1 <= k <= 2)%nat -> Forall (fun t => 0 < snd t) todo ->
  exists st0 st, vbdf_init (Z.of_nat k) xi di x0 = Ok st0 /\
    steps (VBDF_Step C) st0 l todo = Ok (st, snd (spec_steps C k VBDF_formula [] l todo)) /\
    holds_history st k (fst (spec_steps C k VBDF_formula [] l todo)).
Proof. exact (vbdf_run C k xi di x0 l todo). Qed.
Print Assumptions C27_vbdf_history.

Definition one (dt : R) : (regs unit unit -> regs unit unit) * Z * R := (fun l => l, 1%Z, dt).

Example C27_steady_example : steady 3 [] (map snd [one 2; one 2; one 2; one 2]).
Proof. exact (steady_const 3 2 4 ltac:(lra) [] (Forall_nil _)). Qed.
Example C27_refused_example : ~ Forall (alike 1) (firstn (3 - 1) (rev (map snd [one 2; one 2]))).
Proof.
  cbn [map snd one rev app firstn Nat.sub]. intro F. apply Forall_inv in F. unfold alike in F.
  rewrite Rabs_pos_eq in F; lra.
Qed.
(** x' = 1 with steps 1 and 2, and the second step keeps the state of the first. *)
Example C27_vbdf_example :
  match vbdf_init 2 (fun _ => setConstant 7) (fun _ => 7) (setConstant 7) with
  | Ok st0 => match steps (VBDF_Step (uno 1)) st0 zero_regs [one 1; one 2] with
              | Ok (st, l) => r_x l 0%nat = 3 /\ map (fun x => x 0%nat) (xPrevs st) = [0 + (0 + 0 * (1 / 1) + 0 * (-1 / 1) + 1 * 1) * 1] /\
                              dtPrevs st = [2] /\ cnPrev st = 1%Z
              | _ => False end
  | _ => False end.
Proof. cbv -[Rplus Rmult Rdiv Ropp Rinv IZR]. split; [field|]. auto. Qed.

(** ** C28

    The formulas in use above are exact: for a solution of the degree of the formula and with
    the true old states the residual vanishes at the true new state and only there. *)
Theorem C28_bdf_exact n a t dt dts : (n <= 3)%nat -> length dts = n -> dt <> 0 -> of_degree (S n) a ->
  exact_for (BDF_formula dts dt) a t dt (map (fun j => t - INR (S j) * dt) (seq 0 n)).
Proof. exact (bdf_exact n a t dt dts). Qed.
Print Assumptions C28_bdf_exact.

Theorem C28_vbdf_first_step_exact a t dt : dt <> 0 -> of_degree 1 a -> exact_for (VBDF_formula [] dt) a t dt [].
Proof. exact (vbdf_exact1 a t dt). Qed.
Print Assumptions C28_vbdf_first_step_exact.

Theorem C28_vbdf_exact a t dt d : 0 < dt -> 0 < d -> of_degree 2 a -> exact_for (VBDF_formula [d] dt) a t dt [t - d].
Proof. exact (vbdf_exact2 a t dt d). Qed.
Print Assumptions C28_vbdf_exact.

(** At a constant step size whole runs of the two steppers coincide. *)
Theorem C28_vbdf_is_bdf_at_constant_step {E T} (C : calls E T) k dt xi di x0 l todo :
  (1 <= k <= 2)%nat -> 0 < dt -> Forall (fun t => snd t = dt) todo ->
  exists st0 st1 st2 l', bdf_init (Z.of_nat k) xi di x0 = Ok st0 /\ vbdf_init (Z.of_nat k) xi di x0 = Ok st0 /\
    steps (BDF_Step C) st0 l todo = Ok (st1, l') /\ steps (VBDF_Step C) st0 l todo = Ok (st2, l').
Proof. exact (const_run C k dt xi di x0 l todo). Qed.
Print Assumptions C28_vbdf_is_bdf_at_constant_step.

(** t^4 for the formula of order 4; its slope at 5 is 500. *)
Example C28_bdf_example : of_degree 4 (fun _ => [0; 0; 0; 0; 1]) /\ slope (fun _ => [0; 0; 0; 0; 1]) 5 (setConstant 500).
Proof.
  split.
  - intro i. cbn. lia.
  - intro i. pose proof (dpoly_lim [0; 0; 0; 0; 1] 5) as H. unfold setConstant. replace 500 with (dpoly [0; 0; 0; 0; 1] 5); [exact H|].
    cbn. ring.
Qed.

(** ** C30

    Refuted.  With limiters that never act a step of StepPP and one of Step differ already for
    x' = 1: the first leaves the state as it is. *)
Theorem C30_bdf_steppp_is_step_refuted :
  ~ (forall (C : calls unit unit) Lm st l ri mi dt st1 l1 st2 l2, inactive Lm ->
       BDF_Step C st l mi dt = Ok (st1, l1) -> BDF_StepPP C Lm st l ri mi dt = Ok (st2, l2) -> r_x l1 = r_x l2).
Proof. exact PP_differs. Qed.
Print Assumptions C30_bdf_steppp_is_step_refuted.

Theorem C30_vbdf_steppp_is_step_refuted :
  ~ (forall (C : calls unit unit) Lm st l ri mi dt st1 l1 st2 l2, inactive Lm ->
       VBDF_Step C st l mi dt = Ok (st1, l1) -> VBDF_StepPP C Lm st l ri mi dt = Ok (st2, l2) -> r_x l1 = r_x l2).
Proof. exact VPP_differs. Qed.
Print Assumptions C30_vbdf_steppp_is_step_refuted.

(** It is never right: the result does not depend on the right-hand side at all. *)
Theorem C30_bdf_steppp_ignores_rhs {E T} (C C' : calls E T) Lm st l ri mi dt :
  inactive Lm -> same_but_rhs C C' ->
  rel_res (fun a b => fst a = fst b /\ same_but_rhsbuf (snd a) (snd b))
    (BDF_StepPP C Lm st l ri mi dt) (BDF_StepPP C' Lm st l ri mi dt).
Proof. exact (fun HI HS => bdf_PP_rel C C' Lm HI HS st l ri mi dt). Qed.
Print Assumptions C30_bdf_steppp_ignores_rhs.

Theorem C30_vbdf_steppp_ignores_rhs {E T} (C C' : calls E T) Lm st l ri mi dt :
  inactive Lm -> same_but_rhs C C' ->
  rel_res (fun a b => fst a = fst b /\ same_but_rhsbuf (snd a) (snd b))
    (VBDF_StepPP C Lm st l ri mi dt) (VBDF_StepPP C' Lm st l ri mi dt).
Proof. exact (fun HI HS => vbdf_PP_rel C C' Lm HI HS st l ri mi dt). Qed.
Print Assumptions C30_vbdf_steppp_ignores_rhs.

(** What holds: both keep the same history. *)
Theorem C30_bdf_steppp_history_partial {E T} (C : calls E T) Lm st l ri mi dt st1 l1 st2 l2 : inactive Lm ->
  BDF_StepPP C Lm st l ri mi dt = Ok (st1, l1) -> BDF_Step C st l mi dt = Ok (st2, l2) -> st1 = st2.
Proof. exact (fun HI => bdf_PP_keeps C Lm HI st l ri mi dt st1 l1 st2 l2). Qed.
Print Assumptions C30_bdf_steppp_history_partial.

(** What the two do instead.  With limiters that never act a step of the first is the step of a
    solver that is given (1 + c) times the residual without the right-hand side; a step of the
    second is the step of a right-hand side that leaves what is in the buffer. *)
Theorem C30_bdf_steppp_is_deaf_step {E T} (C : calls E T) Lm st l ri mi dt : inactive Lm ->
  BDF_StepPP C Lm st l ri mi dt = BDF_Step (deaf C) st l mi dt.
Proof. exact (fun HI => bdf_PP_is C Lm HI st l ri mi dt). Qed.
Print Assumptions C30_bdf_steppp_is_deaf_step.

Theorem C30_vbdf_steppp_is_stale_step {E T} (C : calls E T) Lm st l ri mi dt : inactive Lm -> same_but_rhs C C ->
  VBDF_StepPP C Lm st l ri mi dt = VBDF_Step (stale C) st l mi dt.
Proof. exact (fun HI HS => vbdf_PP_is C Lm HI HS st l ri mi dt). Qed.
Print Assumptions C30_vbdf_steppp_is_stale_step.

Example C30_inactive_example : inactive idle /\ same_but_rhs (uno 1) (uno 2) /\ same_but_rhs (uno 1) (uno 1).
Proof. split; [exact idle_inactive|]. unfold same_but_rhs. cbn. auto 20. Qed.
