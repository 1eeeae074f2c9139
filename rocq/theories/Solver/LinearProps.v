(** C31: the Krylov solvers. *)
From Coq Require Import List ZArith Reals.
From Verif Require Import Base.Prelude Solver.ScalarModel Solver.OdeModel Solver.OdeSpec Solver.RkSpec
  Solver.LinearModel Solver.LinearSpec Solver.LinearProofs Solver.LinearExamples.
Import ListNotations.
Local Open Scope R_scope.

(** GMRES can report success at a point that fails the stop test: whatever the test, unless it
    accepts a residual as large as the right-hand side, and whatever the routine for small
    systems, there is a linear system whose answer "solved" comes with the full residual. *)
Theorem C31_gmres_success_refuted lsq kSubspace nRestart FStop :
  (0 < kSubspace)%nat -> (0 < nRestart)%nat -> FStop 0%nat 1 1 = false ->
  exists FA FML dot b x x', form dot /\ linear FA /\ linear FML /\
    gmres_solve FA FML dot FStop lsq kSubspace b x nRestart = Ok (x', true) /\
    res_size FA FML dot b x' = 1 /\ norm dot (FML b) = 1.
Proof. exact (gmres_untrue lsq kSubspace nRestart FStop). Qed.
Print Assumptions C31_gmres_success_refuted.
Example C31_a_test : (fun (_ : nat) (r s : R) => false) 0%nat 1 1 = false.
Proof. reflexivity. Qed.

(** What success means: the stop test holds at the returned point, or its residual is below
    1e-200, or the Arnoldi process broke down. *)
Theorem C31_gmres_success_partial FA FML dot FStop lsq kSubspace b x nRestart x' :
  gmres_solve FA FML dot FStop lsq kSubspace b x nRestart = Ok (x', true) ->
  exists it en, gmres_run FA FML dot FStop lsq kSubspace b x nRestart = Ok (x', it, en) /\ (it < nRestart)%nat /\
    match en with
    | Stopped => FStop it (res_size FA FML dot b x') (norm dot (FML b)) = true
    | Negligible => res_size FA FML dot b x' < verySmallReal
    | LastRestart => False
    | NoDirection | Deficient => True
    end.
Proof. exact (gmres_true FA FML dot FStop lsq kSubspace b x nRestart x'). Qed.
Print Assumptions C31_gmres_success_partial.
Example C31_gmres_succeeds :
  exists x', gmres_solve shear same plane nine_tenths one_step 1 up (only 0) 2 = Ok (x', true) /\ x' 1%nat = 1 / 2.
Proof. exact half_vec. Qed.

(** Success or not, GMRES never returns a point with a larger preconditioned residual. *)
Theorem C31_gmres_residual_never_rises FA FML dot FStop lsq kSubspace b x nRestart x' ok :
  form dot -> linear FA -> linear FML -> never_worse lsq ->
  gmres_solve FA FML dot FStop lsq kSubspace b x nRestart = Ok (x', ok) ->
  res_size FA FML dot b x' <= res_size FA FML dot b x.
Proof. exact (gmres_not_up FA FML dot FStop lsq kSubspace b x nRestart x' ok). Qed.
Print Assumptions C31_gmres_residual_never_rises.
Example C31_a_setting : form plane /\ linear shear /\ linear same /\ never_worse one_step.
Proof. exact (conj plane_form (conj shear_linear (conj same_linear one_step_ok))). Qed.

(** Conjugate gradients report success only when the stop test accepts the residual of the point
    returned, computed afresh from it. *)
Theorem C31_pcg_success FA FM FResPrec dot FStop s x n s' x' :
  pcg_solve FA FM FResPrec dot FStop s x n = (s', x', true) ->
  exists it, (1 <= it <= n)%nat /\
    FStop it (dot (FResPrec x') (FM (FResPrec x'))) (dot (FResPrec x') (FResPrec x')) = true.
Proof. exact (pcg_true FA FM FResPrec dot FStop s x n s' x'). Qed.
Print Assumptions C31_pcg_success.
Example C31_pcg_succeeds :
  exists s x', pcg_solve twice same prec_res first tiny_res fresh (only 0) 2 = (s, x', true) /\ x' 0%nat <> 0.
Proof. exact pcg_succeeds. Qed.

(** For a symmetric operator that is not negative, no sequence of calls after a reset raises the
    energy of the point, whatever the numbers of iterations and the stop tests. *)
Theorem C31_pcg_energy_never_rises FA FM FResPrec P dot b s x calls :
  pcg_setting FA FM FResPrec P dot b ->
  energy FA dot b (snd (fold_left (fun sx c => fst (pcg_solve FA FM FResPrec dot (fst c) (fst sx) (snd sx) (snd c))) calls (pcg_reset s, x)))
    <= energy FA dot b x.
Proof. exact (fun HS => pcg_runs FA FM FResPrec P dot b HS calls (pcg_reset s) x (fun H => False_ind _ (Bool.diff_false_true H))). Qed.
Print Assumptions C31_pcg_energy_never_rises.
Example C31_pcg_descends : pcg_setting twice same prec_res same first (only 1) /\
  exists s x', pcg_solve twice same prec_res first (fun _ _ _ => false) fresh (only 0) 1 = (s, x', false) /\
    energy twice first (only 1) x' < energy twice first (only 1) (only 0).
Proof. exact (conj twice_setting pcg_descends). Qed.
