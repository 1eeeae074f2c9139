(** C70: the time loop keeps the clock, stops where asked, and writes each file
    when due. *)

From Coq Require Import List ZArith Bool QArith Lqa Lia Sorted.
From Verif Require Import Base.Prelude Euler.TimeLoopModel Euler.TimeLoopSpec Euler.TimeLoopFiles Euler.TimeLoopProofs Euler.TimeLoopExample Euler.TimeLoopRefute.
Import ListNotations.
Local Open Scope Q_scope.

(** The example run: five steps, ending at time 1. *)
Definition calm := conf false 1 10 (4 # 10) true.

Example calm_ok : sane calm /\ averages_kept calm /\ flowing wind
  /\ exists y, run calm wind None 0 = Ok y
     /\ Forall2 Qeq (times (s_trace y)) [3 # 10; 4 # 10; 7 # 10; 8 # 10; 1]
     /\ Forall2 Qeq (labels (s_trace y)) [4 # 10; 8 # 10; 1]
     /\ written Data (s_trace y) = [2; 4]%Z /\ written DataC (s_trace y) = [1; 3; 5]%Z
     /\ written Avg (s_trace y) = [3]%Z /\ written RstC (s_trace y) = [1; 3; 5]%Z
     /\ logged (s_trace y) = [5]%Z.
Proof.
  split; [apply conf_sane; [reflexivity | lia]|]. split; [left; reflexivity|]. split; [apply wind_flows|].
  eexists. split; [vm_compute; reflexivity|].
  repeat split; try reflexivity; cbn; repeat constructor.
Qed.

(** Steps are numbered from 1, have positive length, and move the clock
    strictly forward and never past the end.  The run ends at the end time or
    after the last step allowed.  Without the positivity-preserving step the
    clock is the sum of what the flow was advanced by. *)
Theorem C70_clock_partial : forall c e ir fl y, sane c -> flowing e -> run c e ir fl = Ok y ->
  let tr := s_trace y in
  let m := length (advances tr) in
  map (fun a => fst (fst a)) (advances tr) = steps m
  /\ Forall (fun d => 0 < d) (lengths tr)
  /\ StronglySorted Qlt (times tr)
  /\ Forall (fun t => 0 < t /\ t <= c_tEnd c) (times tr)
  /\ s_t y = last (times tr) 0
  /\ qsum (lengths tr) <= s_t y
  /\ (c_pp c = false -> qsum (lengths tr) == s_t y)
  /\ ((s_t y == c_tEnd c /\ (Z.of_nat m <= c_nStep c)%Z) \/ (s_t y < c_tEnd c /\ Z.of_nat m = c_nStep c)).
Proof. exact clock. Qed.
Print Assumptions C70_clock_partial.

(** The files written at given times are those due up to the time reached, each
    once and in order: no due time is stepped over and no other file is
    written. *)
Theorem C70_timed : forall c e ir fl y, sane c -> flowing e -> run c e ir fl = Ok y ->
  StronglySorted Qlt (labels (s_trace y))
  /\ forall x, (exists n, In n (labels (s_trace y)) /\ n == x) <-> (x <= s_t y /\ due c x).
Proof. exact timed. Qed.
Print Assumptions C70_timed.

(** Given enough steps for its shortest step, a run reaches the end time. *)
Theorem C70_reaches : forall c e ir fl y dm, sane c -> flowing e -> c_pp c = false ->
  0 < dm ->
  (dm <= c_dtMin c \/ (c_ppLimit c = false /\ forall s, dm <= wish c (e s))) ->
  c_tEnd c / dm + c_tEnd c / c_tOut c + 1 <= inject_Z (c_nStep c) ->
  run c e ir fl = Ok y -> s_t y == c_tEnd c.
Proof. exact reaches. Qed.
Print Assumptions C70_reaches.

Example C70_reaches_example : c_tEnd calm / (3 # 10) + c_tEnd calm / c_tOut calm + 1 <= inject_Z (c_nStep calm)
  /\ forall s, 3 # 10 <= wish calm (wind s).
Proof. split; [vm_compute; discriminate|]. intro s. vm_compute. discriminate. Qed.

(** No step is longer than the wish of the flow and of the settings, but for
    the hair that spares a tiny step before an output time; and with the
    positivity limit on, no step outgrows the one before it. *)
Theorem C70_paced : forall c e ir fl y, sane c -> flowing e -> run c e ir fl = Ok y ->
  (forall s d t, In (s, d, t) (advances (s_trace y)) -> d <= (1 + smallReal) * wish c (e s))
  /\ (c_ppLimit c = true -> forall i d d', nth_error (lengths (s_trace y)) i = Some d ->
        nth_error (lengths (s_trace y)) (S i) = Some d' ->
        d' <= (1 + smallReal) * qmax (d * c_inc c) (c_dtMin c)).
Proof. exact paced. Qed.
Print Assumptions C70_paced.

(** Numbered files and log lines come exactly at the multiples of their
    intervals; files that are written over are skipped, when so asked, if the
    numbered one is written at the same step. *)
Theorem C70_numbered : forall c e ir fl y, c_steady c = false -> run c e ir fl = Ok y ->
  let tr := s_trace y in
  let m := length (advances tr) in
  written Data tr = filter (every (c_nOut c)) (steps m)
  /\ written DataC tr = filter (fun s => every (c_nOutC c) s && negb (c_lazy c && every (c_nOut c) s)) (steps m)
  /\ written Avg tr = filter (every (c_nAvg c)) (steps m)
  /\ written AvgC tr = filter (fun s => every (c_nAvgC c) s && negb (c_lazy c && every (c_nAvg c) s)) (steps m)
  /\ written Rst tr = filter (every (c_nRst c)) (steps m)
  /\ written RstC tr = filter (fun s => every (c_nRstC c) s && negb (c_lazy c && every (c_nRst c) s)) (steps m)
  /\ logged tr = filter (every (Z.abs (c_nLog c))) (steps m).
Proof. exact numbered. Qed.
Print Assumptions C70_numbered.

(** Every file carries the time of its step and holds the flow of its step, or
    the mean of the flows so far weighted with the lengths of the steps. *)
Theorem C70_held : forall c e ir fl y, sane c -> flowing e -> run c e ir fl = Ok y ->
  stamped (s_trace y) /\ Forall (holds c e fl (lengths (s_trace y))) (s_trace y).
Proof. exact held. Qed.
Print Assumptions C70_held.

(** A sane run is never cut short by a failed check or undefined behaviour. *)
Theorem C70_completes_partial : forall c e ir fl, sane c -> averages_kept c -> flowing e ->
  (c_pp c = false \/ c_ode c = 102%Z) -> exists y, run c e ir fl = Ok y.
Proof. exact completes. Qed.
Print Assumptions C70_completes_partial.

(** A steady run takes one step. *)
Theorem C70_steady : forall c e ir fl y, c_steady c = true -> run c e ir fl = Ok y ->
  length (advances (s_trace y)) = 1%nat.
Proof. exact steady_one. Qed.
Print Assumptions C70_steady.

(** The clock is not the sum of the steps under the positivity-preserving VBDF
    step. *)
Theorem C70_clock_refuted :
  ~ (forall c e ir fl y, sane c -> flowing e -> run c e ir fl = Ok y -> qsum (lengths (s_trace y)) == s_t y).
Proof. exact clock_pp_refuted. Qed.
Print Assumptions C70_clock_refuted.

(** Settings accepted at the start can end in undefined behaviour. *)
Theorem C70_scheme_refuted :
  ~ (forall c e ir fl, sane c -> averages_kept c -> flowing e -> initialize c = Ok c ->
       exists y, run c e ir fl = Ok y).
Proof. exact scheme_refuted. Qed.
Print Assumptions C70_scheme_refuted.

(** Files of averages asked for while none are kept stop the run. *)
Theorem C70_averages_refuted :
  ~ (forall c e ir fl, sane c -> flowing e -> c_pp c = false -> exists y, run c e ir fl = Ok y).
Proof. exact averages_refuted. Qed.
Print Assumptions C70_averages_refuted.

(** A restarted run does not go on from the step of its restart file. *)
Theorem C70_restart_refuted :
  ~ (forall c e i fl y, sane c -> flowing e -> (0 < i)%Z -> run c e (Some i) fl = Ok y ->
       forall s d t, In (s, d, t) (advances (s_trace y)) -> (i < s)%Z).
Proof. exact restart_refuted. Qed.
Print Assumptions C70_restart_refuted.

(** An interval of zero between timed files keeps the clock at zero. *)
Theorem C70_interval_refuted :
  ~ (forall c e ir fl y, 0 < c_tEnd c -> 0 <= c_tOut c -> 0 < c_dt c -> 0 < c_dtMin c -> (0 < c_nStep c)%Z ->
       flowing e -> run c e ir fl = Ok y -> 0 < s_t y).
Proof. exact interval_refuted. Qed.
Print Assumptions C70_interval_refuted.
