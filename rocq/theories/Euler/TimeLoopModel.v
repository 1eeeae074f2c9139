(** The time loop of the flow solver: how far each step goes, when the run
    stops, and which files are written after which step.

    Modelled code:
    - src/Euler/EulerSolver.hxx, lines 1150-1300 (main loop) and 1540-1715
      (choice of the integrator, start values);
    - src/Euler/EulerSolver_Init.hxx, lines 718-1000 ([functor_fmainloop]);
    - src/Euler/EulerSolver.hpp, lines 728-757 ([ReadRestart]);
    - src/Euler/EulerEvaluator.hxx, lines 1113-1119 ([TimeAverageAddition]).

    Times are rational numbers: rounding is not modelled.  What the flow field
    decides (the CFL step, the positivity limits, the state reached) comes in
    through an [env], one record per step.  The flow is one number per step;
    the change between conservative and primitive variables, which the
    averages go through, is left out, and so are the console, the timers, and
    the flow error of the isentropic vortex. *)

From Coq Require Import List ZArith Bool QArith.
From Verif Require Import Base.Prelude.
Import ListNotations.
Local Open Scope Q_scope.

(** [a < b] on doubles. *)
Definition qlt (a b : Q) : bool := negb (Qle_bool b a).

(** [std::min(a, b)] and [std::max(a, b)]. *)
Definition qmin (a b : Q) : Q := if qlt b a then b else a.
Definition qmax (a b : Q) : Q := if qlt a b then b else a.

(** [smallReal], src/DNDS/Defines.hpp. *)
Definition smallReal : Q := 1 # 10000000000.

Local Open Scope Z_scope.
Definition INT_MAX : Z := 2147483647.

(** [next += n] on [int]s: overflow is undefined. *)
Definition addInt (a b : Z) : res Z :=
  if (a + b <=? INT_MAX) && (- INT_MAX - 1 <=? a + b) then Ok (a + b) else UB.
Local Open Scope Q_scope.

(** The fields of [timeMarchControl], [outputControl] and
    [timeAverageControl] that the loop reads: EulerSolver.hpp 116-152,
    205-290, 524-530.  [c_tiny] is [verySmallReal]. *)
Record config := {
  c_dt : Q;            (* dtImplicit *)
  c_dtMin : Q;         (* dtImplicitMin *)
  c_nStep : Z;         (* nTimeStep *)
  c_steady : bool;     (* steadyQuit *)
  c_tEnd : Q;          (* tEnd *)
  c_scale : Q;         (* dtCFLLimitScale *)
  c_ppLimit : bool;    (* useDtPPLimit *)
  c_inc : Q;           (* dtIncreaseLimit *)
  c_incAfter : Z;      (* dtIncreaseAfterCount *)
  c_pp : bool;         (* useImplicitPP *)
  c_ode : Z;           (* odeCode *)
  c_tOut : Q;          (* tDataOut *)
  c_nOut : Z;  c_nOutC : Z;     (* nDataOut, nDataOutC *)
  c_nAvg : Z;  c_nAvgC : Z;     (* nTimeAverageOut, nTimeAverageOutC *)
  c_nRst : Z;  c_nRstC : Z;     (* nRestartOut, nRestartOutC *)
  c_nLog : Z;          (* nConsoleCheck *)
  c_lazy : bool;       (* lazyCoverDataOutput *)
  c_atInit : bool;     (* dataOutAtInit *)
  c_avg : bool;        (* timeAverageControl.enabled *)
  c_tiny : Q           (* verySmallReal *)
}.

(** What the flow field contributes to one step. *)
Record env := {
  e_cfl : Q;           (* curDtMin / CFLNow, from fdtau *)
  e_lim : option Q;    (* minLim, when nLim is not zero *)
  e_vbdf : Q -> Q;     (* LimitDt_StepPPV2: what it makes of the wished step *)
  e_flow : Q           (* the flow at the end of the step *)
}.

(** The kinds of numbered files: data, averages, restarts; the [C] ones carry
    no number and are written over. *)
Inductive kind := Data | DataC | Avg | AvgC | Rst | RstC.

(** What the run does, in order. *)
Inductive event :=
| AtInit (v : Q)                        (* the file "_00000" *)
| Advance (s : Z) (d t : Q)             (* step s: flow advanced by d, time is now t *)
| Log (s : Z) (t : Q)                   (* a line of the log *)
| Out (k : kind) (s : Z) (t v : Q)      (* a numbered file *)
| OutTime (s : Z) (name t v : Q).       (* a file "_t_<name>" *)

(** [RunningEnvironment], EulerSolver.hpp 930-1010. *)
Record st := {
  s_t : Q;                 (* tSimu *)
  s_next : Q;              (* nextTout *)
  s_dt : Q;                (* curDtImplicit *)
  s_hist : list Q;         (* curDtImplicitHistory, newest first *)
  s_count : Z;             (* dtIncreaseCounter *)
  s_out : Z;  s_outC : Z;  (* nextStepOut, nextStepOutC *)
  s_avg : Z;  s_avgC : Z;  (* nextStepOutAverage, nextStepOutAverageC *)
  s_rst : Z;  s_rstC : Z;  (* nextStepRestart, nextStepRestartC *)
  s_w : Q;  s_tAvg : Q;    (* wAveraged, tAverage *)
  s_trace : list event
}.

(** EulerSolver.hxx 1560-1657: [steadyQuit] overrides the scheme and the
    number of steps; the scheme must be known, and the positivity-preserving
    step needs scheme 1 or 102. *)
Definition settle (c : config) : config :=
  if c_steady c then
    {| c_dt := c_dt c; c_dtMin := c_dtMin c; c_nStep := 1; c_steady := true;
       c_tEnd := c_tEnd c; c_scale := c_scale c; c_ppLimit := c_ppLimit c;
       c_inc := c_inc c; c_incAfter := c_incAfter c; c_pp := c_pp c; c_ode := 1;
       c_tOut := c_tOut c; c_nOut := c_nOut c; c_nOutC := c_nOutC c;
       c_nAvg := c_nAvg c; c_nAvgC := c_nAvgC c; c_nRst := c_nRst c;
       c_nRstC := c_nRstC c; c_nLog := c_nLog c; c_lazy := c_lazy c;
       c_atInit := c_atInit c; c_avg := c_avg c; c_tiny := c_tiny c |}
  else c.

Definition known_ode (o : Z) : bool := existsb (Z.eqb o) [0; 101; 1; 103; 102; 2; 401]%Z.

Definition initialize (c : config) : res config :=
  let c := settle c in
  do _ <- assert_ (known_ode (c_ode c));
  do _ <- assert_ (negb (c_pp c) || (c_ode c =? 1)%Z || (c_ode c =? 102)%Z);
  Ok c.

(** EulerSolver.hxx 1690-1715.  [iRestart] is the step stored with the restart
    file, if one was read: [ReadRestart] only fills the flow. *)
Definition start (c : config) (iRestart : option Z) (flow : Q) : st :=
  {| s_t := 0; s_next := qmin (c_tOut c) (c_tEnd c); s_dt := c_dt c; s_hist := [];
     s_count := 0%Z;
     s_out := c_nOut c; s_outC := c_nOutC c; s_avg := c_nAvg c; s_avgC := c_nAvgC c;
     s_rst := c_nRst c; s_rstC := c_nRstC c; s_w := 0; s_tAvg := 0;
     s_trace := if c_atInit c then [AtInit flow] else [] |}.

(** EulerSolver.hxx 1170-1200: the step wished for. *)
Definition wished (c : config) (hist : list Q) (e : env) : Q :=
  let d := qmin (e_cfl e * c_scale c) (c_dt c) in
  let d :=
    if c_ppLimit c then
      let d := match e_lim e with Some m => qmin d (m * d) | None => d end in
      match hist with
      | h :: _ => if qlt (h * c_inc c) d then h * c_inc c else d
      | [] => d
      end
    else d in
  qmax d (c_dtMin c).

(** EulerSolver.hxx 1202-1207: cut (or stretched by a hair) to meet the next
    output time. *)
Definition meet (t next d : Q) : bool * Q :=
  if Qle_bool (next - d * smallReal) (t + d)
  then (true, qmax 0 (next - t))
  else (false, d).

(** EulerSolver.hxx 1209-1262: the positivity-preserving step.  Scheme 1 is
    held as an [ImplicitVBDFDualTimeStep] and cast to the unrelated class
    [ImplicitBDFDualTimeStep]: a null pointer is used. *)
Definition ppstep (c : config) (e : env) (old d : Q) (count : Z) : res (Q * Z) :=
  if negb (c_pp c) then Ok (d, count)
  else if (c_ode c =? 1)%Z then UB
  else if (c_ode c =? 102)%Z then
    let d := e_vbdf e d in
    if qlt old d then
      do count <- addInt count 1;
      if (c_incAfter c <? count)%Z then Ok (qmin (old * c_inc c) d, count)
      else Ok (old, count)
    else Ok (d, 0%Z)
  else Abort.

(** EulerEvaluator.hxx 1113-1119. *)
Definition average (tiny w wAvg d tCur : Q) : Q * Q :=
  (wAvg * (tCur / (tCur + d + tiny)) + w * ((d + tiny) / (tCur + d + tiny)),
   tCur + (d + tiny)).

(** EulerSolver_Init.hxx 855-871 and 872-885 for the data, 886-903 and 904-918
    for the averages, 919-928 and 929-935 for the restarts: the overwritten
    file first, then the numbered one. *)
Definition outputs (kC k : kind) (lazy allowed : bool) (nC n nextC next s : Z) (t v : Q)
  : res (list event * Z * Z) :=
  do a <- (if (s =? nextC)%Z then
             do ev <- (if lazy && (s =? next)%Z then Ok []
                       else do _ <- assert_ allowed; Ok [Out kC s t v]);
             do x <- addInt nextC nC; Ok (ev, x)
           else Ok ([], nextC));
  do b <- (if (s =? next)%Z then
             do _ <- assert_ allowed;
             do x <- addInt next n; Ok ([Out k s t v], x)
           else Ok ([], next));
  Ok (fst a ++ fst b, snd a, snd b).

(** [step % nConsoleCheck == 0], EulerSolver_Init.hxx 749. *)
Definition logs (n s : Z) (t : Q) : res (list event) :=
  if (n =? 0)%Z then UB
  else Ok (if (Z.rem s n =? 0)%Z then [Log s t] else []).

(** One turn of the loop: EulerSolver.hxx 1164-1299 and [functor_fmainloop].
    The result says whether the run is over. *)
Definition turn (c : config) (e : env) (s : Z) (x : st) : res (st * bool) :=
  let old := s_dt x in
  let d := wished c (s_hist x) e in
  do _ <- assert_ (qlt 0 d);
  let '(ifOut, d) := meet (s_t x) (s_next x) d in
  do p <- ppstep c e old d (s_count x);
  let '(d, count) := p in
  let t := if ifOut then s_next x else s_t x + d in
  let '(w, tAvg) :=
    if c_avg c then average (c_tiny c) (e_flow e) (s_w x) d (s_tAvg x)
    else (s_w x, s_tAvg x) in
  do evLog <- logs (c_nLog c) s t;
  do oD <- outputs DataC Data (c_lazy c) true (c_nOutC c) (c_nOut c) (s_outC x) (s_out x) s t (e_flow e);
  do oA <- outputs AvgC Avg (c_lazy c) (c_avg c) (c_nAvgC c) (c_nAvg c) (s_avgC x) (s_avg x) s t w;
  do oR <- outputs RstC Rst (c_lazy c) true (c_nRstC c) (c_nRst c) (s_rstC x) (s_rst x) s t (e_flow e);
  let evT := if ifOut then [OutTime s (s_next x) t (e_flow e)] else [] in
  let next :=
    if ifOut then
      let n := s_next x + c_tOut c in
      if Qle_bool (c_tEnd c) n then c_tEnd c else n
    else s_next x in
  Ok ({| s_t := t; s_next := next; s_dt := d; s_hist := d :: s_hist x; s_count := count;
         s_out := snd oD; s_outC := snd (fst oD);
         s_avg := snd oA; s_avgC := snd (fst oA);
         s_rst := snd oR; s_rstC := snd (fst oR);
         s_w := w; s_tAvg := tAvg;
         s_trace := s_trace x ++ Advance s d t :: evLog
                      ++ fst (fst oD) ++ fst (fst oA) ++ fst (fst oR) ++ evT |},
      Qle_bool (c_tEnd c) t).

(** [for (step = 1; step <= nTimeStep; step++)]: [n] steps are left, [s] is
    the next one. *)
Fixpoint loop (c : config) (e : Z -> env) (n : nat) (s : Z) (x : st) : res st :=
  match n with
  | O => Ok x
  | S n' =>
      do r <- turn c (e s) s x;
      if snd r then Ok (fst r) else loop c e n' (s + 1) (fst r)
  end.

Definition run (c : config) (e : Z -> env) (iRestart : option Z) (flow : Q) : res st :=
  do c <- initialize c;
  loop c e (Z.to_nat (c_nStep c)) 1 (start c iRestart flow).
