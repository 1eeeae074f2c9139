(** The inner iterations of a time step: when they stop, which pseudo-time CFL
    number they use, and what they write.

    Modelled code: src/Euler/EulerSolver_Init.hxx 498-716 ([functor_fstop]),
    src/Euler/EulerSolver.hxx 1171 and the loops around [fstop] in
    src/Solver/ODE.hpp (74-90, 200-252, 344-380, 605-641, 968-1048).

    What the flow decides comes in as functions of the iteration: the norm of
    the density residual and whether the lift driver is at its target.  The
    other residuals only go to the log.  Rounding is not modelled; a CFL number
    that is not a finite number is [None]. *)

From Coq Require Import List ZArith Bool Reals.
From Verif Require Import Base.Prelude.
Import ListNotations.
Local Open Scope Z_scope.

(** EulerSolver.hpp 190, 216-221, 249-253, 271-276 *)
Record settings := {
  nConsole : Z; nData : Z; nDataC : Z; nRestart : Z; nRestartC : Z; lazyCover : bool;
  CFL : R; rampStart : Z; rampLength : Z; rampEnd : R;
  nMax : Z; nMin : Z; threshold : R; useCL : bool }.

(** Defines.hpp 154 *)
Definition verySmall : R := (/ IZR (10 ^ 200))%R.

(** One stage: the residual after each iteration, and the lift driver. *)
Record flow := { residual : Z -> R; atTarget : Z -> bool }.

(** What can be seen from outside: an iteration with its CFL number, a line of
    the log with the CFL number in it, and files. *)
Inductive event :=
| Iterate (iter : Z) (cfl : option R)
| Line (iter : Z) (cfl : option R)
| Data (iter : Z) | DataC (iter : Z) | Restart (iter : Z) | RestartC (iter : Z).

(** [resBaseCInternal(0)], [CFLNow], [iterAll] *)
Record state := { base : R; cflNow : option R; iterAll : Z }.

(** [iter % n == 0] *)
Definition every (iter n : Z) : res bool := if n =? 0 then UB else Ok (Z.rem iter n =? 0).

(** 511-521 *)
Definition largest (iter : Z) (r : R) (b : R) : R := if iter =? 1 then r else Rmax b r.
Definition ifStop (c : settings) (iter : Z) (r b : R) (target : bool) : bool :=
  let rel := (r / (b + verySmall))%R in
  let stop := if Rlt_dec rel (threshold c) then true else false in
  let stop := if useCL c then stop && target else stop in
  if iter <? nMin c then false else stop.

(** 705-708: the logarithm of what is not positive, and 0/0, give no number *)
Definition ramped (c : settings) (iter : Z) : option R :=
  if rampLength c =? 0 then None
  else if Rlt_dec 0 (CFL c) then
    if Rlt_dec 0 (rampEnd c / CFL c) then
      let inter := (IZR (iter - rampStart c) / IZR (rampLength c))%R in
      Some (exp (ln (CFL c) + ln (rampEnd c / CFL c) * inter))
    else None
  else None.

(** 703-709 with the sums in [int] *)
Definition ramp (c : settings) (iter : Z) (now : option R) : res (option R) :=
  if rampStart c <=? iter then
    if in_int32 (rampLength c + rampStart c) then
      if iter <=? rampLength c + rampStart c then
        if in_int32 (iter - rampStart c) then Ok (ramped c iter) else UB
      else Ok now
    else UB
  else Ok now.

Definition when (b : bool) (e : event) : list event := if b then [e] else [].

(** [functor_fstop]: 498-716 *)
Definition fstop (c : settings) (iter : Z) (r : R) (target : bool) (s : state) : res (bool * state * list event) :=
  let b := largest iter r (base s) in
  let stop := ifStop c iter r b target in
  do line <- every iter (nConsole c);
  do data <- every iter (nData c);
  do dataC <- every iter (nDataC c);
  do restart <- every iter (nRestart c);
  do restartC <- every iter (nRestartC c);
  let tr := when (line || (nMax c <? iter) || stop) (Line iter (cflNow s))
            ++ when data (Data iter)
            ++ when (dataC && negb (lazyCover c && data)) (DataC iter)
            ++ when restart (Restart iter)
            ++ when (restartC && negb (lazyCover c && restart)) (RestartC iter) in
  do now <- ramp c iter (cflNow s);
  let now := if stop || (nMax c <? iter) then Some (CFL c) else now in
  Ok (stop, {| base := b; cflNow := now; iterAll := iterAll s + 1 |}, tr).

(** How a scheme drives a stage: whether it calls [fstop] once more when the
    iterations run out (all but the implicit Euler scheme, 74-90), from which
    iteration on it may stop (Hermite, 1043-1045), and whether the stage is only
    evaluated (the first one of ESDIRK, 207-214). *)
Record scheme := { closes : bool; nStart : Z; skips : bool }.

(** [for (; iter <= maxIter; iter++)]; [n] is the number of turns left.  The
    flag tells whether the loop was left by [break]. *)
Fixpoint turns (c : settings) (k : scheme) (f : flow) (n : nat) (iter : Z) (s : state)
  : res (bool * state * list event) :=
  match n with
  | O => Ok (false, s, [])
  | S n =>
      if skips k then Ok (true, s, [])
      else
        do q <- fstop c iter (residual f iter) (atTarget f iter) s;
        let '(stop, s', tr) := q in
        let tr := Iterate iter (cflNow s) :: tr in
        if stop && (nStart k <=? iter) then Ok (true, s', tr)
        else if iter =? int32_max then UB
        else do q <- turns c k f n (iter + 1) s';
             let '(broke, s'', tr') := q in Ok (broke, s'', tr ++ tr')
  end.

(** [if (iter > maxIter) fstop(iter, rhs, ...)]: the residual is the last one. *)
Definition stage (c : settings) (k : scheme) (f : flow) (s : state) : res (state * list event) :=
  do q <- turns c k f (Z.to_nat (nMax c)) 1 s;
  let '(broke, s, tr) := q in
  let iter := Z.max 0 (nMax c) + 1 in
  if broke || negb (closes k) then Ok (s, tr)
  else
    do q <- fstop c iter (residual f (iter - 1)) (atTarget f iter) s;
    let '(_, s, tr') := q in Ok (s, tr ++ tr').

(** The stages of a step, after EulerSolver.hxx 1171. *)
Fixpoint stages (c : settings) (l : list (scheme * flow)) (s : state) : res (state * list (list event)) :=
  match l with
  | [] => Ok (s, [])
  | (k, f) :: l =>
      do q <- stage c k f s;
      do q' <- stages c l (fst q);
      Ok (fst q', snd q :: snd q')
  end.
Definition step (c : settings) (l : list (scheme * flow)) (s : state) : res (state * list (list event)) :=
  stages c l {| base := base s; cflNow := Some (CFL c); iterAll := iterAll s |}.
