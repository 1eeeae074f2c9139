(** Model of src/Solver/ODE.hpp.

    A state (TDATA) is an array of reals; all operations on it act on each entry, so it is
    modelled as a function from positions to reals.  Rounding is not modelled.  The callbacks
    are arbitrary: they get and may change everything passed by reference and a hidden
    environment [E]; dTau has any type [T]. *)
From Coq Require Import List ZArith Reals Bool.
From Verif Require Import Base.Prelude DNDS.DefinesModel.
Import ListNotations.
Local Open Scope R_scope.

Definition D := nat -> R.
Definition setConstant (c : R) : D := fun _ => c.
(** addTo(r, a): this += r * a *)
Definition addTo (x r : D) (a : R) : D := fun i => x i + r i * a.
(** operator*= *)
Definition scale (x : D) (a : R) : D := fun i => x i * a.
(** operator+= *)
Definition plus (x r : D) : D := fun i => x i + r i.

(** ODE.hpp 12-17 *)
Record calls (E T : Type) := {
  frhs : E -> D -> D -> T -> Z -> R -> Z -> E * D * D * T;           (* rhs, x, dTau, iter, ct, uPos *)
  fdt : E -> D -> T -> R -> Z -> E * D * T;                          (* x, dTau, alphaDiag, uPos *)
  fsolve : E -> D -> D -> D -> T -> R -> R -> D -> Z -> R -> Z -> E * D * D * D * T * D;
                              (* x, res, resOther, dTau, dt, alpha, xinc, iter, ct, uPos *)
  fstop : E -> Z -> D -> Z -> E * D * bool;                          (* iter, res, stage *)
  fincrement : E -> D -> D -> R -> Z -> E * D * D                    (* x, xinc, alpha, uPos *)
}.
Arguments frhs {E T}. Arguments fdt {E T}. Arguments fsolve {E T}. Arguments fstop {E T}. Arguments fincrement {E T}.

(** The arguments x and xinc of a multistep step and the members of the stepper that its
    inner loop changes; r_rhsbuf is rhsbuf[0], the only entry. *)
Record regs (E T : Type) := {
  r_env : E; r_x : D; r_xinc : D; r_dTau : T;
  r_rhsbuf : D; r_rhs : D; r_resOther : D; r_xIncPrev : D
}.
Arguments r_env {E T}. Arguments r_x {E T}. Arguments r_xinc {E T}. Arguments r_dTau {E T}.
Arguments r_rhsbuf {E T}. Arguments r_rhs {E T}. Arguments r_resOther {E T}. Arguments r_xIncPrev {E T}.

(** for (iter = 1; iter <= maxIter; iter++) with a break; the value of iter afterwards *)
Fixpoint loop {L} (body : Z -> L -> res (L * bool)) (fuel : nat) (iter : Z) (l : L) : res (L * Z) :=
  match fuel with
  | O => Ok (l, iter)
  | S n => do lb <- body iter l;
           if snd lb : bool then Ok (fst lb, iter) else loop body n (iter + 1)%Z (fst lb)
  end.

(** ** The multistep formulas: 274-500 and 502-800 *)

Record bdf := {
  xPrevs : list D; dtPrevs : list R; xLast : D;
  cnPrev : Z; prevStart : Z; kBDF : Z
}.

(** 308-327: the constructor; [xi] and [di]: what [finit] and Eigen leave in the vectors *)
Definition bdf_init (k : Z) (xi : nat -> D) (di : nat -> R) (x0 : D) : res bdf :=
  do _ <- assert_ ((0 <? k)%Z && (k <=? 4)%Z);
  Ok {| xPrevs := map xi (seq 0 (Z.to_nat (k - 1))); dtPrevs := map di (seq 0 (Z.to_nat (k - 1)));
        xLast := x0; cnPrev := 0; prevStart := k - 2; kBDF := k |}.

(** 495-500: the coefficients; [None] stands for the NaN entries *)
Definition BDFCoefs : list (list (option R)) :=
  [[Some (1 / 1); Some (1 / 1); None; None; None];
   [Some (2 / 3); Some (4 / 3); Some (-1 / 3); None; None];
   [Some (6 / 11); Some (18 / 11); Some (-9 / 11); Some (2 / 11); None];
   [Some (12 / 25); Some (48 / 25); Some (-36 / 25); Some (16 / 25); Some (-3 / 25)]].

(** A coefficient of the row of the current order.  Reading a NaN is counted as undefined
    behaviour, so that no theorem holds because of it. *)
Definition coef (row : list (option R)) (j : Z) : res R :=
  do c <- vget row j; match c with Some c => Ok c | None => UB end.

(** xPrevs[mod(iPrev + prevStart, prevSiz)] *)
Definition prev_at {A} (st : bdf) (l : list A) (iPrev : Z) : res A :=
  do p <- cmod (iPrev + prevStart st)%Z (kBDF st - 1)%Z; vget l p.

(** 0 .. cnPrev-1 *)
Definition prev_range (st : bdf) : list Z := map Z.of_nat (seq 0 (Z.to_nat (cnPrev st))).

(** 353-362: the part of the residual made of old states *)
Definition old_part (st : bdf) (row : list (option R)) (xL : D) (dt : R) : res D :=
  do c1 <- coef row 1;
  let rhs := addTo (setConstant 0) xL (c1 / dt) in
  if (kBDF st - 1 =? 0)%Z then Ok rhs
  else foldM (fun rhs iPrev =>
           do xp <- prev_at st (xPrevs st) iPrev;
           do c <- coef row (2 + iPrev);
           Ok (addTo rhs xp (c / dt))) rhs (prev_range st).

Section Steps.
Context {E T : Type}.
Variable C : calls E T.

(** 348-381, and 607-639 with the coefficients of the variable step: one inner iteration *)
Definition bdf_body (st : bdf) (row : list (option R)) (xL : D) (dt : R) (iter : Z) (l : regs E T)
  : res (regs E T * bool) :=
  do c0 <- coef row 0;
  let '(e1, x1, t1) := fdt C (r_env l) (r_x l) (r_dTau l) c0 0%Z in
  let '(e2, f, x2, t2) := frhs C e1 (r_rhsbuf l) x1 t1 iter 1 0%Z in
  do rhs0 <- old_part st row xL dt;
  let rhs := addTo (addTo rhs0 x2 (-1 / dt)) f c0 in
  let '(e3, x3, rhs', resOther', t3, xinc3) := fsolve C e2 x2 rhs rhs0 t2 dt c0 (r_xinc l) iter 1 0%Z in
  let '(e4, x4, xinc4) := fincrement C e3 x3 xinc3 1 0%Z in
  let '(e5, rhs'', stop) := fstop C e4 iter rhs' 1%Z in
  Ok ({| r_env := e5; r_x := x4; r_xinc := xinc4; r_dTau := t3; r_rhsbuf := f; r_rhs := rhs'';
         r_resOther := resOther'; r_xIncPrev := xinc4 |}, stop).

(** 383-384 *)
Definition last_stop (maxIter : Z) (li : regs E T * Z) : regs E T :=
  let (l, iter) := li in
  if (maxIter <? iter)%Z then
    let '(e, rhs, _) := fstop C (r_env l) iter (r_rhs l) 1%Z in
    {| r_env := e; r_x := r_x l; r_xinc := r_xinc l; r_dTau := r_dTau l; r_rhsbuf := r_rhsbuf l;
       r_rhs := rhs; r_resOther := r_resOther l; r_xIncPrev := r_xIncPrev l |}
  else l.

(** 385-392: the oldest state gives way to the one this step started from *)
Definition bdf_push (st : bdf) (xL : D) (dt : R) : res bdf :=
  let prevSiz := (kBDF st - 1)%Z in
  if (prevSiz =? 0)%Z then
    Ok {| xPrevs := xPrevs st; dtPrevs := dtPrevs st; xLast := xL; cnPrev := cnPrev st;
          prevStart := prevStart st; kBDF := kBDF st |}
  else
    do ps <- cmod (prevStart st - 1)%Z prevSiz;
    do xs <- vset (xPrevs st) ps xL;
    do dts <- vset (dtPrevs st) ps dt;
    Ok {| xPrevs := xs; dtPrevs := dts; xLast := xL; cnPrev := Z.min (cnPrev st + 1) prevSiz;
          prevStart := ps; kBDF := kBDF st |}.

Definition start (l : regs E T) : regs E T :=
  {| r_env := r_env l; r_x := r_x l; r_xinc := r_xinc l; r_dTau := r_dTau l; r_rhsbuf := r_rhsbuf l;
     r_rhs := r_rhs l; r_resOther := r_resOther l; r_xIncPrev := setConstant 0 |}.

(** 340-341: the steps kept must have had the same size *)
Definition same_dt (st : bdf) (dt : R) : res unit :=
  foldM (fun _ iPrev =>
      do _ <- assert_ (negb (kBDF st - 1 =? 0)%Z);
      do d <- prev_at st (dtPrevs st) iPrev;
      if Rlt_dec (Rabs (d - dt)) (dt * (1 / 100000000)) then Ok tt else Abort) tt (prev_range st).

(** 335-393 ImplicitBDFDualTimeStep::Step *)
Definition BDF_Step (st : bdf) (l : regs E T) (maxIter : Z) (dt : R) : res (bdf * regs E T) :=
  do _ <- same_dt st dt;
  let xL := r_x l in
  do row <- vget BDFCoefs (cnPrev st);
  do li <- loop (bdf_body st row xL dt) (Z.to_nat maxIter) 1 (start l);
  do st' <- bdf_push st xL dt;
  Ok (st', last_stop maxIter li).

(** 563-590 VBDFFrontMatters *)
Definition VBDFCoefs (st : bdf) (dt : R) : res (list (option R)) :=
  if (cnPrev st + 1 =? 1)%Z then Ok [Some 1; Some 1]
  else if (cnPrev st + 1 =? 2)%Z then
    do d <- prev_at st (dtPrevs st) 0;
    let phi := dt / (d + dt) in
    let Rt := dt / d in
    Ok [Some (1 / (1 + phi)); Some (1 + Rt * phi / (1 + phi)); Some (- Rt * phi / (1 + phi))]
  else Abort.

(** 540-561: the constructor *)
Definition vbdf_init (k : Z) (xi : nat -> D) (di : nat -> R) (x0 : D) : res bdf :=
  do st <- bdf_init k xi di x0;
  do _ <- assert_ (k <=? 2)%Z;
  Ok st.

(** 599-650 ImplicitVBDFDualTimeStep::Step *)
Definition VBDF_Step (st : bdf) (l : regs E T) (maxIter : Z) (dt : R) : res (bdf * regs E T) :=
  do row <- VBDFCoefs st dt;
  let xL := r_x l in
  do li <- loop (bdf_body st row xL dt) (Z.to_nat maxIter) 1 (start l);
  do st' <- bdf_push st xL dt;
  Ok (st', last_stop maxIter li).

(** ** Steps with limited increments

    395-411, 652-664: the limiters.  [falphaLimSource] gets a source; [fresidualIncPP] gets
    x, xPrev, the right-hand side, the buffer of the increment and the function that renews
    this buffer, which looks at xPrev and the right-hand side. *)
Record limiters := {
  falphaLimSource : E -> D -> Z -> E * D;
  fresidualIncPP : E -> D -> D -> D -> D -> (E -> D -> D -> E * D) -> R -> Z -> E * D * D * D * D
}.
Variable Lm : limiters.

(** 429-440 and 447-455: old states without 1/dt times the last state *)
Definition old_part_PP (st : bdf) (row : list (option R)) (xL : D) (dt : R) : res D :=
  do c1 <- coef row 1;
  let rhs := addTo (setConstant 0) xL ((c1 - 1) / dt) in
  if (kBDF st - 1 =? 0)%Z then Ok rhs
  else foldM (fun rhs iPrev =>
           do xp <- prev_at st (xPrevs st) iPrev;
           do c <- coef row (2 + iPrev);
           Ok (addTo rhs xp (c / dt))) rhs (prev_range st).

(** The loop state of StepPP: also xLast, which is passed on by reference, and resInc. *)
Definition pregs : Type := (regs E T * D * D)%type.

(** 420-472.  The renewing function cannot fail where the rest does not: its reads are those
    of [old_part_PP]. *)
Definition bdf_body_PP (st : bdf) (row : list (option R)) (dt : R) (iter : Z) (s : pregs)
  : res (pregs * bool) :=
  let '(l, xL, resInc) := s in
  do c0 <- coef row 0;
  let '(e1, x1, t1) := fdt C (r_env l) (r_x l) (r_dTau l) c0 0%Z in
  let '(e2, f, x2, t2) := frhs C e1 (r_rhsbuf l) x1 t1 iter 1 0%Z in
  do _ <- old_part_PP st row xL dt;
  let renew := fun e xL f =>
    match old_part_PP st row xL dt with
    | Ok r => let (e', r') := falphaLimSource Lm e r 0%Z in (e', scale (addTo r' f c0) dt)
    | _ => (e, setConstant 0)
    end in
  let '(e3, x3, xL3, f3, resInc3) := fresidualIncPP Lm e2 x2 xL f resInc renew 1 0%Z in
  do rhs0 <- old_part_PP st row xL3 dt;
  let (e4, rhs1) := falphaLimSource Lm e3 rhs0 0%Z in
  let resOther := addTo rhs1 xL3 (1 / dt) in
  let rhs2 := addTo resOther x3 (-1 / dt) in
  let rhs := addTo rhs2 rhs2 c0 in              (* 459: rhs.addTo(rhs, ...) *)
  let '(e5, x5, rhs', resOther', t5, xinc5) := fsolve C e4 x3 rhs resOther t2 dt c0 (r_xinc l) iter 1 0%Z in
  let '(e6, x6, xinc6) := fincrement C e5 x5 xinc5 1 0%Z in
  let '(e7, rhs'', stop) := fstop C e6 iter rhs' 1%Z in
  Ok (({| r_env := e7; r_x := x6; r_xinc := xinc6; r_dTau := t5; r_rhsbuf := f3; r_rhs := rhs'';
          r_resOther := resOther'; r_xIncPrev := xinc6 |}, xL3, resInc3), stop).

(** 405-485 ImplicitBDFDualTimeStep::StepPP *)
Definition BDF_StepPP (st : bdf) (l : regs E T) (resInc : D) (maxIter : Z) (dt : R)
  : res (bdf * regs E T) :=
  do _ <- same_dt st dt;
  do row <- vget BDFCoefs (cnPrev st);
  do li <- loop (bdf_body_PP st row dt) (Z.to_nat maxIter) 1 (start l, r_x l, resInc);
  let '(l', xL, _) := fst li in
  do st' <- bdf_push st xL dt;
  Ok (st', last_stop maxIter (l', snd li)).

(** 722-772.  The right-hand side is written to rhs (728), while rhsbuf[0] is used. *)
Definition vbdf_body_PP (st : bdf) (row : list (option R)) (xL : D) (dt : R) (iter : Z) (s : regs E T * D)
  : res ((regs E T * D) * bool) :=
  let (l, resInc) := s in
  do c0 <- coef row 0;
  let '(e1, x1, t1) := fdt C (r_env l) (r_x l) (r_dTau l) c0 0%Z in
  let '(e2, _, x2, t2) := frhs C e1 (r_rhs l) x1 t1 iter 1 0%Z in
  do xBase <- old_part st row xL dt;
  let renew := fun (e : E) (_ : D) (f : D) => (e, scale (addTo (setConstant 0) f c0) dt) in
  let '(e3, x3, xBase3, f3, resInc3) := fresidualIncPP Lm e2 x2 xBase (r_rhsbuf l) resInc renew 1 0%Z in
  let rhs := addTo (addTo xBase3 x3 (-1 / dt)) f3 c0 in
  let '(e5, x5, rhs', resOther', t5, xinc5) := fsolve C e3 x3 rhs xBase3 t2 dt c0 (r_xinc l) iter 1 0%Z in
  let '(e6, x6, xinc6) := fincrement C e5 x5 xinc5 1 0%Z in
  let '(e7, rhs'', stop) := fstop C e6 iter rhs' 1%Z in
  Ok (({| r_env := e7; r_x := x6; r_xinc := xinc6; r_dTau := t5; r_rhsbuf := f3; r_rhs := rhs'';
          r_resOther := resOther'; r_xIncPrev := xinc6 |}, resInc3), stop).

(** 713-792 ImplicitVBDFDualTimeStep::StepPP *)
Definition VBDF_StepPP (st : bdf) (l : regs E T) (resInc : D) (maxIter : Z) (dt : R)
  : res (bdf * regs E T) :=
  do row <- VBDFCoefs st dt;
  let xL := r_x l in
  do li <- loop (vbdf_body_PP st row xL dt) (Z.to_nat maxIter) 1 (start l, resInc);
  do st' <- bdf_push st xL dt;
  Ok (st', last_stop maxIter (fst (fst li), snd li)).

(** Any sequence of steps; between two steps the caller may change everything it can reach. *)
Definition steps (step : bdf -> regs E T -> Z -> R -> res (bdf * regs E T)) (st : bdf) (l : regs E T)
  (todo : list ((regs E T -> regs E T) * Z * R)) : res (bdf * regs E T) :=
  foldM (fun sl t => step (fst sl) (fst (fst t) (snd sl)) (snd (fst t)) (snd t)) (st, l) todo.
End Steps.
Arguments falphaLimSource {E}. Arguments fresidualIncPP {E}.
