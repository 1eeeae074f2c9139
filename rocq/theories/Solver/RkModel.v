(** Model of the one-step steppers of src/Solver/ODE.hpp.

    States and callbacks are those of [OdeModel]. *)
From Coq Require Import List ZArith Reals Bool.
From Verif Require Import Base.Prelude Solver.ScalarModel Solver.OdeModel.
Import ListNotations.
Local Open Scope R_scope.

Section Rk.
Context {E T : Type}.

(** The arguments x and xinc of a step, the callbacks' hidden state and the members of the
    steppers.  k_has: hasLastEndPointR; k_latest: latestStage *)
Record rk := {
  k_env : E; k_x : D; k_xinc : D; k_dTau : T;
  k_buf : list D; k_rhs : D; k_resOther : D; k_xIncPrev : D; k_has : bool; k_latest : Z
}.

Definition set_x (s : rk) (x : D) : rk :=
  {| k_env := k_env s; k_x := x; k_xinc := k_xinc s; k_dTau := k_dTau s; k_buf := k_buf s; k_rhs := k_rhs s;
     k_resOther := k_resOther s; k_xIncPrev := k_xIncPrev s; k_has := k_has s; k_latest := k_latest s |}.

Variable C : calls E T.

(** ** 26-99 ImplicitEulerDualTimeStep *)

(** 72-90: one inner iteration *)
Definition euler_body (xL : D) (dt : R) (iter : Z) (s : rk) : res (rk * bool) :=
  let '(e1, x1, t1) := fdt C (k_env s) (k_x s) (k_dTau s) 1 0%Z in
  do b <- vget (k_buf s) 0;
  let '(e2, f, x2, t2) := frhs C e1 b x1 t1 iter 1 0%Z in
  do buf <- vset (k_buf s) 0 f;
  let resOther := scale xL (1 / dt) in
  let rhs := plus (addTo resOther x2 (-1 / dt)) f in
  let '(e3, x3, rhs', resOther', t3, xinc3) := fsolve C e2 x2 rhs resOther t2 dt 1 (k_xinc s) iter 1 0%Z in
  let '(e4, x4, xinc4) := fincrement C e3 x3 xinc3 1 0%Z in
  let '(e5, rhs'', stop) := fstop C e4 iter rhs' 1%Z in
  Ok ({| k_env := e5; k_x := x4; k_xinc := xinc4; k_dTau := t3; k_buf := buf; k_rhs := rhs'';
         k_resOther := resOther'; k_xIncPrev := k_xIncPrev s; k_has := k_has s; k_latest := k_latest s |}, stop).

(** 68-91 *)
Definition Euler_Step (s : rk) (maxIter : Z) (dt : R) : res rk :=
  do si <- loop (euler_body (k_x s) dt) (Z.to_nat maxIter) 1 s; Ok (fst si).

(** ** 101-272 ImplicitSDIRK4DualTimeStep *)

Record tableau := { bA : list (list R); bB : list R; bC : list R; nStage : nat; schemeC : Z }.

(** 140-157, for any zeta *)
Definition sdirk_tableau (z : R) : tableau :=
  {| bA := [[z; 0; 0]; [1 / 2 - z; z; 0]; [2 * z; 1 - 4 * z; z]];
     bC := [z; 1 / 2; 1 - z];
     bB := [1 / (6 * ((2 * z - 1) * (2 * z - 1)));
            (4 * (z * z) - 4 * z + 2 / 3) / ((2 * z - 1) * (2 * z - 1));
            1 / (6 * ((2 * z - 1) * (2 * z - 1)))];
     nStage := 3; schemeC := 0 |}.
(** 142 *)
Definition zeta : R := 128886400515 / 1000000000000.

(** 159-174; the decimal literals as fractions *)
Definition esdirk_tableau : tableau :=
  let last := [1579162951616714 / 10000000000000000; 0; 1867589405240008 / 10000000000000000;
               6805652953093346 / 10000000000000000; -2752405309950067 / 10000000000000000; 1 / 4] in
  {| bA := [[verySmallReal; 0; 0; 0; 0; 0];
            [1 / 4; 1 / 4; 0; 0; 0; 0];
            [137776 / 1000000; -55776 / 1000000; 1 / 4; 0; 0; 0];
            [1446368660269822 / 10000000000000000; -2239319076133447 / 10000000000000000;
             4492950415863626 / 10000000000000000; 1 / 4; 0; 0];
            [9825878328356477 / 100000000000000000; -5915442428196704 / 10000000000000000;
             8101210205756877 / 10000000000000000; 283164405707806 / 1000000000000000; 1 / 4; 0];
            last];
     bB := last;
     bC := [0; 1 / 2; 332 / 1000; 62 / 100; 849999966747388 / 1000000000000000; 1];
     nStage := 6; schemeC := 1 |}.

(** 136-180: the constructor's choice *)
Definition tableau_of (schemeCode : Z) : res tableau :=
  if (schemeCode =? 0)%Z then Ok (sdirk_tableau zeta)
  else if (schemeCode =? 1)%Z then Ok esdirk_tableau
  else Abort.

(** butcherA(i, j); outside the matrix undefined *)
Definition at_A (tb : tableau) (i j : nat) : res R := do r <- vget (bA tb) (Z.of_nat i); vget r (Z.of_nat j).

(** 235-237: the part of the residual made of the earlier stages *)
Definition earlier (tb : tableau) (buf : list D) (iB : nat) (r : D) : res D :=
  foldM (fun r jB => do b <- vget buf (Z.of_nat jB); do a <- at_A tb iB jB; Ok (addTo r b a)) r (seq 0 iB).

Definition INT_MAX : Z := 2147483647.

(** 204-258: one inner iteration of stage iB *)
Definition stage_body (tb : tableau) (xL : D) (dt : R) (iB : nat) (iter : Z) (s : rk) : res (rk * bool) :=
  let first := (schemeC tb =? 1)%Z && (Nat.eqb iB 0) in
  if first then
    if k_has s then
      do b <- vget (k_buf s) (Z.of_nat (nStage tb) - 1);
      do buf <- vset (k_buf s) 0 b;
      Ok ({| k_env := k_env s; k_x := k_x s; k_xinc := k_xinc s; k_dTau := k_dTau s; k_buf := buf;
             k_rhs := k_rhs s; k_resOther := k_resOther s; k_xIncPrev := k_xIncPrev s;
             k_has := k_has s; k_latest := k_latest s |}, true)
    else
      do c <- vget (bC tb) 0;
      do b <- vget (k_buf s) 0;
      let '(e, f, x, t) := frhs C (k_env s) b (k_x s) (k_dTau s) INT_MAX c 0%Z in
      do buf <- vset (k_buf s) 0 f;
      Ok ({| k_env := e; k_x := x; k_xinc := k_xinc s; k_dTau := t; k_buf := buf;
             k_rhs := k_rhs s; k_resOther := k_resOther s; k_xIncPrev := k_xIncPrev s;
             k_has := k_has s; k_latest := 0 |}, true)
  else
    do d <- at_A tb iB iB;
    do c <- vget (bC tb) (Z.of_nat iB);
    let '(e1, x1, t1) := fdt C (k_env s) (k_x s) (k_dTau s) d 0%Z in
    do b <- vget (k_buf s) (Z.of_nat iB);
    let '(e2, f, x2, t2) := frhs C e1 b x1 t1 iter c 0%Z in
    do buf <- vset (k_buf s) (Z.of_nat iB) f;
    do resOther <- earlier tb buf iB (scale xL (1 / dt));
    let rhs := addTo (addTo resOther x2 (-1 / dt)) f d in
    let '(e3, x3, rhs', resOther', t3, xinc3) := fsolve C e2 x2 rhs resOther t2 dt d (k_xinc s) iter c 0%Z in
    let '(e4, x4, xinc4) := fincrement C e3 x3 xinc3 1 0%Z in
    let '(e5, rhs'', stop) := fstop C e4 iter rhs' (Z.of_nat iB + 1)%Z in
    Ok ({| k_env := e5; k_x := x4; k_xinc := xinc4; k_dTau := t3; k_buf := buf; k_rhs := rhs'';
           k_resOther := resOther'; k_xIncPrev := xinc4; k_has := k_has s; k_latest := Z.of_nat iB |},
        stop || first).

(** 199-261: a stage *)
Definition stage (tb : tableau) (xL : D) (dt : R) (maxIter : Z) (s : rk) (iB : nat) : res rk :=
  let s0 := {| k_env := k_env s; k_x := xL; k_xinc := k_xinc s; k_dTau := k_dTau s; k_buf := k_buf s;
               k_rhs := k_rhs s; k_resOther := k_resOther s; k_xIncPrev := setConstant 0;
               k_has := k_has s; k_latest := k_latest s |} in
  do si <- loop (stage_body tb xL dt iB) (Z.to_nat maxIter) 1 s0;
  let (s1, iter) := si in
  if (maxIter <? iter)%Z then
    let '(e, rhs, _) := fstop C (k_env s1) iter (k_rhs s1) (Z.of_nat iB + 1)%Z in
    Ok {| k_env := e; k_x := k_x s1; k_xinc := k_xinc s1; k_dTau := k_dTau s1; k_buf := k_buf s1;
          k_rhs := rhs; k_resOther := k_resOther s1; k_xIncPrev := k_xIncPrev s1;
          k_has := k_has s1; k_latest := k_latest s1 |}
  else Ok s1.

(** 196-273 ImplicitSDIRK4DualTimeStep::Step *)
Definition SDIRK_Step (tb : tableau) (s : rk) (maxIter : Z) (dt : R) : res rk :=
  let xL := k_x s in
  do s1 <- foldM (stage tb xL dt maxIter) s (seq 0 (nStage tb));
  if (schemeC tb =? 1)%Z then
    Ok {| k_env := k_env s1; k_x := k_x s1; k_xinc := k_xinc s1; k_dTau := k_dTau s1; k_buf := k_buf s1;
          k_rhs := k_rhs s1; k_resOther := k_resOther s1; k_xIncPrev := k_xIncPrev s1;
          k_has := true; k_latest := k_latest s1 |}
  else
    do x <- foldM (fun x jB => do f <- vget (k_buf s1) (Z.of_nat jB);
                               do b <- vget (bB tb) (Z.of_nat jB);
                               Ok (addTo x f (b * dt))) xL (seq 0 (nStage tb));
    Ok (set_x s1 x).

(** ** 1179-1265 ExplicitSSPRK3TimeStepAsImplicitDualTimeStep

    [mulT]: the product with dTau of the local step sizes; k_rhs is the member rhs *)
Definition SSPRK3_Step (mulT : D -> T -> D) (localDtStepping : bool) (s : rk) (dt : R) : res rk :=
  let step_by := fun r t => if localDtStepping then mulT r t else scale r dt in
  let '(e0, x0, t0) := fdt C (k_env s) (k_x s) (k_dTau s) 1 0%Z in
  let xL := x0 in
  let '(e1, r1, x1, t1) := frhs C e0 (k_rhs s) x0 t0 1%Z (1 / 2) 0%Z in
  do buf1 <- vset (k_buf s) 0 r1;
  let '(e2, x2, r2) := fincrement C e1 x1 (step_by r1 t1) 1 0%Z in
  let '(e3, r3, x3, t3) := frhs C e2 r2 x2 t1 1%Z 1 0%Z in
  do buf2 <- vset buf1 1 r3;
  let '(e4, x4, r4) := fincrement C e3 (addTo (scale x3 (1 / 4)) xL (3 / 4)) (step_by r3 t3) (1 / 4) 0%Z in
  let '(e5, r5, x5, t5) := frhs C e4 r4 x4 t3 1%Z (1 / 4) 0%Z in
  do buf3 <- vset buf2 2 r5;
  let '(e6, x6, r6) := fincrement C e5 (addTo (scale x5 (2 / 3)) xL (1 / 3)) (step_by r5 t5) (2 / 3) 0%Z in
  Ok {| k_env := e6; k_x := x6; k_xinc := k_xinc s; k_dTau := t5; k_buf := buf3; k_rhs := r6;
        k_resOther := k_resOther s; k_xIncPrev := k_xIncPrev s; k_has := k_has s; k_latest := k_latest s |}.
End Rk.
Arguments rk : clear implicits.

(** ** 808-1057 ImplicitHermite3SimpleJacobianDualStep *)

(** What the constructor is given *)
Record hconf := { alphaHM3 : R; maskHM3 : Z; thetaM1 : R; curSolveMethod : Z; nStartIter : Z }.

(** cInter, wInteg and maskHM3Exe *)
Record hcoef := { cI0 : R; cI1 : R; cI2 : R; cI3 : R; w0 : R; w1 : R; w2 : R; maskExe : Z }.

(** 934-936 *)
Definition hweights (alpha : R) : R * R * R :=
  ((-1 / 6) / alpha + 1 / 2, (-1 / 6) / (alpha * (alpha - 1)), 1 / (alpha * 6 - 6) + 1 / 2).

(** 881-937 SetCoefs *)
Definition SetCoefs (cf : hconf) (prevSize : Z) (hR1 : R) : res hcoef :=
  let a := alphaHM3 cf in
  if Rlt_dec 0 a then if Rlt_dec a 1 then
    let mk := fun al c0 c1 c2 c3 ex => let '(u, v, w) := hweights al in
        Ok {| cI0 := c0; cI1 := c1; cI2 := c2; cI3 := c3; w0 := u; w1 := v; w2 := w; maskExe := ex |} in
    if (maskHM3 cf =? 0)%Z then
      mk a ((a * a) * -3 + (a * a * a) * 2 + 1) ((a * a) * 3 - (a * a * a) * 2)
           (a - (a * a) * 2 + a * a * a) (- a * a + a * a * a) 0%Z
    else if (maskHM3 cf =? 1)%Z then
      mk a (a * -2 + a * a + 1) (a * 2 - a * a) 0 (- a + a * a) 1%Z
    else if (maskHM3 cf =? 2)%Z then
      let other :=
        let al := 1 / 4 in mk al (al * -2 + al * al + 1) (al * 2 - al * al) 0 (- al + al * al) 1%Z in
      if (prevSize =? 1)%Z then
        if Rlt_dec hR1 100 then if Rlt_dec (1 / 100) hR1 then
          mk a (((a + hR1) * (a - 1) ^ 2) / hR1)
               (a * 1 / (hR1 + 1) ^ 2 * (a * 3 + hR1 * 3 - a * (hR1 * hR1) - (a * a) * hR1 - (a * a) * 2 + (hR1 * hR1) * 2))
               (- (a * (a - 1) ^ 2 * 1 / (hR1 + 1) ^ 2) / hR1)
               ((a * (a + hR1) * (a - 1)) / (hR1 + 1)) 2%Z
        else other else other
      else other
    else Abort
  else Abort else Abort.

Section Hermite.
Context {E T : Type}.
Variable C : calls E T.

(** hb0, hb1, hb2 are rhsbuf *)
Record hm := {
  h_env : E; h_x : D; h_xinc : D; h_dTau : T; h_xMid : D; h_rhsMid : D; h_rhsFull : D; h_resOther : D;
  hb0 : D; hb1 : D; hb2 : D; h_xLast : D; h_xIncPrev : D; h_has : bool;
  h_xPrev : D; h_dtPrev : R; h_prevSize : Z
}.

(** 974-1040: one inner iteration *)
Definition hermite_body (cf : hconf) (co : hcoef) (dt : R) (iter : Z) (s : hm) : res (hm * bool) :=
  let fin := fun s xinc =>
    let '(e, r, stop) := fstop C (h_env s) iter (if (curSolveMethod cf =? 0)%Z then h_rhsMid s else h_rhsFull s) 1%Z in
    Ok ({| h_env := e; h_x := h_x s; h_xinc := xinc; h_dTau := h_dTau s; h_xMid := h_xMid s;
           h_rhsMid := if (curSolveMethod cf =? 0)%Z then r else h_rhsMid s;
           h_rhsFull := if (curSolveMethod cf =? 0)%Z then h_rhsFull s else r;
           h_resOther := h_resOther s; hb0 := hb0 s; hb1 := hb1 s; hb2 := hb2 s; h_xLast := h_xLast s;
           h_xIncPrev := xinc; h_has := h_has s; h_xPrev := h_xPrev s; h_dtPrev := h_dtPrev s;
           h_prevSize := h_prevSize s |}, stop && (nStartIter cf <=? iter)%Z) in
  let xL := h_xLast s in
  if (iter <? nStartIter cf)%Z then
    (* 978-988: x is not incremented *)
    let '(e1, x1, t1) := fdt C (h_env s) (h_x s) (h_dTau s) 1 0%Z in
    let '(e2, f, x2, t2) := frhs C e1 (hb1 s) x1 t1 iter 1 0%Z in
    let ro := scale xL (1 / dt) in
    let rf := plus (addTo ro x2 (-1 / dt)) f in
    let '(e3, x3, rf', ro', t3, xinc3) := fsolve C e2 x2 rf ro t2 dt 1 (h_xinc s) iter 1 0%Z in
    fin {| h_env := e3; h_x := x3; h_xinc := xinc3; h_dTau := t3; h_xMid := h_xMid s; h_rhsMid := h_rhsMid s;
           h_rhsFull := rf'; h_resOther := ro'; hb0 := hb0 s; hb1 := f; hb2 := hb2 s; h_xLast := xL;
           h_xIncPrev := h_xIncPrev s; h_has := h_has s; h_xPrev := h_xPrev s; h_dtPrev := h_dtPrev s;
           h_prevSize := h_prevSize s |} xinc3
  else if (curSolveMethod cf =? 0)%Z then
    let three := (1 <=? h_prevSize s)%Z && (maskHM3 cf =? 2)%Z in
    let th := if negb three && (maskExe co =? 1)%Z && (maskHM3 cf =? 2)%Z then 1 else thetaM1 cf in
    let r1 := addTo (addTo (setConstant 0) xL ((cI0 co + th) / dt)) (h_x s) ((cI1 co - th) / dt) in
    let r2 := if three then addTo (addTo r1 (h_xPrev s) (cI2 co / dt)) (hb0 s) (0 + th * w0 co)
              else addTo r1 (hb0 s) (cI2 co + th * w0 co) in
    let ro := addTo r2 (hb1 s) (cI3 co + th * w2 co) in
    let rm := addTo (addTo ro (h_xMid s) (-1 / dt)) (hb2 s) (th * w1 co) in
    let '(e1, xm1, t1) := fdt C (h_env s) (h_xMid s) (h_dTau s) 1 1%Z in
    let '(e2, xm2, rm', ro', t2, xinc2) :=
      fsolve C e1 xm1 rm ro t1 dt (Rabs (th * w1 co)) (h_xinc s) iter (alphaHM3 cf) 1%Z in
    let '(e3, xm3, xinc3) := fincrement C e2 xm2 xinc2 1 1%Z in
    let '(e4, f2, xm4, t4) := frhs C e3 (hb2 s) xm3 t2 iter (alphaHM3 cf) 1%Z in
    let rof := addTo (addTo (addTo (setConstant 0) xL (1 / dt)) (hb0 s) (w0 co)) f2 (w1 co) in
    let rf := addTo (addTo rof (h_x s) (-1 / dt)) (hb1 s) (w2 co) in
    let '(e5, x5, t5) := fdt C e4 (h_x s) t4 1 0%Z in
    let '(e6, x6, rf', ro'', t6, xinc6) := fsolve C e5 x5 rf rof t5 dt (w2 co) xinc3 iter 1 0%Z in
    let '(e7, x7, xinc7) := fincrement C e6 x6 xinc6 1 0%Z in
    let '(e8, f1, x8, t8) := frhs C e7 (hb1 s) x7 t6 iter 1 0%Z in
    fin {| h_env := e8; h_x := x8; h_xinc := xinc7; h_dTau := t8; h_xMid := xm4; h_rhsMid := rm';
           h_rhsFull := rf'; h_resOther := ro''; hb0 := hb0 s; hb1 := f1; hb2 := f2; h_xLast := xL;
           h_xIncPrev := h_xIncPrev s; h_has := h_has s; h_xPrev := h_xPrev s; h_dtPrev := h_dtPrev s;
           h_prevSize := h_prevSize s |} xinc7
  else Abort.

(** 945-1057 Step *)
Definition Hermite_Step (cf : hconf) (s : hm) (maxIter : Z) (dt : R) : res hm :=
  do co <- SetCoefs cf (h_prevSize s) (h_dtPrev s / (dt + verySmallReal));
  let '(e1, xL1, t1) := fdt C (h_env s) (h_x s) (h_dTau s) 1 0%Z in
  let '(e2, f0, xL2, t2) :=
    if h_has s then (e1, hb1 s, xL1, t1) else frhs C e1 (hb0 s) xL1 t1 INT_MAX 0 0%Z in
  let s0 := {| h_env := e2; h_x := h_x s; h_xinc := h_xinc s; h_dTau := t2; h_xMid := h_x s;
               h_rhsMid := h_rhsMid s; h_rhsFull := h_rhsFull s; h_resOther := h_resOther s;
               hb0 := f0; hb1 := f0; hb2 := f0; h_xLast := xL2; h_xIncPrev := setConstant 0;
               h_has := h_has s; h_xPrev := h_xPrev s; h_dtPrev := h_dtPrev s; h_prevSize := h_prevSize s |} in
  do si <- loop (hermite_body cf co dt) (Z.to_nat maxIter) 1 s0;
  let (s1, iter) := si in
  let '(e3, r3) :=
    if (maxIter <? iter)%Z then
      let '(e, r, _) := fstop C (h_env s1) iter (if (curSolveMethod cf =? 0)%Z then h_rhsMid s1 else h_rhsFull s1) 1%Z in (e, r)
    else (h_env s1, if (curSolveMethod cf =? 0)%Z then h_rhsMid s1 else h_rhsFull s1) in
  Ok {| h_env := e3; h_x := h_x s1; h_xinc := h_xinc s1; h_dTau := h_dTau s1; h_xMid := h_xMid s1;
        h_rhsMid := if (curSolveMethod cf =? 0)%Z then r3 else h_rhsMid s1;
        h_rhsFull := if (curSolveMethod cf =? 0)%Z then h_rhsFull s1 else r3;
        h_resOther := h_resOther s1; hb0 := hb0 s1; hb1 := hb1 s1; hb2 := hb2 s1; h_xLast := h_xLast s1;
        h_xIncPrev := h_xIncPrev s1; h_has := true; h_xPrev := h_xLast s1; h_dtPrev := dt; h_prevSize := 1 |}.
End Hermite.
Arguments hm : clear implicits.
