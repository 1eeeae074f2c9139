(** Model of src/Solver/Linear.hpp.

    Vectors are those of [OdeModel]: arrays of reals with entrywise operations.  The operators,
    the preconditioner and the dot product are functions of their inputs.  Rounding is not
    modelled; a division by zero, after which the program works with infinities, ends the model
    in [UB]. *)
From Coq Require Import List ZArith Reals Bool.
From Verif Require Import Base.Prelude Solver.ScalarModel Solver.OdeModel.
Import ListNotations.
Local Open Scope R_scope.

Section Gmres.
Variables (FA FML : D -> D) (fDot : D -> D -> R) (FStop : nat -> R -> R -> bool).
(** HardEigen.cpp 155-160: the least-squares solution and the rank the singular value
    decomposition finds, given the size, the entries and the right-hand side's first entry *)
Variable lsq : nat -> (nat -> nat -> R) -> R -> (nat -> R) * nat.
Variable kSubspace : nat.

(** 68-83: one column of the Arnoldi process, for the vectors Vs[0..j] *)
Definition arnoldi_column (Vs : list D) : list R * D :=
  let w := FML (FA (last Vs (setConstant 0))) in
  let hs := map (fun v => fDot w v) Vs in
  (hs, fold_left (fun w hv => addTo w (snd hv) (- fst hv)) (combine hs Vs) w).

(** 65-87: the vectors Vs[0..j] and the columns of h before the loop stops *)
Fixpoint arnoldi (scale_MLb : R) (n : nat) (Vs : list D) (cols : list (list R)) : res (list D * list (list R)) :=
  match n with
  | O => Ok (Vs, cols)
  | S n =>
      let (hs, w) := arnoldi_column Vs in
      let hn := sqrt (fDot w w) in
      if Rlt_dec hn (scale_MLb * / 10 ^ 32) then Ok (Vs, cols)
      else if Req_EM_T hn 0 then UB
      else arnoldi scale_MLb n (Vs ++ [scale w (1 / hn)]) (cols ++ [hs ++ [hn]])
  end.

(** Why the loop over the restarts ended *)
Inductive ending := Stopped | Negligible | LastRestart | NoDirection | Deficient.

(** 108: hPart; below the second diagonal h stays zero *)
Definition h_entry (cols : list (list R)) (i k : nat) : R := nth i (nth k cols []) 0.

(** 117-121 *)
Definition add_directions (Vs : list D) (y : nat -> R) (j : nat) (x : D) : D :=
  fold_left (fun x jj => addTo x (nth jj Vs (setConstant 0)) (y jj)) (seq 0 j) x.

(** 52-128: the loop from [iRestart] on; [fuel] is nRestart - iRestart *)
Fixpoint restarts (b MLb : D) (scale_MLb : R) (fuel iRestart : nat) (x : D) : res (D * nat * ending) :=
  let v0 := addTo (FML (FA x)) MLb (-1) in
  let beta := sqrt (fDot v0 v0) in
  if FStop iRestart beta scale_MLb then Ok (x, iRestart, Stopped)
  else if Rlt_dec (Rabs beta) verySmallReal then Ok (x, iRestart, Negligible)
  else match fuel with
  | O => Ok (x, iRestart, LastRestart)
  | S fuel =>
      do vc <- arnoldi scale_MLb kSubspace [scale v0 (-1 / beta)] [];
      let (Vs, cols) := vc in
      let j := length cols in
      if Nat.ltb j 1 then Ok (x, iRestart, NoDirection)
      else
        let (y, rank) := lsq j (h_entry cols) beta in
        let x' := add_directions Vs y j x in
        if Nat.ltb rank kSubspace then Ok (x', iRestart, Deficient)
        else restarts b MLb scale_MLb fuel (S iRestart) x'
  end.

(** 44-129 GMRES_LeftPreconditioned::solve with the reason of the end *)
Definition gmres_run (b x : D) (nRestart : nat) : res (D * nat * ending) :=
  let MLb := FML b in
  restarts b MLb (sqrt (fDot MLb MLb)) nRestart 0 x.

(** What the caller gets *)
Definition gmres_solve (b x : D) (nRestart : nat) : res (D * bool) :=
  do r <- gmres_run b x nRestart; Ok (fst (fst r), Nat.ltb (snd (fst r)) nRestart).
End Gmres.

(** ** 132-199 PCG_PreconditionedRes *)
Record pcg := {
  initialized : bool; c_r : D; c_z : D; c_p : D; c_Ap : D; zrDot : R; pHistorySize : Z
}.

Section Pcg.
Variables (FA FM FResPrec : D -> D) (fDot : D -> D -> R) (FStop : nat -> R -> R -> bool).

(** 155 reset *)
Definition pcg_reset (s : pcg) : pcg :=
  {| initialized := false; c_r := c_r s; c_z := c_z s; c_p := c_p s; c_Ap := c_Ap s; zrDot := zrDot s; pHistorySize := 0 |}.

(** 170-196: the loop from [iter] on *)
Fixpoint pcg_loop (n iter : nat) (s : pcg) (x : D) : pcg * D * bool :=
  match n with
  | O => (s, x, false)
  | S n =>
      let z := if initialized s then FResPrec x else c_z s in
      let r := if initialized s then FM z else c_r s in
      let zrNew := fDot z r in
      if FStop iter zrNew (fDot z z) then
        ({| initialized := initialized s; c_r := r; c_z := z; c_p := c_p s; c_Ap := c_Ap s;
            zrDot := zrDot s; pHistorySize := pHistorySize s |}, x, true)
      else
        let p := if initialized s then plus (scale (c_p s) (zrNew / (zrDot s + verySmallReal))) z else c_p s in
        let Ap := if initialized s then FA p else c_Ap s in
        let h := if initialized s then (pHistorySize s + 1)%Z else pHistorySize s in
        let alpha := zrNew / (fDot p Ap + verySmallReal) in
        pcg_loop n (S iter)
          {| initialized := true; c_r := r; c_z := z; c_p := p; c_Ap := Ap; zrDot := zrNew; pHistorySize := h |}
          (addTo x p alpha)
  end.

(** 159-198 solve *)
Definition pcg_solve (s : pcg) (x : D) (niter : nat) : pcg * D * bool :=
  let s0 := if initialized s then s
            else let z := FResPrec x in
                 {| initialized := false; c_r := FM z; c_z := z; c_p := z; c_Ap := FA z; zrDot := zrDot s;
                    pHistorySize := pHistorySize s + 1 |} in
  pcg_loop niter 1 s0 x.
End Pcg.
