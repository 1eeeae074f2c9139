(** The two tables a run writes while it goes on: the convergence log and the
    log of the integrals over each boundary.

    Modelled code: src/DNDS/CsvLog.hpp 11-76, src/Euler/EulerSolver.hpp 877-925
    ([FillLogValue], [LogErrInitialize]), src/Euler/EulerSolver_Init.hxx 614-652
    and 806-843 (the lines of [functor_fstop] and [functor_fmainloop]) and
    src/Euler/EulerEvaluator.hpp 929-954 ([BndIntegrationLogWriteLine]).

    The [double]s and their printing are parameters, collected in [floats].
    Opening the files, the console and the processes other than 0 are left out. *)

From Coq Require Import List ZArith Bool String Ascii DecimalString.
From Verif Require Import Base.Prelude.
Import ListNotations.
Local Open Scope Z_scope.
Local Open Scope string_scope.

(** The [double]s: zero, [UnInitReal] (Defines.hpp 140), the text of a number
    at a precision under [std::scientific], and division. *)
Record floats := {
  num : Type; zero : num; unset : num;
  show : Z -> num -> string; over : num -> num -> num }.

Section Logs.
Context (F : floats).

(** [std::to_string] and [ostream << int64_t] *)
Definition decimal (z : Z) : string := NilZero.string_of_int (Z.to_int z).

(** CsvLog.hpp 11-14, [LogSimpleDIValue] *)
Record value := { vi : Z; vd : num F }.

(** CsvLog.hpp 13-14, the initial values *)
Definition blank : value := {| vi := int64_min; vd := zero F |}.

(** A number handed to the log: of an integral type, or not. *)
Inductive arg := AInt (z : Z) | ANum (d : num F).

(** CsvLog.hpp 16-30, the two [operator=] *)
Definition assign (v : value) (a : arg) : value :=
  match a with
  | AInt z => {| vi := z; vd := if (z =? int64_min)%Z then unset F else vd v |}
  | ANum d => {| vi := int64_min; vd := d |}
  end.

(** CsvLog.hpp 32-39, [operator<<] *)
Definition print (p : Z) (v : value) : string :=
  if (vi v =? int64_min)%Z then show F p (vd v) else decimal (vi v).

(** CsvLog.hpp 76: the [std::map] of values by name, the newest first. *)
Definition vmap := list (string * value).

(** [operator[]] of the map: an absent name gets the initial value. *)
Fixpoint get (m : vmap) (k : string) : value :=
  match m with
  | [] => blank
  | (x, v) :: l => if x =? k then v else get l k
  end.

(** EulerSolver.hpp 877-882, [FillLogValue] of a number *)
Definition fill (m : vmap) (k : string) (a : arg) : vmap := (k, assign (get m k) a) :: m.

(** EulerSolver.hpp 896, 910 *)
Definition spread (k : string) : bool := (k =? "res") || (k =? "fluxWall").

(** EulerSolver.hpp 884-901, [FillLogValue] of a vector with [nVars] entries *)
Definition fillVec (n : nat) (m : vmap) (k : string) (v : list (num F)) : res vmap :=
  if spread k then
    foldM (fun m i => do d <- vget v (Z.of_nat i); Ok (fill m (k ++ decimal (Z.of_nat i)) (ANum d))) m (seq 0 n)
  else Ok (fill m k (AInt 0)).

(** EulerSolver.hpp 905-917: the first values and the names of the columns *)
Fixpoint start (n : nat) (ts : list string) (m : vmap) : res (vmap * list string) :=
  match ts with
  | [] => Ok (m, [])
  | t :: l =>
    if spread t then
      do m <- fillVec n m t (repeat (zero F) n);
      do r <- start n l m;
      Ok (fst r, app (map (fun i => t ++ decimal (Z.of_nat i)) (seq 0 n)) (snd r))
    else
      do r <- start n l (fill m t (ANum (zero F)));
      Ok (fst r, t :: snd r)
  end.

(** The end of a line *)
Definition nl : string := String (ascii_of_nat 10) "".

(** CsvLog.hpp 61-63 and 70-71: a comma after each but the last *)
Fixpoint joined (l : list string) : string :=
  match l with
  | [] => ""
  | [x] => x
  | x :: l => x ++ "," ++ joined l
  end.

(** CsvLog.hpp 43-48 *)
Record table := { titles : list string; text : string; nLine : Z }.

(** CsvLog.hpp 68-73, [WriteTitle] *)
Definition writeTitle (w : table) : table :=
  {| titles := titles w; text := text w ++ joined (titles w) ++ nl; nLine := nLine w |}.

(** CsvLog.hpp 55-66, [WriteLine].  Looking an absent name up adds it to the
    map with its initial value, which [get] gives without adding it. *)
Definition writeLine (p : Z) (m : vmap) (w : table) : table :=
  let w := if (nLine w =? 0)%Z then writeTitle w else w in
  {| titles := titles w;
     text := text w ++ joined (map (fun t => print p (get m t)) (titles w)) ++ nl;
     nLine := nLine w + 1 |}.

(** What the solver knows when it writes a line: its numbers by the names of
    its variables, the residual and the sum of the fluxes at walls. *)
Record moment := { scalar : string -> arg; resid : list (num F); wall : list (num F) }.

(** The line of an inner iteration, or of a time step. *)
Inductive event := Inner (q : moment) | Step (q : moment).

(** The uses of [DNDS_FILL_IN_LOG_ERR_VAL] for one variable after another *)
Definition fills (f : string -> arg) (ks : list string) (m : vmap) : vmap :=
  fold_left (fun m k => fill m k (f k)) ks m.

(** EulerSolver_Init.hxx 622-639 and 818-835 *)
Definition middle : list string :=
  ["curDtImplicit"; "curDtMin"; "CFLNow"; "nLimInc"; "alphaMinInc"; "nLimBeta"; "minBeta"; "nLimAlpha"; "minAlpha";
   "tWall"; "telapsed"; "trec"; "trhs"; "tcomm"; "tLim"; "tLimiterA"; "tLimiterB"].

(** EulerSolver_Init.hxx 616-645 and 812-841, from the first names on *)
Definition fillAll (n : nat) (first : list string) (f : string -> arg) (q : moment) (m : vmap) : res vmap :=
  let m := fills f first m in
  do m <- fillVec n m "res" (resid q);
  let m := fills f middle m in
  do m <- fillVec n m "fluxWall" (wall q);
  Ok (fills f ["CL"; "CD"; "AoA"] m).

(** EulerSolver_Init.hxx 810: [int iStep{-1}, iter{-1}] hide the variables. *)
Definition hidden (f : string -> arg) (k : string) : arg :=
  if (k =? "iStep") || (k =? "iter") then AInt (-1) else f k.

(** EulerSolver_Init.hxx 614-652 and 806-843 *)
Definition line (n : nat) (p : Z) (s : vmap * table) (e : event) : res (vmap * table) :=
  match e with
  | Inner q =>
    do m <- fillAll n ["step"; "iStep"; "iterAll"; "iter"; "tSimu"] (scalar q) q (fst s);
    let w := writeLine p m (snd s) in
    Ok (fill m "step" (scalar q "step"), w)
  | Step q =>
    do m <- fillAll n ["step"; "iStep"; "iter"; "tSimu"] (hidden (scalar q)) q (fst s);
    Ok (m, writeLine p m (snd s))
  end.

(** The text of the convergence log after the lines [es]. *)
Definition run (n : nat) (p : Z) (ts : list string) (es : list event) : res string :=
  do r <- start n ts [];
  do s <- foldM (line n p) (fst r, {| titles := snd r; text := ""; nLine := 0 |}) es;
  Ok (text (snd s)).

(** ** The integrals over the boundaries *)

(** The integral over one boundary at one line, in the order of
    [bndIntegrations]: its id, [integrationOpt], [v] and [div]. *)
Record integral := { bid : Z; opt : Z; sums : list (num F); weight : num F }.

(** EulerEvaluator.hpp 947-948: [vPrint(seq(nVars, nVars + 1)) /= div] *)
Definition scaled (n : nat) (b : integral) : res (list (num F)) :=
  if (opt b =? 2)%Z then
    do x <- vget (sums b) (Z.of_nat n);
    do v <- vset (sums b) (Z.of_nat n) (over F x (weight b));
    do y <- vget v (Z.of_nat n + 1);
    vset v (Z.of_nat n + 1) (over F y (weight b))
  else Ok (sums b).

(** EulerEvaluator.hpp 109: the files by id *)
Definition files := list (Z * string).

Fixpoint file (fs : files) (k : Z) : option string :=
  match fs with
  | [] => None
  | (i, t) :: l => if (i =? k)%Z then Some t else file l k
  end.

(** EulerEvaluator.hpp 941-944 *)
Definition header (k : nat) : string :=
  "step, stage, iter" ++ String.concat "" (map (fun i => ", F" ++ decimal (Z.of_nat i)) (seq 0 k)) ++ nl.

(** EulerEvaluator.hpp 949-952 *)
Definition record (step stage iter : Z) (v : list (num F)) : string :=
  decimal step ++ ", " ++ decimal stage ++ ", " ++ decimal iter
  ++ String.concat "" (map (fun d => ", " ++ show F 16 d) v) ++ nl.

(** EulerEvaluator.hpp 933-953, one boundary *)
Definition bndLine (n : nat) (step stage iter : Z) (fs : files) (b : integral) : res files :=
  let old := match file fs (bid b) with Some t => t | None => header (List.length (sums b)) end in
  do v <- scaled n b;
  Ok ((bid b, old ++ record step stage iter v) :: fs).

(** EulerEvaluator.hpp 929-954 on process 0 *)
Definition bndLines (n : nat) (fs : files) (c : Z * Z * Z * list integral) : res files :=
  let '(step, stage, iter, bs) := c in foldM (bndLine n step stage iter) fs bs.

End Logs.

Arguments AInt {F} z.
Arguments ANum {F} d.
Arguments Inner {F} q.
Arguments Step {F} q.
