(** Model of the performance timers and of the running statistics. Time is a
    real number supplied with each call (the value MPI_Wtime would return). *)
From Coq Require Import Reals ZArith List.
From Verif Require Import Base.Prelude.
Import ListNotations.
Open Scope R_scope.

(** src/DNDS/Profiling.hpp 35-37. *)
Definition Ntype : Z := 64.
Definition Ntype_All : Z := 128.

(** src/DNDS/Profiling.hpp 39-41. The only instance is a function-local static
    (Profiling.cpp 5-9), so both arrays start as zeros. *)
Record timers := { timer : list R; tStart : list R }.
Definition timers_init : timers :=
  {| timer := repeat 0 (Z.to_nat Ntype_All); tStart := repeat 0 (Z.to_nat Ntype_All) |}.

(** How a call names a timer: by enumerator or by plain integer (overloads). *)
Inductive key := Enum (t : Z) | Int (t : Z).

(** The slot used by [getTimer] and [clearTimer], Profiling.cpp 31-39, 55-63. *)
Definition slot (k : key) : Z := match k with Enum t => t | Int t => (t + Ntype)%Z end.

Inductive call :=
| Start (k : key) (now : R)
| Stop (k : key) (now : R)
| Clear (k : key)
| ClearAll.

(** Profiling.cpp 65-69: [clearTimer(TimerType(i))] for each slot. *)
Definition clear_all (s : timers) : res timers :=
  do l <- foldM (fun l i => vset l (Z.of_nat i) 0) (timer s) (seq 0 (Z.to_nat Ntype_All));
  Ok {| timer := l; tStart := tStart s |}.

Definition step (s : timers) (c : call) : res timers :=
  match c with
  | Start k now =>
      (* Profiling.cpp 11-19 *)
      do l <- vset (tStart s) (slot k) now; Ok {| timer := timer s; tStart := l |}
  | Stop (Enum t) now =>
      (* Profiling.cpp 21-24 *)
      do b <- vget (tStart s) t;
      do a <- vget (timer s) t;
      do l <- vset (timer s) t (a + (now - b)); Ok {| timer := l; tStart := tStart s |}
  | Stop (Int t) now =>
      (* Profiling.cpp 26-29: the start time is read from slot [t], not [t + Ntype] *)
      do b <- vget (tStart s) t;
      do a <- vget (timer s) (t + Ntype);
      do l <- vset (timer s) (t + Ntype) (a + (now - b)); Ok {| timer := l; tStart := tStart s |}
  | Clear k =>
      do l <- vset (timer s) (slot k) 0; Ok {| timer := l; tStart := tStart s |}
  | ClearAll => clear_all s
  end.

Definition run (s : timers) (cs : list call) : res timers := foldM step s cs.

(** Profiling.cpp 31-39. *)
Definition getTimer (s : timers) (k : key) : res R := vget (timer s) (slot k).

(** src/DNDS/Profiling.hpp 69-103. *)
Record stats := { average : R; count : nat; sigmaS : R }.
Definition stats_clear : stats := {| average := 0; count := 0; sigmaS := 0 |}.
Definition stats_update (s : stats) (v : R) : stats :=
  let n := Datatypes.S (count s) in
  let newAverage := average s + (v - average s) / INR n in
  {| average := newAverage; count := n;
     sigmaS := sigmaS s + ((v - newAverage) * (v - average s) - sigmaS s) / INR n |}.
Definition stats_get (s : stats) : R * R := (average s, sqrt (Rmax 0 (sigmaS s))).
Definition stats_getSum (s : stats) : R := average s * INR (count s).
