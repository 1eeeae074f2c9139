(** C21: performance timers. C50: running statistics. *)
From Coq Require Import Reals ZArith List.
From Verif Require Import Base.Prelude DNDS.TimerModel DNDS.TimerSpec DNDS.TimerProofs.
Import ListNotations.
Open Scope R_scope.

(** Over every history of calls and every clock, a timer named by its
    enumerator holds the sum of the times between its own starts and stops. *)
Theorem C21_enum_timers_measure cs t : Forall valid_call cs -> (0 <= t < 64)%Z ->
  exists s, run timers_init cs = Ok s /\ getTimer s (Enum t) = Ok (measured (Enum t) 0 0 cs).
Proof. exact (enum_measures cs t). Qed.
Print Assumptions C21_enum_timers_measure.

(** A call changes no timer but the one it names. *)
Theorem C21_only_that_timer s c s' k : wf s -> valid_call c -> valid_key k -> step s c = Ok s' ->
  match c with Start _ _ => True | Stop j _ | Clear j => j <> k | ClearAll => False end ->
  getTimer s' k = getTimer s k.
Proof. exact (only_that_timer s c s' k). Qed.
Print Assumptions C21_only_that_timer.

(** Timers named by plain integers do not: started at 10 and stopped at 12, the
    timer reports 12. *)
Theorem C21_int_timers_measure_refuted : exists cs s, Forall valid_call cs /\ run timers_init cs = Ok s /\
  measured (Int 3) 0 0 cs = 2 /\ getTimer s (Int 3) = Ok 12.
Proof. exact int_wrong. Qed.
Print Assumptions C21_int_timers_measure_refuted.

(** What they hold instead: the time since the latest start of the enumerator
    with the same number. *)
Theorem C21_int_timers_use_enum_starts cs t : Forall valid_call cs -> (0 <= t < 64)%Z ->
  exists s, run timers_init cs = Ok s /\
    getTimer s (Int t) = Ok (measured (Int t) 0 0 (flat_map (int_view t) cs)).
Proof. exact (int_measures cs t). Qed.
Print Assumptions C21_int_timers_use_enum_starts.

Example C21_example :
  measured (Enum 3) 0 0 [Start (Enum 3) 10; Start (Int 3) 11; Stop (Enum 3) 12; Stop (Enum 3) 13]
  = 0 + (12 - 10) + (13 - 10).
Proof. reflexivity. Qed.

(** After any non-empty sequence of updates the statistics are the mean and the
    (population) standard deviation of the values, and their sum. *)
Theorem C50_statistics_are_exact l : l <> [] ->
  let s := fold_left stats_update l stats_clear in
  stats_get s = (mean l, sqrt (variance l)) /\ stats_getSum s = rsum l.
Proof. exact (stats_spec l). Qed.
Print Assumptions C50_statistics_are_exact.

Example C50_example : stats_get (fold_left stats_update [1; 3] stats_clear) = (2, 1).
Proof. exact stats_example. Qed.
