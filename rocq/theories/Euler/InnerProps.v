(** C72: the inner iterations stop when they should, use the CFL number of the
    ramp and write what is due. *)

From Coq Require Import List ZArith Bool Reals Sorted Lia Lra.
From Verif Require Import Base.Prelude Euler.InnerModel Euler.InnerSpec Euler.InnerExample.
Import ListNotations.
Local Open Scope Z_scope.

(** A stage performs each iteration up to the first that stops it, or all. *)
Theorem C72_stops : forall c k f s, sound c -> skips k = false ->
  exists s' tr m, stage c k f s = Ok (s', tr) /\ ends_at c k f m /\ exactly (iterations tr) m (fun _ => True).
Proof. exact stops. Qed.
Print Assumptions C72_stops.

Example C72_stops_case : sound usual /\ ends_at usual dirk quick 2.
Proof. split; [exact usual_sound | exact quick_ends]. Qed.

(** Lines and files come exactly after the iterations that are multiples of
    their intervals, a line also where the stage ends.  Missing from the full
    claim: that all of these iterations were performed ([last = m]). *)
Theorem C72_written_partial : forall c k f s s' tr, sound c -> skips k = false -> stage c k f s = Ok (s', tr) ->
  exists m last, ends_at c k f m
    /\ (last = m \/ (last = m + 1 /\ closes k = true /\ m = Z.max 0 (nMax c)))
    /\ exactly (lines tr) last (fun i => multiple i (nConsole c) \/ met c f i \/ nMax c < i)
    /\ exactly (datas tr) last (fun i => multiple i (nData c))
    /\ exactly (dataCs tr) last (fun i => multiple i (nDataC c) /\ ~ (lazyCover c = true /\ multiple i (nData c)))
    /\ exactly (restarts tr) last (fun i => multiple i (nRestart c))
    /\ exactly (restartCs tr) last (fun i => multiple i (nRestartC c) /\ ~ (lazyCover c = true /\ multiple i (nRestart c)))
    /\ iterAll s' = iterAll s + last.
Proof. exact written. Qed.
Print Assumptions C72_written_partial.

Example C72_written_case : sound usual /\ skips dirk = false.
Proof. split; [exact usual_sound | reflexivity]. Qed.

(** In every stage of a step the iterations, and the lines about them, have the
    CFL number of the ramp. *)
Theorem C72_ramp : forall c l s, sound c -> 1 <= nMax c ->
  Forall (fun p => closes (fst p) = true) l \/ (List.length l <= 1)%nat ->
  exists s' trs, step c l s = Ok (s', trs)
    /\ Forall2 (fun p tr => skips (fst p) = false -> nStart (fst p) <= Z.max 1 (nMin c) ->
         forall i v, In (Iterate i v) tr \/ In (Line i v) tr -> v = Some (ramp_value c i)) l trs.
Proof. exact ramps. Qed.
Print Assumptions C72_ramp.

Example C72_ramp_case : sound usual /\ 1 <= nMax usual /\ Forall (fun p => closes (fst p) = true) [(dirk, quick); (dirk, quick)].
Proof. split; [exact usual_sound | split; [cbn; lia | repeat constructor]]. Qed.

(** The ramp rises from its first to its last number and gets there. *)
Theorem C72_ramp_rises : forall c i j, sound c -> rampStart c <= nMax c -> (CFL c <= rampEnd c)%R -> i <= j ->
  (CFL c <= ramp_value c i <= ramp_value c j)%R /\ (ramp_value c j <= rampEnd c)%R
  /\ (rampStart c + rampLength c < j -> ramp_value c j = rampEnd c).
Proof. exact ramp_bounds. Qed.
Print Assumptions C72_ramp_rises.

Example C72_ramp_rises_case : sound usual /\ rampStart usual <= nMax usual /\ (CFL usual <= rampEnd usual)%R.
Proof. split; [exact usual_sound | split; [cbn; lia | cbn; lra]]. Qed.

(** A stage leaves the first number of the ramp to the next. *)
Theorem C72_resets : forall c k f s s' tr, sound c -> skips k = false -> closes k = true ->
  stage c k f s = Ok (s', tr) -> cflNow s' = Some (CFL c).
Proof. exact restarts_cfl. Qed.
Print Assumptions C72_resets.

Example C72_resets_case : sound usual /\ skips dirk = false /\ closes dirk = true.
Proof. split; [exact usual_sound | split; reflexivity]. Qed.

(** Where no iteration stops a stage, a line, and a restart file if its turn has
    come, is written for an iteration that never was. *)
Theorem C72_extra_refuted : forall c k f s, sound c -> skips k = false -> closes k = true -> 0 <= nMax c ->
  (forall i, ~ met c f i) ->
  exists s' tr, stage c k f s = Ok (s', tr)
    /\ In (nMax c + 1) (lines tr) /\ ~ In (nMax c + 1) (iterations tr) /\ iterAll s' = iterAll s + (nMax c + 1)
    /\ (multiple (nMax c + 1) (nRestart c) -> In (nMax c + 1) (restarts tr)).
Proof. exact extra. Qed.
Print Assumptions C72_extra_refuted.

Example C72_extra_case : sound long_run /\ (forall i, ~ met long_run constant i).
Proof. exact (conj long_run_sound constant_never). Qed.

(** A ramp with a start and the default length overflows; one of length zero
    makes the CFL number no number. *)
Theorem C72_length_refuted :
  (rampLength long = int32_max /\ stage long dirk quick begin = UB)
  /\ (rampLength short = 0 /\ exists s' tr, stage short dirk quick begin = Ok (s', tr) /\ In (Iterate 2 None) tr).
Proof. exact (conj (conj eq_refl overflow) (conj eq_refl no_number)). Qed.
Print Assumptions C72_length_refuted.

(** A scheme that may not stop yet starts the ramp again. *)
Theorem C72_early_refuted : sound early /\ exists s' tr, stage early hermite still begin = Ok (s', tr)
  /\ In (Iterate 2 (Some 1%R)) tr /\ (1 < ramp_value early 2)%R.
Proof. exact falls_back. Qed.
Print Assumptions C72_early_refuted.
