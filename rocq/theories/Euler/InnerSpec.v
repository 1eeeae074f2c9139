(** What the inner iterations should do. *)

From Coq Require Import List ZArith Bool Reals Sorted.
From Verif Require Import Base.Prelude Euler.InnerModel.
Import ListNotations.
Local Open Scope Z_scope.

(** [m] is the largest residual of the iterations from 1 to [i]. *)
Definition top (f : flow) (i : Z) (m : R) : Prop :=
  (exists j, 1 <= j <= i /\ residual f j = m) /\ forall j, 1 <= j <= i -> (residual f j <= m)%R.

(** The iteration [i] may stop the stage. *)
Definition met (c : settings) (f : flow) (i : Z) : Prop :=
  nMin c <= i /\ (useCL c = true -> atTarget f i = true)
  /\ exists m, top f i m /\ (residual f i / (m + verySmall) < threshold c)%R.

(** The stage performs the iterations from 1 to [k]: it goes on until one stops
    it or none is left. *)
Definition ends_at (c : settings) (s : scheme) (f : flow) (k : Z) : Prop :=
  0 <= k <= Z.max 0 (nMax c)
  /\ (forall i, 1 <= i < k -> met c f i -> i < nStart s)
  /\ (k < nMax c -> 1 <= k /\ met c f k /\ nStart s <= k).

(** The CFL number of the iteration [i]: [CFL] until [rampStart] iterations are
    done, then geometrically up to [rampEnd], reached after [rampLength] more. *)
Definition ramp_value (c : settings) (i : Z) : R :=
  if i - 1 <? rampStart c then CFL c
  else (CFL c * Rpower (rampEnd c / CFL c) (Rmin 1 (IZR (i - 1 - rampStart c) / IZR (rampLength c))))%R.

(** Settings that make sense. *)
Definition sound (c : settings) : Prop :=
  nConsole c <> 0 /\ nData c <> 0 /\ nDataC c <> 0 /\ nRestart c <> 0 /\ nRestartC c <> 0
  /\ nMax c < int32_max
  /\ (0 < CFL c)%R
  /\ 0 <= rampStart c
  /\ (Z.max 0 (nMax c) + 1 < rampStart c \/ (0 < rampLength c /\ rampLength c + rampStart c <= int32_max /\ (0 < rampEnd c)%R)).

(** What a trace shows. *)
Definition iterations (t : list event) : list Z := flat_map (fun e => match e with Iterate i _ => [i] | _ => [] end) t.
Definition lines (t : list event) : list Z := flat_map (fun e => match e with Line i _ => [i] | _ => [] end) t.
Definition datas (t : list event) : list Z := flat_map (fun e => match e with Data i => [i] | _ => [] end) t.
Definition dataCs (t : list event) : list Z := flat_map (fun e => match e with DataC i => [i] | _ => [] end) t.
Definition restarts (t : list event) : list Z := flat_map (fun e => match e with Restart i => [i] | _ => [] end) t.
Definition restartCs (t : list event) : list Z := flat_map (fun e => match e with RestartC i => [i] | _ => [] end) t.

Definition multiple (i n : Z) : Prop := exists q, i = q * n.

(** [l] holds exactly the numbers from 1 to [k] for which [P], in order. *)
Definition exactly (l : list Z) (k : Z) (P : Z -> Prop) : Prop :=
  (forall i, In i l <-> 1 <= i <= k /\ P i) /\ StronglySorted Z.lt l.
