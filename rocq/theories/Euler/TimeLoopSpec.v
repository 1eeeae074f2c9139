(** What a user expects of the time loop, said without the loop. *)

From Coq Require Import List ZArith Bool QArith Sorted.
From Verif Require Import Base.Prelude Euler.TimeLoopModel.
Import ListNotations.
Local Open Scope Q_scope.

(** The steps taken, with their lengths and the times reached. *)
Definition advances (tr : list event) : list (Z * Q * Q) :=
  flat_map (fun ev => match ev with Advance s d t => [(s, d, t)] | _ => [] end) tr.

Definition lengths (tr : list event) : list Q := map (fun a => snd (fst a)) (advances tr).
Definition times (tr : list event) : list Q := map snd (advances tr).

Fixpoint qsum (l : list Q) : Q :=
  match l with [] => 0 | a :: r => a + qsum r end.

(** Sum of [f i * a i] over the steps taken, the first being step 1. *)
Fixpoint wsum (tiny : Q) (f : Z -> Q) (s : Z) (l : list Q) : Q :=
  match l with [] => 0 | d :: r => (d + tiny) * f s + wsum tiny f (s + 1) r end.

(** The steps after which a file of a kind was written, in order. *)
Definition kind_eqb (a b : kind) : bool :=
  match a, b with
  | Data, Data | DataC, DataC | Avg, Avg | AvgC, AvgC | Rst, Rst | RstC, RstC => true
  | _, _ => false
  end.

Definition written (k : kind) (tr : list event) : list Z :=
  flat_map (fun ev => match ev with
                      | Out k' s _ _ => if kind_eqb k k' then [s] else []
                      | _ => [] end) tr.

Definition logged (tr : list event) : list Z :=
  flat_map (fun ev => match ev with Log s _ => [s] | _ => [] end) tr.

(** The labels of the files written at given times, in order. *)
Definition labels (tr : list event) : list Q :=
  flat_map (fun ev => match ev with OutTime _ n _ _ => [n] | _ => [] end) tr.

(** The steps 1 .. m that are multiples of [n]; none when [n] is not positive. *)
Definition steps (m : nat) : list Z := map Z.of_nat (seq 1 m).

Definition every (n s : Z) : bool := (0 <? n)%Z && (s mod n =? 0)%Z.

(** The times at which a file is due: the whole multiples of the interval
    before the end, and the end. *)
Definition due (c : config) (x : Q) : Prop :=
  x == c_tEnd c
  \/ exists k : positive, x == inject_Z (Zpos k) * c_tOut c /\ x < c_tEnd c.

(** Every file carries the time of the step after which it was written. *)
Definition stamped (tr : list event) : Prop :=
  forall ev, In ev tr ->
    match ev with
    | AtInit _ => True
    | Advance s d t => True
    | Log s t | Out _ s t _ | OutTime s _ t _ => exists d, In (s, d, t) (advances tr)
    end.

(** [v] is the mean of the flows of the steps of lengths [ls], weighted by
    these lengths. *)
Definition is_mean (tiny : Q) (f : Z -> Q) (ls : list Q) (v : Q) : Prop :=
  0 < wsum tiny (fun _ => 1) 1 ls
  /\ v * wsum tiny (fun _ => 1) 1 ls == wsum tiny f 1 ls.

(** What a file holds: the flow of its step, or the mean up to its step. *)
Definition holds (c : config) (e : Z -> env) (fl : Q) (ls : list Q) (ev : event) : Prop :=
  match ev with
  | AtInit v => v = fl
  | Advance _ _ _ | Log _ _ => True
  | Out (Data | DataC | Rst | RstC) s _ v => v = e_flow (e s)
  | Out (Avg | AvgC) s _ v => is_mean (c_tiny c) (fun i => e_flow (e i)) (firstn (Z.to_nat s) ls) v
  | OutTime s n t v => v = e_flow (e s) /\ n = t
  end.

(** The wish of a step before positivity is looked at. *)
Definition wish (c : config) (e : env) : Q :=
  qmax (qmin (e_cfl e * c_scale c) (c_dt c)) (c_dtMin c).

(** ** Settings and flows the statements are about *)

(** An output counter that does not run past the largest [int]. *)
Definition fits (c : config) (n : Z) : Prop :=
  (n <= INT_MAX)%Z /\ (- INT_MAX <= n)%Z /\ (n > c_nStep c \/ c_nStep c + n <= INT_MAX)%Z.

Record sane (c : config) : Prop := {
  sane_steady : c_steady c = false;
  sane_tEnd : 0 < c_tEnd c;
  sane_tOut : 0 < c_tOut c;
  sane_dt : 0 < c_dt c;
  sane_scale : 0 < c_scale c;
  sane_inc : 0 < c_inc c;
  sane_steps : (0 <= c_nStep c < INT_MAX)%Z;
  sane_ode : known_ode (c_ode c) = true;
  sane_log : c_nLog c <> 0%Z;
  sane_out : fits c (c_nOut c);
  sane_outC : fits c (c_nOutC c);
  sane_avg : fits c (c_nAvg c);
  sane_avgC : fits c (c_nAvgC c);
  sane_rst : fits c (c_nRst c);
  sane_rstC : fits c (c_nRstC c);
  sane_tiny : 0 < c_tiny c
}.

(** Averages are only asked for when they are kept. *)
Definition averages_kept (c : config) : Prop :=
  c_avg c = true \/ ((c_nAvg c <= 0 \/ c_nStep c < c_nAvg c) /\ (c_nAvgC c <= 0 \/ c_nStep c < c_nAvgC c))%Z.

(** Flows that allow steps of positive length. *)
Definition flowing (e : Z -> env) : Prop :=
  forall s, 0 < e_cfl (e s)
            /\ (forall m, e_lim (e s) = Some m -> 0 < m)
            /\ (forall d, 0 < d -> 0 < e_vbdf (e s) d /\ e_vbdf (e s) d <= d).
