(** Reference notions for the timers. *)
From Coq Require Import Reals ZArith List.
From Verif Require Import Base.Prelude DNDS.TimerModel.
Import ListNotations.
Open Scope R_scope.

(** Keys the library's arrays have room for. *)
Definition valid_key (k : key) : Prop :=
  match k with Enum t => (0 <= t < 64)%Z | Int t => (0 <= t < 64)%Z end.
Definition valid_call (c : call) : Prop :=
  match c with Start k _ | Stop k _ | Clear k => valid_key k | ClearAll => True end.

Definition key_eqb (a b : key) : bool :=
  match a, b with
  | Enum x, Enum y => (x =? y)%Z
  | Int x, Int y => (x =? y)%Z
  | _, _ => false
  end.

(** Time measured by timer [k] over a history: each stop adds the time since the
    latest start of [k] (zero if none); a clear forgets the total. *)
Fixpoint measured (k : key) (since total : R) (cs : list call) : R :=
  match cs with
  | [] => total
  | Start j now :: cs => measured k (if key_eqb j k then now else since) total cs
  | Stop j now :: cs => measured k since (if key_eqb j k then total + (now - since) else total) cs
  | Clear j :: cs => measured k since (if key_eqb j k then 0 else total) cs
  | ClearAll :: cs => measured k since 0 cs
  end.

Fixpoint rsum (l : list R) : R := match l with [] => 0 | x :: l => x + rsum l end.
Definition mean (l : list R) : R := rsum l / INR (length l).
Definition variance (l : list R) : R :=
  rsum (map (fun x => (x - mean l) * (x - mean l)) l) / INR (length l).
