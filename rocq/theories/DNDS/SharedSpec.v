(** What was shared, and when it stays valid. *)
From Coq Require Import ZArith List Bool String Ascii Arith.
From Verif Require Import Base.Prelude DNDS.JsonModel DNDS.JsonSpec DNDS.SharedModel.
Import ListNotations.
Open Scope list_scope.

Section Shared.
Variable T : Type.
Notation event := (event T).

(** one shared vector that was written: its directory, its name, its address and
    its content at that moment *)
Record shared := { sdir : list string; sname : string; saddr : nat; scont : list Z }.
Definition splace (x : shared) : list string := sdir x ++ [sname x].

Definition goes (cur : list string) (e : event) : list string :=
  match e with Serial (GoTo p) => resolve cur p | _ => cur end.
Definition changes (m : memory) (e : event) : memory :=
  match e with
  | Alloc a l | Assign a l => mset m a (Some l)
  | Free a => mset m a None
  | _ => m
  end.
(** the shared vectors written by a sequence of events, in order *)
Fixpoint written (cur : list string) (m : memory) (evs : list event) : list shared :=
  match evs with
  | [] => []
  | e :: r =>
      match e with
      | Share n a =>
          [{| sdir := cur; sname := n; saddr := a;
              scont := match m a with Some l => l | None => [] end |}]
      | _ => []
      end ++ written (goes cur e) (changes m e) r
  end.

(** does the event free or change the vector at [a]? *)
Definition ends (a : nat) (e : event) : bool :=
  match e with Free b => Nat.eqb a b | Assign b _ => Nat.eqb a b | _ => false end.
(** does it write at, above or below the place [q]? *)
Definition disturbs (cur : list string) (q : list string) (e : event) : bool :=
  match e with
  | Serial o => touches cur o q
  | Share n _ => comparable (cur ++ [n]) q
  | _ => false
  end.
Fixpoint left_alone (cur : list string) (q : list string) (evs : list event) : bool :=
  match evs with
  | [] => true
  | e :: r => negb (disturbs cur q e) && left_alone (goes cur e) q r
  end.
(** Every vector, once shared, stays alive and unchanged until the file is
    closed, and nothing else is written over its place. *)
Fixpoint careful (cur : list string) (evs : list event) : bool :=
  match evs with
  | [] => true
  | e :: r =>
      match e with
      | Share n a => forallb (fun e => negb (ends a e)) r && left_alone cur (cur ++ [n]) r
      | _ => true
      end && careful (goes cur e) r
  end.

Definition good_event (e : event) : Prop :=
  match e with
  | Serial o => good_op o
  | Share n _ => good_name n = true
  | _ => True
  end.

(** reading back some of the written vectors, each into its own variable *)
Definition read_events (l : list (shared * nat)) : list revent :=
  flat_map (fun sx => [Go (sdir (fst sx)); Read (sname (fst sx)) (snd sx)]) l.
End Shared.
Arguments written {T}. Arguments careful {T}. Arguments left_alone {T}. Arguments good_event {T}.
Arguments goes {T}. Arguments changes {T}. Arguments disturbs {T}. Arguments ends {T}.
