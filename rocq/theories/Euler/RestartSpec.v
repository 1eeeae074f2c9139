(** What is expected of restart files, in terms of what happens on the disk. *)
From Coq Require Import List ZArith String Ascii.
From Verif Require Import Base.Prelude Euler.RestartModel.
Import ListNotations.
Local Open Scope string_scope.

Section Spec.
Context {A : Type}.

(** The acts of process [r] in a history of acts of all processes *)
Definition mine (r : nat) (h : list (nat * act A)) : list (act A) :=
  map snd (filter (fun e => Nat.eqb (fst e) r) h).

(** A history in which every process has come some way through its program:
    any interleaving, stopped by a crash at any point *)
Definition history (progs : list (list (act A))) (h : list (nat * act A)) : Prop :=
  forall r, exists rest, nth r progs [] = (mine r h ++ rest)%list.

(** A history in which every process has come to the end *)
Definition finished (progs : list (list (act A))) (h : list (nat * act A)) : Prop :=
  forall r, nth r progs [] = mine r h.

Definition after (d : disk A) (h : list (nat * act A)) : disk A :=
  fold_left (fun d e => perform d (snd e)) h d.

(** Component [k] of cell [i], own cells first, then ghosts *)
Definition value (f : field A) (i k : nat) : option A :=
  match nth_error (father f ++ son f)%list i with
  | Some row => nth_error row k
  | None => None
  end.

(** All rows have the width of the field *)
Definition regular (f : field A) : Prop :=
  forall row, In row (father f ++ son f)%list -> Z.of_nat (List.length row) = width f.

(** Component numbers from 0 up to a width *)
Definition fits (dims : list Z) (w : Z) : Prop := forall k, In k dims -> (0 <= k < w)%Z.

(** [u'] is [u] with the components [dims] of every cell taken from [b] *)
Definition stored (dims : list Z) (u b u' : field A) : Prop :=
  List.length (father u') = List.length (father u) /\
  List.length (son u') = List.length (son u) /\
  width u' = width u /\ ghost u' = ghost u /\
  forall i k, (In (Z.of_nat k) dims -> value u' i k = value b i k) /\
              (~ In (Z.of_nat k) dims -> value u' i k = value u i k).

End Spec.

(** The settings last printed name a restart from which every rank gets its field *)
Definition complete {A} (d : disk A) (us : list (field A)) : Prop :=
  exists name, recorded d = Some name /\
    forall r u, nth_error us r = Some u -> readRestart d name (List.length us) r = Ok u.

(** No process prints the settings before all others have done with their files *)
Definition waiting {A} (progs : list (list (act A))) (h : list (nat * act A)) : Prop :=
  forall h1 q x h2, h = (h1 ++ (q, Record_ x) :: h2)%list ->
    forall r a, In a (nth r progs []) -> (forall y, a <> Record_ y) -> In (r, a) h1.
