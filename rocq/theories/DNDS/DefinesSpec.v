(** Independent specifications for the helpers of Defines.hpp. *)
From Coq Require Import List ZArith Bool Arith Ascii.
Import ListNotations.
Local Open Scope Z_scope.

(** All (value, position in l1, position in l2) with equal entries, in order of
    the first position. *)
Definition indexed (l : list Z) : list (nat * Z) := combine (seq 0 (length l)) l.
Definition matches (l1 l2 : list Z) : list (Z * nat * nat) :=
  map (fun p => (snd (fst p), fst (fst p), fst (snd p)))
    (filter (fun p => snd (fst p) =? snd (snd p)) (list_prod (indexed l1) (indexed l2))).

(** Calling a visitor on a list of matches until it asks to stop. *)
Fixpoint visit {S} (F : S -> Z -> nat -> nat -> S * bool) (ms : list (Z * nat * nat)) (s : S)
  : bool * S :=
  match ms with
  | [] => (false, s)
  | (x, i, j) :: t =>
      let '(s', stop) := F s x i j in
      if (stop : bool) then (true, s') else visit F t s'
  end.

(** Joining pieces with a separator. *)
Fixpoint join (sep : ascii) (ps : list (list ascii)) : list ascii :=
  match ps with
  | [] => []
  | [p] => p
  | p :: t => p ++ sep :: join sep t
  end.
