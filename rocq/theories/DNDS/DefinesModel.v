(** Model of the integer, sequence and string helpers of src/DNDS/Defines.hpp. *)
From Coq Require Import List ZArith Bool Arith Ascii String.
From Verif Require Import Base.Prelude.
Import ListNotations.
Local Open Scope Z_scope.

(** A signed integer type [T] is given by its limits [lo], [hi].  Arithmetic in
    [T] that leaves the limits is undefined behaviour. *)
Definition tarith (lo hi z : Z) : res Z :=
  if (lo <=? z) && (z <=? hi) then Ok z else UB.

(** Defines.hpp 236-245, signedIntWillAddOverflow.  The right operands of [&&]
    are evaluated only when the left ones hold. *)
Definition signedIntWillAddOverflow (lo hi value increment : Z) : res bool :=
  do b1 <- (if 0 <? increment
            then do m <- tarith lo hi (hi - increment); Ok (m <? value)
            else Ok false);
  if (b1 : bool) then Ok true else
  do b2 <- (if increment <? 0
            then do m <- tarith lo hi (lo - increment); Ok (value <? m)
            else Ok false);
  Ok b2.

(** Defines.hpp 248-258, signedIntSafeAdd, assertions enabled. *)
Definition signedIntSafeAdd (lo hi value increment : Z) : res Z :=
  do o <- signedIntWillAddOverflow lo hi value increment;
  if (o : bool) then Abort else tarith lo hi (value + increment).

(** Defines.hpp 248-258 with assertions compiled out (DNDS_NDEBUG): returns 0. *)
Definition signedIntSafeAdd_NDEBUG (lo hi value increment : Z) : res Z :=
  do o <- signedIntWillAddOverflow lo hi value increment;
  if (o : bool) then Ok 0 else tarith lo hi (value + increment).

(** Defines.hpp 260-272, size_t_to_signed; [v] is a size_t, so [0 <= v < 2^64]. *)
Definition size_t_to_signed (hi v : Z) : res Z :=
  if v <=? hi then Ok v else Abort.

(** Defines.hpp 275-288, AccumulateRowSize; [lo], [hi] are the limits of the
    element type of the starts.  The vector is filled left to right; [acc] is
    the last start written. *)
Fixpoint accumulate (lo hi acc : Z) (rowsizes : list Z) : res (list Z) :=
  match rowsizes with
  | [] => Ok [acc]
  | s :: t =>
      do next <- signedIntSafeAdd lo hi acc s;
      do rest <- accumulate lo hi next t;
      Ok (acc :: rest)
  end.
Definition AccumulateRowSize (lo hi : Z) (rowsizes : list Z) : res (list Z) :=
  accumulate lo hi 0 rowsizes.

(** Defines.hpp 290-300, checkUniformVector: [Some value] models a true return
    together with the output argument. *)
Definition checkUniformVector (dat : list Z) : option Z :=
  match dat with
  | [] => None
  | v :: t => if forallb (fun x => x =? v) t then Some v else None
  end.

(** C++ integer division truncates: [Z.quot], [Z.rem]; division by zero is
    undefined. *)
Definition cdiv (a b : Z) : res Z := if b =? 0 then UB else Ok (Z.quot a b).
Definition crem (a b : Z) : res Z := if b =? 0 then UB else Ok (Z.rem a b).

(** Defines.hpp 311-314, divCeil: [l / r + (l % r) ? 1 : 0] parses as
    [(l / r + (l % r)) ? 1 : 0]. *)
Definition divCeil (l r : Z) : res Z :=
  do q <- cdiv l r; do m <- crem l r;
  Ok (if q + m =? 0 then 0 else 1).

(** Defines.hpp 375-380, divide_ceil. *)
Definition divide_ceil (a b : Z) : res Z :=
  do q <- cdiv a b; do m <- crem a b;
  Ok (q + (if m =? 0 then 0 else 1)).

(** Defines.hpp 365-373, mod. *)
Definition cmod (a b : Z) : res Z :=
  do val <- crem a b;
  Ok (if val <? 0 then val + b else val).

(** Defines.hpp 414-419, checkedIndexTo32. *)
Definition checkedIndexTo32 (v : Z) : res Z :=
  if (int32_max <? v) || (v <? int32_min) then Abort else Ok v.

(** Defines.hpp 391-410, iterateIdentical.  The visitor [F] may change a state
    [s] and returns whether to stop.  [l1], [l2] are what is left of the two
    ranges, [p1], [p2] the positions.  The three-way comparison covers all
    integers, so the loop always advances. *)
Fixpoint iterateIdentical_from {S : Type} (F : S -> Z -> nat -> nat -> S * bool)
    (l1 : list Z) (p1 : nat) {struct l1} : list Z -> nat -> S -> bool * S :=
  fix inner (l2 : list Z) (p2 : nat) (s : S) {struct l2} : bool * S :=
    match l1, l2 with
    | [], _ => (false, s)
    | _, [] => (false, s)
    | x :: t1, y :: t2 =>
        if x <? y then iterateIdentical_from F t1 (p1 + 1) l2 p2 s
        else if y <? x then inner t2 (p2 + 1)%nat s
        else
          let '(s', stop) := F s x p1 p2 in
          if (stop : bool) then (true, s')
          else iterateIdentical_from F t1 (p1 + 1) t2 (p2 + 1)%nat s'
    end.
Definition iterateIdentical {S} (F : S -> Z -> nat -> nat -> S * bool)
    (l1 l2 : list Z) (s : S) : bool * S :=
  iterateIdentical_from F l1 0 l2 0%nat s.

(** Defines.hpp 523-539, splitSString, with a string as a list of characters.
    [cur] is the piece [bot..top) collected so far. *)
Fixpoint split_from (delim : ascii) (cur : list ascii) (s : list ascii) : list (list ascii) :=
  match s with
  | [] => [cur]
  | c :: t =>
      if Ascii.eqb c delim then cur :: split_from delim [] t
      else split_from delim (cur ++ [c]) t
  end.
Definition splitSString (s : list ascii) (delim : ascii) : list (list ascii) :=
  split_from delim [] s.

(** Defines.hpp 541-549, splitSStringClean: empty pieces dropped. *)
Definition splitSStringClean (s : list ascii) (delim : ascii) : list (list ascii) :=
  filter (fun v => match v with [] => false | _ => true end) (splitSString s delim).

(** Defines.hpp 551-556, sstringHasSuffix. *)
Fixpoint ascii_list_eqb (a b : list ascii) : bool :=
  match a, b with
  | [], [] => true
  | x :: s, y :: t => Ascii.eqb x y && ascii_list_eqb s t
  | _, _ => false
  end.
Definition sstringHasSuffix (str suffix : list ascii) : bool :=
  if Nat.ltb (List.length str) (List.length suffix) then false
  else ascii_list_eqb (skipn (List.length str - List.length suffix) str) suffix.
