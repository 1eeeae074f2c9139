(** Shared vocabulary of the models: outcomes of partial C++ code, vector
    access, C++ standard-library algorithms.  No property is stated here. *)
From Coq Require Import List ZArith Lia Bool Arith Permutation.
Import ListNotations.
Local Open Scope Z_scope.

(** ** Outcomes

    [Ok a]: the call returns [a].  [Abort]: an enabled [DNDS_assert] fails or an
    exception is raised.  [UB]: undefined behaviour (out-of-range [operator[]],
    null dereference, signed overflow, mismatched MPI counts). *)
Inductive res (A : Type) : Type :=
| Ok (a : A)
| Abort
| UB.
Arguments Ok {A} a.
Arguments Abort {A}.
Arguments UB {A}.

Definition bind {A B} (m : res A) (f : A -> res B) : res B :=
  match m with Ok a => f a | Abort => Abort | UB => UB end.

Declare Scope res_scope.
Delimit Scope res_scope with res.
Notation "'do' x <- m ; k" := (bind m (fun x => k))
  (at level 200, x pattern, m at level 100, k at level 200, right associativity).

(** [DNDS_assert(b)] (Defines.hpp 83-95, assertions enabled). *)
Definition assert_ (b : bool) : res unit := if b then Ok tt else Abort.

(** Map with effects, left to right (a [for] loop that fills a vector). *)
Fixpoint mapM {A B} (f : A -> res B) (l : list A) : res (list B) :=
  match l with
  | [] => Ok []
  | x :: t => do y <- f x; do ys <- mapM f t; Ok (y :: ys)
  end.

Fixpoint foldM {A S} (f : S -> A -> res S) (s : S) (l : list A) : res S :=
  match l with
  | [] => Ok s
  | x :: t => do s' <- f s x; foldM f s' t
  end.

(** ** Vectors *)

(** [v[i]] with [std::vector::operator[]]: undefined outside the range. *)
Definition vget {A} (l : list A) (i : Z) : res A :=
  if (i <? 0) then UB
  else match nth_error l (Z.to_nat i) with Some x => Ok x | None => UB end.

(** [v.at(i)]: throws outside the range. *)
Definition vat {A} (l : list A) (i : Z) : res A :=
  if (i <? 0) then Abort
  else match nth_error l (Z.to_nat i) with Some x => Ok x | None => Abort end.

(** Functional update of one position; the list is unchanged outside its range. *)
Fixpoint upd {A} (n : nat) (x : A) (l : list A) : list A :=
  match l, n with
  | [], _ => []
  | _ :: t, O => x :: t
  | y :: t, S m => y :: upd m x t
  end.

(** [v[i] = x] *)
Definition vset {A} (l : list A) (i : Z) (x : A) : res (list A) :=
  if (i <? 0) || (Z.of_nat (length l) <=? i) then UB else Ok (upd (Z.to_nat i) x l).

(** Length as a C++ integer. *)
Definition zlen {A} (l : list A) : Z := Z.of_nat (length l).

(** ** Integer ranges (Defines.hpp 115-117: index = int64, rowsize = int32) *)
Definition int64_max : Z := 2 ^ 63 - 1.
Definition int64_min : Z := - 2 ^ 63.
Definition int32_max : Z := 2 ^ 31 - 1.
Definition int32_min : Z := - 2 ^ 31.
Definition in_int64 (z : Z) : bool := (int64_min <=? z) && (z <=? int64_max).
Definition in_int32 (z : Z) : bool := (int32_min <=? z) && (z <=? int32_max).

(** Running sums [acc; acc+x0; acc+x0+x1; ...] (one longer than the input). *)
Fixpoint psums (acc : Z) (l : list Z) : list Z :=
  match l with
  | [] => [acc]
  | x :: t => acc :: psums (acc + x) t
  end.

Definition zsum (l : list Z) : Z := fold_right Z.add 0 l.

(** ** std::lower_bound

    libstdc++'s loop ([__lower_bound]): halve [len], step over the middle while
    [comp] holds of the middle and [val].  [comp x] stands for [comp(x, val)].  The result is a
    position.  [fuel] is the length, which is always enough; [nth_error] never
    misses because the middle is inside the range. *)
Fixpoint lb_loop {A} (comp : A -> bool) (l : list A) (fuel first len : nat) : nat :=
  match fuel with
  | O => first
  | S k =>
      match len with
      | O => first
      | _ =>
          let half := Nat.div2 len in
          let mid := (first + half)%nat in
          match nth_error l mid with
          | None => first
          | Some x =>
              if comp x then lb_loop comp l k (S mid) (len - half - 1)
              else lb_loop comp l k first half
          end
      end
  end.

Definition lower_bound {A} (comp : A -> bool) (l : list A) : nat :=
  lb_loop comp l (length l) 0 (length l).

(** std::lower_bound(begin, end, q) with operator<. *)
Definition lb_lt (l : list Z) (q : Z) : nat := lower_bound (fun x => x <? q) l.
(** std::lower_bound(begin, end, q, std::less_equal). *)
Definition lb_le (l : list Z) (q : Z) : nat := lower_bound (fun x => x <=? q) l.

(** ** std::sort and std::unique on integers

    The result of sorting integers is determined by the multiset, so an
    insertion sort is a faithful model of [std::sort]. *)
Fixpoint zinsert (x : Z) (l : list Z) : list Z :=
  match l with
  | [] => [x]
  | y :: t => if x <=? y then x :: l else y :: zinsert x t
  end.
Definition zsort (l : list Z) : list Z := fold_right zinsert [] l.

(** [std::unique]: drops an element equal to its predecessor. *)
Fixpoint zuniq (l : list Z) : list Z :=
  match l with
  | [] => []
  | x :: t =>
      match zuniq t with
      | [] => [x]
      | (y :: _) as t' => if x =? y then t' else x :: t'
      end
  end.
