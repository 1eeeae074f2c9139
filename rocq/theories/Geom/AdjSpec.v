(** What the conversion between global and local numbers is meant to do. *)
From Coq Require Import List ZArith.
From Verif Require Import Base.Prelude DNDS.IndexMappingModel DNDS.IndexMappingSpec.
From Verif Require Import Geom.AdjModel.
Import ListNotations.
Local Open Scope Z_scope.

(** An entry of an adjacency in global numbers: unset, or a number that is not
    negative (owned by some rank or not). *)
Definition entry_ok (v : Z) : Prop := v = UnInitIndex \/ 0 <= v < int64_max.
Definition entries_ok (rows : list (list Z)) : Prop := Forall (Forall entry_ok) rows.

(** The item at local place [x] of rank [r], whose own items come first and are
    followed by its ghosts. *)
Definition local_item (lens : list nat) (r : nat) (m : ghostmap) (x : nat) : option Z :=
  if (x <? nth r lens 0%nat)%nat
  then Some (Z.of_nat (list_sum (firstn r lens) + x))
  else nth_error (ghostIndex m) (x - nth r lens 0%nat).

(** Rank [r] has item [v], as its own or as a ghost. *)
Definition present (lens : list nat) (r : nat) (m : ghostmap) (v : Z) : Prop :=
  exists x, local_item lens r m x = Some v.

Definition all_present lens r m (rows : list (list Z)) : Prop :=
  Forall (Forall (present lens r m)) rows.
Definition first_present lens r m (rows : list (list Z)) : Prop :=
  Forall (fun row => match row with [] => True | v :: _ => present lens r m v end) rows.

(** The ghosts are listed in strictly ascending order. *)
Definition ghosts_ascend (m : ghostmap) : Prop :=
  forall i j x y, (i < j)%nat -> nth_error (ghostIndex m) i = Some x ->
    nth_error (ghostIndex m) j = Some y -> x < y.

(** Row [k] of the son on rank [r] is the row of the item it stands for. *)
Definition son_rows (lens : list nat) (rows : list (list (list Z))) (m : ghostmap)
  (son : list (list Z)) : Prop :=
  length son = length (ghostIndex m) /\
  forall k q s i, nth_error (ghostIndex m) k = Some q -> item_at lens q = Some (s, i) ->
    nth_error son k = nth_error (nth s rows []) i.
