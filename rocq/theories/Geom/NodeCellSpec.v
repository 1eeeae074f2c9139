(** What the inverted relations are meant to be. *)
From Coq Require Import List ZArith Permutation.
From Verif Require Import DNDS.IndexMappingSpec.
Import ListNotations.
Local Open Scope Z_scope.

(** The row of the item with a global number, when each rank holds the given rows. *)
Definition row_of {A} (rows : list (list A)) (c : Z) : option A :=
  match item_at (map (@length A) rows) c with
  | Some (s, j) => nth_error (nth s rows []) j
  | None => None
  end.

(** Cell [c] (of some rank) has node [q]. *)
Definition has_node (c2n : list (list (list Z))) (c q : Z) : Prop :=
  exists cell, row_of c2n c = Some cell /\ In q cell.

(** The rows of [n2c] list exactly the cells of each node, each once. *)
Definition inverse_of (c2n n2c : list (list (list Z))) (nlens : list nat) : Prop :=
  map (@length (list Z)) n2c = nlens /\
  forall q row, row_of n2c q = Some row ->
    NoDup row /\ forall c, In c row <-> has_node c2n c q.

(** Any order in which an unordered set may be run through. *)
Definition any_order (ord : nat -> Z -> Z -> list Z -> list Z) : Prop :=
  forall p r n l, Permutation (ord p r n l) l.

(** Two different cells with a common node. *)
Definition neighbours (c2n : list (list (list Z))) (c d : Z) : Prop :=
  c <> d /\ exists q, has_node c2n c q /\ has_node c2n d q.

(** In strictly ascending order. *)
Definition ascending (l : list Z) : Prop :=
  forall i j x y, (i < j)%nat -> nth_error l i = Some x -> nth_error l j = Some y -> x < y.

(** Cell [c] has all nodes of a boundary. *)
Definition has_all (c2n : list (list (list Z))) (bnd : list Z) (c : Z) : Prop :=
  forall q, In q bnd -> has_node c2n c q.

(** A boundary that has its cell, a periodic one ([p]) its two cells. *)
Definition two_or_one (c2n : list (list (list Z))) (p : bool) (bnd : list Z) : Prop :=
  bnd <> [] /\ if p then exists a b, a < b /\ forall c, has_all c2n bnd c <-> c = a \/ c = b
  else exists a, forall c, has_all c2n bnd c <-> c = a.
