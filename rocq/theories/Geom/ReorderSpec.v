(** What the reordering of the cells is meant to be. *)
From Coq Require Import List ZArith Permutation.
From Verif Require Import DNDS.IndexMappingSpec Geom.NodeCellSpec Geom.AdjModel Geom.ReorderModel.
Import ListNotations.
Local Open Scope Z_scope.

(** One permutation per rank, of the cells of the rank. *)
Definition permutations (lens : list nat) (perm : list (list Z)) : Prop :=
  length perm = length lens /\
  forall s p, nth_error perm s = Some p -> Permutation p (map Z.of_nat (seq 0 (nth s lens 0%nat))).

(** Cell [c] is at [d] after the reordering: on the same rank, at its new place. *)
Definition reordered (lens : list nat) (perm : list (list Z)) (c d : Z) : Prop :=
  exists s i j, item_at lens c = Some (s, i) /\ nth_error (nth s perm []) i = Some (Z.of_nat j) /\
    item_at lens d = Some (s, j).

(** An entry of a relation to cells, before and after. *)
Definition new_entry lens perm (v w : Z) : Prop :=
  (v = UnInitIndex /\ w = UnInitIndex) \/ (v <> UnInitIndex /\ reordered lens perm v w).

(** The rows [x] of the cells are found in [y] at the new places, changed by [R]. *)
Definition rows_reordered {A} lens perm (R : A -> A -> Prop) (x y : list (list A)) : Prop :=
  map (@length A) y = map (@length A) x /\
  forall c d a, reordered lens perm c d -> row_of x c = Some a ->
    exists b, row_of y d = Some b /\ R a b.

(** The ghost rows are the rows of their owners. *)
Definition ghost_rows {A} (rows : list (list A)) (ghost : list (list Z)) (sons : list (list A)) : Prop :=
  Forall2 (Forall2 (fun q a => row_of rows q = Some a)) ghost sons.

(** Every relation from cells has a row for each cell; the others have rows on each rank. *)
Definition same_sizes {I} (m : cmesh I) : Prop :=
  let lens := map (@length (list Z)) (m_c2n m) in
  map (@length _) (m_c2c m) = lens /\ map (@length _) (m_info m) = lens /\
  (forall c2f, m_c2f m = Some c2f -> map (@length _) c2f = lens) /\
  length (m_b2c m) = length lens /\ length (m_f2c m) = length lens /\ length (m_n2c m) = length lens /\
  length (m_ghost m) = length lens.
