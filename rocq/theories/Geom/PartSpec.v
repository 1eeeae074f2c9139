(** What the redistribution of the mesh is meant to do. *)
From Coq Require Import List ZArith.
From Verif Require Import DNDS.IndexMappingSpec Geom.NodeCellSpec Geom.AdjModel Geom.PartModel.
Import ListNotations.
Local Open Scope Z_scope.

(** The local items which a partition assigns to rank [r]. *)
Definition positions (part : list Z) (r : nat) : list nat :=
  filter (fun i => nth i part (-1) =? Z.of_nat r) (seq 0 (length part)).

(** Item [i] of rank [s] is assigned to rank [r]. *)
Definition assigned (parts : list (list Z)) (s i r : nat) : Prop :=
  nth_error (nth s parts []) i = Some (Z.of_nat r).

(** Every item is assigned to one of [size] ranks. *)
Definition partition_ok (size : nat) (parts : list (list Z)) : Prop :=
  length parts = size /\ Forall (Forall (fun p => 0 <= p < Z.of_nat size)) parts.

(** [y] is the row [x] in which every entry up to the first unset one is replaced
    by the number which [s2g] gives to the item it refers to. *)
Inductive renumbered (s2g : list (list Z)) : list Z -> list Z -> Prop :=
| ren_nil : renumbered s2g [] []
| ren_unset : forall t, renumbered s2g (UnInitIndex :: t) (UnInitIndex :: t)
| ren_cons : forall v w t u, v <> UnInitIndex -> row_of s2g v = Some w ->
    renumbered s2g t u -> renumbered s2g (v :: t) (w :: u).

(** [y] holds the data [x] of one rank after another, moved to the numbers [s2g] and
    changed by [R]. *)
Definition moved {A} (s2g : list (list Z)) (R : A -> A -> Prop) (x y : list (list A)) : Prop :=
  length (concat x) = length (concat y) /\
  forall c a, row_of x c = Some a ->
    exists d b, row_of s2g c = Some d /\ row_of y d = Some b /\ R a b.
