(** What the merging of periodic nodes is meant to do. *)
From Coq Require Import List ZArith Bool Arith.
From Verif Require Import Base.Prelude Geom.PeriodicModel Geom.PeriodicSpec.
Import ListNotations.
Local Open Scope Z_scope.

(** Donor-to-main maps: a node has one main at most; donors and mains are nodes. *)
Definition map_ok (n : nat) (dm : list (Z * Z)) : Prop :=
  NoDup (map fst dm) /\ forall d m, In (d, m) dm -> 0 <= d < Z.of_nat n /\ 0 <= m < Z.of_nat n.

(** No node is reached from itself by going from donors to mains. *)
Definition acyclic (dms : list (list (Z * Z))) : Prop :=
  exists rank : Z -> nat, forall dm d m, In dm dms -> In (d, m) dm -> (rank m < rank d)%nat.

(** A node which is a donor in two directions reaches the same node by both ways. *)
Definition square (dm dm' : list (Z * Z)) : Prop :=
  forall d m m', In (d, m) dm -> In (d, m') dm' -> exists e, In (m, e) dm' /\ In (m', e) dm.

(** The nodes which are no donors, in ascending order. *)
Definition survivors (n : nat) (dms : list (list (Z * Z))) : list nat :=
  filter (fun i => negb (existsb (existsb (fun p => fst p =? Z.of_nat i)) dms)) (seq 0 n).

(** Going from donors to mains. *)
Inductive leads_to (dms : list (list (Z * Z))) : Z -> Z -> Prop :=
| leads_here i : leads_to dms i i
| leads_step dm d m s : In dm dms -> In (d, m) dm -> leads_to dms m s -> leads_to dms d s.

(** A node is a donor of a map. *)
Definition donor_in (dm : list (Z * Z)) (i : Z) : Prop := exists m, In (i, m) dm.

(** A main is no donor of the same direction, and a main of one direction is a donor of
    another only if its donor is one too. *)
Definition straight (dms : list (list (Z * Z))) : Prop :=
  forall j k dmj dmk d m, nth_error dms j = Some dmj -> nth_error dms k = Some dmk ->
    In (d, m) dmk -> donor_in dmj m -> j <> k /\ donor_in dmj d.

(** All entries of the rows are nodes. *)
Definition in_nodes (n : nat) (rows : list (list Z)) : Prop :=
  Forall (Forall (fun i => 0 <= i < Z.of_nat n)) rows.

(** The cells which have a vertex on a boundary.  A cell is the number of its vertices and
    the list of its nodes, the vertices first. *)
Definition touching (cells : list (nat * list Z)) (nodes : list Z) (c : nat) : Prop :=
  exists cell v, nth_error cells c = Some cell /\ In v (firstn (fst cell) (snd cell)) /\ In v nodes.

(** The coordinates of a node. *)
Definition at_node (coords : list vec) (i : Z) (x : vec) : Prop := 0 <= i /\ nth_error coords (Z.to_nat i) = Some x.

(** In exact arithmetic the donors are the images of their mains. *)
Definition images (p : Periodicity) (coords : list vec) (dms : list (list (Z * Z))) : Prop :=
  forall k dm d m x y, nth_error dms k = Some dm -> In (d, m) dm -> at_node coords d y -> at_node coords m x ->
    yields (TransCoord p x (- Z.of_nat (S k))) (fun r => same_vec 3 r y).
