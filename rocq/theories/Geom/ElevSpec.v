(** What an elevated mesh must look like. *)
From Coq Require Import Reals List ZArith Permutation.
From Verif Require Import Base.Prelude Geom.ElemModel Geom.PeriodicModel Geom.PeriodicSpec Geom.ElevModel.
Import ListNotations.
Local Open Scope Z_scope.

(** cell [i] of the first-order mesh, its [k]-th new node lies between the nodes [s] *)
Definition is_cell (m : mesh) (i : nat) (c : cell) : Prop := nth_error (all_cells m) i = Some c.
Definition is_span (c : cell) (k : nat) (s : list Z) : Prop := ExtractElevNodeSpanNodes (c_type c) k (c_nodes c) = Ok s.
(** the number of that node in the elevated mesh, its coordinates there, and its periodic
    bits in the cell *)
Definition new_node (m : mesh) (o : elevated) (i k : nat) (g : Z) : Prop :=
  exists c c2, is_cell m i c /\ nth_error (o_cells o) i = Some c2 /\ nth_error (c_nodes c2) (GetNumNodes (c_type c) + k) = Some g.
Definition new_bits (m : mesh) (o : elevated) (i k : nat) (b : Z) : Prop :=
  exists c c2, is_cell m i c /\ nth_error (o_cells o) i = Some c2 /\ nth_error (c_bits c2) (GetNumNodes (c_type c) + k) = Some b.
Definition coord2 (o : elevated) (g : Z) (x : vec) : Prop := 0 <= g /\ nth_error (concat (o_coords o)) (Z.to_nat g) = Some x.
(** the same for an old node, and its coordinates in the first-order mesh *)
Definition old_node (m : mesh) (o : elevated) (i k : nat) (g : Z) : Prop :=
  exists c c2, is_cell m i c /\ nth_error (o_cells o) i = Some c2 /\ (k < GetNumNodes (c_type c))%nat /\ nth_error (c_nodes c2) k = Some g.
Definition coord1 (m : mesh) (g : Z) (x : vec) : Prop := 0 <= g /\ nth_error (all_coords m) (Z.to_nat g) = Some x.

(** every cell has as many nodes as its type needs, each once *)
Definition sound_cells (m : mesh) : Prop :=
  forall i c, is_cell m i c -> length (c_nodes c) = GetNumNodes (c_type c) /\ NoDup (c_nodes c).
(** cells with a common node know each other *)
Definition point_neighbours (m : mesh) : Prop :=
  forall i j a b n, is_cell m i a -> is_cell m j b -> i <> j -> In n (c_nodes a) -> In n (c_nodes b) -> In (Z.of_nat j) (c_nb a).
(** two cells that see the same nodes see the middle at the same place *)
Definition same_places (m : mesh) : Prop :=
  forall i j a b k l s s' x y, is_cell m i a -> is_cell m j b -> is_span a k s -> is_span b l s' -> Permutation s s' ->
    place m a k = Ok x -> place m b l = Ok y -> same_vec 3 (fst x) (fst y).
(** a cell that holds all nodes between which a new node of another lies has that node too *)
Definition conforming (m : mesh) : Prop :=
  forall i j a b k s, is_cell m i a -> is_cell m j b -> is_span a k s -> incl s (c_nodes b) ->
    exists l s', is_span b l s' /\ Permutation s s'.
(** no two new nodes of a cell coincide *)
Definition apart (m : mesh) : Prop :=
  forall i c k l x y, is_cell m i c -> place m c k = Ok x -> place m c l = Ok y -> k <> l ->
    (/ 10 ^ 20 <= dist2 (fst x) (fst y))%R.

(** node [g1] of the first-order mesh is node [g2] of the elevated one: same rank, same
    position there *)
Definition renamed (m : mesh) (o : elevated) (g1 g2 : Z) : Prop :=
  exists l p r l2 X r2 q, parts m = l ++ p :: r /\ o_coords o = l2 ++ X :: r2 /\ length l = length l2 /\
    0 <= q < zlen (p_coords p) /\ g1 = zlen (concat (map p_coords l)) + q /\ g2 = zlen (concat l2) + q.
(** what is read exists: nodes, neighbours, bits and second-order types *)
Definition complete (m : mesh) : Prop :=
  forall i c, is_cell m i c ->
    (exists n, GetElemElevation_O1O2_NumNode (c_type c) = Some n) /\
    (forall g, In g (c_nodes c) -> 0 <= g < zlen (all_coords m)) /\
    (forall j, In j (c_nb c) -> 0 <= j < zlen (all_cells m)) /\
    (periodic m = true -> length (c_bits c) = length (c_nodes c) /\ well_formed 3 (info m)).
(** boundary element [j] with its rank's first and last cell *)
Definition bnd_at (m : mesh) (lo hi : Z) (b : bnd) : Prop :=
  exists l p r, parts m = l ++ p :: r /\ lo = zlen (concat (map p_cells l)) /\ hi = lo + zlen (p_cells p) /\ In b (p_bnds p).
(** every boundary element is a face of a cell of its rank *)
Definition bnds_are_faces (m : mesh) : Prop :=
  forall lo hi b, bnd_at m lo hi b -> lo <= b_cell b < hi /\
    exists c f fn, is_cell m (Z.to_nat (b_cell b)) c /\ ExtractFaceNodes (c_type c) f (c_nodes c) = Ok fn /\ Permutation (b_nodes b) fn.
(** where a cell sees its node [fst q] with the bits [snd q] *)
Definition seen (m : mesh) (q : Z * Z) (x : vec) : Prop := exists y, coord1 m (fst q) y /\ GetCoordByBits (info m) y (snd q) = Ok x.
(** an edge and a normal at one of its ends that are perpendicular *)
Definition vdot (u v : vec) : R := sumn 3 (fun i => u i * v i)%R.
Definition straight (c0 c1 n : vec) : Prop := vdot (fun i => c1 i - c0 i)%R n = 0%R.
