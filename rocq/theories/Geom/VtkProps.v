(** C69: the exported VTK file shows the mesh. *)
From Coq Require Import List ZArith Bool Arith Permutation.
From Verif Require Import Base.Prelude Geom.ElemModel Geom.PeriodicModel Geom.PeriodicSpec Geom.VtkModel Geom.VtkSpec Geom.VtkGrid Geom.VtkProofs Geom.VtkExample.
Import ListNotations.
Local Open Scope Z_scope.

(** The export succeeds, whatever the order in which the ranks write; the file shows the mesh; the
    values written for cells and points are those of the cells and of the nodes. *)
Theorem C69_export_partial : forall P (turn : P -> Z -> res P) m periodic, distributed m -> (periodic = true -> can_turn turn) ->
  exists keys f,
    (forall s1 s2 s3 s4, any_order m s1 -> any_order m s2 -> any_order m s3 -> any_order m s4 ->
       export_grid turn periodic m s1 s2 s3 s4 = Ok f) /\
    picture turn m periodic keys f /\
    (forall D (data : nat -> Z -> D), exists vals,
       (forall s, any_order m s -> export_cells turn periodic m data s = Ok vals) /\
       length vals = cells_before m (length m) /\
       forall r j c, cell_of m r j c -> nth_error vals (cells_before m r + j) = Some (Some (data r (Z.of_nat j)))) /\
    (forall D (data : nat -> Z -> D), exists vals,
       (forall s, any_order m s -> export_points turn periodic m data s = Ok vals) /\
       length vals = length keys /\
       forall k g b, nth_error keys k = Some (g, b) -> exists r p i, nth_error m r = Some p /\ 0 <= i < nOwn p /\
         g = Z.of_nat (nodes_before m r) + i /\ nth_error vals k = Some (Some (data r i))).
Proof. exact export_ok. Qed.
Print Assumptions C69_export_partial.
Example C69_export_nonvacuous : distributed ex_mesh /\ can_turn ex_turn /\ any_order ex_mesh [1%nat; 0%nat] /\
  forall s1 s2 s3 s4, any_order ex_mesh s1 -> any_order ex_mesh s2 -> any_order ex_mesh s3 -> any_order ex_mesh s4 ->
    export_grid ex_turn true ex_mesh s1 s2 s3 s4 = Ok ex_file.
Proof. exact (conj ex_dist (conj ex_can_turn (conj (perm_swap 0%nat 1%nat []) ex_written))). Qed.

(** The corners of every cell are drawn where they are, in VTK's order. *)
Theorem C69_corners : forall P (turn : P -> Z -> res P) m periodic keys f, picture turn m periodic keys f ->
  forall r j c, cell_of m r j c ->
  exists ty ids, vtk_type (c_type c) = Some ty /\ file_cell f (cells_before m r + j) ty ids /\
    forall k id, nth_error ids k = Some id -> exists n g b y,
      belongs (c_type c) n ty k /\ has_corner m periodic r c n g b /\ place turn m g b y /\ point_at f id y.
Proof. exact drawn_place. Qed.
Print Assumptions C69_corners.

(** Two corners share a point of the file if and only if they are the same node moved by the same
    periods. *)
Theorem C69_sharing : forall P (turn : P -> Z -> res P) m periodic keys f, picture turn m periodic keys f ->
  forall r j c r' j' c' ty ids ty' ids' k k' id id' n g b n' g' b',
  cell_of m r j c -> cell_of m r' j' c' ->
  file_cell f (cells_before m r + j) ty ids -> file_cell f (cells_before m r' + j') ty' ids' ->
  nth_error ids k = Some id -> nth_error ids' k' = Some id' ->
  belongs (c_type c) n ty k -> belongs (c_type c') n' ty' k' ->
  has_corner m periodic r c n g b -> has_corner m periodic r' c' n' g' b' ->
  (id = id' <-> g = g' /\ b = b').
Proof. exact shared. Qed.
Print Assumptions C69_sharing.
Example C69_sharing_nonvacuous : file_cell ex_file 0 9 [0; 4; 5; 1] /\ file_cell ex_file 1 9 [4; 2; 3; 5].
Proof. split; (split; [reflexivity|]); [exists 0, 4|exists 4, 8]; repeat split; discriminate. Qed.

(** All nodes of cells of these types are drawn. *)
Theorem C69_all_nodes : forall P (turn : P -> Z -> res P) m periodic keys f, picture turn m periodic keys f ->
  forall r j c, cell_of m r j c ->
  In (c_type c) [Line2; Line3; Tri3; Tri6; Quad4; Tet4; Tet10; Hex8; Prism6; Pyramid5] ->
  forall n g b, has_corner m periodic r c n g b -> (n < GetNumNodes (c_type c))%nat ->
  exists ty ids id, file_cell f (cells_before m r + j) ty ids /\ In id ids /\ nth_error keys (Z.to_nat id) = Some (g, b).
Proof. exact all_drawn. Qed.
Print Assumptions C69_all_nodes.

(** The periods of the library move all points. *)
Theorem C69_library : forall p, well_formed 3 p -> can_turn (GetCoordByBits p).
Proof. exact library_can_turn. Qed.
Print Assumptions C69_library.

(** Not so: a field of vectors that turns with the mesh is shown as such.  (The vectors of nodes
    are copied to the moved points without being turned.) *)
Theorem C69_vectors_refuted : ~ (forall m data f vals s1 s2 s3 s4 s5, distributed m ->
  any_order m s1 -> any_order m s2 -> any_order m s3 -> any_order m s4 -> any_order m s5 ->
  (forall r p i x, nth_error m r = Some p -> nth_error (p_nodes p) i = Some x -> data r (Z.of_nat i) = x) ->
  export_grid quarter true m s1 s2 s3 s4 = Ok f -> export_points quarter true m data s5 = Ok vals ->
  forall id y w, point_at f id y -> nth_error vals (Z.to_nat id) = Some (Some w) -> w = y).
Proof. exact vectors_refuted. Qed.
Print Assumptions C69_vectors_refuted.

(** Not so: after the connectivity has been built again (as after a reordering of cells) the file is
    the same in whatever order the ranks write.  (The connectivity is appended to the old one.) *)
Theorem C69_rebuild_refuted : ~ (forall m f s1 s2 s3 s4 s4', distributed m ->
  any_order m s1 -> any_order m s2 -> any_order m s3 -> any_order m s4 -> any_order m s4' ->
  rebuilt m s1 s2 s3 s4 = Ok f -> rebuilt m s1 s2 s3 s4' = Ok f).
Proof. exact rebuild_refuted. Qed.
Print Assumptions C69_rebuild_refuted.

(** Not so: every node of every cell is drawn.  (Nodes in the middle of faces and cells are not.) *)
Theorem C69_every_node_refuted : ~ (forall m (turn : Z * Z -> Z -> res (Z * Z)) f s1 s2 s3 s4, distributed m ->
  any_order m s1 -> any_order m s2 -> any_order m s3 -> any_order m s4 ->
  export_grid turn false m s1 s2 s3 s4 = Ok f ->
  forall r j c n g, cell_of m r j c -> has_corner m false r c n g 0 -> In (Some g) (f_conn f)).
Proof. exact middle_refuted. Qed.
Print Assumptions C69_every_node_refuted.
