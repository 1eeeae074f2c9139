(** C34: redistribution of the mesh by a partition. *)
From Coq Require Import List ZArith Permutation.
From Verif Require Import Base.Prelude DNDS.IndexMappingSpec Geom.AdjModel Geom.NodeCellSpec
  Geom.PartModel Geom.PartSpec Geom.PartProofs.
Import ListNotations.
Local Open Scope Z_scope.

(** What a rank prepares to send to each destination is exactly its items assigned
    there, each once and in order. *)
Theorem C34_sends_assigned : forall size part pa, Partition2LocalIdx size part = Ok pa ->
  Forall (fun p => 0 <= p < Z.of_nat size) part /\
  pa = push_args (map (positions part) (seq 0 size)).
Proof. exact local_idx_spec. Qed.
Print Assumptions C34_sends_assigned.
Example sends_ex : Partition2LocalIdx 3 [2; 0; 0; 2; 1] = Ok ([1; 2; 4; 0; 3], [0; 2; 3; 5]).
Proof. vm_compute. reflexivity. Qed.

(** The new numbers are a bijection with 0 .. total - 1. *)
Theorem C34_bijection : forall size parts s2g, Partition2Serial2Global size parts = Ok s2g ->
  Permutation (concat s2g) (map Z.of_nat (seq 0 (length (concat parts)))).
Proof. exact bijection. Qed.
Print Assumptions C34_bijection.
(** the example in the comment at Mesh.cpp 102-110 *)
Example bijection_ex : Partition2Serial2Global 2 [[0; 1]; [0; 1]] = Ok [[0; 2]; [1; 3]].
Proof. vm_compute. reflexivity. Qed.

(** The data of an item arrive on its assigned rank, at the place which the number
    of the item denotes. *)
Theorem C34_landing : forall A size parts pushes s2g (rows new : list (list A)) s i r x,
  length parts = size -> map (@length A) rows = map (@length Z) parts ->
  mapM (Partition2LocalIdx size) parts = Ok pushes -> Partition2Serial2Global size parts = Ok s2g ->
  TransferDataSerial2Global rows pushes = Ok new ->
  assigned parts s i r -> nth_error (nth s rows []) i = Some x ->
  exists q k, nth_error (nth s s2g []) i = Some q /\ item_at (map (@length A) new) q = Some (r, k) /\
    nth_error (nth r new []) k = Some x.
Proof. exact landing. Qed.
Print Assumptions C34_landing.

(** Nothing else arrives, and the whole succeeds for every partition. *)
Theorem C34_total : forall A size parts (rows : list (list A)), partition_ok size parts ->
  map (@length A) rows = map (@length Z) parts -> Z.of_nat (length (concat parts)) <= int32_max ->
  exists pushes s2g new, mapM (Partition2LocalIdx size) parts = Ok pushes /\
    Partition2Serial2Global size parts = Ok s2g /\ TransferDataSerial2Global rows pushes = Ok new.
Proof. exact redistribution_total. Qed.
Print Assumptions C34_total.
Theorem C34_moved : forall A size parts pushes s2g (rows new : list (list A)), length parts = size ->
  map (@length A) rows = map (@length Z) parts ->
  mapM (Partition2LocalIdx size) parts = Ok pushes -> Partition2Serial2Global size parts = Ok s2g ->
  TransferDataSerial2Global rows pushes = Ok new -> moved s2g eq rows new.
Proof. exact moved_transfer. Qed.
Print Assumptions C34_moved.

Example landing_ex :
  let parts := [[1; 0; 1]; [0; 0]; [1; 2; 0]] in
  let rows := [[10; 11; 12]; [20; 21]; [30; 31; 32]] in
  match mapM (Partition2LocalIdx 3) parts with
  | Ok pushes => TransferDataSerial2Global rows pushes = Ok [[11; 20; 21; 32]; [10; 12; 30]; [31]]
  | _ => False
  end /\ Partition2Serial2Global 3 parts = Ok [[4; 0; 5]; [1; 2]; [6; 7; 3]] /\ partition_ok 3 parts.
Proof.
  vm_compute. do 3 (split; [reflexivity|]). repeat constructor; discriminate.
Qed.

(** The conversion of a relation puts for each entry the new number of its item. *)
Theorem C34_relation : forall adj s2g out, length adj = length s2g ->
  ConvertAdjSerial2Global adj s2g = Ok out -> Forall2 (Forall2 (renumbered s2g)) adj out.
Proof. exact convert_spec. Qed.
Print Assumptions C34_relation.
Example relation_ex :
  ConvertAdjSerial2Global [[[0; 3]; [2]]; [[1; UnInitIndex; 7]]] [[0; 2]; [1; 3]] =
  Ok [[[0; 3]; [1]]; [[2; UnInitIndex; 7]]].
Proof. vm_compute. reflexivity. Qed.

(** The redistributed mesh is the mesh: every node, cell and boundary keeps its data
    and its relations, under the new numbers. *)
Theorem C34_mesh : forall C I size cp np bp cs ns bs (m m' : serial_mesh C I),
  length cp = size -> length np = size -> length bp = size ->
  map (@length _) (s_coords m) = map (@length Z) np ->
  map (@length _) (s_cellInfo m) = map (@length Z) cp ->
  map (@length _) (s_cell2cell m) = map (@length Z) cp ->
  map (@length _) (s_cell2node m) = map (@length Z) cp ->
  map (@length _) (s_bndInfo m) = map (@length Z) bp ->
  map (@length _) (s_bnd2cell m) = map (@length Z) bp ->
  map (@length _) (s_bnd2node m) = map (@length Z) bp ->
  Partition2Serial2Global size cp = Ok cs -> Partition2Serial2Global size np = Ok ns ->
  Partition2Serial2Global size bp = Ok bs ->
  PartitionReorder size cp np bp m = Ok m' ->
  moved ns eq (s_coords m) (s_coords m') /\
  moved cs eq (s_cellInfo m) (s_cellInfo m') /\
  moved cs (renumbered ns) (s_cell2node m) (s_cell2node m') /\
  moved cs (renumbered cs) (s_cell2cell m) (s_cell2cell m') /\
  moved bs eq (s_bndInfo m) (s_bndInfo m') /\
  moved bs (renumbered ns) (s_bnd2node m) (s_bnd2node m') /\
  moved bs (renumbered cs) (s_bnd2cell m) (s_bnd2cell m').
Proof. exact mesh_moved. Qed.
Print Assumptions C34_mesh.
(** two quadrilaterals side by side, all on rank 0 of two *)
Example mesh_ex :
  PartitionReorder 2 [[1; 0]; []] [[1; 0; 0; 1; 0; 0]; []] [[1; 0]; []]
    {| s_coords := [[100; 101; 102; 103; 104; 105]; []]; s_cellInfo := [[7; 8]; []]; s_bndInfo := [[1; 2]; []];
       s_cell2cell := [[[1]; [0]]; []]; s_cell2node := [[[0; 1; 4; 3]; [1; 2; 5; 4]]; []];
       s_bnd2cell := [[[0; UnInitIndex]; [1; UnInitIndex]]; []]; s_bnd2node := [[[0; 3]; [2; 5]]; []] |} =
  Ok {| s_coords := [[101; 102; 104; 105]; [100; 103]]; s_cellInfo := [[8]; [7]]; s_bndInfo := [[2]; [1]];
       s_cell2cell := [[[1]]; [[0]]]; s_cell2node := [[[0; 1; 3; 2]]; [[4; 0; 2; 5]]];
       s_bnd2cell := [[[0; UnInitIndex]]; [[1; UnInitIndex]]]; s_bnd2node := [[[1; 3]]; [[4; 5]]] |}.
Proof. vm_compute. reflexivity. Qed.

(** A node goes to the least of the destinations of its cells. *)
Theorem C34_node_partition : forall n cells cp out, node_partition n cells cp = Ok out ->
  length out = n /\
  forall q p, nth_error out q = Some p ->
    (forall c cell pc, nth_error cells c = Some cell -> In (Z.of_nat q) cell -> nth_error cp c = Some pc -> p <= pc) /\
    (p = int32_max \/ exists c cell, nth_error cells c = Some cell /\ In (Z.of_nat q) cell /\ nth_error cp c = Some p).
Proof. exact node_partition_spec. Qed.
Print Assumptions C34_node_partition.
Example node_partition_ex : node_partition 6 [[0; 1; 4; 3]; [1; 2; 5; 4]] [1; 0] = Ok [1; 0; 0; 1; 0; 0].
Proof. vm_compute. reflexivity. Qed.
(** A node of no cell gets no rank: the redistribution aborts. *)
Example node_unused : node_partition 3 [[0; 1]] [0] = Ok [0; 0; int32_max] /\
  Partition2LocalIdx 1 [0; 0; int32_max] = Abort.
Proof. vm_compute. auto. Qed.

(** A boundary goes with the cell it lies on, the first of its row. *)
Theorem C34_bnd_partition : forall b2c cp out, bnd_partition b2c cp = Ok out ->
  Forall2 (fun row p => exists c t, row = c :: t /\ 0 <= c /\ nth_error cp (Z.to_nat c) = Some p) b2c out.
Proof. exact bnd_partition_spec. Qed.
Print Assumptions C34_bnd_partition.
Example bnd_partition_ex : bnd_partition [[1; UnInitIndex]; [0; 2]; [2; 0]] [5; 6; 7] = Ok [6; 5; 7].
Proof. vm_compute. reflexivity. Qed.
