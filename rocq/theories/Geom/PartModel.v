(** Model of the redistribution of the mesh by a partition: src/Geom/Mesh.cpp
    46-341, on all ranks together.  A partition gives the destination rank of each
    item of a rank.  Counters and their sums are taken as exact: they count items
    in memory. *)
From Coq Require Import List ZArith Bool Arith.
From Verif Require Import Base.Prelude Base.MPIModel DNDS.DefinesModel DNDS.IndexMappingModel
  Geom.AdjModel Geom.NodeCellModel.
Import ListNotations.
Local Open Scope Z_scope.

(** 53-58: the number of items for each destination; [checked]: with the assertion. *)
Definition count_parts (checked : bool) (size : nat) (part : list Z) : res (list Z) :=
  foldM (fun sizes p =>
      do _ <- assert_ (if checked then p <? Z.of_nat size else true);
      do c <- vget sizes p;
      vset sizes p (c + 1))
    (repeat 0 size) part.

(** 46-65 Partition2LocalIdx on one rank: the local items by destination and the
    start of each destination. *)
Definition Partition2LocalIdx (size : nat) (part : list Z) : res (list Z * list Z) :=
  do sizes <- count_parts true size part;
  do starts <- AccumulateRowSize int64_min int64_max sizes;
  do total <- vget starts (Z.of_nat size);
  let push := repeat 0 (Z.to_nat total) in
  do _ <- assert_ (zlen part =? zlen push);
  do st <- foldM (fun st ip =>
      let (i, p) := (ip : Z * Z) in
      do a <- vget starts p;
      do c <- vget (snd st) p;
      do push' <- vset (fst st) (a + c) i;
      do sizes' <- vset (snd st) p (c + 1);
      Ok (push', sizes'))
    (push, repeat 0 size) (indexed part);
  Ok (fst st, starts).

(** MPI_Allreduce with MPI_SUM of vectors of length [n] (and MPI_Scan, over the
    vectors of the ranks up to this one). *)
Definition column_sums (n : nat) (rows : list (list Z)) : res (list Z) :=
  mapM (fun r => do l <- mapM (fun row => vget row r) rows; Ok (zsum l)) (ranks n).

(** 72-95 Partition2Serial2Global on all ranks. *)
Definition number_items (plc prev : list Z) (nPart : nat) (part : list Z) : res (list Z) :=
  do st <- foldM (fun st r =>
      do c <- vget (fst st) r;
      do a <- vget plc r;
      do b <- vget prev r;
      do cs <- vset (fst st) r (c + 1);
      Ok (cs, snd st ++ [c + a + b]))
    (repeat 0 nPart, []) part;
  Ok (snd st).
Definition Partition2Serial2Global (nPart : nat) (parts : list (list Z)) : res (list (list Z)) :=
  do locals <- mapM (count_parts false nPart) parts;
  do total <- column_sums nPart locals;
  let plc := psums 0 total in
  mapM (fun x =>
      let '(s, (part, local)) := x in
      do scan <- column_sums nPart (firstn (S (Z.to_nat s)) locals);
      let prev := map (fun p => fst p - snd p) (combine scan local) in
      number_items plc prev nPart part)
    (indexed (combine parts locals)).

(** 116-192 ConvertAdjSerial2Global on all ranks: [adj] are the rows of each rank,
    [s2g] the new number of each item of each rank.  A row ends at its first unset
    entry. *)
Fixpoint live (row : list Z) : list Z :=
  match row with
  | [] => []
  | v :: t => if v =? UnInitIndex then [] else v :: live t
  end.
Fixpoint convert_row (f : Z -> res Z) (row : list Z) : res (list Z) :=
  match row with
  | [] => Ok []
  | v :: t => if v =? UnInitIndex then Ok row else
      do x <- f v; do y <- convert_row f t; Ok (x :: y)
  end.
Definition new_number (m : ghostmap) (own ghost : list Z) (v : Z) : res Z :=
  do o <- search m v;
  match o with
  | None => Abort
  | Some (rank, val) => if rank =? -1 then vget own val else vget ghost val
  end.
Definition ConvertAdjSerial2Global (adj : list (list (list Z))) (s2g : list (list Z))
  : res (list (list (list Z))) :=
  do g <- setMPIAlignBcast (map zlen s2g);
  do queries <- mapM (fun x => others g (fst x) (concat (map live (snd x)))) (indexed adj);
  do gm <- setup_pull (map zlen s2g) queries;
  do ghosts <- mapM (pull_rows (fst gm) s2g) (snd gm);
  mapM (fun x => let '(rows, (m, (own, ghost))) := x in
                 mapM (convert_row (new_number m own ghost)) rows)
       (combine adj (combine (snd gm) (combine s2g ghosts))).

(** 197-210 TransferDataSerial2Global on all ranks. *)
Definition TransferDataSerial2Global {A} (rows : list (list A)) (pushes : list (list Z * list Z))
  : res (list (list A)) :=
  do gm <- setup_push (map zlen rows) pushes;
  mapM (pull_rows (fst gm) rows) (snd gm).

(** 255-259: the partition of the nodes of a rank whose cells refer to its own
    nodes (the serial mesh is on one rank). *)
Definition node_partition (nNodes : nat) (cells : list (list Z)) (cellPartition : list Z) : res (list Z) :=
  foldM (fun np ic =>
      foldM (fun np q =>
          do a <- vget np q;
          do p <- vat cellPartition (fst ic);
          vset np q (Z.min a p))
        np (snd ic))
    (repeat int32_max nNodes) (indexed cells).
(** 261-263 *)
Definition bnd_partition (bnd2cell : list (list Z)) (cellPartition : list Z) : res (list Z) :=
  mapM (fun row => do c <- vget row 0; vget cellPartition c) bnd2cell.

(** 265-328, given the partitions: [C]: coordinates of nodes, [I]: element
    information of cells and boundaries.  (The periodic bits go the way of [cell2node].) *)
Record serial_mesh (C I : Type) := {
  s_coords : list (list C); s_cellInfo : list (list I); s_bndInfo : list (list I);
  s_cell2cell : list (list (list Z)); s_cell2node : list (list (list Z));
  s_bnd2cell : list (list (list Z)); s_bnd2node : list (list (list Z)) }.
Arguments s_coords {C I}. Arguments s_cellInfo {C I}. Arguments s_bndInfo {C I}.
Arguments s_cell2cell {C I}. Arguments s_cell2node {C I}.
Arguments s_bnd2cell {C I}. Arguments s_bnd2node {C I}.

Definition PartitionReorder {C I} (size : nat) (cellPart nodePart bndPart : list (list Z))
  (m : serial_mesh C I) : res (serial_mesh C I) :=
  do cell_push <- mapM (Partition2LocalIdx size) cellPart;
  do node_push <- mapM (Partition2LocalIdx size) nodePart;
  do bnd_push <- mapM (Partition2LocalIdx size) bndPart;
  do cell_s2g <- Partition2Serial2Global size cellPart;
  do node_s2g <- Partition2Serial2Global size nodePart;
  do c2n <- ConvertAdjSerial2Global (s_cell2node m) node_s2g;
  do c2c <- ConvertAdjSerial2Global (s_cell2cell m) cell_s2g;
  do b2n <- ConvertAdjSerial2Global (s_bnd2node m) node_s2g;
  do b2c <- ConvertAdjSerial2Global (s_bnd2cell m) cell_s2g;
  do coords <- TransferDataSerial2Global (s_coords m) node_push;
  do c2c' <- TransferDataSerial2Global c2c cell_push;
  do c2n' <- TransferDataSerial2Global c2n cell_push;
  do ci <- TransferDataSerial2Global (s_cellInfo m) cell_push;
  do b2c' <- TransferDataSerial2Global b2c bnd_push;
  do b2n' <- TransferDataSerial2Global b2n bnd_push;
  do bi <- TransferDataSerial2Global (s_bndInfo m) bnd_push;
  Ok {| s_coords := coords; s_cellInfo := ci; s_bndInfo := bi; s_cell2cell := c2c';
        s_cell2node := c2n'; s_bnd2cell := b2c'; s_bnd2node := b2n' |}.
