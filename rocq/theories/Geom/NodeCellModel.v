(** Model of the inversion of the relation from cells to nodes and of the recovery
    of the relations between cells and from boundaries to cells:
    src/Geom/Mesh.cpp 489-872, on all ranks together.

    An array is the list of its rows on one rank.  What a pull does to the rows of
    the sons is [pull_rows] of AdjModel.v (C04).

    The order in which an unordered set is run through is not specified.  It is a
    parameter here: [ord phase r n l] is the order met by rank [r] when it lists
    the cells [l] recorded for node [n] (C++ would also allow it to depend on the
    run; a theorem for every [ord] covers this). *)
From Coq Require Import List ZArith Bool Arith.
From Verif Require Import Base.Prelude Base.MPIModel DNDS.DefinesModel DNDS.IndexMappingModel
  Geom.AdjModel.
Import ListNotations.
Local Open Scope Z_scope.

(** node2CellLocalRecord: the set of pairs (node, cell). *)
Definition record := list (Z * Z).
Definition pair_dec : forall x y : Z * Z, {x = y} + {x <> y}.
Proof. decide equality; apply Z.eq_dec. Defined.
Definition record_insert (rec : record) (n c : Z) : record :=
  if in_dec pair_dec (n, c) rec then rec else rec ++ [(n, c)].
(** The cells recorded for a node, and the nodes with a record. *)
Definition cells_of (rec : record) (n : Z) : list Z :=
  map snd (filter (fun p => fst p =? n) rec).
Definition nodes_of (rec : record) : list Z := nodup Z.eq_dec (map fst rec).

Definition indexed {A} (l : list A) : list (Z * A) := combine (ranks (length l)) l.

(** 499-508 on rank [r]: the record of the own cells and the nodes of other ranks. *)
Definition local_record (gn gc : gomap) (r : Z) (cells : list (list Z)) : res (record * list Z) :=
  foldM (fun st ic =>
    foldM (fun st iNode =>
      match gsearch gn iNode with
      | None => Abort
      | Some (rank, _) =>
          do c <- IndexLocal2Global_NoSon gc r (zlen cells) (fst ic);
          Ok (record_insert (fst st) iNode c,
              if rank =? r then snd st else snd st ++ [iNode])
      end) st (snd ic))
    ([], []) (indexed cells).

Section Order.
  Variable ord : nat -> Z -> Z -> list Z -> list Z.

  (** 534-552 on rank [r]: the rows of the son, one for each ghost node.  (The fill
      of the father in 517-529 is overwritten later.)  The order of the nodes in
      [nodes_of] stands for the unspecified order of the record; the rows written
      are different ones. *)
  Definition fill_son (r : Z) (rec : record) (m : ghostmap) : res (list (list Z)) :=
    foldM (fun son k =>
      do o <- search m k;
      match o with
      | None => Abort
      | Some (rank, val) =>
          if 0 <=? rank then vset son val (ord 0%nat r k (cells_of rec k)) else Ok son
      end)
      (repeat [] (length (ghostIndex m))) (nodes_of rec).

  (** 566-575 on rank [r]: what the other ranks recorded is added. *)
  Definition add_past (rec : record) (m : ghostmap) (past : list (list Z)) : res record :=
    do _ <- assert_ (zlen (pushingIndexGlobal m) =? zlen past);
    Ok (fold_left (fun rec p => fold_left (fun rec c => record_insert rec (fst p) c) (snd p) rec)
                  (combine (pushingIndexGlobal m) past) rec).

  (** 587-600 on rank [r]: the rows of the father. *)
  Definition fill_father (gn : gomap) (r nsize : Z) (rec : record) : res (list (list Z)) :=
    mapM (fun i => do q <- IndexLocal2Global_NoSon gn r nsize i;
                   Ok (ord 1%nat r q (cells_of rec q))) (ranks (Z.to_nat nsize)).

  (** 489-601.  [nsizes]: the number of nodes of each rank; [c2n]: the rows from
      cells (or boundaries) to nodes of each rank.  Result: the rows from nodes to
      cells of each rank. *)
  Definition GeneralCell2NodeToNode2Cell (nsizes : list Z) (c2n : list (list (list Z)))
    : res (list (list (list Z))) :=
    do gn <- setMPIAlignBcast nsizes;
    do gc <- setMPIAlignBcast (map zlen c2n);
    do loc <- mapM (fun x => local_record gn gc (fst x) (snd x)) (indexed c2n);
    do gm <- setup_pull nsizes (map snd loc);
    do sons <- mapM (fun x => fill_son (fst x) (fst (fst (snd x))) (snd (snd x)))
                    (indexed (combine loc (snd gm)));
    (* 554-564: the sons, listed by owner, are sent to the owners *)
    do gp <- setup_push (map zlen sons)
               (map (fun x => (ranks (length (fst x)), ghostStart (snd x))) (combine sons (snd gm)));
    do pasts <- mapM (pull_rows (fst gp) sons) (snd gp);
    do recs <- mapM (fun x => add_past (fst (fst x)) (fst (snd x)) (snd (snd x)))
                    (combine loc (combine (snd gm) pasts));
    mapM (fun x => fill_father gn (fst x) (fst (snd x)) (snd (snd x)))
         (indexed (combine nsizes recs)).
End Order.

(** ** Recovery of the neighbours (657-872) *)

(** A set of indices in ascending order (std::set). *)
Definition zset (l : list Z) : list Z := zuniq (zsort l).

(** 678-689 on rank [r]: the nodes of other ranks that are met in own cells and
    boundaries, in an unspecified order (the pull sorts it). *)
Definition ghost_nodes (gn : gomap) (r : Z) (rows : list (list Z)) : res (list Z) :=
  do l <- mapM (fun i => do x <- IndexGlobal2Local_NoSon gn r i;
                         Ok (if x <? 0 then [i] else [])) (concat rows);
  Ok (nodup Z.eq_dec (concat l)).

(** 698-701: the local place of each node; a later place would replace an earlier one. *)
Definition place_table (m : ghostmap) (size : nat) : res (list (Z * Z)) :=
  mapM (fun i => do q <- mapIndex m (-1) i; Ok (q, i)) (ranks size).
Definition place_of (t : list (Z * Z)) (q : Z) : option Z :=
  fold_left (fun o p => if fst p =? q then Some (snd p) else o) t None.
(** [node2cell[place.at(q)]] after the assertion that the node is there. *)
Definition cells_at (t : list (Z * Z)) (n2c : list (list Z)) (q : Z) : res (list Z) :=
  match place_of t q with None => Abort | Some i => vget n2c i end.

(** 707-724 *)
Definition cell_neighbours (gc : gomap) (r csize : Z) (at_ : Z -> res (list Z)) (i : Z) (cell : list Z)
  : res (list Z) :=
  do rows <- mapM at_ cell;
  do own <- IndexLocal2Global_NoSon gc r csize i;
  let all := zset (concat rows) in
  do _ <- assert_ (if in_dec Z.eq_dec own all then true else false);
  Ok (filter (fun c => negb (c =? own)) all).

(** 733-744: the cells which have all nodes of a boundary. *)
Definition common_cells (at_ : Z -> res (list Z)) (bnd : list Z) : res (list Z) :=
  do s <- foldM (fun st q =>
            do row <- at_ q;
            Ok (Some (zset (match st with
                            | None => row
                            | Some cur => filter (fun c => if in_dec Z.eq_dec c cur then true else false) row
                            end)))) None bnd;
  Ok (match s with None => [] | Some l => l end).

(** 750-770; [periodic]: the mesh is periodic and so is the zone of this boundary. *)
Definition bnd_cells (at_ : Z -> res (list Z)) (periodic : bool) (bnd : list Z) : res (Z * Z) :=
  do l <- common_cells at_ bnd;
  match periodic, l with
  | true, [a; b] => Ok (a, b)
  | true, _ => Abort
  | false, [a] => Ok (a, UnInitIndex)
  | false, _ => Abort
  end.

(** 657-772 (the part after it puts the two cells of a periodic boundary in order).
    [bnds]: for each rank the rows from boundaries to nodes with the flag above. *)
Definition RecoverCell2CellAndBnd2Cell (nsizes : list Z) (c2n : list (list (list Z)))
  (bnds : list (list (bool * list Z))) (n2c : list (list (list Z)))
  : res (list (list (list Z) * list (Z * Z))) :=
  do gn <- setMPIAlignBcast nsizes;
  do gc <- setMPIAlignBcast (map zlen c2n);
  do pulls <- mapM (fun x => ghost_nodes gn (fst x) (fst (snd x) ++ map snd (snd (snd x))))
                   (indexed (combine c2n bnds));
  do gm <- setup_pull (map zlen n2c) pulls;
  do sons <- mapM (pull_rows (fst gm) n2c) (snd gm);
  mapM (fun x =>
    let '(r, (cells, (bs, (m, (father, son))))) := x in
    do t <- place_table m (length father + length son);
    let at_ := cells_at t (father ++ son) in
    do c2c <- mapM (fun ic => cell_neighbours gc r (zlen cells) at_ (fst ic) (snd ic)) (indexed cells);
    do b2c <- mapM (fun b => bnd_cells at_ (fst b) (snd b)) bs;
    Ok (c2c, b2c))
    (indexed (combine c2n (combine bnds (combine (snd gm) (combine n2c sons))))).
