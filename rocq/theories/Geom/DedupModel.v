(** Model of the merging of periodic nodes: src/Geom/Mesh_Serial_BuildCell2Cell.cpp
    183-281 (the part of Deduplicate1to1Periodic after the donors have been matched with
    their mains).  A donor-to-main map is the list of its pairs; the order in which the
    unordered map is run through is the order of the list. *)
From Coq Require Import List ZArith Bool Arith.
From Verif Require Import Base.Prelude Base.MPIModel Geom.NodeCellModel Geom.BoundaryModel
  Geom.PeriodicModel.
Import ListNotations.
Local Open Scope Z_scope.

Definition is_donor (dm : list (Z * Z)) (i : Z) : bool := existsb (fun p => fst p =? i) dm.

(** 231-239: the nodes that are not marked and not donors of this map are numbered *)
Definition number_nodes (dm : list (Z * Z)) (o2n : list Z) : list Z * Z :=
  fold_left (fun st iv =>
      let (i, v) := (iv : Z * Z) in
      if v <? 0 then (fst st ++ [v], snd st) else
      if is_donor dm i then (fst st ++ [v], snd st)
      else (fst st ++ [snd st], snd st + 1))
    (indexed o2n) ([], 0).

(** 240-244: the donors are marked *)
Definition mark_donors (dm : list (Z * Z)) (o2n : list Z) : res (list Z) :=
  foldM (fun o p => do _ <- vat o (fst p); vset o (fst p) (-1 - snd p)) o2n dm.

(** 229-245 getNewNodeMap; the result is the map and nNodeNew *)
Definition getNewNodeMap (dm : list (Z * Z)) (o2n : list Z) : res (list Z * Z) :=
  let (o, n) := number_nodes dm o2n in
  do o' <- mark_donors dm o; Ok (o', n).

(** 226, 246-248 *)
Definition new_node_map (n : nat) (dm1 dm2 dm3 : list (Z * Z)) : res (list Z * Z) :=
  do s1 <- getNewNodeMap dm1 (repeat 0 n);
  do s2 <- getNewNodeMap dm2 (fst s1);
  getNewNodeMap dm3 (fst s2).

(** 250-255 track.  A walk of more steps than there are nodes goes in circles: the loop
    does not end, which is UB for a loop without side effects. *)
Fixpoint track_loop (fuel : nat) (o2n : list Z) (i : Z) : res Z :=
  do v <- vat o2n i;
  if v <? 0 then match fuel with O => UB | S f => track_loop f o2n (-1 - v) end
  else Ok v.
Definition track (o2n : list Z) (i : Z) : res Z := track_loop (length o2n) o2n i.

(** 276-281: [blank] is the content of the new array before it is filled. *)
Definition move_coords {C} (blank : C) (o2n : list Z) (nNew : Z) (coords : list C) : res (list C) :=
  foldM (fun out ix =>
      do v <- vget o2n (fst ix);
      if 0 <=? v then vset out v (snd ix) else Ok out)
    (repeat blank (Z.to_nat nNew)) (indexed coords).

(** 226-281 *)
Definition Deduplicate {C} (blank : C) (dm1 dm2 dm3 : list (Z * Z)) (coords : list C)
  (cell2node bnd2node : list (list Z)) : res (list C * list (list Z) * list (list Z)) :=
  do st <- new_node_map (length coords) dm1 dm2 dm3;
  let (o2n, nNew) := (st : list Z * Z) in
  do c2n <- mapM (mapM (track o2n)) cell2node;
  do b2n <- mapM (mapM (track o2n)) bnd2node;
  do coords' <- move_coords blank o2n nNew coords;
  Ok (coords', c2n, b2n).

(** 183-192 donorNode2Cell of a node: the cells that have it among their vertices, once for
    each occurrence.  A cell is the number of its vertices and the list of its nodes. *)
Definition donorNode2Cell (dms : list (list (Z * Z))) (cells : list (nat * list Z)) (node : Z) : list Z :=
  if existsb (fun dm => is_donor dm node) dms then
    concat (map (fun ic => flat_map (fun q => if q =? node then [fst ic] else [])
                                    (firstn (fst (snd ic)) (snd (snd ic)))) (indexed cells))
  else [].

(** 213-218 *)
Definition set_bit (zone b : Z) : Z :=
  let b := if zone =? BC_ID_PERIODIC_1_DONOR then setP1True b else b in
  let b := if zone =? BC_ID_PERIODIC_2_DONOR then setP2True b else b in
  if zone =? BC_ID_PERIODIC_3_DONOR then setP3True b else b.

(** 209-220: the row of bits of a cell *)
Definition mark_cell (zone iNode : Z) (row bs : list Z) : list Z :=
  map (fun p => if fst p =? iNode then set_bit zone (snd p) else snd p) (combine row bs).

(** 195-223.  A boundary is its zone and its nodes. *)
Definition periodic_bits (dms : list (list (Z * Z))) (cells : list (nat * list Z))
  (bnds : list (Z * list Z)) : res (list (list Z)) :=
  foldM (fun bs bnd =>
      if negb (FaceIDIsPeriodicDonor (fst bnd)) then Ok bs else
      foldM (fun bs iNodeFace =>
          do _ <- assert_ (negb (zlen (donorNode2Cell dms cells iNodeFace) =? 0));
          foldM (fun bs iCell =>
              foldM (fun bs iNode =>
                  do cell <- vget cells iCell;
                  do row <- vget bs iCell;
                  vset bs iCell (mark_cell (fst bnd) iNode (snd cell) row))
                bs (snd bnd))
            bs (donorNode2Cell dms cells iNodeFace))
        bs (snd bnd))
    (map (fun c => repeat 0 (length (snd c))) cells) bnds.
