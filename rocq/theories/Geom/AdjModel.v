(** Model of the conversion of adjacency between global and local numbers:
    src/Geom/Mesh.hpp 172-305 and src/Geom/Mesh.cpp 874-1269, on one rank for
    the conversions and on all ranks for the setting up of the ghosts.

    An array of indices is the list of its rows (father rows, then son rows).
    What a pull does to the rows of the sons is stated by [pull_rows]; that the
    exchange of messages does this is C04. *)
From Coq Require Import List ZArith Bool Arith.
From Verif Require Import Base.Prelude Base.MPIModel DNDS.DefinesModel DNDS.IndexMappingModel.
Import ListNotations.
Local Open Scope Z_scope.

(** Defines.hpp 141. *)
Definition UnInitIndex : Z := int64_min.

(** Mesh.hpp 177-188 NodeIndexGlobal2Local, 231-243 CellIndexGlobal2Local and
    Mesh.cpp 1181-1193 FaceIndexGlobal2Local, for the mapping of the nodes, the
    cells or the faces of this rank. *)
Definition IndexGlobal2Local (m : ghostmap) (i : Z) : res Z :=
  if i =? UnInitIndex then Ok i else
  do o <- search_indexAppend m i;
  match o with
  | Some (_, v) => Ok v
  | None => tarith int64_min int64_max (-1 - i)
  end.

(** Mesh.hpp 190-198 NodeIndexLocal2Global, 245-254 CellIndexLocal2Global and
    Mesh.cpp 1146-1154 FaceIndexLocal2Global. *)
Definition IndexLocal2Global (m : ghostmap) (i : Z) : res Z :=
  if i =? UnInitIndex then Ok i else
  if i <? 0 then tarith int64_min int64_max (-1 - i)
  else mapIndex m (-1) i.

(** Mesh.hpp 215-226, 272-283, 301-312: *IndexGlobal2Local_NoSon on rank [r]. *)
Definition IndexGlobal2Local_NoSon (g : gomap) (r i : Z) : res Z :=
  if i =? UnInitIndex then Ok i else
  match gsearch g i with
  | None => Abort
  | Some (rank, v) => if rank =? r then Ok v else tarith int64_min int64_max (-1 - i)
  end.

(** Mesh.hpp 200-210, 256-266, 285-295: *IndexLocal2Global_NoSon on rank [r] with
    a father of [size] rows. *)
Definition IndexLocal2Global_NoSon (g : gomap) (r size i : Z) : res Z :=
  if i =? UnInitIndex then Ok i else
  if i <? 0 then tarith int64_min int64_max (-1 - i) else
  do _ <- assert_ (i <? size);
  toGlobal g r i.

Definition convert (f : Z -> res Z) (rows : list (list Z)) : res (list (list Z)) :=
  mapM (mapM f) rows.
(** With the assertion that the converted entry is not negative. *)
Definition inside (f : Z -> res Z) (i : Z) : res Z :=
  do x <- f i; do _ <- assert_ (0 <=? x); Ok x.
(** With the assertion for the first entry of each row only. *)
Definition convert_first (f : Z -> res Z) (rows : list (list Z)) : res (list (list Z)) :=
  mapM (fun row => match row with
                   | [] => Ok []
                   | i :: t => do x <- inside f i; do y <- mapM f t; Ok (x :: y)
                   end) rows.

Inductive adj_state := Adj_PointToGlobal | Adj_PointToLocal | Adj_Unknown.  (* Mesh.hpp 68-73 *)
Definition is_global (s : adj_state) : bool :=
  match s with Adj_PointToGlobal => true | _ => false end.
Definition is_local (s : adj_state) : bool :=
  match s with Adj_PointToLocal => true | _ => false end.

Record primary := {
  cell2cell : list (list Z); bnd2cell : list (list Z);
  cell2node : list (list Z); bnd2node : list (list Z) }.

(** Mesh.cpp 984-1012; [cm], [nm]: the mappings of the cells and of the nodes. *)
Definition AdjGlobal2LocalPrimary (cm nm : ghostmap) (sp : adj_state * primary)
  : res (adj_state * primary) :=
  let (s, p) := sp in
  do _ <- assert_ (is_global s);
  do c2c <- convert (IndexGlobal2Local cm) (cell2cell p);
  do b2c <- convert_first (IndexGlobal2Local cm) (bnd2cell p);
  do c2n <- convert (inside (IndexGlobal2Local nm)) (cell2node p);
  do b2n <- convert (inside (IndexGlobal2Local nm)) (bnd2node p);
  Ok (Adj_PointToLocal, {| cell2cell := c2c; bnd2cell := b2c; cell2node := c2n; bnd2node := b2n |}).

(** Mesh.cpp 1014-1042. *)
Definition AdjLocal2GlobalPrimary (cm nm : ghostmap) (sp : adj_state * primary)
  : res (adj_state * primary) :=
  let (s, p) := sp in
  do _ <- assert_ (is_local s);
  do c2c <- convert (IndexLocal2Global cm) (cell2cell p);
  do b2c <- convert_first (IndexLocal2Global cm) (bnd2cell p);
  do c2n <- convert (inside (IndexLocal2Global nm)) (cell2node p);
  do b2n <- convert (inside (IndexLocal2Global nm)) (bnd2node p);
  Ok (Adj_PointToGlobal, {| cell2cell := c2c; bnd2cell := b2c; cell2node := c2n; bnd2node := b2n |}).

(** Mesh.cpp 1073-1136: nodes must be found; cells must be found unless unset. *)
Definition found (m : ghostmap) (i : Z) : res Z :=
  do o <- search_indexAppend m i;
  match o with Some (_, v) => Ok v | None => Abort end.
Definition unless_unset (f : Z -> res Z) (i : Z) : res Z :=
  if i =? UnInitIndex then Ok i else f i.
Definition AdjGlobal2LocalFacial (cm nm : ghostmap) (sp : adj_state * (list (list Z) * list (list Z)))
  : res (adj_state * (list (list Z) * list (list Z))) :=
  let '(s, (f2n, f2c)) := sp in
  do _ <- assert_ (is_global s);
  do f2n' <- convert (found nm) f2n;
  do f2c' <- convert (unless_unset (found cm)) f2c;
  Ok (Adj_PointToLocal, (f2n', f2c')).
Definition AdjLocal2GlobalFacial (cm nm : ghostmap) (sp : adj_state * (list (list Z) * list (list Z)))
  : res (adj_state * (list (list Z) * list (list Z))) :=
  let '(s, (f2n, f2c)) := sp in
  do _ <- assert_ (is_local s);
  do f2n' <- convert (mapIndex nm (-1)) f2n;
  do f2c' <- convert (unless_unset (mapIndex cm (-1))) f2c;
  Ok (Adj_PointToGlobal, (f2n', f2c')).

(** Mesh.cpp 1138-1204, the relation from cells to faces. *)
Definition AdjGlobal2LocalC2F (fm : ghostmap) (sp : adj_state * list (list Z))
  : res (adj_state * list (list Z)) :=
  do _ <- assert_ (is_global (fst sp));
  do c2f <- convert (IndexGlobal2Local fm) (snd sp);
  Ok (Adj_PointToLocal, c2f).
Definition AdjLocal2GlobalC2F (fm : ghostmap) (sp : adj_state * list (list Z))
  : res (adj_state * list (list Z)) :=
  do _ <- assert_ (is_local (fst sp));
  do c2f <- convert (IndexLocal2Global fm) (snd sp);
  Ok (Adj_PointToGlobal, c2f).

(** Mesh.cpp 1222-1269, the relations from nodes to cells and to boundaries. *)
Definition AdjGlobal2LocalN2CB (cm : ghostmap) (bg : gomap) (r : Z)
  (sp : adj_state * (list (list Z) * list (list Z)))
  : res (adj_state * (list (list Z) * list (list Z))) :=
  let '(s, (n2c, n2b)) := sp in
  do _ <- assert_ (is_global s);
  do n2c' <- convert (IndexGlobal2Local cm) n2c;
  do n2b' <- convert (IndexGlobal2Local_NoSon bg r) n2b;
  Ok (Adj_PointToLocal, (n2c', n2b')).
Definition AdjLocal2GlobalN2CB (cm : ghostmap) (bg : gomap) (r bsize : Z)
  (sp : adj_state * (list (list Z) * list (list Z)))
  : res (adj_state * (list (list Z) * list (list Z))) :=
  let '(s, (n2c, n2b)) := sp in
  do _ <- assert_ (is_local s);
  do n2c' <- convert (IndexLocal2Global cm) n2c;
  do n2b' <- convert (IndexLocal2Global_NoSon bg r bsize) n2b;
  Ok (Adj_PointToGlobal, (n2c', n2b')).

(** ** Ghost cells and nodes on all ranks *)

(** The rows of the son after createMPITypes and pullOnce: each is the row of
    its owner ([rows]: the father rows of every rank). *)
Definition pull_rows {A} (g : gomap) (rows : list (list A)) (m : ghostmap) : res (list A) :=
  mapM (fun q => match gsearch g q with
                 | Some (r, v) => do l <- vget rows r; vget l v
                 | None => UB
                 end) (ghostIndex m).

(** Mesh.cpp 887-901 and 936-949: the entries which other ranks own, in the
    order met. *)
Definition others (g : gomap) (r : Z) (entries : list Z) : res (list Z) :=
  do l <- mapM (fun i => match gsearch g i with
                         | None => Abort
                         | Some (rank, _) => Ok (if rank =? r then [] else [i])
                         end) entries;
  Ok (concat l).

(** Mesh.cpp 874-982 for cells and nodes.  [c2c], [c2n]: the father rows of every
    rank; [nsizes]: the number of nodes of every rank.  Result: the mappings of
    cells and nodes and the son rows of both relations.  (The boundaries get an
    empty ghost set, the element infos the mapping of the cells.) *)
Record ghosts := {
  cellMaps : list ghostmap; nodeMaps : list ghostmap;
  c2cSon : list (list (list Z)); c2nSon : list (list (list Z)) }.

Definition BuildGhostPrimary (nsizes : list Z) (c2c c2n : list (list (list Z))) : res ghosts :=
  let csizes := map zlen c2c in
  do g <- setMPIAlignBcast csizes;
  do ghostCells <- mapM (fun x => others g (fst x) (concat (snd x)))
                        (combine (ranks (length c2c)) c2c);
  do gm <- setup_pull csizes ghostCells;
  (* BorrowGGIndexing, ArrayTransformer.hpp 208-218: same father size *)
  do _ <- assert_ (if list_eq_dec Z.eq_dec csizes (map zlen c2n) then true else false);
  do c2c' <- mapM (pull_rows (fst gm) c2c) (snd gm);
  do c2n' <- mapM (pull_rows (fst gm) c2n) (snd gm);
  do gn <- setMPIAlignBcast nsizes;
  do ghostNodes <- mapM (fun x => others gn (fst x) (concat (fst (snd x) ++ snd (snd x))))
                        (combine (ranks (length c2n)) (combine c2n c2n'));
  do nm <- setup_pull nsizes ghostNodes;
  Ok {| cellMaps := snd gm; nodeMaps := snd nm; c2cSon := c2c'; c2nSon := c2n' |}.
