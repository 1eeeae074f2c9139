(** Model of the interpolation of faces: src/Geom/Mesh.cpp 1319-1709. *)
From Coq Require Import List ZArith Bool Arith.
From Verif Require Import Base.Prelude Base.MPIModel DNDS.DefinesModel DNDS.IndexMappingModel
  Geom.ElemModel Geom.AdjModel Geom.NodeCellModel.
Import ListNotations.
Local Open Scope Z_scope.

Definition ElemType_eq_dec : forall a b : ElemType, {a = b} + {a <> b}.
Proof. decide equality. Defined.

(** A side of a cell: the type of the face, its nodes and, on a periodic mesh, their bits. *)
Record side := { s_type : ElemType; s_nodes : list Z; s_bits : list Z }.
Record cell := { c_type : ElemType; c_nodes : list Z; c_bits : list Z }.
Definition s_verts (s : side) : list Z := firstn (GetNumVertices (s_type s)) (s_nodes s).

(** 1350-1374: the sides of a cell *)
Definition sides_of (isPeriodic : bool) (c : cell) : res (list side) :=
  mapM (fun ic2f =>
      do eFace <- ObtainFace (c_type c) ic2f;
      do faceNodes <- ExtractFaceNodes (c_type c) ic2f (c_nodes c);
      do bits <- (if isPeriodic then ExtractFaceNodes (c_type c) ic2f (c_bits c) else Ok []);
      Ok {| s_type := eFace; s_nodes := faceNodes; s_bits := bits |})
    (seq 0 (GetNumFaces (c_type c))).

(** 1365-1373: nodes with their bits, sorted by the nodes.  Simplification: std::sort may
    exchange entries of equal nodes; here they keep their order. *)
Fixpoint pinsert (x : Z * Z) (l : list (Z * Z)) : list (Z * Z) :=
  match l with
  | [] => [x]
  | y :: t => if fst x <=? fst y then x :: l else y :: pinsert x t
  end.
Definition node_bits (s : side) : list (Z * Z) := fold_right pinsert [] (combine (s_nodes s) (s_bits s)).

Definition list_eqb (a b : list Z) : bool := if list_eq_dec Z.eq_dec a b then true else false.

(** 1392-1405 *)
Definition collaborating (a b : list (Z * Z)) : res bool :=
  do x <- vat a 0; do y <- vat b 0;
  do _ <- assert_ (zlen b =? zlen a);
  let v0 := Z.lxor (snd x) (snd y) in
  Ok (forallb (fun pq => Z.lxor (snd (fst pq)) (snd (snd pq)) =? v0) (combine (tl a) (tl b))).

(** 1380-1411: does the side fit a face made from the side [other]? *)
Definition fits (isPeriodic : bool) (s other : side) : res bool :=
  if ElemType_eq_dec (s_type other) (s_type s) then
    if list_eqb (zsort (s_verts s)) (zsort (s_verts other)) then
      if isPeriodic then collaborating (node_bits s) (node_bits other) else Ok true
    else Ok false
  else Ok false.

(** face2nodeV, face2nodePbiV, faceElemInfoV as the side the face was made from; face2cellV *)
Record face := { f_side : side; f_first : Z; f_second : Z }.
Record fstate := { faces : list face; node2face : list (list Z) }.

(** 1376-1412 *)
Definition find_face (isPeriodic : bool) (st : fstate) (s : side) : res Z :=
  foldM (fun iFound iV =>
      if iFound <? 0 then
        do fs <- vget (node2face st) iV;
        foldM (fun iFound iFOther =>
            do f <- vget (faces st) iFOther;
            do b <- fits isPeriodic s (f_side f);
            Ok (if b : bool then iFOther else iFound)) iFound fs
      else Ok iFound)
    (-1) (zsort (s_verts s)).

(** 1413-1433: the face of one side *)
Definition one_side (isPeriodic : bool) (iCell : Z) (st : fstate) (s : side) : res (fstate * Z) :=
  do iFound <- find_face isPeriodic st s;
  if iFound <? 0 then
    let nFaces := zlen (faces st) in
    do n2f <- foldM (fun n iV => do l <- vget n iV; vset n iV (l ++ [nFaces]))
                    (node2face st) (zsort (s_verts s));
    Ok ({| faces := faces st ++ [{| f_side := s; f_first := iCell; f_second := UnInitIndex |}];
           node2face := n2f |}, nFaces)
  else
    do f <- vget (faces st) iFound;
    do _ <- assert_ (f_second f =? UnInitIndex);
    do fs <- vset (faces st) iFound {| f_side := f_side f; f_first := f_first f; f_second := iCell |};
    Ok ({| faces := fs; node2face := node2face st |}, iFound).

Definition one_cell (isPeriodic : bool) (st : fstate) (iCell : Z) (ss : list side) : res (fstate * list Z) :=
  foldM (fun sr s => do r <- one_side isPeriodic iCell (fst sr) s; Ok (fst r, snd sr ++ [snd r])) (st, []) ss.

(** 1340-1435 *)
Definition all_cells (isPeriodic : bool) (nNode : nat) (css : list (list side))
  : res (fstate * list (list Z)) :=
  foldM (fun sr ic =>
      do r <- one_cell isPeriodic (fst sr) (fst ic) (snd ic); Ok (fst r, snd sr ++ [snd r]))
    ({| faces := []; node2face := repeat [] nNode |}, []) (indexed css).

Definition InterpolateFaces (isPeriodic : bool) (nNode : nat) (cells : list cell)
  : res (list face * list (list Z)) :=
  do css <- mapM (sides_of isPeriodic) cells;
  do r <- all_cells isPeriodic nNode css;
  Ok (faces (fst r), snd r).

(** 1448-1489, for one face: the new number of the face and what is sent.  The zone of all
    faces is 0 here (1424), so only the internal branch is taken.  [m], [g]: the mappings of
    the cells; [nFather]: the number of cells of this rank. *)
Definition collect_face (g : gomap) (m : ghostmap) (rank nFather : Z)
  (st : list Z * list (list Z) * Z) (f : face) : res (list Z * list (list Z) * Z) :=
  let '(nums, send, nFacesNew) := st in
  let l := f_first f in let r := f_second f in
  if (r =? UnInitIndex) && (nFather <=? l) then Ok (nums ++ [UnInitIndex], send, nFacesNew) else
  if (nFather <=? l) && (nFather <=? r) then Ok (nums ++ [UnInitIndex], send, nFacesNew) else
  if (nFather <=? l) || (nFather <=? r) then
    do _ <- assert_ (nFather <=? r);
    do cellGlobL <- mapIndex m (-1) l;
    do cellGlobR <- mapIndex m (-1) r;
    match gsearch g cellGlobL, gsearch g cellGlobR with
    | Some (rankL, _), Some (rankR, _) =>
        do _ <- assert_ (negb (rankL =? rankR));
        if rankR <? rankL then Ok (nums ++ [-1], send, nFacesNew)
        else
          do _ <- assert_ (rankL =? rank);
          do row <- vget send rankR;
          do send' <- vset send rankR (row ++ [nFacesNew]);
          Ok (nums ++ [nFacesNew], send', nFacesNew + 1)
    | _, _ => Abort
    end
  else Ok (nums ++ [nFacesNew], send, nFacesNew + 1).

(** 1442-1490 *)
Definition collect (g : gomap) (m : ghostmap) (nRanks : nat) (rank nFather : Z) (fs : list face)
  : res (list Z * list (list Z) * Z) :=
  foldM (collect_face g m rank nFather) ([], repeat [] nRanks, 0) fs.

(** 1493-1531: the faces that are kept and the new faces of the cells *)
Definition kept_faces (nums : list Z) (fs : list face) : list face :=
  map snd (filter (fun p => 0 <=? fst p) (combine nums fs)).
Definition renumber (nums : list Z) (c2f : list (list Z)) : res (list (list Z)) :=
  mapM (mapM (fun i => vget nums i)) c2f.
