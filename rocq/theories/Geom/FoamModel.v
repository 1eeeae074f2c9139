(** Model of src/Geom/OpenFOAMMesh.hpp 330-489 (OpenFOAMConverter) and
    src/Geom/Mesh_Serial_ReadFromCGNS.cpp 535-630 ReadFromOpenFOAMAndConvertSerial: how the
    faces of a polyMesh become cells and boundary elements.

    What the files hold is the record [foam]; the reading of the text is not modelled
    here.  Coordinates are copied and stay text.  Only one rank reads. *)
From Coq Require Import List ZArith Bool String.
From Verif Require Import Base.Prelude Geom.ElemModel Geom.BoundaryModel.
Import ListNotations.
Local Open Scope list_scope.
Local Open Scope Z_scope.

(** 10-15 OpenFOAMBoundaryCondition, the type is not used *)
Record patch := { nFaces : Z; startFace : Z }.
(** 146-153 OpenFOAMReader; the patches in the order of the map, by name *)
Record foam := { points : list (list string); faces : list (list Z); owner : list Z; neighbour : list Z; patches : list (string * patch) }.

(** 345-352: the place of the last node of the face that is [x] *)
Fixpoint last_place (x : Z) (i : nat) (l : list Z) (acc : option nat) : option nat :=
  match l with [] => acc | y :: l => last_place x (S i) l (if y =? x then Some i else acc) end.
Definition in_first4 (nodes : list Z) (x : Z) : bool := existsb (Z.eqb x) (firstn 4 nodes).
(** 353-361: the node across from the bottom, as face [f] tells it; [i - 1] is computed in
    unsigned arithmetic modulo 2^64, which four divides *)
Definition head_of (nodes : list Z) (foot : Z) (f : list Z) : res (option Z) :=
  match last_place foot 0 f None with
  | None => Ok None
  | Some i =>
      let n := List.length f in
      do headL <- vget f (Z.of_nat ((i + (n - 1)) mod n));
      do headR <- vget f (Z.of_nat ((i + 1) mod n));
      Ok (Some (if in_first4 nodes headL then headR else headL))
  end.
(** 340-363: every later face overwrites the answer *)
Fixpoint heads (nodes : list Z) (foot head : Z) (fs : list (list Z)) : res Z :=
  match fs with
  | [] => Ok head
  | f :: fs => do h <- head_of nodes foot f; heads nodes foot (match h with Some x => x | None => head end) fs
  end.
(** 336-368: [None] is UnknownElem; [feet] left to do *)
Fixpoint lift (nodes feet : list Z) (fs : list (list Z)) : res (option (list Z)) :=
  match feet with
  | [] => Ok (Some nodes)
  | foot :: feet => do head <- heads nodes foot (-1) fs; if 0 <=? head then lift (nodes ++ [head]) feet fs else Ok None
  end.
(** 309-377 ExtractTopologicalElementFromPolyMeshCell *)
Definition extract_element (fs : list (list Z)) (own : list bool) : res (option (list Z)) :=
  if zlen fs =? 6 then
    if forallb (fun f => zlen f =? 4) fs then
      do f0 <- vget fs 0;
      do o0 <- vget own 0;
      let nodes := if o0 then rev f0 else f0 in
      lift nodes nodes (tl fs)
    else Ok None
  else Abort.

(** 387-403 BuildFaceElemInfo *)
Definition face_info (f : list Z) : res ElemType :=
  if zlen f =? 4 then Ok Quad4 else if zlen f =? 3 then Ok Tri3 else Abort.

(** 405-444 BuildCell2Face: faces with a flag, true for owned ones *)
Fixpoint push_faces (own : bool) (iFace : Z) (cells : list Z) (c2f : list (list (Z * bool))) : res (list (list (Z * bool))) :=
  match cells with
  | [] => Ok c2f
  | c :: cells => do l <- vat c2f c; do c2f' <- vset c2f c (l ++ [(iFace, own)]); push_faces own (iFace + 1) cells c2f'
  end.
Definition num_cells (d : foam) : Z := fold_left Z.max (neighbour d ++ owner d) 0 + 1.
Definition cell2face (d : foam) : res (list (list (Z * bool))) :=
  do c <- push_faces true 0 (owner d) (repeat [] (Z.to_nat (num_cells d)));
  push_faces false 0 (neighbour d) c.

(** 446-487 BuildCell2Node *)
Definition cell_nodes (d : foam) (l : list (Z * bool)) : res (list Z) :=
  do fs <- mapM (fun q : Z * bool => vat (faces d) (fst q)) l;
  do e <- extract_element fs (map snd l);
  match e with Some nodes => Ok nodes | None => Abort end.

(** Mesh_Serial_ReadFromCGNS.cpp 592-609 *)
Record fbnd := { f_type : ElemType; f_nodes : list Z; f_cell : Z; f_zone : Z }.
Definition make_bnd (d : foam) (infos : list ElemType) (iBnd : Z) : res fbnd :=
  let iFace := iBnd + zlen (neighbour d) in
  do ns <- vget (faces d) iFace;
  do c <- vat (owner d) iFace;
  do t <- vat infos iFace;
  Ok {| f_type := t; f_nodes := ns; f_cell := c; f_zone := BC_ID_NULL |}.
Definition set_zone (z : Z) (b : fbnd) : fbnd := {| f_type := f_type b; f_nodes := f_nodes b; f_cell := f_cell b; f_zone := z |}.
(** 621-622 *)
Fixpoint mark (first : Z) (n : nat) (z : Z) (bs : list fbnd) : res (list fbnd) :=
  match n with
  | O => Ok bs
  | S n => do b <- vat bs first; do bs' <- vset bs first (set_zone z b); mark (first + 1) n z bs'
  end.
(** 611-623; [rename] is nameMapping, [code] is FBCName_2_ID *)
Fixpoint mark_patches (nI : Z) (rename : string -> option string) (code : string -> Z) (ps : list (string * patch)) (bs : list fbnd) : res (list fbnd) :=
  match ps with
  | [] => Ok bs
  | (name, p) :: ps =>
      let z := code (match rename name with Some n => n | None => name end) in
      do _ <- assert_ (negb (z =? BC_ID_NULL));
      do bs' <- mark (startFace p - nI) (Z.to_nat (nFaces p)) z bs;
      mark_patches nI rename code ps bs'
  end.
Record serial := { s_coords : list (list string); s_cells : list (ElemType * list Z); s_bnds : list fbnd }.
Definition convert (rename : string -> option string) (code : string -> Z) (d : foam) : res serial :=
  do infos <- mapM face_info (faces d);
  do c2f <- cell2face d;
  do cells <- mapM (cell_nodes d) c2f;
  let nBnd := zlen (owner d) - zlen (neighbour d) in
  do _ <- assert_ (0 <=? nBnd);
  do bs <- mapM (make_bnd d infos) (map Z.of_nat (seq 0 (Z.to_nat nBnd)));
  do bs' <- mark_patches (zlen (neighbour d)) rename code (patches d) bs;
  do _ <- assert_ (forallb (fun b => negb (f_zone b =? BC_ID_NULL)) bs');
  Ok {| s_coords := points d; s_cells := map (fun n => (Hex8, n)) cells; s_bnds := bs' |}.
