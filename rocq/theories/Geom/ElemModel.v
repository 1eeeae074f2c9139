(** * Element types and their tables

    Model of /repo/src/Geom/Elements.hpp 22-610 and of GetStandardCoord in
    /repo/src/Geom/Elements.cpp 6-71.  The tables [FaceNodeList],
    [ElemElevationSpan_O1O2List], [ElemO2BisectElementList] and
    [StandardCoordStream] are transcribed from the source by a script, row by
    row; everything else by hand.  [t_index] is a 32 bit
    integer used only for values below 30: [nat] here.  Functions which return
    [invalid_index] / [-1] for an argument without an answer return [None]. *)

From Coq Require Import List Arith QArith Bool.
From Verif Require Import Base.Prelude.
Import ListNotations.
Open Scope nat_scope.

(** enum ElemType, Elements.hpp 22-43 (codes 0 to 14 in this order). *)
Inductive ElemType :=
| UnknownElem
| Line2 | Tri3 | Quad4 | Tet4 | Hex8 | Prism6 | Pyramid5
| Line3 | Tri6 | Quad9 | Tet10 | Hex27 | Prism18 | Pyramid14.

(** enum ParamSpace, Elements.hpp 45-59. *)
Inductive ParamSpace :=
| UnknownPSpace | LineSpace | TriSpace | QuadSpace
| TetSpace | HexSpace | PrismSpace | PyramidSpace.

(** A row of Dim_Order_NVNNNF. *)
Record elem_row := ElemRow {
  e_dim : nat; e_order : nat; e_nv : nat; e_nn : nat; e_nf : nat }.

(** __Get_Dim_Order_NVNNNF, Elements.hpp 61-92; the row of UnknownElem holds
    [invalid_index] in every entry: [None]. *)
Definition Dim_Order_NVNNNF (t : ElemType) : option elem_row :=
  match t with
  | UnknownElem => None
  | Line2 => Some (ElemRow 1 1 2 2 0)
  | Line3 => Some (ElemRow 1 2 2 3 0)
  | Tri3 => Some (ElemRow 2 1 3 3 3)
  | Tri6 => Some (ElemRow 2 2 3 6 3)
  | Quad4 => Some (ElemRow 2 1 4 4 4)
  | Quad9 => Some (ElemRow 2 2 4 9 4)
  | Tet4 => Some (ElemRow 3 1 4 4 4)
  | Tet10 => Some (ElemRow 3 2 4 10 4)
  | Hex8 => Some (ElemRow 3 1 8 8 6)
  | Hex27 => Some (ElemRow 3 2 8 27 6)
  | Prism6 => Some (ElemRow 3 1 6 6 5)
  | Prism18 => Some (ElemRow 3 2 6 18 5)
  | Pyramid5 => Some (ElemRow 3 1 5 5 5)
  | Pyramid14 => Some (ElemRow 3 2 5 14 5)
  end.

(** ElemType_to_ParamSpace, Elements.hpp 94-111. *)
Definition ElemType_to_ParamSpace (t : ElemType) : ParamSpace :=
  match t with
  | Line2 | Line3 => LineSpace
  | Tri3 | Tri6 => TriSpace
  | Quad4 | Quad9 => QuadSpace
  | Tet4 | Tet10 => TetSpace
  | Hex8 | Hex27 => HexSpace
  | Prism6 | Prism18 => PrismSpace
  | Pyramid5 | Pyramid14 => PyramidSpace
  | UnknownElem => UnknownPSpace
  end.

(** GetFaceType, Elements.hpp 113-156. *)
Definition GetFaceType (t : ElemType) (iFace : nat) : ElemType :=
  match t with
  | Tri3 => Line2
  | Tri6 => Line3
  | Quad4 => Line2
  | Quad9 => Line3
  | Tet4 => Tri3
  | Tet10 => Tri6
  | Hex8 => Quad4
  | Hex27 => Quad9
  | Prism6 => if iFace <? 3 then Quad4 else Tri3
  | Prism18 => if iFace <? 3 then Quad9 else Tri6
  | Pyramid5 => if iFace <? 1 then Quad4 else Tri3
  | Pyramid14 => if iFace <? 1 then Quad9 else Tri6
  | _ => UnknownElem
  end.

(** The lambda IndexToZeroBase, Elements.hpp 188-195, on the written entries
    (all of which are positive). *)
Definition IndexToZeroBase (rows : list (list nat)) : list (list nat) :=
  map (map pred) rows.

(** __Get_FaceNodeList, /repo/src/Geom/Elements.hpp 158-252.  The 10-entry
    rows are kept up to their last written entry: what a caller may read
    beyond it is [invalid_index] (or a zero), never a node. *)
Definition FaceNodeList (t : ElemType) : list (list nat) :=
  match t with
  | Tri3 =>
    [[0; 1];
      [1; 2];
      [2; 0]]
  | Tri6 =>
    [[0; 1; 3];
      [1; 2; 4];
      [2; 0; 5]]
  | Quad4 =>
    [[0; 1];
      [1; 2];
      [2; 3];
      [3; 0]]
  | Quad9 =>
    [[0; 1; 4];
      [1; 2; 5];
      [2; 3; 6];
      [3; 0; 7]]
  | Tet4 =>
    IndexToZeroBase [[1; 3; 2];
      [1; 2; 4];
      [2; 3; 4];
      [3; 1; 4]]
  | Tet10 =>
    IndexToZeroBase [[1; 3; 2; 7; 6; 5];
      [1; 2; 4; 5; 9; 8];
      [2; 3; 4; 6; 10; 9];
      [3; 1; 4; 7; 8; 10]]
  | Hex8 =>
    IndexToZeroBase [[1; 4; 3; 2];
      [1; 2; 6; 5];
      [2; 3; 7; 6];
      [3; 4; 8; 7];
      [1; 5; 8; 4];
      [5; 6; 7; 8]]
  | Hex27 =>
    IndexToZeroBase [[1; 4; 3; 2; 12; 11; 10; 9; 21];
      [1; 2; 6; 5; 9; 14; 17; 13; 22];
      [2; 3; 7; 6; 10; 15; 18; 14; 23];
      [3; 4; 8; 7; 11; 16; 19; 15; 24];
      [1; 5; 8; 4; 13; 20; 16; 12; 25];
      [5; 6; 7; 8; 17; 18; 19; 20; 26]]
  | Prism6 =>
    IndexToZeroBase [[1; 2; 5; 4];
      [2; 3; 6; 5];
      [3; 1; 4; 6];
      [1; 3; 2];
      [4; 5; 6]]
  | Prism18 =>
    IndexToZeroBase [[1; 2; 5; 4; 7; 11; 13; 10; 16];
      [2; 3; 6; 5; 8; 12; 14; 11; 17];
      [3; 1; 4; 6; 9; 10; 15; 12; 18];
      [1; 3; 2; 9; 8; 7];
      [4; 5; 6; 13; 14; 15]]
  | Pyramid5 =>
    IndexToZeroBase [[1; 4; 3; 2];
      [1; 2; 5];
      [2; 3; 5];
      [3; 4; 5];
      [4; 1; 5]]
  | Pyramid14 =>
    IndexToZeroBase [[1; 4; 3; 2; 9; 8; 7; 6; 14];
      [1; 2; 5; 6; 11; 10];
      [2; 3; 5; 7; 12; 11];
      [3; 4; 5; 8; 13; 12];
      [4; 1; 5; 9; 10; 13]]
  | _ => []
  end.

(** __Get_ElemElevationSpan_O1O2List, /repo/src/Geom/Elements.hpp 254-340. *)
Definition ElemElevationSpan_O1O2List (t : ElemType) : list (list nat) :=
  match t with
  | Line2 =>
    [[0; 1]]
  | Tri3 =>
    [[0; 1];
      [1; 2];
      [2; 0]]
  | Quad4 =>
    [[0; 1];
      [1; 2];
      [2; 3];
      [3; 0];
      [0; 1; 2; 3]]
  | Tet4 =>
    IndexToZeroBase [[1; 2];
      [2; 3];
      [3; 1];
      [1; 4];
      [2; 4];
      [3; 4]]
  | Hex8 =>
    IndexToZeroBase [[1; 2];
      [2; 3];
      [3; 4];
      [4; 1];
      [1; 5];
      [2; 6];
      [3; 7];
      [4; 8];
      [5; 6];
      [6; 7];
      [7; 8];
      [8; 5];
      [1; 4; 3; 2];
      [1; 2; 6; 5];
      [2; 3; 7; 6];
      [3; 4; 8; 7];
      [1; 5; 8; 4];
      [5; 6; 7; 8];
      [1; 2; 3; 4; 5; 6; 7; 8]]
  | Prism6 =>
    IndexToZeroBase [[1; 2];
      [2; 3];
      [3; 1];
      [1; 4];
      [2; 5];
      [3; 6];
      [4; 5];
      [5; 6];
      [6; 4];
      [1; 2; 5; 4];
      [2; 3; 6; 5];
      [3; 1; 4; 6]]
  | Pyramid5 =>
    IndexToZeroBase [[1; 2];
      [2; 3];
      [3; 4];
      [4; 1];
      [1; 5];
      [2; 5];
      [3; 5];
      [4; 5];
      [1; 4; 3; 2]]
  | _ => []
  end.

(** __Get_ElemO2BisectElementList, /repo/src/Geom/Elements.hpp 342-449.
    Tet10 has three variants of 8 rows, Pyramid14 two variants of 12. *)
Definition ElemO2BisectElementList (t : ElemType) : list (list nat) :=
  match t with
  | Line3 =>
    [[0; 2];
      [2; 1]]
  | Tri6 =>
    IndexToZeroBase [[1; 4; 6];
      [4; 2; 5];
      [6; 4; 5];
      [6; 5; 3]]
  | Quad9 =>
    IndexToZeroBase [[1; 5; 9; 8];
      [5; 2; 6; 9];
      [8; 9; 7; 4];
      [9; 6; 3; 7]]
  | Tet10 =>
    IndexToZeroBase [[1; 5; 7; 8];
      [5; 2; 6; 9];
      [7; 6; 3; 10];
      [10; 8; 9; 4];
      [5; 10; 7; 8];
      [5; 9; 10; 8];
      [5; 10; 9; 6];
      [5; 7; 10; 6];
      [1; 5; 7; 8];
      [5; 2; 6; 9];
      [7; 6; 3; 10];
      [10; 8; 9; 4];
      [6; 7; 8; 10];
      [6; 8; 9; 10];
      [6; 9; 8; 5];
      [6; 8; 7; 5];
      [1; 5; 7; 8];
      [5; 2; 6; 9];
      [7; 6; 3; 10];
      [10; 8; 9; 4];
      [7; 8; 9; 10];
      [7; 9; 6; 10];
      [7; 9; 8; 5];
      [7; 6; 9; 5]]
  | Hex27 =>
    IndexToZeroBase [[1; 9; 21; 12; 13; 22; 27; 25];
      [9; 2; 10; 21; 22; 14; 23; 27];
      [12; 21; 11; 4; 25; 27; 24; 16];
      [21; 10; 3; 11; 27; 23; 15; 24];
      [13; 22; 27; 25; 5; 17; 26; 20];
      [22; 14; 23; 27; 17; 6; 18; 26];
      [25; 27; 24; 16; 20; 26; 19; 8];
      [27; 23; 15; 24; 26; 18; 7; 19]]
  | Prism18 =>
    IndexToZeroBase [[1; 7; 9; 10; 16; 18];
      [7; 2; 8; 16; 11; 17];
      [9; 7; 8; 18; 16; 17];
      [9; 8; 3; 18; 17; 12];
      [10; 16; 18; 4; 13; 15];
      [16; 11; 17; 13; 5; 14];
      [18; 16; 17; 15; 13; 14];
      [18; 17; 12; 15; 14; 6]]
  | Pyramid14 =>
    IndexToZeroBase [[1; 6; 14; 9; 10];
      [6; 2; 7; 14; 11];
      [9; 14; 8; 4; 13];
      [14; 7; 3; 8; 12];
      [13; 10; 9; 14];
      [10; 11; 6; 14];
      [11; 12; 7; 14];
      [12; 13; 8; 14];
      [10; 12; 13; 5];
      [10; 11; 12; 5];
      [10; 12; 11; 14];
      [10; 13; 12; 14];
      [1; 6; 14; 9; 10];
      [6; 2; 7; 14; 11];
      [9; 14; 8; 4; 13];
      [14; 7; 3; 8; 12];
      [13; 10; 9; 14];
      [10; 11; 6; 14];
      [11; 12; 7; 14];
      [12; 13; 8; 14];
      [11; 13; 10; 5];
      [11; 12; 13; 5];
      [11; 13; 12; 14];
      [11; 10; 13; 14]]
  | _ => []
  end.

(** The numbers streamed into the 3 x numNodes matrix by GetStandardCoord, row
    by row, /repo/src/Geom/Elements.cpp 6-71. *)
Definition StandardCoordStream (t : ElemType) : list Q :=
  match t with
  | Line2 =>
    [-1; 1; 0; 0; 0; 0]%Q
  | Line3 =>
    [-1; 1; 0; 0; 0; 0; 0; 0; 0]%Q
  | Tri3 =>
    [0; 1; 0; 0; 0; 1; 0; 0; 0]%Q
  | Tri6 =>
    [0; 1; 0; 1#2; 1#2; 0; 0; 0; 1; 0; 1#2; 1#2; 0; 0; 0; 0; 0; 0]%Q
  | Quad4 =>
    [-1; 1; 1; -1; -1; -1; 1; 1; 0; 0; 0; 0]%Q
  | Quad9 =>
    [-1; 1; 1; -1; 0; 1; 0; -1; 0; -1; -1; 1; 1; -1; 0; 1; 0; 0; 0; 0; 0; 0;
     0; 0; 0; 0; 0]%Q
  | Tet4 =>
    [0; 1; 0; 0; 0; 0; 1; 0; 0; 0; 0; 1]%Q
  | Tet10 =>
    [0; 1; 0; 0; 1#2; 1#2; 0; 0; 1#2; 0; 0; 0; 1; 0; 0; 1#2; 1#2; 0; 0; 1#2;
     0; 0; 0; 1; 0; 0; 0; 1#2; 1#2; 1#2]%Q
  | Hex8 =>
    [-1; 1; 1; -1; -1; 1; 1; -1; -1; -1; 1; 1; -1; -1; 1; 1; -1; -1; -1; -1;
     1; 1; 1; 1]%Q
  | Hex27 =>
    [-1; 1; 1; -1; -1; 1; 1; -1; 0; 1; 0; -1; -1; 1; 1; -1; 0; 1; 0; -1; 0; 0;
     1; 0; -1; 0; 0; -1; -1; 1; 1; -1; -1; 1; 1; -1; 0; 1; 0; -1; -1; 1; 1;
     -1; 0; 1; 0; 0; -1; 0; 1; 0; 0; 0; -1; -1; -1; -1; 1; 1; 1; 1; -1; -1;
     -1; -1; 0; 0; 0; 0; 1; 1; 1; 1; -1; 0; 0; 0; 0; 1; 0]%Q
  | Prism6 =>
    [0; 1; 0; 0; 1; 0; 0; 0; 1; 0; 0; 1; -1; -1; -1; 1; 1; 1]%Q
  | Prism18 =>
    [0; 1; 0; 0; 1; 0; 1#2; 1#2; 0; 0; 1; 0; 1#2; 1#2; 0; 1#2; 1#2; 0; 0; 0;
     1; 0; 0; 1; 0; 1#2; 1#2; 0; 0; 1; 0; 1#2; 1#2; 0; 1#2; 1#2; -1; -1; -1;
     1; 1; 1; -1; -1; -1; 0; 0; 0; 1; 1; 1; 0; 0; 0]%Q
  | Pyramid5 =>
    [-1; 1; 1; -1; 0; -1; -1; 1; 1; 0; 0; 0; 0; 0; 1]%Q
  | Pyramid14 =>
    [-1; 1; 1; -1; 0; 0; 1; 0; -1; -1#2; 1#2; 1#2; -1#2; 0; -1; -1; 1; 1; 0;
     -1; 0; 1; 0; -1#2; -1#2; 1#2; 1#2; 0; 0; 0; 0; 0; 1; 0; 0; 0; 0; 1#2;
     1#2; 1#2; 1#2; 0]%Q
  | UnknownElem => []
  end.

(** ParamSpaceVol, Elements.hpp 451-468. *)
Definition ParamSpaceVol (ps : ParamSpace) : Q :=
  (match ps with
  | LineSpace => 2
  | TriSpace => 1#2
  | QuadSpace => 4
  | TetSpace => 1#6
  | HexSpace => 8
  | PrismSpace => 1
  | PyramidSpace => 4#3
  | UnknownPSpace => 0
  end)%Q.

(** GetElemElevation_O1O2_NumNode, Elements.hpp 470-492. *)
Definition GetElemElevation_O1O2_NumNode (t : ElemType) : option nat :=
  match t with
  | Line2 => Some 1
  | Tri3 => Some 3
  | Quad4 => Some 5
  | Tet4 => Some 6
  | Hex8 => Some 19
  | Prism6 => Some 12
  | Pyramid5 => Some 9
  | _ => None
  end.

(** GetElemElevation_O1O2_NodeSpanType, Elements.hpp 494-530. *)
Definition GetElemElevation_O1O2_NodeSpanType (t : ElemType) (ine : nat)
  : ElemType :=
  match t with
  | Line2 => Line2
  | Tri3 => Line2
  | Quad4 => if ine <? 4 then Line2 else Quad4
  | Tet4 => Line2
  | Hex8 => if ine <? 12 then Line2 else if ine <? 18 then Quad4 else Hex8
  | Prism6 => if ine <? 9 then Line2 else Quad4
  | Pyramid5 => if ine <? 8 then Line2 else Quad4
  | _ => UnknownElem
  end.

(** GetElemElevation_O1O2_ElevatedType, Elements.hpp 532-554. *)
Definition GetElemElevation_O1O2_ElevatedType (t : ElemType) : ElemType :=
  match t with
  | Line2 => Line3
  | Tri3 => Tri6
  | Quad4 => Quad9
  | Tet4 => Tet10
  | Hex8 => Hex27
  | Prism6 => Prism18
  | Pyramid5 => Pyramid14
  | _ => UnknownElem
  end.

(** GetElemO1, Elements.hpp 556-573. *)
Definition GetElemO1 (ps : ParamSpace) : ElemType :=
  match ps with
  | LineSpace => Line2
  | TriSpace => Tri3
  | QuadSpace => Quad4
  | TetSpace => Tet4
  | HexSpace => Hex8
  | PrismSpace => Prism6
  | PyramidSpace => Pyramid5
  | UnknownPSpace => UnknownElem
  end.

(** GetO2ElemBisectNum, Elements.hpp 575-586. *)
Definition GetO2ElemBisectNum (t : ElemType) : nat :=
  match t with
  | Line3 => 2
  | Tri6 | Quad9 => 4
  | Tet10 | Hex27 | Prism18 => 8
  | Pyramid14 => 12
  | _ => 0
  end.

(** GetO2ElemBisectElem, Elements.hpp 588-610. *)
Definition GetO2ElemBisectElem (t : ElemType) (i : nat) : ElemType :=
  match t with
  | Line3 => Line2
  | Tri6 => Tri3
  | Quad9 => Quad4
  | Tet10 => Tet4
  | Hex27 => Hex8
  | Prism18 => Prism6
  | Pyramid14 => if i <? 4 then Pyramid5 else Tet4
  | _ => UnknownElem
  end.

(** ** struct Element, Elements.hpp 2186-2290 *)

Definition GetDim (t : ElemType) : option nat :=
  option_map e_dim (Dim_Order_NVNNNF t).
Definition GetOrder (t : ElemType) : option nat :=
  option_map e_order (Dim_Order_NVNNNF t).
(** For UnknownElem these three return [invalid_index]; its callers use them as
    loop bounds only for known types: 0 here. *)
Definition GetNumVertices (t : ElemType) : nat :=
  match Dim_Order_NVNNNF t with Some r => e_nv r | None => 0 end.
Definition GetNumNodes (t : ElemType) : nat :=
  match Dim_Order_NVNNNF t with Some r => e_nn r | None => 0 end.
Definition GetNumFaces (t : ElemType) : nat :=
  match Dim_Order_NVNNNF t with Some r => e_nf r | None => 0 end.

(** A table access [row[i]] for [i] running over [0 .. n-1]: outside of the
    written entries it would deliver [invalid_index], used as an index: UB. *)
Definition row_prefix (row : list nat) (n : nat) : res (list nat) :=
  if n <=? length row then Ok (firstn n row) else UB.

(** [out[i] = nodes[row[i]]]; reading outside [nodes] is undefined. *)
Definition gather {A} (nodes : list A) (row : list nat) : res (list A) :=
  mapM (fun k => match nth_error nodes k with Some x => Ok x | None => UB end)
       row.

Definition get_row (rows : list (list nat)) (i : nat) : res (list nat) :=
  match nth_error rows i with Some r => Ok r | None => UB end.

(** ObtainFace, 2230-2234. *)
Definition ObtainFace (t : ElemType) (iFace : nat) : res ElemType :=
  do _ <- assert_ (iFace <? GetNumFaces t); Ok (GetFaceType t iFace).

(** ExtractFaceNodes, 2236-2245. *)
Definition ExtractFaceNodes {A} (t : ElemType) (iFace : nat) (nodes : list A)
  : res (list A) :=
  do ft <- ObtainFace t iFace;
  do row <- get_row (FaceNodeList t) iFace;
  do ids <- row_prefix row (GetNumNodes ft);
  gather nodes ids.

(** ObtainElevNodeSpan and ExtractElevNodeSpanNodes, 2247-2275. *)
Definition ExtractElevNodeSpanNodes {A} (t : ElemType) (ine : nat)
  (nodes : list A) : res (list A) :=
  do _ <- assert_ (match GetElemElevation_O1O2_NumNode t with
                   | Some n => ine <? n | None => false end);
  do row <- get_row (ElemElevationSpan_O1O2List t) ine;
  do ids <- row_prefix row
              (GetNumNodes (GetElemElevation_O1O2_NodeSpanType t ine));
  gather nodes ids.

(** The variant check of ExtractO2BisectElemNodes, 2280-2286. *)
Definition variant_ok (t : ElemType) (iVariant : nat) : bool :=
  match t with
  | Pyramid14 => iVariant <? 2
  | Tet10 => iVariant <? 3
  | _ => iVariant =? 0
  end.

(** ExtractO2BisectElemNodes, 2277-2289 ([.at] throws when the row does not
    exist; unwritten rows hold [invalid_index]). *)
Definition ExtractO2BisectElemNodes {A} (t : ElemType) (iSub iVariant : nat)
  (nodes : list A) : res (list A) :=
  do _ <- assert_ (iSub <? GetO2ElemBisectNum t);
  do _ <- assert_ (variant_ok t iVariant);
  do row <- get_row (ElemO2BisectElementList t)
                    (iSub + GetO2ElemBisectNum t * iVariant);
  do ids <- row_prefix row (GetNumNodes (GetO2ElemBisectElem t iSub));
  gather nodes ids.

(** GetStandardCoord, Elements.cpp 6-71: the comma initialiser fills the
    matrix row by row, so that node [k] has coordinates
    [(s_k, s_(n+k), s_(2n+k))]. *)
Definition GetStandardCoord (t : ElemType) : list (Q * Q * Q) :=
  let n := GetNumNodes t in
  let s := StandardCoordStream t in
  map (fun k => (nth k s 0%Q, nth (n + k) s 0%Q, nth (2 * n + k) s 0%Q))
      (seq 0 n).
