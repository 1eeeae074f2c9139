(** The linear problems of variational reconstruction.  Models
    src/CFV/VariationalReconstruction_Reconstruction.hxx (GetBoundaryRHSDiff,
    DoReconstructionIterDiff, DoReconstructionIterSOR) and MatrixAMult of
    VariationalReconstruction.hpp, with the simplifications of RecModel.v. *)
From Coq Require Import List ZArith Reals Bool.
From Verif Require Import Base.Prelude Geom.AdjModel Geom.BoundaryModel Geom.PeriodicModel CFV.RecModel.
Import ListNotations.
Local Open Scope R_scope.

Section Diff.
Variable st : settings.
(** The differential of the boundary callback: from the value of the reconstruction, its
    change, the mean, and cell, face and number of the point. *)
Variable FBoundaryDiff : vec -> vec -> vec -> Z -> Z -> nat -> vec.
Variables FTransPeriodic FTransPeriodicBack : vec -> Z -> vec.

(** Reconstruction.hxx 98-175 GetBoundaryRHSDiff; [uReci], [dReci] and [ui] are those of the cell. *)
Definition GetBoundaryRHSDiff (cells : list cell) (f : face) (uReci dReci : mat) (ui : vec) (iCell iFace : Z) : res mat :=
  do _ <- assert_ (FaceIDIsExternalBC (zone f));
  foldM (fun BCC '(iG, (w, JDet, pnt)) =>
    do dbv <- FaceDiffBaseValue st cells f iCell 1 pnt;
    let uBL := fun v => mmul (NDOF st - 1) dbv uReci 0%nat v + ui v in
    let uBLDiff := fun v => mmul (NDOF st - 1) dbv dReci 0%nat v in
    let uBV := FBoundaryDiff uBL uBLDiff ui iCell iFace iG in
    do vInc <- FFaceFunctional st f 1 dbv (fun _ v => uBV v);
    Ok (fun i j => BCC i j + vInc i j * JDet * w)) (fun _ _ => 0)
    (combine (seq 0 (length (points f))) (points f)).

(** What a face brings, 615-643 and 680-702: A^-1 B of the other cell's change, or A^-1 of
    the change at the boundary; [x] holds the changes. *)
Definition face_brings (cells : list cell) (faces : list face) (u : list vec) (uRec x : list mat) (K : coeff) (iCell : Z) (e : nat * Z) : res mat :=
  let '(ic2f, iFace) := e in
  do f <- vget faces iFace;
  do iCellOther <- CellFaceOther f iCell;
  do back <- CellIsFaceBack f iCell;
  if negb (iCellOther =? UnInitIndex)%Z then
    do co <- vget x iCellOther;
    do AB <- entry_of (AInvB K) ic2f;
    Ok (mmul (NDOF st - 1) AB (turn_rows st FTransPeriodic FTransPeriodicBack f back co))
  else
    do ci <- vget uRec iCell;
    do di <- vget x iCell;
    do ui <- vget u iCell;
    do BCC <- GetBoundaryRHSDiff cells f ci di ui iCell iFace;
    Ok (mmul (NDOF st - 1) (AInv K) BCC).

(** Reconstruction.hxx 585-646 DoReconstructionIterDiff: the new uRecNew. *)
Definition cell_diff (cells : list cell) (faces : list face) (Ks : list coeff) (u : list vec) (uRec uRecDiff uRecNew : list mat) (iCell : Z) : res (list mat) :=
  do c <- vget cells iCell;
  do K <- vget Ks iCell;
  do di <- vget uRecDiff iCell;
  do uRecNew <- vset uRecNew iCell di;
  foldM (fun uRecNew e =>
    do inc <- face_brings cells faces u uRec uRecDiff K iCell e;
    add_at uRecNew iCell (fun i j => - inc i j)) uRecNew (combine (seq 0 (length (cell2face c))) (cell2face c)).
Definition DoReconstructionIterDiff (nCell : Z) (cells : list cell) (faces : list face) (Ks : list coeff)
  (u : list vec) (uRec uRecDiff uRecNew : list mat) : res (list mat) :=
  foldM (cell_diff cells faces Ks u uRec uRecDiff) uRecNew (upto nCell).

(** Reconstruction.hxx 648-705 DoReconstructionIterSOR: the new uRecNew. *)
Definition cell_sor_step (cells : list cell) (faces : list face) (Ks : list coeff) (u : list vec) (uRec uRecInc uRecNew : list mat) (iCell : Z) : res (list mat) :=
  do c <- vget cells iCell;
  do K <- vget Ks iCell;
  do xi <- vget uRecNew iCell;
  do bi <- vget uRecInc iCell;
  do uRecNew <- vset uRecNew iCell (fun i j => (1 - relax c) * xi i j + bi i j);
  foldM (fun uRecNew e =>
    do inc <- face_brings cells faces u uRec uRecNew K iCell e;
    add_at uRecNew iCell (fun i j => relax c * inc i j)) uRecNew (combine (seq 0 (length (cell2face c))) (cell2face c)).
Definition DoReconstructionIterSOR (nCell : Z) (cells : list cell) (faces : list face) (Ks : list coeff)
  (u : list vec) (reverse : bool) (uRec uRecInc uRecNew : list mat) : res (list mat) :=
  foldM (cell_sor_step cells faces Ks u uRec uRecInc) uRecNew
    (map (fun iScan => if reverse then (nCell - 1 - iScan)%Z else iScan) (upto nCell)).

(** VariationalReconstruction.hpp 830-836 MatrixAMult, into a list of the same length; the
    two arguments may be the same array, each entry is read before it is written. *)
Definition MatrixAMult (Ks : list coeff) (uRec : list mat) : res (list mat) :=
  do _ <- assert_ (zlen Ks =? zlen uRec)%Z;
  Ok (map (fun '(K, x) => mmul (NDOF st - 1) (matA K) x) (combine Ks uRec)).
End Diff.
