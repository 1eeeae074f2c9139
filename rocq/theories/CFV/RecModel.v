(** Variational reconstruction.  Models src/CFV/VariationalReconstruction.hpp
    (FDiffBaseValue, FFaceFunctional), VariationalReconstruction.cpp (the base moments and
    ConstructRecCoeff) and VariationalReconstruction_Reconstruction.hxx (GetBoundaryRHS,
    DoReconstructionIter).  [real] is R; matrices and vectors are functions
    (Geom/PeriodicModel.v).  Simplifications: greenGauss1Weight is 0; not the substitute for
    second order (maxOrder = 1 with subs2ndOrder); all values are finite; values that the
    code may cache (cacheDiffBase, bndVRCaches) are computed where they are used. *)
From Coq Require Import List ZArith Reals Bool.
From Verif Require Import Base.Prelude Geom.AdjModel Geom.BoundaryModel Geom.PeriodicModel Geom.BaseFnModel Geom.DiffTensorModel.
Import ListNotations.
Local Open Scope R_scope.

(** VRSettings.hpp: the settings used here; [isPeriodic] is that of the mesh. *)
Inductive ScaleType := UnknownScale | MeanAACBB | BaryDiff.
Record settings := Settings {
  dim : nat; maxOrder : nat;
  localOrientation : bool; anisotropicLengths : bool;
  scaleType : ScaleType; scaleMultiplier : R; useAnisotropicFunctional : bool;
  SORInstead : bool; isPeriodic : bool; periodicity : Periodicity }.

(** What is stored per cell: cellCent, cellAlignedHBox, cellMajorHBox, cellMajorCoord,
    cellBaseMoment, cellAtr.relax, cell2face. *)
Record cell := Cell { cent : vec; alignedHBox : vec; majorHBox : vec; majorCoord : mat; moment : vec;
                      relax : R; cell2face : list Z }.
(** What is stored per face: face2cell, the zone, faceWeight, faceAlignedScales, the
    coordTrans of FFaceFunctional (lines 703-717, from norm and area), and for each
    integration point weight, Jacobian determinant and physical coordinates. *)
Record face := Face { f2c0 : Z; f2c1 : Z; zone : Z; weight : vec; alignedScales : vec; coordTrans : mat;
                      points : list (R * R * vec) }.

Section Rec.
Variable st : settings.

(** BaseFunction.hpp 716-733 GetNDof; NDIFF is the same (cpp 354-356). *)
Definition NDOF : nat := ndiffSizS (dim st) (maxOrder st).

(** VariationalReconstruction.hpp 386-394 and 403-411 simpleScale. *)
Definition simpleScale (box : vec) : vec :=
  if anisotropicLengths st then box else
  if Nat.eqb (dim st) 2 then
    fun i => if Nat.ltb i 2 then Rmax (box 0%nat) (box 1%nat) else box i
  else fun _ => Rmax (Rmax (box 0%nat) (box 1%nat)) (box 2%nat).

(** FPolynomialFill2D / 3D into a matrix of [rows] rows and NDOF columns. *)
Definition PolynomialFill (rows : nat) (x s : vec) : res mat :=
  do T <- (if Nat.eqb (dim st) 2
           then FPolynomialFill2D (x 0%nat) (x 1%nat) (x 2%nat) (s 0%nat) (s 1%nat) (Z.of_nat rows) (Z.of_nat NDOF)
           else FPolynomialFill3D (x 0%nat) (x 1%nat) (x 2%nat) (s 0%nat) (s 1%nat) (s 2%nat) (Z.of_nat rows) (Z.of_nat NDOF));
  Ok (fun r j => entry T (Z.of_nat r) (Z.of_nat j)).

(** VariationalReconstruction.hpp 374-427 FDiffBaseValue. *)
Definition FDiffBaseValue (c : cell) (rows : nat) (pPhy : vec) (flag : Z) : res mat :=
  let pPhysicsC := vsub pPhy (cent c) in
  do D <- (if negb (localOrientation st) then
             let s := simpleScale (alignedHBox c) in
             PolynomialFill rows (fun i => pPhysicsC i / s i) s
           else
             let s := simpleScale (majorHBox c) in
             let pPhysicsCMajor := mvec 3 (tr (majorCoord c)) pPhysicsC in
             do D <- PolynomialFill rows (fun i => pPhysicsCMajor i / s i) s;
             ConvertDiffsLinMap (dim st) rows D (majorCoord c));
  Ok (if (flag =? 0)%Z then fun r j => if Nat.eqb r 0 then D r j - moment c j else D r j else D).

(** VariationalReconstruction.cpp 384-411: cellBaseMoment, from the points of the rule of
    order INT_ORDER_MAX and the volume. *)
Definition BaseMoment (c : cell) (rule : list (R * R * vec)) (vol : R) : res vec :=
  do m <- foldM (fun m '(w, JDet, pPhy) =>
            do vv <- FDiffBaseValue c 1 pPhy 1;
            Ok (fun j => m j + vv 0%nat j * JDet * w)) (fun _ => 0) rule;
  Ok (fun j => m j / vol).

(** Geom/Mesh.hpp 526-537. *)
Definition CellIsFaceBack (f : face) (iCell : Z) : res bool :=
  do _ <- assert_ ((f2c0 f =? iCell) || (f2c1 f =? iCell))%Z;
  Ok (f2c0 f =? iCell)%Z.
Definition CellFaceOther (f : face) (iCell : Z) : res Z :=
  do back <- CellIsFaceBack f iCell;
  Ok (if back then f2c1 f else f2c0 f).

(** VariationalReconstruction.hpp 438-482 GetIntPointDiffBaseValue at a point of a face,
    with [if2c] = -1: the columns but the first. *)
Definition FaceDiffBaseValue (cells : list cell) (f : face) (iCell : Z) (rows : nat) (pnt : vec) : res mat :=
  do back <- CellIsFaceBack f iCell;
  do pPhy <- (if isPeriodic st then GetFacePointFromCell (periodicity st) (zone f) (if back then 0 else 1) pnt else Ok pnt);
  do c <- vget cells iCell;
  do dbv <- FDiffBaseValue c rows pPhy 0;
  Ok (fun r l => dbv r (S l)).

(** The value of NormSymDiffOrderTensorV on the rows of one order (the order has an
    implementation, so there is no assertion). *)
Definition NormOrder (rank : nat) (DiffI DiffJ : mat) (i j : nat) : R :=
  let first := match rank with O => 0%nat | S k => ndiffSizS (dim st) k end in
  match NormSymDiffOrderTensorV (dim st) rank 1 (fun l => DiffI (first + l)%nat i) (fun l => DiffJ (first + l)%nat j) with
  | Ok v => v
  | _ => 0
  end.

(** VariationalReconstruction.hpp 517-801 FFaceFunctional on matrices of [rows] rows; the
    cases of the switch fall through. *)
Definition FFaceFunctional (f : face) (rows : nat) (DiffI DiffJ : mat) : res mat :=
  let wgd i := weight f i * weight f i in
  do faceL <- match scaleType st with
              | MeanAACBB => Ok (sqrt (sumn (dim st) (fun i => alignedScales f i * alignedScales f i) / INR (dim st)))
              | BaryDiff => Ok (sqrt (sumn (dim st) (fun i => alignedScales f i * alignedScales f i)))
              | UnknownScale => Abort
              end;
  let faceL := faceL * scaleMultiplier st in
  if negb (useAnisotropicFunctional st) then
    match ndiff2order (dim st) rows with
    | Some k => Ok (fun i j => sumn (S k) (fun rank => NormOrder rank DiffI DiffJ i j * wgd rank * faceL ^ (rank * 2)))
    | None => Abort
    end
  else
    do DiffI_Norm <- ConvertDiffsLinMap (dim st) rows DiffI (coordTrans f);
    do DiffJ_Norm <- ConvertDiffsLinMap (dim st) rows DiffJ (coordTrans f);
    match ndiff2order (dim st) rows with
    | Some k => Ok (fun i j => sumn (S k) (fun rank => NormOrder rank DiffI_Norm DiffJ_Norm i j * wgd rank))
    | None => Abort
    end.

(** Quadrature.hpp Integration on a matrix that already holds something. *)
Definition Integration (buf : mat) (pts : list (R * R * vec)) (g : vec -> res mat) : res mat :=
  foldM (fun buf '(w, JDet, pnt) => do v <- g pnt; Ok (fun i j => buf i j + v i j * JDet * w)) buf pts.

(** VariationalReconstruction.cpp 1013-1025 (and 511-521 of Reconstruction.hxx): whether
    what comes from the other cell is turned forwards or back. *)
Inductive turn := Stay | Forth | Back.
Definition which_turn (f : face) (back : bool) : turn :=
  if negb (isPeriodic st) then Stay else
  if (negb back && FaceIDIsPeriodicMain (zone f)) || (back && FaceIDIsPeriodicDonor (zone f)) then Forth else
  if (negb back && FaceIDIsPeriodicDonor (zone f)) || (back && FaceIDIsPeriodicMain (zone f)) then Back else Stay.
Definition turn_diffs (f : face) (back : bool) (D : mat) : res mat :=
  match which_turn f back with
  | Stay => Ok D
  | Forth => TransDiValueInplace (dim st) NDOF (periodicity st) D (zone f)
  | Back => TransDiValueBackInplace (dim st) NDOF (periodicity st) D (zone f)
  end.

(** ConstructRecCoeff, cpp 858-893: A of a cell. *)
Definition matrix_A (cells : list cell) (faces : list face) (iCell : Z) (c2f : list Z) : res mat :=
  foldM (fun A iFace =>
    do f <- vget faces iFace;
    Integration A (points f) (fun pnt =>
      do DiffI <- FaceDiffBaseValue cells f iCell NDOF pnt;
      FFaceFunctional f NDOF DiffI DiffI)) (fun _ _ => 0) c2f.
(** cpp 962-1031: B of a face to another cell. *)
Definition matrix_B (cells : list cell) (f : face) (iCell iCellOther : Z) (back : bool) : res mat :=
  Integration (fun _ _ => 0) (points f) (fun pnt =>
    do DiffI <- FaceDiffBaseValue cells f iCell NDOF pnt;
    do DiffJ <- FaceDiffBaseValue cells f iCellOther NDOF pnt;
    do DiffJ <- turn_diffs f back DiffJ;
    FFaceFunctional f NDOF DiffI DiffJ).
(** cpp 1069-1109: b of a face. *)
Definition vector_b (cells : list cell) (f : face) (iCell : Z) : res mat :=
  Integration (fun _ _ => 0) (points f) (fun pnt =>
    do DiffI <- FaceDiffBaseValue cells f iCell 1 pnt;
    FFaceFunctional f 1 DiffI (fun _ _ => 1)).

(** What is kept per cell: A, its inverse, and per face A^-1 B and A^-1 b; none for a
    face of an external boundary. *)
Record coeff := Coeff { matA : mat; AInv : mat; AInvB : list (option mat); AInvb : list (option mat) }.

(** cpp 954-1066: the matrices B; a cell that is its own neighbour takes it into A. *)
Definition get_Bs (cells : list cell) (faces : list face) (iCell : Z) (A : mat) (c2f : list Z) : res (mat * list (option mat)) :=
  foldM (fun '(A, Bs) iFace =>
    do f <- vget faces iFace;
    do iCellOther <- CellFaceOther f iCell;
    do back <- CellIsFaceBack f iCell;
    if FaceIDIsExternalBC (zone f) then
      do _ <- assert_ (iCellOther =? UnInitIndex)%Z; Ok (A, Bs ++ [None])
    else
      do _ <- vget cells iCellOther;
      do B <- matrix_B cells f iCell iCellOther back;
      if (iCellOther =? iCell)%Z then Ok ((fun i j => A i j - B i j), Bs ++ [Some (fun _ _ => 0)])
      else Ok (A, Bs ++ [Some B])) (A, []) c2f.

(** cpp 842-1167 ConstructRecCoeff for a cell; [inverse] is EigenLeastSquareInverse. *)
Definition RecCoeff (inverse : mat -> mat) (cells : list cell) (faces : list face) (iCell : Z) : res coeff :=
  do c <- vget cells iCell;
  do A <- matrix_A cells faces iCell (cell2face c);
  do ABs <- get_Bs cells faces iCell A (cell2face c);
  let '(A, Bs) := ABs in
  do bs <- mapM (fun iFace =>
    do f <- vget faces iFace;
    if FaceIDIsExternalBC (zone f) then Ok None else do b <- vector_b cells f iCell; Ok (Some b)) (cell2face c);
  let Ai := inverse A in
  let n := (NDOF - 1)%nat in
  Ok (Coeff A Ai (map (option_map (fun B => mmul n Ai B)) Bs) (map (option_map (fun b => mmul n Ai b)) bs)).
Definition upto (n : Z) : list Z := map Z.of_nat (seq 0 (Z.to_nat n)).
Definition ConstructRecCoeff (inverse : mat -> mat) (nCell : Z) (cells : list cell) (faces : list face) : res (list coeff) :=
  mapM (RecCoeff inverse cells faces) (upto nCell).

(** The boundary callback: the value at the boundary from the value of the reconstruction
    there, the mean, and cell, face and number of the point. *)
Variable FBoundary : vec -> vec -> Z -> Z -> nat -> vec.
(** FTransPeriodic and FTransPeriodicBack act on the variables, row by row. *)
Variables FTransPeriodic FTransPeriodicBack : vec -> Z -> vec.

(** Reconstruction.hxx 20-97 GetBoundaryRHS; [uReci] and [ui] are those of the cell. *)
Definition GetBoundaryRHS (cells : list cell) (f : face) (uReci : mat) (ui : vec) (iCell iFace : Z) : res mat :=
  do _ <- assert_ (FaceIDIsExternalBC (zone f));
  foldM (fun BCC '(iG, (w, JDet, pnt)) =>
    do dbv <- FaceDiffBaseValue cells f iCell 1 pnt;
    let uBL := fun v => mmul (NDOF - 1) dbv uReci 0%nat v + ui v in
    let uBV := FBoundary uBL ui iCell iFace iG in
    do vInc <- FFaceFunctional f 1 dbv (fun _ v => uBV v - ui v);
    Ok (fun i j => BCC i j + vInc i j * JDet * w)) (fun _ _ => 0)
    (combine (seq 0 (length (points f))) (points f)).

Definition turn_vec (f : face) (back : bool) (u : vec) : vec :=
  match which_turn f back with Stay => u | Forth => FTransPeriodic u (zone f) | Back => FTransPeriodicBack u (zone f) end.
Definition turn_rows (f : face) (back : bool) (U : mat) : mat := fun l => turn_vec f back (U l).

(** [M[i] += inc] for a list of matrices. *)
Definition add_at (l : list mat) (i : Z) (inc : mat) : res (list mat) :=
  do m <- vget l i;
  vset l i (fun a b => m a b + inc a b).

(** Entry [i] of a row of coefficients; there is none for an external face. *)
Definition entry_of (l : list (option mat)) (i : nat) : res mat :=
  match nth_error l i with Some (Some m) => Ok m | _ => UB end.

(** Reconstruction.hxx 501-559: one face of a cell.  The state is (uRec, uRecNew). *)
Definition face_iter (cells : list cell) (faces : list face) (u : list vec) (K : coeff) (recordInc uRecIsZero : bool)
  (iCell : Z) (s : list mat * list mat) (e : nat * Z) : res (list mat * list mat) :=
  let '(uRec, uRecNew) := s in
  let '(ic2f, iFace) := e in
  do f <- vget faces iFace;
  do iCellOther <- CellFaceOther f iCell;
  do back <- CellIsFaceBack f iCell;
  do c <- vget cells iCell;
  do ui <- vget u iCell;
  if negb (iCellOther =? UnInitIndex)%Z then
    do uo <- vget u iCellOther;
    do co <- vget uRec iCellOther;
    let uOther := turn_vec f back uo in
    let uRecOther := turn_rows f back co in
    do AB <- entry_of (AInvB K) ic2f;
    do b <- entry_of (AInvb K) ic2f;
    let fromMean := fun i j => b i 0%nat * (uOther j - ui j) in
    let inc := fun i j => mmul (NDOF - 1) AB uRecOther i j + fromMean i j in
    if recordInc then
      do n <- add_at uRecNew iCell (fun i j => - (if uRecIsZero then fromMean i j else inc i j)); Ok (uRec, n)
    else if SORInstead st then
      do r <- add_at uRec iCell (fun i j => relax c * inc i j); Ok (r, uRecNew)
    else
      do n <- add_at uRecNew iCell (fun i j => relax c * inc i j); Ok (uRec, n)
  else
    do ci <- vget uRec iCell;
    do BCC <- GetBoundaryRHS cells f ci ui iCell iFace;
    let inc := mmul (NDOF - 1) (AInv K) BCC in
    if recordInc then
      if uRecIsZero then Ok (uRec, uRecNew)
      else do n <- add_at uRecNew iCell (fun i j => - inc i j); Ok (uRec, n)
    else if SORInstead st then
      do r <- add_at uRec iCell (fun i j => relax c * inc i j); Ok (r, uRecNew)
    else
      do n <- add_at uRecNew iCell (fun i j => relax c * inc i j); Ok (uRec, n).

(** Reconstruction.hxx 481-565: one cell. *)
Definition cell_iter (cells : list cell) (faces : list face) (u : list vec) (Ks : list coeff) (recordInc uRecIsZero : bool)
  (s : list mat * list mat) (iCell : Z) : res (list mat * list mat) :=
  let '(uRec, uRecNew) := s in
  do c <- vget cells iCell;
  do K <- vget Ks iCell;
  do ci <- vget uRec iCell;
  do s <- (if recordInc then
             do n <- vset uRecNew iCell (if uRecIsZero then fun _ _ => 0 else ci); Ok (uRec, n)
           else if SORInstead st then
             do r <- vset uRec iCell (fun i j => ci i j * (1 - relax c)); Ok (r, uRecNew)
           else
             do n <- vset uRecNew iCell (fun i j => ci i j * (1 - relax c)); Ok (uRec, n));
  foldM (face_iter cells faces u K recordInc uRecIsZero iCell) s (combine (seq 0 (length (cell2face c))) (cell2face c)).

(** [a[iCell].swap(b[iCell])] for the first [nCell]. *)
Definition swap_own (nCell : Z) (a b : list mat) : list mat * list mat :=
  let n := Z.to_nat nCell in (firstn n b ++ skipn n a, firstn n a ++ skipn n b).

(** Reconstruction.hxx 448-583 DoReconstructionIter: the new (uRec, uRecNew). *)
Definition DoReconstructionIter (nCell : Z) (cells : list cell) (faces : list face) (Ks : list coeff)
  (u : list vec) (putIntoNew recordInc uRecIsZero : bool) (uRec uRecNew : list mat) : res (list mat * list mat) :=
  do _ <- (if recordInc then assert_ putIntoNew else Ok tt);
  do s <- foldM (cell_iter cells faces u Ks recordInc uRecIsZero) (uRec, uRecNew) (upto nCell);
  let '(uRec, uRecNew) := s in
  if recordInc then Ok (uRec, uRecNew) else
  if putIntoNew && SORInstead st then let '(n, r) := swap_own nCell uRecNew uRec in Ok (r, n) else
  if negb putIntoNew && negb (SORInstead st) then Ok (swap_own nCell uRec uRecNew) else Ok (uRec, uRecNew).
End Rec.
