(** Assembling the right-hand side of the finite volume scheme from the face fluxes.
    Models EvaluateRHS of src/Euler/EulerEvaluator_EvaluateRHS.hxx from the fluxes at the
    integration points on; how these are computed from the states is not modelled here
    (see RiemannModel). *)
From Coq Require Import List ZArith Reals Bool.
From Verif Require Import Base.Prelude Geom.AdjModel Geom.BoundaryModel Geom.PeriodicModel.
Import ListNotations.
Local Open Scope R_scope.

(** A state or flux: component 0 is mass, 1..dim momentum, the rest energy and scalars. *)
Definition state : Type := nat -> R.

(** Euler/EulerEvaluator.hpp 480-504: [u(Seq123) = ...] on the momentum. *)
Definition on_momentum (dim : nat) (f : mat -> res mat) (u : state) : res state :=
  do m <- f (fun i _ => u (S i));
  Ok (fun k => if Nat.leb 1 k && Nat.leb k dim then m (Nat.pred k) 0%nat else u k).

(** Euler/EulerEvaluator.hpp 475-489 UFromCell2Face, with the side given. *)
Definition UFromCell2Face (dim : nat) (isPeriodic : bool) (p : Periodicity) (u : state) (faceID if2c : Z) : res state :=
  if negb isPeriodic then Ok u else
  if negb (FaceIDIsPeriodic faceID) then Ok u else
  do u <- (if (if2c =? 1)%Z && FaceIDIsPeriodicMain faceID
           then on_momentum dim (fun m => TransVectorBack dim p m faceID) u else Ok u);
  (if (if2c =? 1)%Z && FaceIDIsPeriodicDonor faceID
   then on_momentum dim (fun m => TransVector dim p m faceID) u else Ok u).
(** Euler/EulerEvaluator.hpp 491-505 UFromFace2Cell. *)
Definition UFromFace2Cell (dim : nat) (isPeriodic : bool) (p : Periodicity) (u : state) (faceID if2c : Z) : res state :=
  if negb isPeriodic then Ok u else
  if negb (FaceIDIsPeriodic faceID) then Ok u else
  do u <- (if (if2c =? 1)%Z && FaceIDIsPeriodicMain faceID
           then on_momentum dim (fun m => TransVector dim p m faceID) u else Ok u);
  (if (if2c =? 1)%Z && FaceIDIsPeriodicDonor faceID
   then on_momentum dim (fun m => TransVectorBack dim p m faceID) u else Ok u).

(** A face of a rank, in the order of face2cell: its two cells ([UnInitIndex] for none),
    its zone, whether it is a wall whose force is summed (EvaluateRHS 530-532) and, for
    each integration point, weight, Jacobian determinant and flux. *)
Record face := Face { f2c0 : Z; f2c1 : Z; zone : Z; is_wall : bool; points : list (R * R * state) }.

(** EvaluateRHS 448-455 with Quadrature.hpp 722-738: [fluxEs]. *)
Definition fluxEs (f : face) : state := fun k =>
  fold_left (fun buf '(w, jac, fincC) => buf + fincC k * jac * w) (points f) 0.

(** [rhs[iCell] += inc / vol]. *)
Definition add_row (rhs : list state) (vols : list R) (iCell : Z) (inc : state) : res (list state) :=
  do vol <- vget vols iCell;
  do r <- vget rhs iCell;
  vset rhs iCell (fun k => r k + inc k / vol).

Section Assemble.
Variables (dim : nat) (isPeriodic : bool) (p : Periodicity).

(** EvaluateRHS 479-493: one face, without threads. *)
Definition face_add (vols : list R) (rhs : list state) (f : face) : res (list state) :=
  do fluxIncL <- UFromFace2Cell dim isPeriodic p (fluxEs f) (zone f) 0;
  do fluxIncR <- (if negb (f2c1 f =? UnInitIndex)%Z
                  then UFromFace2Cell dim isPeriodic p (fun k => - fluxEs f k) (zone f) 1
                  else Ok (fun k => - fluxEs f k));
  do rhs <- add_row rhs vols (f2c0 f) fluxIncL;
  if negb (f2c1 f =? UnInitIndex)%Z then add_row rhs vols (f2c1 f) fluxIncR else Ok rhs.

(** Geom/Mesh.hpp 526-530. *)
Definition CellIsFaceBack (f : face) (iCell : Z) : res bool :=
  do _ <- assert_ ((f2c0 f =? iCell) || (f2c1 f =? iCell))%Z;
  Ok (f2c0 f =? iCell)%Z.

(** EvaluateRHS 573-581: one face of a cell, with threads, from the buffered fluxes. *)
Definition cell_face_add (vols : list R) (faces : list face) (iCell : Z) (rhs : list state) (iFace : Z)
  : res (list state) :=
  do f <- vget faces iFace;
  do back <- CellIsFaceBack f iCell;
  let if2c := if back then 0%Z else 1%Z in
  do fluxFaceC <- UFromFace2Cell dim isPeriodic p
       (fun k => fluxEs f k * (if (if2c =? 0)%Z then 1 else -1)) (zone f) if2c;
  add_row rhs vols iCell fluxFaceC.
Definition cell_add (vols : list R) (faces : list face) (cell2face : list (list Z)) (rhs : list state) (iCell : Z)
  : res (list state) :=
  do c2f <- vget cell2face iCell;
  foldM (cell_face_add vols faces iCell) rhs c2f.

(** EvaluateRHS 598-715: the source of an own cell; its integral over the cell is given. *)
Definition source_add (vols alpha : list R) (sources : list state) (rhs : list state) (iCell : Z) : res (list state) :=
  do vol <- vget vols iCell;
  do a <- vget alpha iCell;
  do s <- vget sources iCell;
  do r <- vget rhs iCell;
  vset rhs iCell (fun k => r k + s k * (a / vol)).

Definition upto (n : Z) : list Z := map Z.of_nat (seq 0 (Z.to_nat n)).

(** EvaluateRHS 24-736 (41 zeroes, 139 and 571 loop): [nProc] rows, own cells first.
    Without and with threads. *)
Definition EvaluateRHS (nCell : Z) (vols : list R) (faces : list face)
  (ignoreSourceTerm : bool) (alpha : list R) (sources : list state) : res (list state) :=
  do rhs <- foldM (face_add vols) (map (fun _ _ => 0) vols) faces;
  if ignoreSourceTerm then Ok rhs else foldM (source_add vols alpha sources) rhs (upto nCell).
Definition EvaluateRHS_threads (nCell : Z) (vols : list R) (faces : list face) (cell2face : list (list Z))
  (ignoreSourceTerm : bool) (alpha : list R) (sources : list state) : res (list state) :=
  do rhs <- foldM (cell_add vols faces cell2face) (map (fun _ _ => 0) vols) (upto nCell);
  if ignoreSourceTerm then Ok rhs else foldM (source_add vols alpha sources) rhs (upto nCell).
End Assemble.

(** EvaluateRHS 529-537: the wall force of a rank with [nFace] own faces. *)
Definition wall_sum (nFace : Z) (faces : list face) : res state :=
  foldM (fun (s : state) '(iFace, f) =>
    if is_wall f then do _ <- assert_ (iFace <? nFace)%Z; Ok (fun k => s k - fluxEs f k) else Ok s)
    (fun _ => 0) (combine (map Z.of_nat (seq 0 (length faces))) faces).
(** EvaluateRHS 729-730: MPI_SUM over the ranks. *)
Definition fluxWallSum (ranks : list (Z * list face)) : res state :=
  do sums <- mapM (fun '(nFace, faces) => wall_sum nFace faces) ranks;
  Ok (fun k => fold_left (fun a (s : state) => a + s k) sums 0).
