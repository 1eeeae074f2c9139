(** Model of the periodic transformations. Vectors and matrices are functions
    of their indices; only the entries below the dimension are meaningful. *)
From Coq Require Import Reals ZArith List Bool.
From Verif Require Import Base.Prelude Geom.BoundaryModel.
Import ListNotations.
Open Scope R_scope.

Definition vec := nat -> R.
Definition mat := nat -> nat -> R.

Fixpoint sumn (n : nat) (f : nat -> R) : R :=
  match n with O => 0 | Datatypes.S k => sumn k f + f k end.

(** Eigen products and transposes of matrices with inner dimension [n]. *)
Definition mmul (n : nat) (A B : mat) : mat := fun i j => sumn n (fun k => A i k * B k j).
Definition mvec (n : nat) (A : mat) (v : vec) : vec := fun i => sumn n (fun k => A i k * v k).
Definition tr (A : mat) : mat := fun i j => A j i.
Definition vadd (u v : vec) : vec := fun i => u i + v i.
Definition vsub (u v : vec) : vec := fun i => u i - v i.

(** src/Geom/PeriodicInfo.hpp 133-137: three arrays of length 4. *)
Record Periodicity := {
  rotation : list mat;
  translation : list vec;
  rotationCenter : list vec }.

Definition ident : mat := fun i j => if Nat.eqb i j then 1 else 0.
Definition vzero : vec := fun _ => 0.
Definition unit_vec (k : nat) : vec := fun i => if Nat.eqb i k then 1 else 0.

(** src/Geom/PeriodicInfo.hpp 138-153. *)
Definition default_periodicity : Periodicity :=
  {| rotation := [ident; ident; ident; ident];
     translation := [vzero; unit_vec 0; unit_vec 1; unit_vec 2];
     rotationCenter := [vzero; vzero; vzero; vzero] |}.

(** The index computed at the head of every transformation (e.g. lines
    194-199): assertion, then [-id - 3] for donors and [-id] for mains. *)
Definition period_index (id : Z) : res Z :=
  do _ <- assert_ (FaceIDIsPeriodic id);
  Ok (if FaceIDIsPeriodicDonor id then (- id - 3)%Z else (- id)%Z).

(** src/Geom/PeriodicInfo.hpp 192-201; [at] throws, modelled as [Abort]. *)
Definition TransCoord (p : Periodicity) (c : vec) (id : Z) : res vec :=
  do i <- period_index id;
  do Q <- vat (rotation p) i;
  do o <- vat (rotationCenter p) i;
  do t <- vat (translation p) i;
  Ok (vadd (vadd (mvec 3 Q (vsub c o)) o) t).

(** src/Geom/PeriodicInfo.hpp 203-212. *)
Definition TransCoordBack (p : Periodicity) (c : vec) (id : Z) : res vec :=
  do i <- period_index id;
  do Q <- vat (rotation p) i;
  do o <- vat (rotationCenter p) i;
  do t <- vat (translation p) i;
  Ok (vadd (mvec 3 (tr Q) (vsub (vsub c t) o)) o).

(** src/Geom/PeriodicInfo.hpp 216-229 and 231-244: the columns of a [dim] x [nVec]
    matrix. For [dim] = 3 the rotation, otherwise its block of indices 0 and 1:
    in both cases the entries below [dim] (the library instantiates 2 and 3). *)
Definition TransVector (dim : nat) (p : Periodicity) (v : mat) (id : Z) : res mat :=
  do i <- period_index id;
  do Q <- vat (rotation p) i;
  Ok (if Nat.eqb dim 3 then mmul 3 Q v else mmul 2 Q v).

Definition TransVectorBack (dim : nat) (p : Periodicity) (v : mat) (id : Z) : res mat :=
  do i <- period_index id;
  do Q <- vat (rotation p) i;
  Ok (if Nat.eqb dim 3 then mmul 3 (tr Q) v else mmul 2 (tr Q) v).

(** src/Geom/PeriodicInfo.hpp 246-259 and 261-274. *)
Definition TransMat (dim : nat) (p : Periodicity) (m : mat) (id : Z) : res mat :=
  do i <- period_index id;
  do Q <- vat (rotation p) i;
  Ok (if Nat.eqb dim 3 then mmul 3 (mmul 3 Q m) (tr Q) else mmul 2 (mmul 2 Q m) (tr Q)).

Definition TransMatBack (dim : nat) (p : Periodicity) (m : mat) (id : Z) : res mat :=
  do i <- period_index id;
  do Q <- vat (rotation p) i;
  Ok (if Nat.eqb dim 3 then mmul 3 (mmul 3 (tr Q) m) Q else mmul 2 (mmul 2 (tr Q) m) Q).

(** src/Geom/PeriodicInfo.hpp 10-19: the bits of a byte. *)
Definition getP1 (b : Z) : bool := negb (Z.land b 1 =? 0)%Z.
Definition getP2 (b : Z) : bool := negb (Z.land b 2 =? 0)%Z.
Definition getP3 (b : Z) : bool := negb (Z.land b 4 =? 0)%Z.
Definition setP1True (b : Z) : Z := Z.lor b 1.
Definition setP2True (b : Z) : Z := Z.lor b 2.
Definition setP3True (b : Z) : Z := Z.lor b 4.

(** src/Geom/PeriodicInfo.hpp 276-288. *)
Definition GetCoordByBits (p : Periodicity) (c : vec) (b : Z) : res vec :=
  if (b =? 0)%Z then Ok c else
  do r <- (if getP3 b then TransCoord p c BC_ID_PERIODIC_3 else Ok c);
  do r <- (if getP2 b then TransCoord p r BC_ID_PERIODIC_2 else Ok r);
  (if getP1 b then TransCoord p r BC_ID_PERIODIC_1 else Ok r).

(** src/Geom/PeriodicInfo.hpp 305-317. *)
Definition GetCoordBackByBits (p : Periodicity) (c : vec) (b : Z) : res vec :=
  if (b =? 0)%Z then Ok c else
  do r <- (if getP1 b then TransCoordBack p c BC_ID_PERIODIC_1 else Ok c);
  do r <- (if getP2 b then TransCoordBack p r BC_ID_PERIODIC_2 else Ok r);
  (if getP3 b then TransCoordBack p r BC_ID_PERIODIC_3 else Ok r).

(** src/Geom/PeriodicInfo.hpp 290-303. *)
Definition GetVectorByBits (dim : nat) (p : Periodicity) (v : mat) (b : Z) : res mat :=
  if (b =? 0)%Z then Ok v else
  do r <- (if getP3 b then TransVector dim p v BC_ID_PERIODIC_3 else Ok v);
  do r <- (if getP2 b then TransVector dim p r BC_ID_PERIODIC_2 else Ok r);
  (if getP1 b then TransVector dim p r BC_ID_PERIODIC_1 else Ok r).

(** src/Geom/PeriodicInfo.hpp 319-332. *)
Definition GetVectorBackByBits (dim : nat) (p : Periodicity) (v : mat) (b : Z) : res mat :=
  if (b =? 0)%Z then Ok v else
  do r <- (if getP1 b then TransVectorBack dim p v BC_ID_PERIODIC_1 else Ok v);
  do r <- (if getP2 b then TransVectorBack dim p r BC_ID_PERIODIC_2 else Ok r);
  (if getP3 b then TransVectorBack dim p r BC_ID_PERIODIC_3 else Ok r).

(** src/CFV/VariationalReconstruction.hpp 303-323 GetOtherCellPointFromCell on a
    periodic mesh: a point of the neighbour across a face of id [id] in the
    frame of the cell on side [if2c] (0 or 1) of the face. *)
Definition GetOtherCellPointFromCell (p : Periodicity) (id if2c : Z) (pnt : vec) : res vec :=
  if negb (FaceIDIsPeriodic id) then Ok pnt else
  if ((if2c =? 1)%Z && FaceIDIsPeriodicMain id) || ((if2c =? 0)%Z && FaceIDIsPeriodicDonor id)
  then TransCoord p pnt id else
  if ((if2c =? 1)%Z && FaceIDIsPeriodicDonor id) || ((if2c =? 0)%Z && FaceIDIsPeriodicMain id)
  then TransCoordBack p pnt id else Ok pnt.

(** src/CFV/VariationalReconstruction.hpp 262-283 GetFacePointFromCell on a
    periodic mesh: a point of the face, stored in the frame of side 0, in the
    frame of side [if2c]. *)
Definition GetFacePointFromCell (p : Periodicity) (id if2c : Z) (pnt : vec) : res vec :=
  if negb (FaceIDIsPeriodic id) then Ok pnt else
  if (if2c =? 1)%Z && FaceIDIsPeriodicMain id then TransCoord p pnt id else
  if (if2c =? 1)%Z && FaceIDIsPeriodicDonor id then TransCoordBack p pnt id else Ok pnt.

(** src/Geom/PeriodicInfo.hpp 49-60. *)
Definition isCollaborativeNodePeriodicBits (a b : list Z) : res bool :=
  do _ <- assert_ (zlen a =? zlen b)%Z;
  match a, b with
  | x :: a', y :: b' =>
      Ok (forallb (fun q => Z.lxor (fst q) (snd q) =? Z.lxor x y)%Z (combine a' b'))
  | _, _ => Ok true
  end.

(** src/Geom/PeriodicInfo.hpp 96-105. *)
Definition bitandReduce (row : list Z) : Z := fold_left Z.land row 7%Z.
