(** Model of src/Geom/Geometric.hpp 65-175: normal of a face, local base, rotations,
    over the real numbers.  Vectors and matrices are functions of the component
    numbers, of which the first three (two) matter. *)
From Coq Require Import Reals List Arith.
From Verif Require Import Base.Prelude Euler.GasModel Euler.CompressModel.
Local Open Scope R_scope.

Definition mat := nat -> nat -> R.
Definition v3 (x y z : R) : vec := fun i => match i with 0%nat => x | 1%nat => y | 2%nat => z | _ => 0 end.
Definition m3 (a b c : vec) : mat := fun i => match i with 0%nat => a | 1%nat => b | 2%nat => c | _ => fun _ => 0 end.
Definition cross (u v : vec) : vec :=
  v3 (u 1%nat * v 2%nat - u 2%nat * v 1%nat) (u 2%nat * v 0%nat - u 0%nat * v 2%nat) (u 0%nat * v 1%nat - u 1%nat * v 0%nat).
Definition norm (d : nat) (u : vec) : R := sqrt (sqnorm d u).
(** Eigen normalized(): a zero vector is left alone *)
Definition normalized (d : nat) (u : vec) : vec :=
  if Rlt_dec 0 (sqnorm d u) then fun i => u i / norm d u else u.
Definition mat_vec (d : nat) (M : mat) (v : vec) : vec := fun i => sumn d (fun j => M i j * v j).

(** 73-90 FacialJacobianToNormVec; column [j] of the Jacobian is [J j].  The two
    assertions on the norms are the vanishing of the columns. *)
Definition zero_col (u : vec) : bool := if Req_EM_T (norm 3 u) 0 then true else false.
Definition face_normal2 (J : nat -> vec) : res vec :=
  if Req_EM_T (J 0%nat 2%nat) 0 then
    if (zero_col (J 1%nat) && zero_col (J 2%nat))%bool then Ok (v3 (J 0%nat 1%nat) (- J 0%nat 0%nat) 0) else Abort
  else Abort.
Definition face_normal3 (J : nat -> vec) : res vec :=
  if zero_col (J 2%nat) then Ok (cross (J 0%nat) (J 1%nat)) else Abort.

(** 97-119 NormBuildLocalBaseV; [k] is the column *)
Definition local_base3 (n : vec) (k : nat) : vec :=
  let t1 := fun i => - normalized 3 (cross n (if Rlt_dec (Rabs (n 2%nat)) (9/10) then v3 0 0 1 else v3 0 1 0)) i in
  match k with
  | 0%nat => n
  | 1%nat => t1
  | _ => normalized 3 (cross n t1)
  end.
Definition local_base2 (n : vec) (k : nat) : vec :=
  match k with
  | 0%nat => n
  | _ => fun i => match i with 0%nat => - n 1%nat | _ => n 0%nat end
  end.

(** 121-143: rotations about the axes, angle in degrees *)
Definition rad (theta : R) : R := theta * (PI / 180).
Definition RotZ (theta : R) : mat :=
  let t := rad theta in m3 (v3 (cos t) (- sin t) 0) (v3 (sin t) (cos t) 0) (v3 0 0 1).
Definition RotX (theta : R) : mat :=
  let t := rad theta in m3 (v3 1 0 0) (v3 0 (cos t) (- sin t)) (v3 0 (sin t) (cos t)).
Definition RotY (theta : R) : mat :=
  let t := rad theta in m3 (v3 (cos t) 0 (sin t)) (v3 0 1 0) (v3 (- sin t) 0 (cos t)).

(** 157-162 CrossVecToMat, 164-167 CrossMatToVec *)
Definition CrossVecToMat (a : vec) : mat :=
  m3 (v3 0 (- a 2%nat) (a 1%nat)) (v3 (a 2%nat) 0 (- a 0%nat)) (v3 (- a 1%nat) (a 0%nat) 0).
Definition CrossMatToVec (M : mat) : vec := v3 (M 2%nat 1%nat) (M 0%nat 2%nat) (M 1%nat 0%nat).

(** 145-155 RotateAxis: the axis times the angle in radians *)
Definition RotateAxis (axis : vec) : mat :=
  let theta := norm 3 axis in
  if Rlt_dec theta smallR then fun i j => if (i =? j)%nat then 1 else 0
  else
    let axn := fun i => axis i / theta in
    let Om := CrossVecToMat axn in
    fun i j => axn i * axn j + sin theta * Om i j - cos theta * sumn 3 (fun k => Om i k * Om k j).

(** 169-175 ToThreeDim *)
Definition ToThreeDim (d : nat) (v : vec) : vec := fun i => if (i <? d)%nat then v i else 0.
