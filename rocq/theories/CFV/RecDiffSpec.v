(** Vocabulary for the linear problems of variational reconstruction. *)
From Coq Require Import List ZArith Reals Bool.
From Verif Require Import Base.Prelude Geom.BoundaryModel Geom.PeriodicModel Geom.BaseFnSpec Geom.DiffTensorSpec CFV.RecModel CFV.RecSpec.
Import ListNotations.
Local Open Scope R_scope.

(** Coefficients moved by [s] times others. *)
Definition moved (s : R) (uRec d : list mat) : list mat := map (fun '(a, b) => fun l v => a l v + s * b l v) (combine uRec d).
(** The values prescribed move by [s] times what the differential says. *)
Definition along (s : R) (prescribed : vec -> vec -> Z -> Z -> nat -> vec) (differential : vec -> vec -> vec -> Z -> Z -> nat -> vec) : Prop :=
  forall a da ui i k g v, prescribed (fun w => a w + s * da w) ui i k g v = prescribed a ui i k g v + s * differential a da ui i k g v.
(** The differential does not depend on the change, or there are no external boundaries. *)
Definition quiet_or_none (differential : vec -> vec -> vec -> Z -> Z -> nat -> vec) (nCell : Z) (cells : list cell) (faces : list face) : Prop :=
  (forall a b c ui i k g, differential a b ui i k g = differential a c ui i k g) \/
  (forall i iFace f, face_of nCell cells faces i iFace f -> FaceIDIsExternalBC (zone f) = false).
(** Inner products of coefficients, for one variable. *)
Definition dot (st : settings) (x y : list mat) (v : nat) : R :=
  sum_over (combine x y) (fun '(a, b) => sumn (rows_up_to (dim st) (maxOrder st) - 1) (fun l => a l v * b l v)).
