(** C56: what variational reconstruction does not do. *)
From Coq Require Import List ZArith Reals Bool.
From Verif Require Import Base.Prelude Geom.BoundaryModel CFV.RecModel CFV.RecSpec CFV.RecRefuteProofs.
Import ListNotations.
Local Open Scope R_scope.

(** C56_polynomials_are_fixed in place, with boundary values that follow the reconstruction
    (as at an outflow): they are taken while the coefficients of the cell are being
    changed, so 1 + 2x + 3y does not stay. *)
Theorem C56_sweep_extrapolated_walls_refuted : ~ (forall st inverse nCell cells faces Ks u uRec prescribed forth back P New,
  supported st -> known_scale st -> isPeriodic st = false -> sound_mesh st nCell cells faces ->
  ConstructRecCoeff st inverse nCell cells faces = Ok Ks -> (forall K, In K Ks -> inverted st K) ->
  zlen u = zlen cells -> reproduces st cells u uRec P -> held_outside st prescribed nCell cells faces u P ->
  zlen New = zlen cells ->
  fixed_point st nCell uRec (fun into record => DoReconstructionIter st prescribed forth back nCell cells faces Ks u into record false uRec New)).
Proof. exact extrapolated_not_fixed. Qed.
Print Assumptions C56_sweep_extrapolated_walls_refuted.

(** C56_polynomials_are_fixed with the weights of derivatives at the walls that are the
    default: there the derivatives are drawn to zero. *)
Theorem C56_weighed_wall_derivatives_refuted : ~ (forall st inverse nCell cells faces Ks u uRec prescribed forth back P New,
  supported st -> known_scale st -> isPeriodic st = false -> SORInstead st = false -> sound_mesh st nCell cells faces ->
  ConstructRecCoeff st inverse nCell cells faces = Ok Ks -> (forall K, In K Ks -> inverted st K) ->
  zlen u = zlen cells -> reproduces st cells u uRec P ->
  (forall i iFace f, face_of nCell cells faces i iFace f -> FaceIDIsExternalBC (zone f) = true ->
    forall g w J x ui v, nth_error (points f) g = Some (w, J, x) -> vget u i = Ok ui ->
      prescribed (fun v => value_at (P v) x) ui i iFace g v = value_at (P v) x) ->
  zlen New = zlen cells ->
  fixed_point st nCell uRec (fun into record => DoReconstructionIter st prescribed forth back nCell cells faces Ks u into record false uRec New)).
Proof. exact weighed_not_fixed. Qed.
Print Assumptions C56_weighed_wall_derivatives_refuted.

(** Recording the increment from coefficients that are zero, told that they are or not: if
    told, what the walls bring is left out. *)
Theorem C56_zero_flag_same_refuted : ~ (forall st inverse nCell cells faces Ks u uRec prescribed forth back New,
  supported st -> known_scale st -> isPeriodic st = false -> sound_mesh st nCell cells faces ->
  ConstructRecCoeff st inverse nCell cells faces = Ok Ks -> (forall K, In K Ks -> inverted st K) ->
  zlen u = zlen cells -> zlen uRec = zlen cells -> (forall m, In m uRec -> m = fun _ _ => 0) -> zlen New = zlen cells ->
  exists N N', DoReconstructionIter st prescribed forth back nCell cells faces Ks u true true true uRec New = Ok (uRec, N) /\
    DoReconstructionIter st prescribed forth back nCell cells faces Ks u true true false uRec New = Ok (uRec, N') /\ same_coefficients st nCell N N').
Proof. exact zero_flag_differs. Qed.
Print Assumptions C56_zero_flag_same_refuted.
