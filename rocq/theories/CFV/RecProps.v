(** C56: variational reconstruction. *)
From Coq Require Import List ZArith Reals Bool Lia Lra.
From Verif Require Import Base.Prelude Geom.BoundaryModel Geom.PeriodicModel Geom.PeriodicSpec Geom.BaseFnModel Geom.BaseFnSpec
  Geom.DiffTensorSpec CFV.RecModel CFV.RecSpec CFV.RecPolyProofs CFV.RecBaseProofs CFV.RecMeanProofs CFV.RecFunProofs CFV.RecExactProofs CFV.RecEnergyProofs CFV.RecExample.
Import ListNotations.
Local Open Scope R_scope.

(** The matrix of base values holds, in each column, the derivatives of a base function of
    the cell at the point, up to the order asked for. *)
Theorem C56_base_values_are_derivatives st c k p :
  supported st -> sound_cell st c -> (k <= 3)%nat -> exists D,
  FDiffBaseValue st c (rows_up_to (dim st) k) p 0 = Ok D /\
  forall j, (j < rows_up_to (dim st) (maxOrder st))%nat ->
    holds_derivatives everywhere (dim st) (rows_up_to (dim st) k) D j (base_fn st c j) (p 0%nat) (p 1%nat) (p 2%nat).
Proof. exact (base_values_rows st c k p). Qed.
Print Assumptions C56_base_values_are_derivatives.

(** With the moments computed the base functions have mean zero over the cell. *)
Theorem C56_base_functions_have_zero_mean st c rule :
  supported st -> sound_cell st c -> measure rule <> 0 ->
  exists m, BaseMoment st c rule (measure rule) = Ok m /\ own_moments st (with_moment c m) rule.
Proof. exact (moments_own st c rule). Qed.
Print Assumptions C56_base_functions_have_zero_mean.

(** So whatever the coefficients the mean of the reconstruction is the cell's value. *)
Theorem C56_reconstruction_keeps_mean st c rule u coef :
  supported st -> own_moments st c rule -> mean rule (rec_fn st c u coef) = u.
Proof. exact (rec_mean st c rule u coef). Qed.
Print Assumptions C56_reconstruction_keeps_mean.

(** The functional of a face is, on derivatives of two functions, their product. *)
Theorem C56_face_functional st f k DI DJ :
  supported st -> known_scale st -> (k <= 3)%nat -> exists F,
  FFaceFunctional st f (rows_up_to (dim st) k) DI DJ = Ok F /\
  forall i j va vb, holds (dim st) 0 (rows_up_to (dim st) k) DI i va -> holds (dim st) 0 (rows_up_to (dim st) k) DJ j vb ->
    F i j = product st f k va vb.
Proof. exact (functional st f k DI DJ). Qed.
Print Assumptions C56_face_functional.

(** That is symmetric, linear in each and not negative. *)
Theorem C56_face_functional_inner_product st f k :
  (forall va vb, product st f k va vb = product st f k vb va) /\
  (forall va vb vc a b, product st f k va (fun m => a * vb m + b * vc m) = a * product st f k va vb + b * product st f k va vc) /\
  (forall va, 0 <= product st f k va va).
Proof. exact (product_inner st f k). Qed.
Print Assumptions C56_face_functional_inner_product.

(** The coefficients of the iteration are built for every mesh. *)
Theorem C56_coefficients_built st inverse nCell cells faces :
  supported st -> known_scale st -> sound_periods st -> sound_mesh st nCell cells faces ->
  exists Ks, ConstructRecCoeff st inverse nCell cells faces = Ok Ks /\ zlen Ks = nCell.
Proof. exact (constructs st inverse nCell cells faces). Qed.
Print Assumptions C56_coefficients_built.

(** A reconstruction without jumps is left as it is by one iteration, whether in place or
    from all old values, and whatever the relaxation. *)
Theorem C56_no_jumps_is_fixed st inverse nCell cells faces Ks u uRec prescribed forth back New :
  supported st -> known_scale st -> sound_periods st -> sound_mesh st nCell cells faces ->
  ConstructRecCoeff st inverse nCell cells faces = Ok Ks -> (forall K, In K Ks -> inverted st K) ->
  zlen u = zlen cells -> zlen uRec = zlen cells -> linear_change forth -> linear_change back ->
  (SORInstead st = true -> prescribed_or_none prescribed nCell cells faces) ->
  matching_inside st forth back nCell cells faces u uRec -> matching_outside st prescribed nCell cells faces u uRec ->
  zlen New = zlen cells ->
  fixed_point st nCell uRec (fun into record => DoReconstructionIter st prescribed forth back nCell cells faces Ks u into record false uRec New).
Proof. intros; eapply (matching_is_fixed st inverse nCell cells faces Ks u uRec prescribed forth back); assumption. Qed.
Print Assumptions C56_no_jumps_is_fixed.

(** Polynomials up to the order: their means have a reconstruction that is the polynomial
    in every cell. *)
Theorem C56_polynomials_have_coefficients st cells rule P nVars u :
  supported st -> Forall (sound_cell st) cells ->
  (forall v, (v < nVars)%nat -> polynomial (dim st) (maxOrder st) (P v)) -> (forall v, (nVars <= v)%nat -> P v = fun _ _ _ => 0) ->
  means_of st cells rule P u -> exists uRec, reproduces st cells u uRec P.
Proof. exact (polynomials_exist st cells rule P nVars u). Qed.
Print Assumptions C56_polynomials_have_coefficients.

(** And the iteration leaves it as it is, if the boundary values are the polynomial's. *)
Theorem C56_polynomials_are_fixed st inverse nCell cells faces Ks u uRec prescribed forth back P New :
  supported st -> known_scale st -> isPeriodic st = false -> sound_mesh st nCell cells faces ->
  ConstructRecCoeff st inverse nCell cells faces = Ok Ks -> (forall K, In K Ks -> inverted st K) ->
  zlen u = zlen cells -> reproduces st cells u uRec P -> held_outside st prescribed nCell cells faces u P ->
  (SORInstead st = true -> prescribed_or_none prescribed nCell cells faces) -> zlen New = zlen cells ->
  fixed_point st nCell uRec (fun into record => DoReconstructionIter st prescribed forth back nCell cells faces Ks u into record false uRec New).
Proof. intros; eapply (polynomial_fixed st inverse nCell cells faces Ks u uRec prescribed forth back P); assumption. Qed.
Print Assumptions C56_polynomials_are_fixed.

(** Two squares, two walls and 1 + 2x + 3y. *)
Example C56_squares : forall sor,
  supported (ex_st sor) /\ known_scale (ex_st sor) /\ isPeriodic (ex_st sor) = false /\ sound_mesh (ex_st sor) 2 ex_cells ex_faces /\
  (exists Ks, ConstructRecCoeff (ex_st sor) ex_inverse 2 ex_cells ex_faces = Ok Ks /\ forall K, In K Ks -> inverted (ex_st sor) K) /\
  (forall v, polynomial (dim (ex_st sor)) (maxOrder (ex_st sor)) (ex_poly v)) /\ means_of (ex_st sor) ex_cells ex_rule ex_poly ex_u /\
  reproduces (ex_st sor) ex_cells ex_u ex_uRec ex_poly /\ held_outside (ex_st sor) ex_walls 2 ex_cells ex_faces ex_u ex_poly /\
  (SORInstead (ex_st sor) = true -> prescribed_or_none ex_walls 2 ex_cells ex_faces).
Proof. exact ex_all. Qed.

(** The reconstruction is differentiable in every cell, so its jumps have derivatives. *)
Theorem C56_reconstruction_differentiable st cells u uRec :
  supported st -> zlen u = zlen cells -> zlen uRec = zlen cells -> exists D, derivatives_of st cells u uRec D.
Proof. exact (fun HS LU => derivatives_exist st cells u HS LU uRec). Qed.
Print Assumptions C56_reconstruction_differentiable.

(** With given values at the walls, an iteration leaves the coefficients as they are exactly
    if no others have smaller jumps: the iteration stops at the minimum and nowhere else. *)
Theorem C56_fixed_iff_minimal st inverse cells faces Ks u uRec prescribed forth back wall D New (into : bool) r N :
  supported st -> known_scale st -> isPeriodic st = false -> sound_mesh st (zlen cells) cells faces -> whole_mesh cells faces -> positive_rules faces ->
  ConstructRecCoeff st inverse (zlen cells) cells faces = Ok Ks -> (forall K, In K Ks -> inverted st K /\ inverted_right st K) ->
  zlen u = zlen cells -> zlen uRec = zlen cells -> zlen New = zlen cells -> given prescribed wall ->
  (forall c, In c cells -> relax c <> 0) -> derivatives_of st cells u uRec D ->
  DoReconstructionIter st prescribed forth back (zlen cells) cells faces Ks u into false false uRec New = Ok (r, N) ->
  same_coefficients st (zlen cells) (if into then N else r) uRec <-> minimal st cells faces wall u D.
Proof. exact (fixed_minimal st inverse cells faces Ks u uRec prescribed forth back wall D New into r N). Qed.
Print Assumptions C56_fixed_iff_minimal.

(** An iteration in place with relaxation between 0 and 2 never makes the jumps larger. *)
Theorem C56_sweep_never_increases_jumps st inverse cells faces Ks u uRec prescribed forth back wall D D' New (into : bool) r N :
  supported st -> known_scale st -> isPeriodic st = false -> SORInstead st = true -> sound_mesh st (zlen cells) cells faces -> whole_mesh cells faces -> positive_rules faces ->
  ConstructRecCoeff st inverse (zlen cells) cells faces = Ok Ks -> (forall K, In K Ks -> inverted st K /\ inverted_right st K) ->
  zlen u = zlen cells -> zlen uRec = zlen cells -> zlen New = zlen cells -> given prescribed wall ->
  (forall c, In c cells -> 0 <= relax c <= 2) -> derivatives_of st cells u uRec D ->
  DoReconstructionIter st prescribed forth back (zlen cells) cells faces Ks u into false false uRec New = Ok (r, N) ->
  derivatives_of st cells u (if into then N else r) D' ->
  forall v, energy st faces wall D' v <= energy st faces wall D v.
Proof. exact (sweep_decreases st inverse cells faces Ks u uRec prescribed forth back wall D D' New into r N). Qed.
Print Assumptions C56_sweep_never_increases_jumps.

(** The two squares again. *)
Example C56_squares_jumps : forall sor,
  supported (ex_st sor) /\ known_scale (ex_st sor) /\ isPeriodic (ex_st sor) = false /\ sound_mesh (ex_st sor) (zlen ex_cells) ex_cells ex_faces /\
  whole_mesh ex_cells ex_faces /\ positive_rules ex_faces /\
  (exists Ks, ConstructRecCoeff (ex_st sor) ex_inverse (zlen ex_cells) ex_cells ex_faces = Ok Ks /\ forall K, In K Ks -> inverted (ex_st sor) K /\ inverted_right (ex_st sor) K) /\
  given ex_given ex_wall /\ (forall c, In c ex_cells -> relax c <> 0 /\ 0 <= relax c <= 2).
Proof. exact ex_jumps. Qed.
