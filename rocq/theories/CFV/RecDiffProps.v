(** C56: the linear problems of variational reconstruction. *)
From Coq Require Import List ZArith Reals Bool.
From Verif Require Import Base.Prelude Geom.BoundaryModel Geom.BaseFnSpec Geom.DiffTensorSpec CFV.RecModel CFV.RecDiffModel CFV.RecSpec CFV.RecDiffSpec CFV.RecExample CFV.RecDiffThmProofs CFV.RecDiffExample.
Import ListNotations.
Local Open Scope R_scope.

(** The linear operator is the change of the recorded increment, exactly: moving the
    coefficients by [s] times [d] moves the increment by [s] times what it gives for [d]. *)
Theorem C56_difference_along st inverse nCell cells faces Ks u uRec d prescribed differential forth back s New :
  supported st -> known_scale st -> sound_periods st -> sound_mesh st nCell cells faces ->
  ConstructRecCoeff st inverse nCell cells faces = Ok Ks ->
  zlen u = zlen cells -> zlen uRec = zlen cells -> zlen d = zlen cells -> zlen New = zlen cells ->
  linear_change forth -> linear_change back -> along s prescribed differential ->
  exists N Nd N',
    DoReconstructionIter st prescribed forth back nCell cells faces Ks u true true false uRec New = Ok (uRec, N) /\
    DoReconstructionIterDiff st differential forth back nCell cells faces Ks u uRec d New = Ok Nd /\
    DoReconstructionIter st prescribed forth back nCell cells faces Ks u true true false (moved s uRec d) New = Ok (moved s uRec d, N') /\
    same_coefficients st nCell N' (moved s N Nd).
Proof. exact (difference_along st inverse nCell cells faces Ks u uRec d prescribed differential forth back s New). Qed.
Print Assumptions C56_difference_along.

(** Solving the linear problem for the recorded increment and taking the solution off gives
    the reconstruction, at once. *)
Theorem C56_solved_difference_is_fixed st inverse nCell cells faces Ks u uRec d prescribed differential forth back New N Nd :
  supported st -> known_scale st -> sound_periods st -> sound_mesh st nCell cells faces ->
  ConstructRecCoeff st inverse nCell cells faces = Ok Ks ->
  zlen u = zlen cells -> zlen uRec = zlen cells -> zlen d = zlen cells -> zlen New = zlen cells ->
  linear_change forth -> linear_change back -> along (-1) prescribed differential ->
  (SORInstead st = true -> prescribed_or_none prescribed nCell cells faces) ->
  DoReconstructionIter st prescribed forth back nCell cells faces Ks u true true false uRec New = Ok (uRec, N) ->
  DoReconstructionIterDiff st differential forth back nCell cells faces Ks u uRec d New = Ok Nd ->
  same_coefficients st nCell Nd N ->
  fixed_point st nCell (moved (-1) uRec d)
    (fun into record => DoReconstructionIter st prescribed forth back nCell cells faces Ks u into record false (moved (-1) uRec d) New).
Proof. exact (solved_step st inverse nCell cells faces Ks u uRec d prescribed differential forth back New N Nd). Qed.
Print Assumptions C56_solved_difference_is_fixed.

(** A pass of relaxation in either direction leaves exactly the coefficients for which the
    operator, times the relaxation factor, gives the right-hand side. *)
Theorem C56_relaxation_fixed_iff st inverse nCell cells faces Ks u uRec inc x differential forth back (reverse : bool) New :
  supported st -> known_scale st -> sound_periods st -> sound_mesh st nCell cells faces ->
  ConstructRecCoeff st inverse nCell cells faces = Ok Ks ->
  zlen u = zlen cells -> zlen uRec = zlen cells -> zlen inc = zlen cells -> zlen x = zlen cells -> zlen New = zlen cells ->
  linear_change forth -> linear_change back -> quiet_or_none differential nCell cells faces ->
  exists x' Nd,
    DoReconstructionIterSOR st differential forth back nCell cells faces Ks u reverse uRec inc x = Ok x' /\
    DoReconstructionIterDiff st differential forth back nCell cells faces Ks u uRec x New = Ok Nd /\
    (same_coefficients st nCell x' x <->
     forall i c a b l v, vget cells i = Ok c -> (i < nCell)%Z -> vget Nd i = Ok a -> vget inc i = Ok b ->
       (l < rows_up_to (dim st) (maxOrder st) - 1)%nat -> relax c * a l v = b l v).
Proof. exact (relaxation_fixed st inverse nCell cells faces Ks u uRec inc x differential forth back reverse New). Qed.
Print Assumptions C56_relaxation_fixed_iff.

(** Multiplied by the matrices of the cells the operator is symmetric and nowhere negative,
    which is what conjugate gradients need. *)
Theorem C56_operator_symmetric st cells faces inverse u differential forth back uRec Ks :
  supported st -> known_scale st -> isPeriodic st = false -> sound_mesh st (zlen cells) cells faces -> whole_mesh cells faces -> positive_rules faces ->
  ConstructRecCoeff st inverse (zlen cells) cells faces = Ok Ks -> (forall K, In K Ks -> inverted st K /\ inverted_right st K) ->
  zlen u = zlen cells -> zlen uRec = zlen cells -> linear_change forth -> linear_change back ->
  (forall a b ui i k g v, differential a b ui i k g v = 0) ->
  forall x y New Nx Ny Ax Ay v, zlen x = zlen cells -> zlen y = zlen cells -> zlen New = zlen cells ->
  DoReconstructionIterDiff st differential forth back (zlen cells) cells faces Ks u uRec x New = Ok Nx -> MatrixAMult st Ks Nx = Ok Ax ->
  DoReconstructionIterDiff st differential forth back (zlen cells) cells faces Ks u uRec y New = Ok Ny -> MatrixAMult st Ks Ny = Ok Ay ->
  dot st y Ax v = dot st x Ay v /\ 0 <= dot st x Ax v.
Proof. exact (operator_symmetric st cells faces inverse u differential forth back uRec Ks). Qed.
Print Assumptions C56_operator_symmetric.

(** A fixed point of relaxation solves the linear problem: not unless the factor is one.
    With one half it solves a problem with twice the right-hand side. *)
Theorem C56_relaxation_solves_refuted : ~ (forall st inverse nCell cells faces Ks u uRec inc x differential forth back (reverse : bool) New x' Nd,
  supported st -> known_scale st -> sound_periods st -> sound_mesh st nCell cells faces ->
  ConstructRecCoeff st inverse nCell cells faces = Ok Ks ->
  zlen u = zlen cells -> zlen uRec = zlen cells -> zlen inc = zlen cells -> zlen x = zlen cells -> zlen New = zlen cells ->
  linear_change forth -> linear_change back -> quiet_or_none differential nCell cells faces -> (forall c, In c cells -> 0 < relax c) ->
  DoReconstructionIterSOR st differential forth back nCell cells faces Ks u reverse uRec inc x = Ok x' ->
  DoReconstructionIterDiff st differential forth back nCell cells faces Ks u uRec x New = Ok Nd ->
  same_coefficients st nCell x' x -> same_coefficients st nCell Nd inc).
Proof. exact half_not_solved. Qed.
Print Assumptions C56_relaxation_solves_refuted.

(** With factor one a solution stays: not if the boundary values follow the reconstruction. *)
Theorem C56_relaxation_following_walls_refuted : ~ (forall st inverse nCell cells faces Ks u uRec x differential forth back (reverse : bool) New Nd,
  supported st -> known_scale st -> sound_periods st -> sound_mesh st nCell cells faces ->
  ConstructRecCoeff st inverse nCell cells faces = Ok Ks ->
  zlen u = zlen cells -> zlen uRec = zlen cells -> zlen x = zlen cells -> zlen New = zlen cells ->
  linear_change forth -> linear_change back -> (forall c, In c cells -> relax c = 1) ->
  DoReconstructionIterDiff st differential forth back nCell cells faces Ks u uRec x New = Ok Nd ->
  exists x', DoReconstructionIterSOR st differential forth back nCell cells faces Ks u reverse uRec Nd x = Ok x' /\ same_coefficients st nCell x' x).
Proof. exact follow_not_fixed. Qed.
Print Assumptions C56_relaxation_following_walls_refuted.

(** Two squares with given walls; C56_squares_jumps has the hypotheses of symmetry. *)
Example C56_squares_linear : forall sor,
  supported (ex_st sor) /\ known_scale (ex_st sor) /\ sound_periods (ex_st sor) /\ sound_mesh (ex_st sor) 2 ex_cells ex_faces /\
  (exists Ks, ConstructRecCoeff (ex_st sor) ex_inverse 2 ex_cells ex_faces = Ok Ks) /\ linear_change ex_same /\
  (forall s, along s ex_given ex_still /\ along s ex_extrapolate ex_follow) /\ quiet_or_none ex_still 2 ex_cells ex_faces.
Proof. exact ex_problem. Qed.
