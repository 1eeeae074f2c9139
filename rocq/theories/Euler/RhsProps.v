(** C54: the finite volume right-hand side is conservative and does not depend on the
    partition or on threads. *)
From Coq Require Import List ZArith Reals Lra Lia Bool Permutation.
From Verif Require Import Base.Prelude Geom.AdjModel Geom.BoundaryModel Geom.PeriodicModel Geom.PeriodicSpec
  Euler.RhsModel Euler.RhsSpec Euler.RhsProofs Euler.RhsMoreProofs Euler.RhsExample.
Import ListNotations.
Local Open Scope R_scope.

(** Every rank succeeds, and the row of each own cell is the sum of the fluxes of the cell's
    faces on the whole mesh, over its volume, plus its source: the same on any partition. *)
Theorem C54_row_is_the_global_balance : forall dim isPeriodic p vol alpha S noSource G r,
  dim = 2%nat \/ dim = 3%nat -> length (rotation p) = 4%nat -> has_faces G r ->
  exists rhs, run dim isPeriodic p vol alpha S noSource r = Ok rhs /\ length rhs = length (own r ++ ghost r) /\
    forall j c, nth_error (own r) j = Some c -> exists row, nth_error rhs j = Some row /\
      forall k, row k = cell_rate dim isPeriodic p vol G c k + source_rate vol alpha S noSource c k.
Proof. intros dim isPeriodic p vol alpha S noSource G r HD HR HF. exact (rank_rows dim isPeriodic p HD HR vol alpha S noSource G r HF). Qed.
Print Assumptions C54_row_is_the_global_balance.

(** Summed over all cells of all ranks only the boundary fluxes and the sources remain, for
    mass, energy and scalars always and for the momentum where no period turns. *)
Theorem C54_conservative : forall dim isPeriodic p vol alpha S noSource n G ranks rhss k,
  dim = 2%nat \/ dim = 3%nat -> length (rotation p) = 4%nat ->
  (forall c, (c < n)%nat -> vol c <> 0) -> distributed n ranks ->
  Forall (has_faces G) ranks -> Forall (sides_in n) G -> Forall (untouched dim isPeriodic p k) G ->
  Forall2 (fun r rhs => run dim isPeriodic p vol alpha S noSource r = Ok rhs) ranks rhss ->
  rsum (map (fun '(r, rhs) => amount vol k r rhs) (combine ranks rhss)) =
  rsum (map (fun f => gflux f k) (filter is_boundary G)) +
  (if noSource then 0 else rsum (map (fun c => alpha c * S c k) (seq 0 n))).
Proof.
  intros dim isPeriodic p vol alpha S noSource n G ranks rhss k HD HR.
  exact (conservation dim isPeriodic p HD HR vol alpha S noSource n G ranks rhss k).
Qed.
Print Assumptions C54_conservative.

(** The build with threads, which gathers per cell, gives own cells the same rows. *)
Theorem C54_threads_agree : forall dim isPeriodic p vol alpha S noSource G r cell2face,
  dim = 2%nat \/ dim = 3%nat -> length (rotation p) = 4%nat -> has_faces G r ->
  Forall (fun g => side1 g <> Some (side0 g)) G -> has_cell2face r cell2face ->
  exists rhs rhs', run dim isPeriodic p vol alpha S noSource r = Ok rhs /\
    run_threads dim isPeriodic p vol alpha S noSource cell2face r = Ok rhs' /\
    forall j, (j < length (own r))%nat -> exists row row', nth_error rhs j = Some row /\ nth_error rhs' j = Some row' /\
      forall k, row k = row' k.
Proof. exact threads_agree. Qed.
Print Assumptions C54_threads_agree.

(** Not so across a period one cell wide: the cell is on both sides of the face, and the
    build with threads counts the flux only in, however often the face is listed. *)
Theorem C54_threads_one_cell_period_refuted : forall faces_listed, In faces_listed [[0%Z]; [0%Z; 0%Z]] ->
  exists rhs rhs' row row', run 2 true default_periodicity (fun _ => 1) (fun _ => 1) (fun _ _ => 0) true one_cell = Ok rhs /\
    run_threads 2 true default_periodicity (fun _ => 1) (fun _ => 1) (fun _ _ => 0) true [faces_listed] one_cell = Ok rhs' /\
    nth_error rhs 0 = Some row /\ nth_error rhs' 0 = Some row' /\ row 0%nat = 0 /\ row' 0%nat > 0.
Proof. exact one_cell_differs. Qed.
Print Assumptions C54_threads_one_cell_period_refuted.

(** A uniform flow stays: where the faces of each cell close, fluxes of one constant flux
    tensor give zero. *)
Theorem C54_uniform_flow_stays : forall dim isPeriodic p vol alpha S G (area : gface -> nat -> R) (F : nat -> nat -> R) r k,
  dim = 2%nat \/ dim = 3%nat -> length (rotation p) = 4%nat -> has_faces G r ->
  Forall (fun f => forall j, gflux f j = - sumn dim (fun d => F j d * area f d)) G ->
  Forall (untouched dim isPeriodic p k) G -> (forall c, In c (own r) -> closed area G c) ->
  exists rhs, run dim isPeriodic p vol alpha S true r = Ok rhs /\
    forall j, (j < length (own r))%nat -> exists row, nth_error rhs j = Some row /\ row k = 0.
Proof. exact uniform_rows. Qed.
Print Assumptions C54_uniform_flow_stays.

(** The wall force reported to every rank counts each wall face of the mesh once. *)
Theorem C54_wall_force_counts_once : forall n G ranks,
  distributed n ranks -> Forall (has_faces G) ranks -> Forall (sides_in n) G ->
  Forall (fun f => gwall f = true -> side1 f = None) G -> Forall (wall_first G) ranks ->
  exists F, fluxWallSum (map (fun r => (Z.of_nat (nFace r), table r)) ranks) = Ok F /\
    forall k, F k = - rsum (map (fun f => gflux f k) (filter gwall G)).
Proof. exact wall_force. Qed.
Print Assumptions C54_wall_force_counts_once.
(** A wall face that another rank owns is refused, not counted twice. *)
Theorem C54_wall_of_another_rank_is_refused : forall nF faces j f,
  nth_error faces j = Some f -> is_wall f = true -> (nF <= j)%nat -> wall_sum (Z.of_nat nF) faces = Abort.
Proof. exact wall_refused. Qed.
Print Assumptions C54_wall_of_another_rank_is_refused.

(** Moving a state to the frame of the face and back changes nothing. *)
Theorem C54_frames : forall dim isPeriodic p u z if2c,
  dim = 2%nat \/ dim = 3%nat -> well_formed dim p -> if2c = 0%Z \/ if2c = 1%Z ->
  exists v w, UFromCell2Face dim isPeriodic p u z if2c = Ok v /\ UFromFace2Cell dim isPeriodic p v z if2c = Ok w /\
    forall k, w k = u k.
Proof. intros dim isPeriodic p u z if2c HD W. exact (frames dim isPeriodic p HD (proj1 W) (fun _ => 1) u z if2c W). Qed.
Print Assumptions C54_frames.

(** The flux of a face is the sum of its fluxes at the integration points with weight and
    Jacobian determinant; a constant flux density is multiplied by the measured area. *)
Theorem C54_face_flux_is_the_quadrature : forall f k, fluxEs f k = rsum (map (fun q => fst (fst q) * snd (fst q) * snd q k) (points f)).
Proof. exact face_flux_sum. Qed.
Print Assumptions C54_face_flux_is_the_quadrature.
Theorem C54_constant_flux_times_area : forall f c k, (forall q, In q (points f) -> snd q k = c) ->
  fluxEs f k = c * rsum (map (fun q => fst (fst q) * snd (fst q)) (points f)).
Proof. exact face_flux_constant. Qed.
Print Assumptions C54_constant_flux_times_area.
Example C54_two_points : fluxEs (Face 0 1 0 false [(1, 2, fun _ => 3); (1/2, 4, fun _ => 3)]) 0%nat = 12.
Proof. rewrite (C54_constant_flux_times_area _ 3 0%nat); [cbn; lra|]. intros q [<-|[<-|[]]]; reflexivity. Qed.

(** Three cells on two ranks with a wall and a period that turns by a right angle. *)
Example C54_example :
  length (rotation turning) = 4%nat /\ Forall (has_faces mesh) [rank0; rank1] /\ distributed 3 [rank0; rank1] /\
  Forall (sides_in 3) mesh /\ Forall (untouched 2 true turning 0) mesh /\
  Forall (fun g => side1 g <> Some (side0 g)) mesh /\ has_cell2face rank0 [[0; 3]; [0; 1; 2]]%Z /\
  Forall (fun f => gwall f = true -> side1 f = None) mesh /\ Forall (wall_first mesh) [rank0; rank1] /\
  filter is_boundary mesh = [wallD] /\ filter gwall mesh = [wallD] /\
  turned 2 true turning (-1) (fun k => INR k) 1%nat <> 1.
Proof. exact example_ok. Qed.
(** A square cell and its four boundary faces close. *)
Example C54_closed_example : closed square_area square 0 /\ has_faces square square_rank /\
  exists f, In f square /\ square_area f 0%nat <> 0.
Proof. exact square_closed. Qed.
