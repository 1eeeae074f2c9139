(** Property C59: the approximate flux Jacobian of the implicit solver. *)
From Coq Require Import Reals List ZArith Arith Bool Lia Lra.
From Verif Require Import Base.Prelude Geom.BoundaryModel Geom.PeriodicModel Geom.PeriodicProofs Euler.GasModel Euler.GasSpec Euler.GasProofs Euler.RiemannModel
  Euler.JacobianModel Euler.JacobianSpec Euler.JacobianProofs Euler.JacobianRows Euler.JacobianMore Euler.JacobianAll Euler.JacobianTight.
Import ListNotations.
Local Open Scope R_scope.
Local Notation sumn := GasModel.sumn.

(** The product with the face Jacobian is a linear map of the increment. *)
Theorem C59_product_is_linear : forall d g U UO n vg l useRoe sign omitF, rho U <> 0 -> (useRoe = true -> roe_ok d g U UO) ->
  exists F, (forall dU, times_du d g U UO n vg l useRoe sign omitF dU = Ok (F dU)) /\
    (forall a b, F (add_state a b) = add_state (F a) (F b)) /\ (forall c a, F (scale_state c a) = scale_state c (F a)).
Proof. exact product_linear. Qed.
Print Assumptions C59_product_is_linear.
(** The matrix put together for the LU factorization is the matrix of that map. *)
Theorem C59_matrix_is_the_product : forall d g x U UO n vg l useRoe sign omitF, rho U <> 0 -> (useRoe = true -> roe_ok d g U UO) ->
  exists J, times_matrix d x g U UO n vg l useRoe sign omitF = Ok J /\ length J = (d + 2 + x)%nat /\
    forall dU, exists y, times_du d g U UO n vg l useRoe sign omitF dU = Ok y /\ forall i, (i < d + 2 + x)%nat -> col_times d J dU i = comp d y i.
Proof. exact matrix_ok. Qed.
Print Assumptions C59_matrix_is_the_product.
(** Without dissipation it is the derivative of the exact flux along any curve of states. *)
Theorem C59_central_part_is_the_derivative_of_the_flux : forall d x g U t dU vg n, has_derivative d x U t dU -> rho (U t) <> 0 ->
  exists y, timesC_du d g (U t) n vg dU = Ok y /\ has_derivative d x (fun s => full_flux d g vg n (U s)) t y.
Proof. exact central_derivative. Qed.
Print Assumptions C59_central_part_is_the_derivative_of_the_flux.
(** The matrix written out entry by entry for three dimensions is that derivative too. *)
Theorem C59_written_out_matrix : forall x g U n dU y, timesC_du 3 g U n (fun _ => 0) dU = Ok y ->
  forall i, (i < 5 + x)%nat -> sumn (5 + x) (fun j => jac_entry g U n i j * comp 3 dU j) = comp 3 y i.
Proof. exact explicit_ok. Qed.
Print Assumptions C59_written_out_matrix.

(** A row of the matrix, applied to the increments, is the derivative of the time term plus
    [alpha] times the outflow of the cell, with the speeds of the dissipation held fixed. *)
Theorem C59_row_is_the_derivative : forall d x g dTau dt alpha vol U dU fs,
  rho U <> 0 -> (forall p, In p fs -> rho (there (fst p)) <> 0) -> closed d (map fst fs) ->
  exists r, row_times d g dTau dt alpha vol U dU fs = Ok r /\
    has_derivative d x (implicit_residual d g dTau dt alpha vol (fun f => plain_diss (lam f)) U dU fs) 0 r.
Proof. exact plain_row_derivative. Qed.
Print Assumptions C59_row_is_the_derivative.
(** The same with Roe's dissipation. *)
Theorem C59_row_is_the_derivative_roe : forall d x g dTau dt alpha vol U dU fs,
  rho U <> 0 -> (forall p, In p fs -> roe_ok d g U (there (fst p))) -> closed d (map fst fs) ->
  exists r, row_times_roe d g dTau dt alpha vol U dU fs = Ok r /\
    has_derivative d x (implicit_residual d g dTau dt alpha vol (fun f => roe_diss d g (nrm f) U (there f) (lam f)) U dU fs) 0 r.
Proof. exact roe_row_derivative. Qed.
Print Assumptions C59_row_is_the_derivative_roe.
(** A uniform increment of a uniform flow meets only the time term. *)
Theorem C59_uniform : forall d x g dTau dt alpha vol U dU fs, rho U <> 0 -> closed d (map fst fs) ->
  (forall p, In p fs -> there (fst p) = U /\ snd p = dU) ->
  (exists r, row_times d g dTau dt alpha vol U dU fs = Ok r /\ same_state d x r (scale_state (1 / dTau + 1 / dt) dU)) /\
  (roe_ok d g U U -> exists r, row_times_roe d g dTau dt alpha vol U dU fs = Ok r /\ same_state d x r (scale_state (1 / dTau + 1 / dt) dU)).
Proof. exact uniform_rows. Qed.
Print Assumptions C59_uniform.

(** The matrix is conservative: on a mesh without boundary the rows, weighted with the
    volumes, add up to the time terms alone. *)
Theorem C59_conservation : forall d x g N (dTau : nat -> R) dt alpha (vol : nat -> R) u du fs, mesh_ok d N u du fs ->
  (forall i, (i < N)%nat -> vol i <> 0 /\ rho (u i) <> 0) ->
  exists r, (forall i, (i < N)%nat -> row_times d g (dTau i) dt alpha (vol i) (u i) (du i) (seen u du fs i) = Ok (r i)) /\
    forall k, (k < d + 2 + x)%nat -> sumn N (fun i => vol i * comp d (r i) k) = sumn N (fun i => vol i * ((1 / dTau i + 1 / dt) * comp d (du i) k)).
Proof. exact conserves_plain. Qed.
Print Assumptions C59_conservation.
Theorem C59_conservation_roe : forall d x g N (dTau : nat -> R) dt alpha (vol : nat -> R) u du fs, mesh_ok d N u du fs ->
  (forall i, (i < N)%nat -> vol i <> 0) -> (forall f, In f fs -> roe_ok d g (u (fL f)) (u (fR f))) ->
  exists r, (forall i, (i < N)%nat -> row_times_roe d g (dTau i) dt alpha (vol i) (u i) (du i) (seen u du fs i) = Ok (r i)) /\
    forall k, (k < d + 2 + x)%nat -> sumn N (fun i => vol i * comp d (r i) k) = sumn N (fun i => vol i * ((1 / dTau i + 1 / dt) * comp d (du i) k)).
Proof. exact conserves_roe. Qed.
Print Assumptions C59_conservation_roe.

Example C59_ring : mesh_ok 2 2 exu exdu exfs /\ (forall i, rho (exu i) <> 0) /\ (forall f, In f exfs -> roe_ok 2 (7/5) (exu (fL f)) (exu (fR f))) /\
  closed 2 (map fst (seen exu exdu exfs 0)) /\ length (seen exu exdu exfs 0) = 2%nat.
Proof.
  split; [apply ex_mesh|]. split; [intros [|i]; cbn; lra|]. split; [intros f [<-|[<-|[]]]; apply ex_roe; cbn; auto|].
  split; [apply ex_mesh; lia|reflexivity].
Qed.
Example C59_ring_uniform : closed 2 (map fst (seen (fun _ => exV) (fun _ => exd) exfs 1)) /\
  (forall p, In p (seen (fun _ => exV) (fun _ => exd) exfs 1) -> there (fst p) = exV /\ snd p = exd) /\ roe_ok 2 (7/5) exV exV.
Proof.
  split; [exact (proj2 ex_mesh 1%nat ltac:(lia))|]. split; [intros p [<-|[<-|[]]]; cbn; auto|apply ex_roe; auto].
Qed.
Example C59_curve : has_derivative 2 1 (along exU exd) 0 exd /\ rho (along exU exd 0) <> 0.
Proof. split; [apply hd_along|cbn; lra]. Qed.

(** Roe's dissipation of a jump is the same seen from both sides of a face. *)
Theorem C59_roe_dissipation_from_both_sides : forall d g U V n vg l sign W, roe_ok d g U V ->
  times_du d g V U (opp n) vg (back_speeds l) true sign true W = times_du d g U V n vg l true sign true W.
Proof. exact roe_both_sides. Qed.
Print Assumptions C59_roe_dissipation_from_both_sides.
(** If all waves have the same speed, Roe's product is the one with a single speed. *)
Theorem C59_equal_speeds : forall d x g U V n vg l v l0 l1 l4 sign omitF W, g <> 1 -> roe_ok d g U V ->
  exists a b, times_du d g U V n vg {| lamMain := l + v; lamVis := v; lam0 := l; lam123 := l; lam4 := l |} true sign omitF W = Ok a /\
    times_du d g U V n vg {| lamMain := l + v; lamVis := v; lam0 := l0; lam123 := l1; lam4 := l4 |} false sign omitF W = Ok b /\ same_state d x a b.
Proof. exact equal_speeds_plain. Qed.
Print Assumptions C59_equal_speeds.
Example C59_roe_states : roe_ok 2 (7/5) exU exV /\ 7/5 <> 1.
Proof. split; [apply ex_roe; auto|lra]. Qed.

(** Through a periodic face the stored block, applied to the value the other cell holds, is
    the block applied to that value turned into this cell's frame. *)
Theorem C59_turned_block : forall d x p id t J U, (d = 2 \/ d = 3)%nat -> length J = (d + 2 + x)%nat ->
  match turn_block d p id t J, from_other d p id t U with
  | Ok J', Ok V => forall i, (i < d + 2 + x)%nat -> col_times d J' U i = col_times d J V i
  | Abort, Abort | UB, UB => True
  | _, _ => False
  end.
Proof. exact turn_ok. Qed.
Print Assumptions C59_turned_block.
Example C59_turns : exists V, from_other 2 turned BC_ID_PERIODIC_1_DONOR TurnA exd = Ok V /\ mom V 0%nat <> mom exd 0%nat /\
  turn_block 2 turned BC_ID_PERIODIC_1_DONOR TurnA [exd; exd; exU; exV] <> Abort.
Proof. eexists. split; [reflexivity|]. split; [cbn; lra|discriminate]. Qed.

(** Values of the cell across a periodic face are turned the way its points are moved. *)
Theorem C59_turned_with_points : forall d p id if2c U V P Q P' Q', (d = 2 \/ d = 3)%nat -> if2c = 0%Z \/ if2c = 1%Z ->
  (d = 2%nat -> P 2%nat = Q 2%nat) ->
  from_other d p id (other_turn true id (if2c =? 1)%Z FaceIDIsPeriodicMain FaceIDIsPeriodicDonor) U = Ok V ->
  GetOtherCellPointFromCell p id if2c P = Ok P' -> GetOtherCellPointFromCell p id if2c Q = Ok Q' ->
  (forall i, (i < d)%nat -> mom U i = Q i - P i) ->
  rho V = rho U /\ ene V = ene U /\ extra V = extra U /\ forall i, (i < d)%nat -> mom V i = Q' i - P' i.
Proof. exact turned_with_points. Qed.
Print Assumptions C59_turned_with_points.
Example C59_turned_with_points_met : exists V P' Q', from_other 2 turned BC_ID_PERIODIC_1_DONOR (other_turn true BC_ID_PERIODIC_1_DONOR false FaceIDIsPeriodicMain FaceIDIsPeriodicDonor) exd = Ok V /\
  GetOtherCellPointFromCell turned BC_ID_PERIODIC_1_DONOR 0 (fun _ => 0) = Ok P' /\ GetOtherCellPointFromCell turned BC_ID_PERIODIC_1_DONOR 0 (fun i => if (i <? 2)%nat then mom exd i else 0) = Ok Q' /\
  mom V 0%nat <> mom exd 0%nat.
Proof. eexists. eexists. eexists. split; [reflexivity|]. split; [reflexivity|]. split; [reflexivity|]. cbn. lra. Qed.
