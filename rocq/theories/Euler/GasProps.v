(** Properties C45, C46, C48 and C49. *)
From Coq Require Import Reals List Arith Lra Lia.
From Verif Require Import Base.Prelude Euler.GasModel Euler.GasSpec Euler.GasProofs
  Euler.CompressModel Euler.CompressProofs Euler.RiemannCases.
Local Open Scope R_scope.

(** *** C45 *)
Theorem C45_primitive_and_back : forall d n g U, 0 < rho U -> g <> 1 ->
  exists W U', cons2prim d U g = Ok W /\ prim2cons d W g = Ok U' /\ same_state d n U' U.
Proof. exact prim_cons. Qed.
Print Assumptions C45_primitive_and_back.

Theorem C45_conservative_and_back : forall d n g W, 0 < rho W -> g <> 1 ->
  exists U W', prim2cons d W g = Ok U /\ cons2prim d U g = Ok W' /\ same_state d n W' W.
Proof. exact cons_prim. Qed.
Print Assumptions C45_conservative_and_back.

(** The pressure is that of the thermal relation used by the fluxes. *)
Theorem C45_pressure_of_the_thermal_relation : forall d g U W, cons2prim d U g = Ok W ->
  ene W = th_p (ene U) (rho U) (sqnorm d (mom W)) g.
Proof. exact prim_thermal. Qed.
Print Assumptions C45_pressure_of_the_thermal_relation.

Example C45_met : exists W, cons2prim 2 el air = Ok W /\ ene W = 5/7 /\ mom W 0%nat = 10.
Proof.
  unfold el. rewrite primitive_is_cons2prim by (cbn; lra). eexists; split; [reflexivity|]. unfold primitive. cbn [ene mom].
  rewrite gx_p, gx_vel by lra. auto.
Qed.

(** *** C46 *)
(** Left times right and right times left are the identity in two and three
    dimensions, when the sound speed is the one of the enthalpy. *)
Theorem C46_left_right_inverse_3d : forall velo H a g i j, g <> 1 -> a <> 0 ->
  a * a = (g - 1) * (H - 1/2 * sqnorm 3 velo) -> (i < 5)%nat -> (j < 5)%nat ->
  mat_mul 5 (LeV 3 velo (sqnorm 3 velo) H a g) (ReV 3 velo (sqnorm 3 velo) H a) i j = delta i j.
Proof. exact LR3. Qed.
Print Assumptions C46_left_right_inverse_3d.

Theorem C46_right_left_inverse_3d : forall velo H a g i j, g <> 1 -> a <> 0 ->
  a * a = (g - 1) * (H - 1/2 * sqnorm 3 velo) -> (i < 5)%nat -> (j < 5)%nat ->
  mat_mul 5 (ReV 3 velo (sqnorm 3 velo) H a) (LeV 3 velo (sqnorm 3 velo) H a g) i j = delta i j.
Proof. exact RL3. Qed.
Print Assumptions C46_right_left_inverse_3d.

Theorem C46_left_right_inverse_2d : forall velo H a g i j, g <> 1 -> a <> 0 ->
  a * a = (g - 1) * (H - 1/2 * sqnorm 2 velo) -> (i < 4)%nat -> (j < 4)%nat ->
  mat_mul 4 (LeV 2 velo (sqnorm 2 velo) H a g) (ReV 2 velo (sqnorm 2 velo) H a) i j = delta i j.
Proof. exact LR2. Qed.
Print Assumptions C46_left_right_inverse_2d.

Theorem C46_right_left_inverse_2d : forall velo H a g i j, g <> 1 -> a <> 0 ->
  a * a = (g - 1) * (H - 1/2 * sqnorm 2 velo) -> (i < 4)%nat -> (j < 4)%nat ->
  mat_mul 4 (ReV 2 velo (sqnorm 2 velo) H a) (LeV 2 velo (sqnorm 2 velo) H a g) i j = delta i j.
Proof. exact RL2. Qed.
Print Assumptions C46_right_left_inverse_2d.

(** The sound speed and enthalpy of the thermal relation satisfy that condition. *)
Theorem C46_thermal_condition : forall d g U, rho U <> 0 ->
  sound2 d g U = (g - 1) * (enthalpy d g U - 1/2 * sqnorm d (velocity U)).
Proof. exact sound_enthalpy. Qed.
Print Assumptions C46_thermal_condition.

(** The columns of the right matrix are eigenvectors of the derivative of the flux in
    the x direction (which C49 shows [flux_increment] to be), with the wave speeds
    relative to the moving face. *)
Theorem C46_columns_are_eigenvectors : forall d g U vg a k, (d = 2 \/ d = 3)%nat -> rho U <> 0 -> g <> 1 ->
  a * a = sound2 d g U -> a <> 0 -> (k < d + 2)%nat ->
  let R_ := column d (ReV d (velocity U) (sqnorm d (velocity U)) (enthalpy d g U) a) k in
  same_state d 0
    (flux_increment d U R_ ex (velocity U) (dvelo U R_) vg (dpres d U R_ (velocity U) g) (pressure d g U))
    (scale_state (wave d (velocity U 0%nat) a k - vg 0%nat) R_).
Proof. exact eigen_gen. Qed.
Print Assumptions C46_columns_are_eigenvectors.

Example C46_met : rho er <> 0 /\ air <> 1 /\ 7 * 7 = sound2 2 air er /\ 7 <> 0.
Proof. unfold er. rewrite gx_a2 by lra. cbn. unfold air. lra. Qed.

(** *** C48 *)
Theorem C48_ratio_in_range_and_floor_met : forall d scheme u uInc floor r,
  compression_ratio d scheme u uInc floor = Ok r ->
  0 <= r <= 1 /\ exists e, einner d u uInc r = Ok e /\ floor <= e.
Proof. exact ratio_ok. Qed.
Print Assumptions C48_ratio_in_range_and_floor_met.

(** With the convex estimate (scheme 1) the routine always returns, without a decay
    round, when the densities stay non-negative and the old state is above the floor;
    a ratio below smallR is cut to nothing. *)
Theorem C48_convex_estimate_returns : forall d scheme u uInc floor e0, scheme <> 0%nat ->
  0 <= rho u -> 0 <= rho u + rho uInc -> einner d u uInc 0 = Ok e0 -> 0 <= e0 -> floor <= e0 ->
  exists e1, einner d u uInc 1 = Ok e1 /\
    compression_ratio d scheme u uInc floor =
      let a := convex_estimate e0 e1 (Rmax (smallR * e0) floor) * safety in Ok (if Rlt_dec a smallR then 0 else a).
Proof. exact convex_returns. Qed.
Print Assumptions C48_convex_estimate_returns.

Example C48_met : exists r, compression_ratio 2 1 rest
    {| rho := 0; mom := fun _ => 1; ene := -1; extra := fun _ => 0 |} 1 = Ok r.
Proof.
  pose proof verySmall_pos.
  destruct (convex_returns 2 1 rest {| rho := 0; mom := fun _ => 1; ene := -1; extra := fun _ => 0 |} 1 (25/14)) as (e1 & _ & E);
    try (cbn; lra); try lia; [|eauto].
  rewrite einner_val by (cbn; lra). f_equal. unfold rest, sqnorm, dot. cbn. field. lra.
Qed.

(** *** C49 *)
(** Along every curve of states with a derivative and non-zero density, the velocity,
    the pressure, the flux through a moving face and the primitive variables have as
    derivatives the increments the code computes. *)
Theorem C49_velocity_increment : forall d n U x dU, has_derivative d n U x dU -> rho (U x) <> 0 ->
  forall i, (i < d)%nat -> derivable_pt_lim (fun t => velocity (U t) i) x (dvelo (U x) dU i).
Proof. exact der_velocity. Qed.
Print Assumptions C49_velocity_increment.

Theorem C49_pressure_increment : forall d n g U x dU, has_derivative d n U x dU -> rho (U x) <> 0 ->
  derivable_pt_lim (fun t => pressure d g (U t)) x (dpres d (U x) dU (velocity (U x)) g).
Proof. exact der_pressure. Qed.
Print Assumptions C49_pressure_increment.

Theorem C49_flux_increment : forall d n g U x dU, has_derivative d n U x dU -> rho (U x) <> 0 ->
  forall vg nn, has_derivative d 0 (fun t => exact_flux d g vg nn (U t)) x
    (flux_increment d (U x) dU nn (velocity (U x)) (dvelo (U x) dU) vg (dpres d (U x) dU (velocity (U x)) g) (pressure d g (U x))).
Proof. exact der_flux. Qed.
Print Assumptions C49_flux_increment.

Theorem C49_gradient_of_primitives : forall d n g U x dU, has_derivative d n U x dU -> rho (U x) <> 0 ->
  has_derivative d n (fun t => primitive d g (U t)) x (grad_prim d (U x) dU g).
Proof. exact der_primitive. Qed.
Print Assumptions C49_gradient_of_primitives.

Theorem C49_primitive_is_the_conversion : forall d g U, 0 < rho U -> cons2prim d U g = Ok (primitive d g U).
Proof. exact primitive_is_cons2prim. Qed.
Print Assumptions C49_primitive_is_the_conversion.

Example C49_met : has_derivative 2 1 (fun t => {| rho := 1 + t; mom := fun _ => t; ene := t; extra := fun _ => 3 |}) 0
  {| rho := 1; mom := fun _ => 1; ene := 1; extra := fun _ => 0 |}.
Proof.
  unfold has_derivative. cbn [rho mom ene extra].
  assert (D : derivable_pt_lim (fun t => t) 0 1) by apply derivable_pt_lim_id.
  split; [|split; [|split]].
  - apply (dl_eq _ _ (0 + 1)); [ring|]. apply dl_plus; [apply dl_c|exact D].
  - intros i _. exact D.
  - exact D.
  - intros i _. apply dl_c.
Qed.
