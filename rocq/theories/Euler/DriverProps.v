(** C64: the driver of the angle of attack. *)
From Coq Require Import Reals List Arith ZArith String.
From Verif Require Import Base.Prelude Euler.GasModel Geom.RotationModel Geom.RotationSpec Geom.BoundaryModel Euler.BndModel
  Euler.DriverModel Euler.DriverSpec Euler.DriverProofs Euler.DriverTight.
Import ListNotations.
Local Open Scope list_scope.
Local Open Scope R_scope.

(** Whatever is fed to a new driver, what it remembers is the run of coefficients since
    the angle last changed: the latest window of them, and how many in a row were on
    target. *)
Theorem C64_history_kept : forall s st h st', new_driver s = Ok st -> run s st h = Ok st' ->
  exists l, seen s st' l /\ exists old, rev (map snd h) = l ++ old.
Proof.
  exact (fun s st h st' N E => match new_seen s st N with conj Se (conj W _) =>
    match run_seen s h st [] st' (Nat.lt_le_trans _ _ _ Nat.lt_0_2 W) Se E with ex_intro _ l (conj A (ex_intro _ old B)) =>
      ex_intro _ l (conj A (ex_intro _ old (eq_trans (eq_sym (app_nil_r _)) B))) end end).
Qed.
Print Assumptions C64_history_kept.

(** The angle is changed exactly when the lift has settled; then it moves towards the
    target by the relaxed Newton step with a slope between 0.9 and 10 times the thin
    aerofoil's, and the memory starts afresh. *)
Theorem C64_angle_changes_when_settled : forall s st l iter CL st', (0 < s_window s)%nat -> seen s st l -> update s st iter CL = Ok st' ->
  (~ settled s (c_lastCL st) iter (CL :: l) /\ seen s st' (CL :: l) /\
   c_AOA st' = c_AOA st /\ c_lastAOA st' = c_lastAOA st /\ c_lastCL st' = c_lastCL st) \/
  (settled s (c_lastCL st) iter (CL :: l) /\ seen s st' [] /\
   c_lastAOA st' = c_AOA st /\ c_lastCL st' = average (firstn (s_window s) (CL :: l)) /\
   exists k, slope (c_lastCL st) CL (c_lastAOA st) (c_AOA st) = Ok k /\ 9/10 * slope_std <= k <= 10 * slope_std /\
     c_AOA st' = c_AOA st + s_relax s * ((s_target s - CL) / k)).
Proof. exact update_cases. Qed.
Print Assumptions C64_angle_changes_when_settled.

(** Convergence at the target is reported exactly when the last long window of
    coefficients, all at the present angle, lie within the long threshold. *)
Theorem C64_converged_means : forall s st l, seen s st l ->
  (ConvergedAtTarget s st = true <-> (s_longWindow s <= List.length l)%nat /\ forall x, In x (firstn (s_longWindow s) l) -> on_target s x).
Proof. exact converged_iff. Qed.
Print Assumptions C64_converged_means.

(** With a lift that answers linearly and at once, each further change of the angle
    shrinks the distance to the target by one minus the relaxation. *)
Theorem C64_linear_lift_reaches_target : forall s g a0 B, (0 < s_window s)%nat -> 0 <= s_threshold s -> 0 <= s_ratio s ->
  9/10 * slope_std <= g <= 10 * slope_std -> 0 < s_relax s < 1 ->
  Rabs (s_target s) + B < veryLarge -> Rabs a0 + (Rabs (s_target s) + B) / g < veryLarge ->
  let f := fun a => g * (a - a0) in
  forall m its st, new_driver s = Ok st -> s_relax s * g <> slope_std ->
  Rabs (s_target s - f (s_AOAInit s)) * (1 + s_relax s * g / slope_std) <= B -> s_target s - f (s_AOAInit s) <> 0 ->
  List.length its = (S m * cycle s)%nat -> (forall it, In it its -> (s_start s <= it)%Z) ->
  exists st', fly f s st its = Ok st' /\
    s_target s - f (c_AOA st') = (1 - s_relax s) ^ m * ((1 - s_relax s * g / slope_std) * (s_target s - f (s_AOAInit s))).
Proof. exact fly_from_start. Qed.
Print Assumptions C64_linear_lift_reaches_target.

(** The inflow is turned by the angle of attack from the drag axis towards the lift
    axis, and lift and drag are the components of the force across and along it. *)
Theorem C64_inflow_turned : forall s AOA M L D, (s_AOAAxis s = "z" /\ s_CL0Axis s = "y" \/ s_AOAAxis s = "y" /\ s_CL0Axis s = "z")%string ->
  GetAOARotation s AOA = Ok M -> GetCL0Direction s = Ok L -> GetCD0Direction s = Ok D ->
  dot 3 L L = 1 /\ dot 3 D D = 1 /\ dot 3 L D = 0 /\
  same_vec 3 (mat_vec 3 M D) (fun i => cos (rad AOA) * D i + sin (rad AOA) * L i) /\
  same_vec 3 (mat_vec 3 M L) (fun i => cos (rad AOA) * L i - sin (rad AOA) * D i).
Proof. exact rotation_dirs. Qed.
Print Assumptions C64_inflow_turned.

Theorem C64_coefficients : forall d s AOA F cl cd, (d = 2 \/ d = 3)%nat -> coefficients d s AOA F = Ok (cl, cd) ->
  forall M L D, GetAOARotation s AOA = Ok M -> GetCL0Direction s = Ok L -> GetCD0Direction s = Ok D ->
  s_area s * s_q s <> 0 /\
  cl = dot 3 (ToThreeDim d F) (mat_vec 3 M L) / (s_area s * s_q s) /\ cd = dot 3 (ToThreeDim d F) (mat_vec 3 M D) / (s_area s * s_q s).
Proof. exact coeff_eq. Qed.
Print Assumptions C64_coefficients.

(** The force is that on the named boundaries if these are configured ones, or one
    default wall that has all the walls. *)
Theorem C64_force_configured : forall inviscid ids l i, NoDup ids -> (forall id, In id ids -> (BC_ID_DEFAULT_MAX <= id)%Z) ->
  cl_force inviscid ids l i = named_force ids l i.
Proof. exact force_configured. Qed.
Print Assumptions C64_force_configured.

Theorem C64_force_default_partial : forall inviscid id l i, (id < BC_ID_DEFAULT_MAX)%Z ->
  (forall b, In b l -> (in_wall_sum inviscid b = true <-> bf_zone b = id)) ->
  cl_force inviscid [id] l i = named_force [id] l i.
Proof. exact force_default. Qed.
Print Assumptions C64_force_default_partial.

(** Under a default id it is the force on all walls of the mesh, on the slip walls only in
    a flow without viscosity. *)
Theorem C64_force_default_is_all_walls : forall inviscid id l i, (id < BC_ID_DEFAULT_MAX)%Z ->
  cl_force inviscid [id] l i =
    total (map (fun b => match bf_type b with BCWall => - bf_flux b i | BCWallInvis => if inviscid then - bf_flux b i else 0 | _ => 0 end) l).
Proof. exact default_force. Qed.
Print Assumptions C64_force_default_is_all_walls.

(** Naming both default walls counts every wall twice; naming one brings in the walls
    that were not named. *)
Theorem C64_force_counted_twice_refuted : exists ids l i, NoDup ids /\
  (forall id, In id ids -> id = BC_ID_DEFAULT_WALL \/ id = BC_ID_DEFAULT_WALL_INVIS) /\
  named_force ids l i <> 0 /\ cl_force false ids l i = 2 * named_force ids l i.
Proof. exact force_twice. Qed.
Print Assumptions C64_force_counted_twice_refuted.

Theorem C64_force_of_other_walls_refuted : exists l i, named_force [BC_ID_DEFAULT_WALL] l i = 0 /\ cl_force false [BC_ID_DEFAULT_WALL] l i <> 0.
Proof. exact force_other. Qed.
Print Assumptions C64_force_of_other_walls_refuted.

(** A lift that stays exactly on target makes the angle a NaN at the second change. *)
Theorem C64_on_target_is_stable_refuted : forall s st a b, new_driver s = Ok st -> 0 <= s_threshold s -> 0 <= s_ratio s ->
  s_target s <> veryLarge -> s_AOAInit s <> veryLarge ->
  List.length a = cycle s -> List.length b = cycle s -> (forall it, In it (a ++ b) -> (s_start s <= it)%Z) ->
  run s st (map (fun it => (it, s_target s)) (a ++ b)) = UB.
Proof. exact on_target_UB. Qed.
Print Assumptions C64_on_target_is_stable_refuted.

(** With the default settings a lift within 1e-4 of the target, however long, is never
    reported as converged: the long threshold is stored as an integer. *)
Theorem C64_long_threshold_refuted : exists CL, Rabs (s_target default_settings - CL) <= / 10 ^ 4 /\
  forall st its st', new_driver default_settings = Ok st -> run default_settings st (map (fun it => (it, CL)) its) = Ok st' ->
    ConvergedAtTarget default_settings st' = false.
Proof. exact default_never. Qed.
Print Assumptions C64_long_threshold_refuted.

(** In two dimensions with the angle about "y" the inflow is not turned but shortened. *)
Theorem C64_two_dimensional_y_refuted : exists s AOA M, new_driver s <> Abort /\ GetAOARotation s AOA = Ok M /\ sqnorm 2 (v3 1 0 0) = 1 /\
  sqnorm 2 (mat_vec 2 M (v3 1 0 0)) = 1/4.
Proof. exact two_d_y. Qed.
Print Assumptions C64_two_dimensional_y_refuted.

(** The hypotheses are met. *)
Example C64_history_met : new_driver quick = Ok quick0 /\ seen quick quick0 [].
Proof. exact met_new. Qed.
Example C64_run_met : exists st, run quick quick0 [(1%Z, 1/4); (2%Z, 1/2); (3%Z, 1/2)] = Ok st /\ seen quick st [1/2; 1/2; 1/4] /\ ConvergedAtTarget quick st = true.
Proof. exact met_run. Qed.
Example C64_settled_met : settled quick veryLarge 7 [1/4; 1/4; 1/8].
Proof. exact met_settled. Qed.
Example C64_linear_met : let g := 2 * slope_std in
  9/10 * slope_std <= g <= 10 * slope_std /\ 0 < s_relax quick < 1 /\ s_relax quick * g <> slope_std /\
  s_target quick - g * (s_AOAInit quick - 1) <> 0 /\ Rabs (s_target quick) + 10 < veryLarge /\ Rabs 1 + (Rabs (s_target quick) + 10) / g < veryLarge /\
  Rabs (s_target quick - g * (s_AOAInit quick - 1)) * (1 + s_relax quick * g / slope_std) <= 10.
Proof. exact met_linear. Qed.
