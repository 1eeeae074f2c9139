(** Property C60. *)
From Coq Require Import Reals List Arith ZArith String Lra.
From Verif Require Import Base.Prelude Euler.GasModel Euler.GasSpec Euler.GasProofs Euler.CompressModel Euler.CompressProofs Euler.RiemannModel Euler.RiemannSpec
  Euler.RiemannCases Geom.RotationModel Geom.BoundaryModel Euler.BndModel Euler.BndSpec Euler.BndFlux Euler.BndWall Euler.BndProofs
  Euler.BndFar Euler.BndInlet Euler.BndCases Euler.BndEnd Euler.BndTight.
Import ListNotations.
Local Open Scope R_scope.

(** *** slip walls and symmetry planes *)
(** Density, pressure and the other variables are those of the interior; relative to
    the (possibly turning) wall the normal velocity is reversed, the rest kept. *)
Theorem C60_slip_state : forall e b n p pf t fixUL UL ULm, In (b_type b) [BCWallInvis; BCSym] -> sqnorm (e_d e) n = 1 -> 0 < rho UL ->
  exists UR, boundary_value e b n p pf t fixUL UL ULm = Ok (UL, UR) /\
    rho UR = rho UL /\ static_p e UR = static_p e UL /\ extra UR = extra UL /\
    rel_speed e n p UR = - rel_speed e n p UL /\
    forall tau, dot (e_d e) tau n = 0 -> dot (e_d e) (velocity UR) tau = dot (e_d e) (velocity UL) tau.
Proof. exact slip_state. Qed.
Print Assumptions C60_slip_state.

(** No mass crosses a slip wall under any of the Roe solvers; the force is along the
    normal, and the energy that crosses is the work of that force on the moving wall. *)
Theorem C60_slip_wall_is_tight : forall e b n p pf t fixUL UL ULm x dL,
  In (b_type b) [BCWallInvis; BCSym] -> In x roe_family -> sqnorm (e_d e) n = 1 -> 1 < e_gamma e -> 0 < rho UL ->
  admissible (e_d e) (e_gamma e) ULm ->
  exists UR URm F P, boundary_value e b n p pf t fixUL UL ULm = Ok (UL, UR) /\
    boundary_value e b n p pf t fixUL ULm ULm = Ok (ULm, URm) /\
    numerical_flux (e_d e) x (e_gamma e) dL (grid_speed (e_frame e) p) n UL UR ULm URm = Ok F /\
    rho F = 0 /\ (forall i, mom F i = P * n i) /\ ene F = P * dot (e_d e) (grid_speed (e_frame e) p) n.
Proof. exact slip_tight. Qed.
Print Assumptions C60_slip_wall_is_tight.

(** The same for HLLC in a frame at rest, as long as the flow does not run into the
    wall at the speed of sound. *)
Theorem C60_hllc_slip_wall_is_tight_partial : forall e b n p pf t fixUL UL ULm dL,
  In (b_type b) [BCWallInvis; BCSym] -> fr_on (e_frame e) = false -> sqnorm (e_d e) n = 1 -> 1 < e_gamma e ->
  admissible (e_d e) (e_gamma e) UL -> admissible (e_d e) (e_gamma e) ULm ->
  dot (e_d e) (velocity ULm) n <= sound e ULm - verySmall ->
  exists UR URm F P, boundary_value e b n p pf t fixUL UL ULm = Ok (UL, UR) /\
    boundary_value e b n p pf t fixUL ULm ULm = Ok (ULm, URm) /\
    numerical_flux (e_d e) HLLC (e_gamma e) dL (grid_speed (e_frame e) p) n UL UR ULm URm = Ok F /\
    rho F = 0 /\ ene F = 0 /\ forall i, mom F i = P * n i.
Proof. exact hllc_tight. Qed.
Print Assumptions C60_hllc_slip_wall_is_tight_partial.

(** Without that condition HLLC leaks mass through a slip wall, and both HLLEP
    solvers leak already in subsonic flow. *)
Theorem C60_hll_slip_wall_leaks_refuted : forall x, In x [HLLC; HLLEP; HLLEP_V1] -> exists UL UR F, admissible 2 air UL /\
  boundary_value plain slip_bc ex (fun _ => 0) (fun _ => 0) 0 false UL UL = Ok (UL, UR) /\
  numerical_flux 2 x air 0 (grid_speed (e_frame plain) (fun _ => 0)) ex UL UR UL UR = Ok F /\ 0 < rho F.
Proof. exact leaks. Qed.
Print Assumptions C60_hll_slip_wall_leaks_refuted.

(** *** no-slip walls *)
(** The velocity at the wall, the mean of both sides, is that of the wall; density
    and pressure are those of the interior. *)
Theorem C60_wall_state : forall e b n p pf t fixUL UL ULm, b_type b = BCWall -> 0 < rho UL -> 0 < rho ULm -> 0 < e_dwall e ->
  (fr_on (e_frame e) = true -> b_flag b "frameOpt"%string <> None) ->
  exists UL' UR, boundary_value e b n p pf t fixUL UL ULm = Ok (UL', UR) /\
    rho UL' = rho UL /\ mom UL' = mom UL /\ ene UL' = ene UL /\
    rho UR = rho UL /\ static_p e UR = static_p e UL /\
    forall i, (velocity UL i + velocity UR i) / 2 = wall_speed e b p i.
Proof. exact wall_state_all. Qed.
Print Assumptions C60_wall_state.

(** The turbulence variables take their wall values in the mean of both sides. *)
Theorem C60_wall_turbulence : forall e b n p pf t fixUL UL ULm UL' UR, b_type b = BCWall -> 0 < rho UL ->
  (fr_on (e_frame e) = true -> b_flag b "frameOpt"%string <> None) ->
  boundary_value e b n p pf t fixUL UL ULm = Ok (UL', UR) ->
  match e_turb e with
  | NoTurb => extra UL' = extra UL /\ extra UR = extra UL
  | SA => face_mean UL' UR 0 = 0 /\ (fixUL = true -> extra UL' 0%nat = 0 /\ extra UR 0%nat = 0) /\ (fixUL = false -> UL' = UL)
  | TwoEq => UL' = UL /\ face_mean UL' UR 0 = 0 /\ face_mean UL' UR 1 = 0
  | RKE => UL' = UL /\ face_mean UL' UR 0 = 0 /\ face_mean UL' UR 1 = wall_eps e ULm UL
  | KOmega => UL' = UL /\ face_mean UL' UR 0 = 0 /\ face_mean UL' UR 1 = wall_omega e
  end.
Proof. exact wall_turbulence. Qed.
Print Assumptions C60_wall_turbulence.

(** No mass crosses a no-slip wall turning with the frame under any Roe solver, and
    the energy that crosses is the work of the force on the wall. *)
Theorem C60_wall_is_tight : forall e b n p pf t fixUL UL ULm x dL,
  b_type b = BCWall -> In x roe_family -> sqnorm (e_d e) n = 1 -> 1 < e_gamma e -> 0 < rho UL ->
  admissible (e_d e) (e_gamma e) ULm -> 0 < e_dwall e ->
  (fr_on (e_frame e) = true -> b_flag b "frameOpt"%string = Some 0%Z) ->
  exists UL' UR ULm' URm F, boundary_value e b n p pf t fixUL UL ULm = Ok (UL', UR) /\
    boundary_value e b n p pf t fixUL ULm ULm = Ok (ULm', URm) /\
    numerical_flux (e_d e) x (e_gamma e) dL (grid_speed (e_frame e) p) n UL' UR ULm' URm = Ok F /\
    rho F = 0 /\ ene F = dot (e_d e) (mom F) (grid_speed (e_frame e) p).
Proof. exact wall_tight. Qed.
Print Assumptions C60_wall_is_tight.

(** A change to the turning frame and back is the identity, and keeps density and
    pressure. *)
Theorem C60_frame_change : forall e p U, 0 < rho U -> exists V, shift_frame e p (-1) U = Ok V /\ shift_frame e p 1 V = Ok U /\
  rho V = rho U /\ extra V = extra U /\ static_p e V = static_p e U /\
  forall i, velocity V i = velocity U i - cross (vOmega (e_frame e)) (fun j => p j - fr_center (e_frame e) j) i.
Proof. exact frame_round. Qed.
Print Assumptions C60_frame_change.

(** *** far field *)
(** The flow of the far field is kept as it is. *)
Theorem C60_free_stream : forall e b n p pf t fixUL U ULm,
  In (b_type b) [BCFar; BCOutP] -> (b_type b = BCFar \/ b_flag b "anchorOpt"%string = Some 0%Z) ->
  1 < e_gamma e -> admissible (e_d e) (e_gamma e) U -> far_state e b t = Ok U ->
  boundary_value e b n p pf t fixUL U ULm = Ok (U, U).
Proof. exact free_stream. Qed.
Print Assumptions C60_free_stream.

(** What leaves supersonically leaves unchanged; what enters supersonically is the far
    state; a subsonic outflow keeps everything but the pressure, a subsonic inflow
    takes everything but the pressure from the far state. *)
Theorem C60_far_field : forall e b n p pf t fixUL UL ULm far,
  In (b_type b) [BCFar; BCOutP] -> 1 < e_gamma e -> admissible (e_d e) (e_gamma e) UL ->
  far_state e b t = Ok far -> 0 < rho far ->
  let vn := rel_speed e n pf UL in let a := sound e UL in
  (a < vn -> boundary_value e b n p pf t fixUL UL ULm = Ok (UL, UL)) /\
  (forall pOut, 0 < vn <= a -> outlet_pressure e b UL (static_p e UL) (static_p e far) = Ok pOut ->
     exists UR, boundary_value e b n p pf t fixUL UL ULm = Ok (UL, UR) /\
       rho UR = rho UL /\ velocity UR = velocity UL /\ static_p e UR = pOut /\
       forall i, extra UR i / rho UR = extra UL i / rho UL) /\
  (- a < vn <= 0 ->
     exists UR, boundary_value e b n p pf t fixUL UL ULm = Ok (UL, UR) /\
       rho UR = rho far /\ velocity UR = velocity far /\ static_p e UR = static_p e UL /\
       forall i, extra UR i / rho UR = extra far i / rho far) /\
  (vn <= - a -> boundary_value e b n p pf t fixUL UL ULm = Ok (UL, far)).
Proof. exact far_cases. Qed.
Print Assumptions C60_far_field.

(** The far state is the one given for the boundary; in a turning frame a far field fixed
    in space is turned back. *)
Theorem C60_far_state_given : forall e b t, b_type b <> BCFar \/ fr_on (e_frame e) = false \/ b_flag b "frameOpt"%string = Some 0%Z ->
  far_state e b t = Ok (given_state e b).
Proof. exact far_is_given. Qed.
Print Assumptions C60_far_state_given.
Theorem C60_far_state_turned_back : forall e b t f, b_type b = BCFar -> fr_on (e_frame e) = true -> b_flag b "frameOpt"%string = Some f -> f <> 0%Z ->
  exists U, far_state e b t = Ok U /\ rho U = rho (given_state e b) /\ ene U = ene (given_state e b) /\ extra U = extra (given_state e b) /\
    mom U = mat_vec 3 (RotateAxis (fun i => - (vOmega (e_frame e) i * t))) (ToThreeDim (e_d e) (mom (given_state e b))).
Proof. exact far_turns_back. Qed.
Print Assumptions C60_far_state_turned_back.
(** An inlet imposes the given state, an outlet nothing. *)
Theorem C60_inlet_and_outlet : forall e b n p pf t fixUL UL ULm,
  (b_type b = BCIn -> (BC_ID_DEFAULT_MAX <= b_id b)%Z -> boundary_value e b n p pf t fixUL UL ULm = Ok (UL, given_state e b)) /\
  (b_type b = BCOut -> boundary_value e b n p pf t fixUL UL ULm = Ok (UL, UL)).
Proof. exact in_and_out. Qed.
Print Assumptions C60_inlet_and_outlet.

(** The imposed pressure is the far pressure unless an anchor or a profile moves it;
    an anchor moves it by the pressure difference to the anchor point, and never below
    a twentieth of the far pressure. *)
Theorem C60_outlet_pressure : forall e b UL pUL pFar, In (b_type b) [BCFar; BCOutP] ->
  (b_type b = BCFar \/ b_flag b "anchorOpt"%string = Some 0%Z -> outlet_pressure e b UL pUL pFar = Ok pFar) /\
  (forall A, b_type b = BCOutP -> b_flag b "anchorOpt"%string = Some 1%Z ->
     e_anchor e = Some A -> 0 < rho A -> - (95/100) * pFar <= pUL - static_p e A ->
     outlet_pressure e b UL pUL pFar = Ok (pFar + (pUL - static_p e A))) /\
  (forall q, 0 < pFar -> outlet_pressure e b UL pUL pFar = Ok q -> pFar / 20 <= q).
Proof. exact outlet_all. Qed.
Print Assumptions C60_outlet_pressure.

Theorem C60_far_positive : forall e b n p pf t fixUL UL ULm far UL' UR,
  In (b_type b) [BCFar; BCOutP] -> 1 < e_gamma e -> admissible (e_d e) (e_gamma e) UL ->
  far_state e b t = Ok far -> admissible (e_d e) (e_gamma e) far ->
  boundary_value e b n p pf t fixUL UL ULm = Ok (UL', UR) -> UL' = UL /\ admissible (e_d e) (e_gamma e) UR.
Proof. exact far_positive. Qed.
Print Assumptions C60_far_positive.

(** *** inlets *)
(** An inlet with given stagnation values has them, flows in the given direction with
    the speed of the interior, capped, and a positive pressure. *)
Theorem C60_stagnation_inlet : forall e b n p pf t fixUL UL ULm, b_type b = BCInPsTs -> 1 < e_gamma e -> 0 < e_Cp e -> 0 < e_Rgas e ->
  let V := b_value b in let pStag := rho V in let tStag := mom V 0%nat in let dir := inlet_direction (e_d e) V in
  0 < pStag -> 0 < tStag -> 0 < sqnorm (e_d e) dir -> 0 < rho UL -> e_cl e = None ->
  exists UR, boundary_value e b n p pf t fixUL UL ULm = Ok (UL, UR) /\ 0 < rho UR /\
    let W := primitive (e_d e) (e_gamma e) UR in
    total_temperature (e_d e) (e_Rgas e) (e_Cp e) W = tStag /\
    total_pressure (e_d e) (e_gamma e) (e_Rgas e) (e_Cp e) W = pStag /\
    0 < ene W /\
    sqnorm (e_d e) (mom W) = Rmin (sqnorm (e_d e) (velocity UL)) (95/100 * (2 * e_Cp e * tStag)) /\
    (exists c, 0 <= c /\ forall i, mom W i = c * dir i) /\
    (forall i, extra W i = extra V i).
Proof. exact stag_all. Qed.
Print Assumptions C60_stagnation_inlet.

(** *** the hypotheses can be met *)
Example C60_met_walls : In (b_type slip_bc) [BCWallInvis; BCSym] /\ b_type wall_bc = BCWall /\ sqnorm (e_d turning) ex = 1 /\
  1 < e_gamma turning /\ admissible (e_d turning) (e_gamma turning) slow /\ 0 < e_dwall turning /\
  (fr_on (e_frame turning) = true -> b_flag wall_bc "frameOpt"%string = Some 0%Z) /\
  grid_speed (e_frame turning) (v3 0 1 0) 0%nat = - (2 * PI) /\
  dot (e_d turning) (velocity slow) ex <= sound turning slow - verySmall.
Proof. exact met_walls. Qed.
Example C60_met_far : In (b_type out_bc) [BCFar; BCOutP] /\ far_state plain out_bc 0 = Ok (gas_x 1 (1/2) (5/7)) /\
  admissible (e_d plain) (e_gamma plain) (gas_x 1 (1/2) (5/7)) /\ b_flag out_bc "anchorOpt"%string = Some 0%Z /\
  0 < rel_speed plain ex (v3 0 0 0) slow <= sound plain slow /\
  - sound plain slow' < rel_speed plain ex (v3 0 0 0) slow' <= 0 /\
  sound plain fast < rel_speed plain ex (v3 0 0 0) fast /\ rel_speed plain ex (v3 0 0 0) fast' <= - sound plain fast'.
Proof. exact met_far. Qed.
Example C60_met_inlet : b_type stag_bc = BCInPsTs /\ 0 < rho (b_value stag_bc) /\ 0 < mom (b_value stag_bc) 0%nat /\
  sqnorm 2 (inlet_direction 2 (b_value stag_bc)) = 25 /\ e_cl plain = None /\ 0 < rho slow.
Proof. exact met_inlet. Qed.
