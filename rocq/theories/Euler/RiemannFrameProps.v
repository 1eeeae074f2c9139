(** Property C61. *)
From Coq Require Import Reals List Arith.
From Verif Require Import Base.Prelude Euler.GasModel Euler.GasSpec Euler.RiemannModel Euler.RiemannSpec Euler.RiemannCases
  Euler.BndSpec Euler.BndFlux Euler.RiemannFrameSpec Euler.RiemannFrame.
Import ListNotations.
Local Open Scope R_scope.

(** *** every solver: turning or mirroring the whole face turns or mirrors the flux,
    and a refused face is refused *)
Theorem C61_turned : forall d Q t g dL vg n UL UR ULm URm, isometry d Q ->
  numerical_flux d t g dL (Q vg) (Q n) (turn Q UL) (turn Q UR) (turn Q ULm) (turn Q URm) =
  res_map (turn Q) (numerical_flux d t g dL vg n UL UR ULm URm).
Proof. exact isometry_turn. Qed.
Print Assumptions C61_turned.

(** *** a uniform motion of gas and face changes the flux only by the motion *)
Theorem C61_moving : forall d w n, sqnorm d n = 1 -> forall t g dL vg UL UR ULm URm,
  In t [Roe_M1; Roe_M2; Roe_M3; Roe_M4; Roe_M5; HLLEP; HLLEP_V1] ->
  numerical_flux d t g dL (fun i => vg i + w i) n (boost d w UL) (boost d w UR) (boost d w ULm) (boost d w URm) =
  res_map (boost d w) (numerical_flux d t g dL vg n UL UR ULm URm).
Proof. exact flux_move. Qed.
Print Assumptions C61_moving.

(** Roe with the entropy fix: only while the fix does not act. *)
Theorem C61_roe_moving_partial : forall d g dL w vg n UL UR ULm URm, sqnorm d n = 1 ->
  no_slow_wave d dL vg n (roe_average d g ULm URm) ->
  no_slow_wave d dL (fun i => vg i + w i) n (roe_average d g (boost d w ULm) (boost d w URm)) ->
  numerical_flux d Roe g dL (fun i => vg i + w i) n (boost d w UL) (boost d w UR) (boost d w ULm) (boost d w URm) =
  res_map (boost d w) (numerical_flux d Roe g dL vg n UL UR ULm URm).
Proof. exact roe_no_fix. Qed.
Print Assumptions C61_roe_moving_partial.

(** The threshold of the fix is the speed seen by the observer: the normal force on a
    face depends on a uniform motion along the face. *)
Theorem C61_roe_moving_refuted : exists w vg n UL UR F F', dot 2 n n = 1 /\
  numerical_flux 2 Roe air 0 vg n UL UR UL UR = Ok F /\
  numerical_flux 2 Roe air 0 (fun i => vg i + w i) n (boost 2 w UL) (boost 2 w UR) (boost 2 w UL) (boost 2 w UR) = Ok F' /\
  mom F' 0%nat <> mom (boost 2 w F) 0%nat.
Proof. exact roe_moving. Qed.
Print Assumptions C61_roe_moving_refuted.

(** HLLC: the energy flux depends on the observer. *)
Theorem C61_hllc_moving_refuted : exists w vg n U F F', dot 2 n n = 1 /\
  numerical_flux 2 HLLC air 0 vg n U U U U = Ok F /\
  numerical_flux 2 HLLC air 0 (fun i => vg i + w i) n (boost 2 w U) (boost 2 w U) (boost 2 w U) (boost 2 w U) = Ok F' /\
  ene F' <> ene (boost 2 w F).
Proof. exact hllc_frame. Qed.
Print Assumptions C61_hllc_moving_refuted.

(** *** the hypotheses are met *)
Example C61_met_turned : isometry 2 quarter.
Proof. exact quarter_iso. Qed.
Example C61_met_turned_flux : exists F,
  numerical_flux 2 Roe air 0 (quarter still) (quarter ex) (turn quarter hit) (turn quarter back) (turn quarter hit) (turn quarter back) = Ok F /\
  mom F 1%nat = 5/7 + 40/79 * (40/79) + 40/79 * (81/79).
Proof. exact quarter_case. Qed.
Example C61_met_moving : exists F, In Roe_M4 [Roe_M1; Roe_M2; Roe_M3; Roe_M4; Roe_M5; HLLEP; HLLEP_V1] /\ sqnorm 2 ex = 1 /\
  numerical_flux 2 Roe_M4 air 0 still ex hit back hit back = Ok F.
Proof. exact moving_case. Qed.
Example C61_met_no_slow_wave : no_slow_wave 2 0 still ex hitA /\
  no_slow_wave 2 0 (fun i => still i + along 1 i) ex (boost_avg 2 (along 1) hitA).
Proof. exact slow_case. Qed.
