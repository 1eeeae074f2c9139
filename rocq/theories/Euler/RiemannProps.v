(** Property C47. *)
From Coq Require Import Reals List Arith Lra Lia.
From Verif Require Import Base.Prelude Euler.GasModel Euler.GasSpec Euler.GasProofs
  Euler.CompressModel Euler.RiemannModel Euler.RiemannSpec Euler.RiemannProofs Euler.RiemannUpwind Euler.RiemannCases
  Euler.RiemannFinal.
Local Open Scope R_scope.

(** *** equal states give the physical flux *)
Theorem C47_roe_family_consistent : forall d t g dL vg n U, admissible d g U ->
  In t (Roe :: Roe_M1 :: Roe_M2 :: Roe_M3 :: Roe_M4 :: Roe_M5 :: HLLEP_V1 :: nil) ->
  exists F, numerical_flux d t g dL vg n U U U U = Ok F /\ same_state d 0 F (exact_flux d g vg n U).
Proof. exact consistent_all. Qed.
Print Assumptions C47_roe_family_consistent.

(** HLLEP: up to the regularisation of its division, of relative size below
    verySmallReal / 2a. *)
Theorem C47_hllep_consistent : forall d g dL vg n U, admissible d g U ->
  exists F theta, numerical_flux d HLLEP g dL vg n U U U U = Ok F /\
    1 - verySmall / (2 * sqrt (sound2 d g U)) <= theta <= 1 /\
    same_state d 0 F (scale_state theta (exact_flux d g vg n U)).
Proof. exact consistent_hllep. Qed.
Print Assumptions C47_hllep_consistent.

(** HLLC: when the face does not move along its normal. *)
Theorem C47_hllc_consistent_partial : forall d g dL vg n U, admissible d g U -> 1 < g ->
  verySmall < 2 * rho U * sqrt (sound2 d g U) -> dot d vg n = 0 ->
  exists F, numerical_flux d HLLC g dL vg n U U U U = Ok F /\ same_state d 0 F (exact_flux d g vg n U).
Proof. exact consistent_hllc. Qed.
Print Assumptions C47_hllc_consistent_partial.

(** HLLC on a moving face: the energy flux of a gas at rest is wrong. *)
Theorem C47_hllc_consistent_moving_refuted : exists vg n U F, admissible 2 air U /\ dot 2 n n = 1 /\
  (forall dL, numerical_flux 2 HLLC air dL vg n U U U U = Ok F) /\ ene F <> ene (exact_flux 2 air vg n U).
Proof. exact moving_refuted. Qed.
Print Assumptions C47_hllc_consistent_moving_refuted.

(** *** swapping the sides and reversing the normal *)
Theorem C47_roe_family_conservative : forall d t g dL vg n UL UR ULm URm F,
  In t (Roe :: Roe_M1 :: Roe_M2 :: Roe_M3 :: Roe_M4 :: Roe_M5 :: nil) ->
  numerical_flux d t g dL vg n UL UR ULm URm = Ok F ->
  numerical_flux d t g dL vg (opp n) UR UL URm ULm = Ok (opp_state F).
Proof. exact conservative_roe. Qed.
Print Assumptions C47_roe_family_conservative.

(** HLLC: unless the two streams meet head on supersonically, and unless the contact
    stands still. *)
Theorem C47_hllc_conservative_partial : forall d g dL vg n UL UR ULm URm F, 1 < g ->
  numerical_flux d HLLC g dL vg n UL UR ULm URm = Ok F ->
  0 < sound2 d g ULm -> 0 < sound2 d g URm ->
  normal_speed d ULm vg n < sqrt (sound2 d g ULm) \/ - sqrt (sound2 d g URm) < normal_speed d URm vg n ->
  (exists SL SR, hllc_outer d g (roe_average d g ULm URm) (sqrt (av_a2 (roe_average d g ULm URm))) vg n ULm URm = Ok (SL, SR)
    /\ hllc_contact d g vg n UL UR ULm URm SL SR <> 0) ->
  numerical_flux d HLLC g dL vg (opp n) UR UL URm ULm = Ok (opp_state F).
Proof. exact conservative_hllc. Qed.
Print Assumptions C47_hllc_conservative_partial.

(** HLLC, streams meeting head on: the mass flux seen from the two sides differs. *)
Theorem C47_hllc_conservative_refuted : exists n UL UR F F', admissible 2 air UL /\ admissible 2 air UR /\
  (forall dL, numerical_flux 2 HLLC air dL still n UL UR UL UR = Ok F) /\
  (forall dL, numerical_flux 2 HLLC air dL still (opp n) UR UL UR UL = Ok F') /\ rho F' <> - rho F.
Proof. exact collide_refuted. Qed.
Print Assumptions C47_hllc_conservative_refuted.

(** HLLEP, supersonic flow to the left: not the upwind flux, and not minus the flux
    of the mirrored problem, because the outer speeds are bounded with absolute
    values of the averaged ones. *)
Theorem C47_hllep_conservative_and_upwind_refuted : exists n UL UR F F', admissible 2 air UL /\ admissible 2 air UR /\
  normal_speed 2 UL still n + sqrt (sound2 2 air UL) < 0 /\ normal_speed 2 UR still n + sqrt (sound2 2 air UR) < 0 /\
  (forall dL, numerical_flux 2 HLLEP air dL still n UL UR UL UR = Ok F) /\
  (forall dL, numerical_flux 2 HLLEP air dL still (opp n) UR UL UR UL = Ok F') /\
  rho F < rho (exact_flux 2 air still n UR) /\ rho F < - rho F'.
Proof. exact hllep_refuted. Qed.
Print Assumptions C47_hllep_conservative_and_upwind_refuted.

(** *** all waves going one way *)
(** Roe and its options 3 and 4 return the flux of the upwind side, when the averaged
    waves are outside the entropy fix. *)
Theorem C47_roe_upwind_right : forall d opt g dL vg n UL UR, (opt = 0 \/ opt = 3 \/ opt = 4)%nat -> g <> 1 ->
  0 < rho UL -> 0 < rho UR -> dot d n n = 1 ->
  let A := roe_average d g UL UR in
  0 < av_a2 A ->
  fix_width opt A dL <= dot d (av_v A) n - dot d vg n - sqrt (av_a2 A) ->
  exists F, roe_flux d opt g dL vg n UL UR UL UR = Ok F /\ same_state d 0 F (exact_flux d g vg n UL).
Proof. exact roe_upwind_right. Qed.
Print Assumptions C47_roe_upwind_right.

Theorem C47_roe_upwind_left : forall d opt g dL vg n UL UR, (opt = 0 \/ opt = 3 \/ opt = 4)%nat -> g <> 1 ->
  0 < rho UL -> 0 < rho UR -> dot d n n = 1 ->
  let A := roe_average d g UL UR in
  0 < av_a2 A ->
  dot d (av_v A) n - dot d vg n + sqrt (av_a2 A) <= - fix_width opt A dL ->
  exists F, roe_flux d opt g dL vg n UL UR UL UR = Ok F /\ same_state d 0 F (exact_flux d g vg n UR).
Proof. exact roe_upwind_left. Qed.
Print Assumptions C47_roe_upwind_left.

(** Options 1, 2 and 5 bound the speeds by both sides and do not. *)
Theorem C47_lax_and_cllf_upwind_refuted : exists n UL UR, admissible 2 air UL /\ admissible 2 air UR /\
  0 < normal_speed 2 UL still n - sqrt (sound2 2 air UL) /\ 0 < normal_speed 2 UR still n - sqrt (sound2 2 air UR) /\
  forall t dL, In t (Roe_M1 :: Roe_M2 :: Roe_M5 :: nil) ->
  exists F, numerical_flux 2 t air dL still n UL UR UL UR = Ok F /\ ~ same_state 2 0 F (exact_flux 2 air still n UL).
Proof. exact lax_cllf_refuted. Qed.
Print Assumptions C47_lax_and_cllf_upwind_refuted.

Theorem C47_hllc_upwind : forall d g vg n UL UR ULm URm A a SL SR,
  common d g UL UR ULm URm = Ok (A, a) -> hllc_outer d g A a vg n ULm URm = Ok (SL, SR) ->
  (0 <= SL -> hllc_flux d g vg n UL UR ULm URm = Ok (exact_flux d g vg n UL)) /\
  (SL < 0 -> SR <= 0 -> hllc_flux d g vg n UL UR ULm URm = Ok (exact_flux d g vg n UR)).
Proof. exact hllc_upwind. Qed.
Print Assumptions C47_hllc_upwind.

Theorem C47_hllep_upwind_right_partial : forall d g vg n UL UR ULm URm A a, common d g UL UR ULm URm = Ok (A, a) ->
  0 <= sound2 d g UL -> 0 <= sound2 d g UR -> 
  sqrt (sound2 d g UL) <= normal_speed d ULm vg n -> 
  exists F theta, hllep_flux d 0 g vg n UL UR ULm URm = Ok F /\ 0 <= theta <= 1 /\
    same_state d 0 F (scale_state theta (exact_flux d g vg n UL)).
Proof. exact hllep_upwind_right. Qed.
Print Assumptions C47_hllep_upwind_right_partial.

(** HLLEP_V1 gives the flux of the left side exactly, when the left state moves out
    supersonically and the right one is not faster than sound towards it. *)
Theorem C47_hllep_v1_upwind_right : forall d g dL vg n UL UR, g <> 1 ->
  0 < rho UL -> 0 < rho UR -> 0 < av_a2 (roe_average d g UL UR) ->
  0 <= sound2 d g UL -> 0 <= sound2 d g UR -> 0 < normal_speed d UR vg n + sqrt (sound2 d g UR) ->
  sqrt (sound2 d g UL) <= normal_speed d UL vg n ->
  exists F, numerical_flux d HLLEP_V1 g dL vg n UL UR UL UR = Ok F /\ same_state d 0 F (exact_flux d g vg n UL).
Proof. exact (fun d g _ => hllep_v1_upwind_right d g). Qed.
Print Assumptions C47_hllep_v1_upwind_right.

(** Two supersonic states meet the hypotheses of the upwind theorem. *)
Example C47_met : forall opt, (opt = 0 \/ opt = 3 \/ opt = 4)%nat ->
  0 < av_a2 (roe_average 2 air el er) /\
  fix_width opt (roe_average 2 air el er) 0 <=
    dot 2 (av_v (roe_average 2 air el er)) ex - dot 2 still ex - sqrt (av_a2 (roe_average 2 air el er)).
Proof. exact roe_right_case. Qed.
Example C47_met_admissible : admissible 2 air rest /\ admissible 2 air el.
Proof. unfold admissible. pose proof rest_ok. pose proof el_er_ok. intuition. Qed.
