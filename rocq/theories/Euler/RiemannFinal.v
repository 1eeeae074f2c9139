From Coq Require Import Reals List Arith Lra Lia Psatz.
From Verif Require Import Base.Prelude Base.PreludeFacts Euler.GasModel Euler.GasSpec Euler.GasProofs
  Euler.CompressModel Euler.RiemannModel Euler.RiemannSpec Euler.RiemannProofs Euler.RiemannUpwind Euler.RiemannCases.
Local Open Scope R_scope.

Ltac cases_in H := repeat (destruct H as [<- | H]; [|]); try contradiction.

Lemma consistent_all : forall d t g dL vg n U, admissible d g U ->
  In t (Roe :: Roe_M1 :: Roe_M2 :: Roe_M3 :: Roe_M4 :: Roe_M5 :: HLLEP_V1 :: nil) ->
  exists F, numerical_flux d t g dL vg n U U U U = Ok F /\ same_state d 0 F (exact_flux d g vg n U).
Proof.
  intros d t g dL vg n U (Hr & Hs) Ht. cases_in Ht; cbn [numerical_flux]; try (apply roe_consistent; auto; lia).
  apply hllep_v1_consistent; auto.
Qed.
Lemma consistent_hllep : forall d g dL vg n U, admissible d g U ->
  exists F theta, numerical_flux d HLLEP g dL vg n U U U U = Ok F /\
    1 - verySmall / (2 * sqrt (sound2 d g U)) <= theta <= 1 /\
    same_state d 0 F (scale_state theta (exact_flux d g vg n U)).
Proof. intros d g dL vg n U (Hr & Hs). apply hllep_consistent; auto. Qed.
Lemma consistent_hllc : forall d g dL vg n U, admissible d g U -> 1 < g ->
  verySmall < 2 * rho U * sqrt (sound2 d g U) -> dot d vg n = 0 ->
  exists F, numerical_flux d HLLC g dL vg n U U U U = Ok F /\ same_state d 0 F (exact_flux d g vg n U).
Proof. intros d g dL vg n U (Hr & Hs) H1 H2 H3. apply hllc_consistent; auto. Qed.

Lemma moving_refuted : exists vg n U F, admissible 2 air U /\ dot 2 n n = 1 /\
  (forall dL, numerical_flux 2 HLLC air dL vg n U U U U = Ok F) /\ ene F <> ene (exact_flux 2 air vg n U).
Proof.
  destruct hllc_moving as (F & E & N). exists half_x, ex, rest, F. destruct rest_ok as (R1 & R2 & R3).
  split; [split; auto|]. split; [auto|]. split; [intros; exact E|exact N].
Qed.

Lemma conservative_roe : forall d t g dL vg n UL UR ULm URm F,
  In t (Roe :: Roe_M1 :: Roe_M2 :: Roe_M3 :: Roe_M4 :: Roe_M5 :: nil) ->
  numerical_flux d t g dL vg n UL UR ULm URm = Ok F ->
  numerical_flux d t g dL vg (opp n) UR UL URm ULm = Ok (opp_state F).
Proof.
  intros d t g dL vg n UL UR ULm URm F Ht. cases_in Ht; cbn [numerical_flux]; apply roe_swap.
Qed.

Lemma conservative_hllc : forall d g dL vg n UL UR ULm URm F, 1 < g ->
  numerical_flux d HLLC g dL vg n UL UR ULm URm = Ok F ->
  0 < sound2 d g ULm -> 0 < sound2 d g URm ->
  normal_speed d ULm vg n < sqrt (sound2 d g ULm) \/ - sqrt (sound2 d g URm) < normal_speed d URm vg n ->
  (exists SL SR, hllc_outer d g (roe_average d g ULm URm) (sqrt (av_a2 (roe_average d g ULm URm))) vg n ULm URm = Ok (SL, SR)
    /\ hllc_contact d g vg n UL UR ULm URm SL SR <> 0) ->
  numerical_flux d HLLC g dL vg (opp n) UR UL URm ULm = Ok (opp_state F).
Proof.
  intros d g dL vg n UL UR ULm URm F Hg H AL AR Hv HC. cbn [numerical_flux] in *.
  assert (P : exists SL SR, hllc_outer d g (roe_average d g ULm URm) (sqrt (av_a2 (roe_average d g ULm URm))) vg n ULm URm = Ok (SL, SR)
    /\ 0 < rho ULm /\ 0 < rho URm).
  { unfold hllc_flux in H. inv_bind. match goal with E : common _ _ _ _ _ _ = Ok ?y |- _ => destruct y as (A & a); rename E into EC end.
    unfold common in EC. destruct (Rlt_dec 0 (rho UL)); [|discriminate]. destruct (Rlt_dec 0 (rho UR)); [|discriminate].
    destruct (Rlt_dec 0 (rho ULm)); [|discriminate]. destruct (Rlt_dec 0 (rho URm)); [|discriminate].
    destruct (Rlt_dec 0 (av_a2 _)); [|discriminate]. injection EC as <- <-.
    match goal with E : bind _ _ = Ok _ |- _ => apply bind_Ok in E; destruct E as ((SL & SR) & E1 & _) end. eauto. }
  destruct P as (SL & SR & EO & RL & RR).
  apply (hllc_swap d g vg n UL UR ULm URm F SL SR); auto.
  - unfold hllc_outer in EO. inv_bind.
    repeat match goal with E : rsqrt _ = Ok _ |- _ => unfold rsqrt in E; destruct (Rle_dec 0 _) in E; [injection E as <-|discriminate] end.
    repeat match goal with E : hllc_q _ _ _ = Ok _ |- _ => apply hllc_q_ge in E; [|lra|apply pressure_pos; auto] end.
    pose proof (sqrt_lt_R0 _ AL). pose proof (sqrt_lt_R0 _ AR).
    destruct Hv; [left|right]; nra.
  - destruct HC as (SL' & SR' & EO' & HC). rewrite EO in EO'. injection EO' as <- <-. exact HC.
Qed.

Lemma collide_refuted : exists n UL UR F F', admissible 2 air UL /\ admissible 2 air UR /\
  (forall dL, numerical_flux 2 HLLC air dL still n UL UR UL UR = Ok F) /\
  (forall dL, numerical_flux 2 HLLC air dL still (opp n) UR UL UR UL = Ok F') /\ rho F' <> - rho F.
Proof.
  destruct hllc_collide as (F & F' & E1 & E2 & N). exists ex, east, west, F, F'. destruct east_west_ok as (A1 & A2 & A3 & A4).
  split; [split; auto|]. split; [split; auto|]. split; [intros; exact E1|]. split; [intros; exact E2|exact N].
Qed.

Lemma hllep_refuted : exists n UL UR F F', admissible 2 air UL /\ admissible 2 air UR /\
  normal_speed 2 UL still n + sqrt (sound2 2 air UL) < 0 /\ normal_speed 2 UR still n + sqrt (sound2 2 air UR) < 0 /\
  (forall dL, numerical_flux 2 HLLEP air dL still n UL UR UL UR = Ok F) /\
  (forall dL, numerical_flux 2 HLLEP air dL still (opp n) UR UL UR UL = Ok F') /\
  rho F < rho (exact_flux 2 air still n UR) /\ rho F < - rho F'.
Proof.
  destruct hllep_left as (F & F' & E1 & L1 & X & E2 & L2). exists ex, wl, wr, F, F'.
  destruct wl_wr_ok as (A1 & A2 & A3 & A4 & A5 & A6).
  split; [split; auto|]. split; [split; auto|]. split; [auto|]. split; [auto|]. split; [intros; exact E1|].
  split; [intros; exact E2|]. rewrite X. split; lra.
Qed.

Lemma lax_cllf_refuted : exists n UL UR, admissible 2 air UL /\ admissible 2 air UR /\
  0 < normal_speed 2 UL still n - sqrt (sound2 2 air UL) /\ 0 < normal_speed 2 UR still n - sqrt (sound2 2 air UR) /\
  forall t dL, In t (Roe_M1 :: Roe_M2 :: Roe_M5 :: nil) ->
  exists F, numerical_flux 2 t air dL still n UL UR UL UR = Ok F /\ ~ same_state 2 0 F (exact_flux 2 air still n UL).
Proof.
  exists ex, el, er. destruct el_er_ok as (A1 & A2 & A3 & A4 & A5 & A6).
  split; [split; auto|]. split; [split; auto|]. split; [auto|]. split; [auto|].
  intros t dL Ht. cases_in Ht; cbn [numerical_flux].
  - destruct (cllf_not_upwind dL 1) as (F & E & N); auto. exists F. split; [auto|]. intros (S1 & _). auto.
  - destruct (lax_not_upwind dL) as (F & E & N). exists F. split; [auto|]. intros (_ & _ & S1 & _). auto.
  - destruct (cllf_not_upwind dL 5) as (F & E & N); auto. exists F. split; [auto|]. intros (S1 & _). auto.
Qed.
