From Coq Require Import Reals List Arith ZArith String Lra Lia FunctionalExtensionality.
From Verif Require Import Base.Prelude Euler.GasModel Euler.GasSpec Euler.GasProofs Euler.CompressModel Euler.CompressProofs Euler.RiemannModel Euler.RiemannSpec
  Euler.RiemannCases Geom.RotationModel Geom.BoundaryModel Euler.BndModel Euler.BndSpec Euler.BndFlux Euler.BndWall Euler.BndProofs
  Euler.BndFar Euler.BndInlet Euler.BndCases.
Import ListNotations.
Local Open Scope R_scope.

Lemma slip_tight : forall e b n p pf t fixUL UL ULm x dL,
  In (b_type b) [BCWallInvis; BCSym] -> In x roe_family -> sqnorm (e_d e) n = 1 -> 1 < e_gamma e -> 0 < rho UL ->
  admissible (e_d e) (e_gamma e) ULm ->
  exists UR URm F P, boundary_value e b n p pf t fixUL UL ULm = Ok (UL, UR) /\
    boundary_value e b n p pf t fixUL ULm ULm = Ok (ULm, URm) /\
    numerical_flux (e_d e) x (e_gamma e) dL (grid_speed (e_frame e) p) n UL UR ULm URm = Ok F /\
    rho F = 0 /\ (forall i, mom F i = P * n i) /\ ene F = P * dot (e_d e) (grid_speed (e_frame e) p) n.
Proof.
  intros e b n p pf t fixUL UL ULm x dL Hb Hx Hn Hg PL AM.
  destruct (slip_flux_exists e b n p pf t fixUL UL ULm x dL Hb Hx Hn Hg PL AM) as (UR & URm & F & E1 & E2 & E3).
  destruct (slip_flux e b n p pf t fixUL UL ULm UR URm x dL F Hb Hx Hn PL (proj1 AM) E1 E2 E3) as (R & P & M & E).
  exists UR, URm, F, P. auto 10.
Qed.
Lemma wall_state_all : forall e b n p pf t fixUL UL ULm, b_type b = BCWall -> 0 < rho UL -> 0 < rho ULm -> 0 < e_dwall e ->
  (fr_on (e_frame e) = true -> b_flag b "frameOpt"%string <> None) ->
  exists UL' UR, boundary_value e b n p pf t fixUL UL ULm = Ok (UL', UR) /\
    rho UL' = rho UL /\ mom UL' = mom UL /\ ene UL' = ene UL /\
    rho UR = rho UL /\ static_p e UR = static_p e UL /\
    forall i, (velocity UL i + velocity UR i) / 2 = wall_speed e b p i.
Proof.
  intros e b n p pf t fixUL UL ULm Hb PL PM PD Hf.
  destruct (wall_exists e b n p pf t fixUL UL ULm Hb PL PM PD Hf) as (UL' & UR & E). exists UL', UR. split; [exact E|].
  exact (wall_state e b n p pf t fixUL UL ULm UL' UR Hb PL Hf E).
Qed.
Lemma wall_tight : forall e b n p pf t fixUL UL ULm x dL,
  b_type b = BCWall -> In x roe_family -> sqnorm (e_d e) n = 1 -> 1 < e_gamma e -> 0 < rho UL ->
  admissible (e_d e) (e_gamma e) ULm -> 0 < e_dwall e ->
  (fr_on (e_frame e) = true -> b_flag b "frameOpt"%string = Some 0%Z) ->
  exists UL' UR ULm' URm F, boundary_value e b n p pf t fixUL UL ULm = Ok (UL', UR) /\
    boundary_value e b n p pf t fixUL ULm ULm = Ok (ULm', URm) /\
    numerical_flux (e_d e) x (e_gamma e) dL (grid_speed (e_frame e) p) n UL' UR ULm' URm = Ok F /\
    rho F = 0 /\ ene F = dot (e_d e) (mom F) (grid_speed (e_frame e) p).
Proof.
  intros e b n p pf t fixUL UL ULm x dL Hb Hx Hn Hg PL AM PD Hf.
  assert (Hf' : fr_on (e_frame e) = true -> b_flag b "frameOpt"%string <> None) by (intro O; rewrite (Hf O); discriminate).
  destruct (wall_exists e b n p pf t fixUL UL ULm Hb PL (proj1 AM) PD Hf') as (UL' & UR & E1).
  destruct (wall_exists e b n p pf t fixUL ULm ULm Hb (proj1 AM) (proj1 AM) PD Hf') as (ULm' & URm & E2).
  destruct (wall_flux_exists e b n p pf t fixUL UL ULm x dL UL' UR ULm' URm Hb Hx Hg PL AM Hf E1 E2) as (F & E3).
  exists UL', UR, ULm', URm, F. split; auto. split; auto. split; auto.
  exact (wall_flux e b n p pf t fixUL UL ULm UL' UR ULm' URm x dL F Hb Hx Hn PL (proj1 AM) Hf E1 E2 E3).
Qed.
Lemma hllc_tight : forall e b n p pf t fixUL UL ULm (dL : R),
  In (b_type b) [BCWallInvis; BCSym] -> fr_on (e_frame e) = false -> sqnorm (e_d e) n = 1 -> 1 < e_gamma e ->
  admissible (e_d e) (e_gamma e) UL -> admissible (e_d e) (e_gamma e) ULm ->
  dot (e_d e) (velocity ULm) n <= sound e ULm - verySmall ->
  exists UR URm F P, boundary_value e b n p pf t fixUL UL ULm = Ok (UL, UR) /\
    boundary_value e b n p pf t fixUL ULm ULm = Ok (ULm, URm) /\
    numerical_flux (e_d e) HLLC (e_gamma e) dL (grid_speed (e_frame e) p) n UL UR ULm URm = Ok F /\
    rho F = 0 /\ ene F = 0 /\ forall i, mom F i = P * n i.
Proof.
  intros e b n p pf t fixUL UL ULm dL Hb Off Hn Hg AL AM Hx.
  destruct (hllc_slip (e_d e) n (e_gamma e) Hn Hg UL ULm AL AM Hx) as (F & P & E & R1 & R2 & R3).
  assert (G : grid_speed (e_frame e) p = fun _ => 0) by (unfold grid_speed; rewrite Off; reflexivity).
  assert (S : forall U, 0 < rho U -> gen_slip e n p U = Ok (turn (mirror (e_d e) n) U)).
  { intros U HU. rewrite slip_is by lra. rewrite G.
    replace (opp (fun _ => 0)) with (fun _ : nat => 0) by (fe; unfold opp; ring). rewrite !boost_zero. reflexivity. }
  exists (turn (mirror (e_d e) n) UL), (turn (mirror (e_d e) n) ULm), F, P. rewrite G.
  unfold boundary_value. destruct AL as [PL _]. destruct AM as [PM _].
  cbn in Hb. destruct Hb as [<-|[<-|[]]]; rewrite !S by auto; cbn [bind numerical_flux]; auto 10.
Qed.
Lemma outlet_all : forall e b UL pUL pFar, In (b_type b) [BCFar; BCOutP] ->
  (b_type b = BCFar \/ b_flag b "anchorOpt"%string = Some 0%Z -> outlet_pressure e b UL pUL pFar = Ok pFar) /\
  (forall A, b_type b = BCOutP -> b_flag b "anchorOpt"%string = Some 1%Z ->
     e_anchor e = Some A -> 0 < rho A -> - (95/100) * pFar <= pUL - static_p e A ->
     outlet_pressure e b UL pUL pFar = Ok (pFar + (pUL - static_p e A))) /\
  (forall q, 0 < pFar -> outlet_pressure e b UL pUL pFar = Ok q -> pFar / 20 <= q).
Proof.
  intros e b UL pUL pFar Hb. split; [intro; apply outlet_plain; auto|]. split.
  - intros. apply outlet_anchor; auto.
  - intros q. apply outlet_floor.
Qed.
Lemma stag_all : forall e b n p pf t fixUL UL ULm, b_type b = BCInPsTs -> 1 < e_gamma e -> 0 < e_Cp e -> 0 < e_Rgas e ->
  let V := b_value b in let pStag := rho V in let tStag := mom V 0%nat in let dir := inlet_direction (e_d e) V in
  0 < pStag -> 0 < tStag -> 0 < sqnorm (e_d e) dir -> 0 < rho UL -> e_cl e = None ->
  exists UR, boundary_value e b n p pf t fixUL UL ULm = Ok (UL, UR) /\ 0 < rho UR /\
    let W := primitive (e_d e) (e_gamma e) UR in
    total_temperature (e_d e) (e_Rgas e) (e_Cp e) W = tStag /\
    total_pressure (e_d e) (e_gamma e) (e_Rgas e) (e_Cp e) W = pStag /\
    0 < ene W /\
    sqnorm (e_d e) (mom W) = Rmin (sqnorm (e_d e) (velocity UL)) (95/100 * (2 * e_Cp e * tStag)) /\
    (exists c, 0 <= c /\ forall i, mom W i = c * dir i) /\
    (forall i, extra W i = extra V i).
Proof.
  intros e b n p pf t fixUL UL ULm Hb Hg HC HR V pStag tStag dir Hp Ht Hd PL Hcl.
  destruct (stag_inlet e b UL Hg HC HR Hp Ht Hd PL Hcl) as (UR & E & R). exists UR. split; [|exact R].
  unfold boundary_value. rewrite Hb, E. reflexivity.
Qed.

Lemma slow_s : sound plain slow = 1 /\ sound plain slow' = 1.
Proof.
  destruct slow_sound as [S1 S2]. unfold sound. change (e_d plain) with 2%nat. change (e_gamma plain) with air.
  rewrite S1, S2, sqrt_1. auto.
Qed.
Lemma verySmall_tiny : verySmall < 1/10.
Proof.
  unfold verySmall. replace (1/10) with (/ 10 ^ 1) by (simpl; field). apply Rinv_lt_contravar.
  - apply Rmult_lt_0_compat; apply pow_lt; lra.
  - apply Rlt_pow; [lra|lia].
Qed.
Lemma met_walls : In (b_type slip_bc) [BCWallInvis; BCSym] /\ b_type wall_bc = BCWall /\ sqnorm (e_d turning) ex = 1 /\
  1 < e_gamma turning /\ admissible (e_d turning) (e_gamma turning) slow /\ 0 < e_dwall turning /\
  (fr_on (e_frame turning) = true -> b_flag wall_bc "frameOpt"%string = Some 0%Z) /\
  grid_speed (e_frame turning) (v3 0 1 0) 0%nat = - (2 * PI) /\
  dot (e_d turning) (velocity slow) ex <= sound turning slow - verySmall.
Proof.
  split; [cbn; auto|]. split; [reflexivity|]. split; [apply ex_unit|]. split; [cbn; unfold air; lra|]. split.
  { split; [cbn; lra|]. change (e_d turning) with 2%nat. change (e_gamma turning) with air. rewrite (proj1 slow_sound). lra. }
  split; [cbn; lra|]. split; [reflexivity|]. split.
  { cbn. unfold vOmega. cbn. field. }
  change (e_d turning) with 2%nat. change (sound turning slow) with (sound plain slow). rewrite (proj1 slow_s).
  rewrite dot_ex. unfold slow. rewrite gx_vel by lra. cbn. pose proof verySmall_tiny. lra.
Qed.
Lemma rel_gx : forall u q, rel_speed plain ex (v3 0 0 0) (gas_x 1 u q) = u.
Proof.
  intros. unfold rel_speed. change (e_d plain) with 2%nat. rewrite ns1. cbn. ring.
Qed.
Lemma sound_gx : forall u, sound plain (gas_x 1 u (5/7)) = 1.
Proof.
  intros. unfold sound. change (e_d plain) with 2%nat. change (e_gamma plain) with air. rewrite gx_a2 by lra.
  replace (7/5 * (5/7) / 1) with 1 by field. apply sqrt_1.
Qed.
Lemma met_far : In (b_type out_bc) [BCFar; BCOutP] /\ far_state plain out_bc 0 = Ok (gas_x 1 (1/2) (5/7)) /\
  admissible (e_d plain) (e_gamma plain) (gas_x 1 (1/2) (5/7)) /\ b_flag out_bc "anchorOpt"%string = Some 0%Z /\
  0 < rel_speed plain ex (v3 0 0 0) slow <= sound plain slow /\
  - sound plain slow' < rel_speed plain ex (v3 0 0 0) slow' <= 0 /\
  sound plain fast < rel_speed plain ex (v3 0 0 0) fast /\ rel_speed plain ex (v3 0 0 0) fast' <= - sound plain fast'.
Proof.
  split; [cbn; auto|]. split; [reflexivity|]. split.
  { split; [cbn; lra|]. change (e_d plain) with 2%nat. change (e_gamma plain) with air. rewrite gx_a2; lra. }
  split; [reflexivity|]. unfold slow, slow', fast, fast'. rewrite !rel_gx, !sound_gx. lra.
Qed.
Lemma met_inlet : b_type stag_bc = BCInPsTs /\ 0 < rho (b_value stag_bc) /\ 0 < mom (b_value stag_bc) 0%nat /\
  sqnorm 2 (inlet_direction 2 (b_value stag_bc)) = 25 /\ e_cl plain = None /\ 0 < rho slow.
Proof.
  repeat split; cbn; try lra.
Qed.
