From Coq Require Import Reals List Arith Lra Lia ZArith String FunctionalExtensionality.
From Verif Require Import Base.Prelude Euler.GasModel Euler.GasSpec Euler.GasProofs Euler.CompressModel Euler.RiemannModel
  Euler.RiemannSpec Euler.RiemannProofs Euler.JacobianProofs Geom.RotationModel Euler.BndModel Euler.BndSpec Euler.BndFlux Euler.BndWall.
Import ListNotations.
Local Open Scope R_scope.

(** *** the mirror and the point reflection *)
Lemma mirror_linear : forall d n, linear (mirror d n).
Proof. intros d n a b u v. unfold mirror. fe. dots. ring. Qed.
Lemma mirror_iso : forall d n, sqnorm d n = 1 -> forall u v, dot d (mirror d n u) (mirror d n v) = dot d u v.
Proof.
  intros d n Hn u v. unfold mirror. unfold sqnorm in Hn. dots. rewrite Hn, (dot_comm d n v). ring.
Qed.
Lemma mirror_dot_n : forall d n, sqnorm d n = 1 -> forall u, dot d (mirror d n u) n = - dot d u n.
Proof. intros d n Hn u. unfold mirror, sqnorm in *. dots. rewrite Hn. ring. Qed.
Lemma mirror_mirror : forall d n, sqnorm d n = 1 -> forall u, mirror d n (mirror d n u) = u.
Proof. intros d n Hn u. fe. unfold mirror at 1. rewrite mirror_dot_n by auto. unfold mirror. ring. Qed.
Lemma mirror_n : forall d n, sqnorm d n = 1 -> mirror d n n = opp n.
Proof. intros d n Hn. fe. unfold mirror, opp. unfold sqnorm in Hn. rewrite Hn. ring. Qed.
Definition flip (m : vec) : vec := fun i => m i * -1.
Lemma flip_linear : linear flip. Proof. intros a b u v. unfold flip. fe. ring. Qed.
Lemma flip_iso : forall d u v, dot d (flip u) (flip v) = dot d u v.
Proof. intros. unfold flip, dot. apply sumn_ext. intros. ring. Qed.
Lemma flip_flip : forall u, flip (flip u) = u. Proof. intros. fe. unfold flip. ring. Qed.
Lemma flip_n : forall n, flip n = opp n. Proof. intros. fe. unfold flip, opp. ring. Qed.

(** *** frames *)
Lemma shift_boost : forall e p dir U, rho U <> 0 ->
  shift_frame e p dir U = Ok (boost (e_d e) (fun i => dir * cross (vOmega (e_frame e)) (fun i => p i - fr_center (e_frame e) i) i) U).
Proof.
  intros e p dir U H. unfold shift_frame, rdiv. destruct (Req_EM_T _ _); [congruence|]. cbn [bind].
  set (w := cross _ _). f_equal. apply state_eq; cbn [rho mom ene extra boost]; auto.
  - fe. ring.
  - replace (fun i => mom U i + dir * w i * rho U) with (fun i => mom U i + (rho U * dir) * w i) by (fe; ring).
    unfold sqnorm. dots. rewrite (dot_comm _ w (mom U)). field. auto.
Qed.
Lemma shift_if_boost : forall e p dir U, rho U <> 0 ->
  shift_if (fr_on (e_frame e)) e p dir U = Ok (boost (e_d e) (fun i => dir * grid_speed (e_frame e) p i) U).
Proof.
  intros. unfold shift_if, grid_speed. destruct (fr_on _).
  - apply shift_boost. auto.
  - replace (fun _ : nat => dir * 0) with (fun _ : nat => 0) by (fe; ring). rewrite boost_zero. reflexivity.
Qed.

Lemma slip_is : forall e n p UL, rho UL <> 0 ->
  gen_slip e n p UL = Ok (boost (e_d e) (grid_speed (e_frame e) p)
                            (turn (mirror (e_d e) n) (boost (e_d e) (opp (grid_speed (e_frame e) p)) UL))).
Proof.
  intros. unfold gen_slip. rewrite shift_if_boost by auto. cbn [bind].
  rewrite shift_if_boost by (cbn; auto).
  set (w := grid_speed _ _). unfold turn.
  replace (fun i => 1 * w i) with w by (fe; ring).
  replace (fun i => -1 * w i) with (opp w) by (fe; unfold opp; ring). reflexivity.
Qed.

Lemma wall_is : forall e b p fix_ UL ULm, rho UL <> 0 -> (fr_on (e_frame e) = true -> b_flag b "frameOpt"%string <> None) ->
  gen_wall e b p fix_ UL ULm = wall_turb e fix_ UL ULm
    (boost (e_d e) (wall_speed e b p) (turn flip (boost (e_d e) (opp (wall_speed e b p)) UL))).
Proof.
  intros e b p fix_ UL ULm H Hf. unfold gen_wall, wall_speed.
  assert (Z : forall U, U = boost (e_d e) (fun _ => 0) U) by (intro; rewrite boost_zero; reflexivity).
  assert (S0 : forall UL', gen_wall e b p fix_ UL ULm = gen_wall e b p fix_ UL' ULm -> True) by auto. clear S0.
  assert (OZ : opp (fun _ => 0) = fun _ => 0) by (fe; unfold opp; ring).
  destruct (fr_on (e_frame e)) eqn:On.
  - unfold get_flag. destruct (b_flag b "frameOpt"%string) as [f|] eqn:Fl; [|exfalso; apply Hf; auto]. cbn [bind].
    destruct f; cbn [Z.eqb bind]; unfold shift_if.
    + rewrite shift_boost by auto. cbn [bind]. rewrite shift_boost by (cbn; auto). cbn [bind].
      unfold grid_speed. rewrite On. set (w := cross _ _).
      replace (fun i => 1 * w i) with w by (fe; ring).
      replace (fun i => -1 * w i) with (opp w) by (fe; unfold opp; ring). reflexivity.
    + cbn [bind]. rewrite OZ, !boost_zero. reflexivity.
    + cbn [bind]. rewrite OZ, !boost_zero. reflexivity.
  - cbn [bind]. unfold shift_if. cbn [bind]. rewrite OZ, !boost_zero. reflexivity.
Qed.

(** *** the flux does not read the extra variables *)
Definition core (U : state) : state := {| rho := rho U; mom := mom U; ene := ene U; extra := fun _ => 0 |}.
Lemma flux_core : forall d t g dL vg n UL UR ULm URm,
  numerical_flux d t g dL vg n UL UR ULm URm = numerical_flux d t g dL vg n (core UL) (core UR) (core ULm) (core URm).
Proof. intros. destruct t; reflexivity. Qed.
Lemma turb_core : forall e fix_ UL ULm UR UL' UR', wall_turb e fix_ UL ULm UR = Ok (UL', UR') ->
  core UL' = core UL /\ core UR' = core UR.
Proof.
  intros e fix_ UL ULm UR UL' UR' H. unfold wall_turb in H.
  destruct (e_turb e); [| destruct fix_ | | |];
    try (unfold rdiv in H; repeat (destruct (Req_EM_T _ _); try discriminate; cbn [bind] in H));
    injection H as <- <-; split; reflexivity.
Qed.

(** *** wall fluxes *)
Lemma roe_family_opt : forall t, In t roe_family -> exists opt, (opt <= 5)%nat /\ forall d g dL vg n UL UR ULm URm,
  numerical_flux d t g dL vg n UL UR ULm URm = roe_flux d opt g dL vg n UL UR ULm URm.
Proof. intros t H. cbn in H. repeat destruct H as [<-|H]; try contradiction;
  [exists 0%nat|exists 1%nat|exists 2%nat|exists 3%nat|exists 4%nat|exists 5%nat]; (split; [lia|reflexivity]). Qed.

Lemma slip_flux : forall e b n p pf t fix_ UL ULm UR URm x dL F,
  In (b_type b) [BCWallInvis; BCSym] -> In x roe_family -> sqnorm (e_d e) n = 1 -> 0 < rho UL -> 0 < rho ULm ->
  boundary_value e b n p pf t fix_ UL ULm = Ok (UL, UR) ->
  boundary_value e b n p pf t fix_ ULm ULm = Ok (ULm, URm) ->
  numerical_flux (e_d e) x (e_gamma e) dL (grid_speed (e_frame e) p) n UL UR ULm URm = Ok F ->
  rho F = 0 /\ exists P, (forall i, mom F i = P * n i) /\ ene F = P * dot (e_d e) (grid_speed (e_frame e) p) n.
Proof.
  intros e b n p pf t fix_ UL ULm UR URm x dL F Hb Hx Hn PL PM E Em EF.
  assert (S : gen_slip e n p UL = Ok UR /\ gen_slip e n p ULm = Ok URm).
  { unfold boundary_value in E, Em. cbn in Hb. destruct Hb as [B|[B|[]]]; rewrite <- B in E, Em;
    (destruct (gen_slip e n p UL) eqn:G; try discriminate; destruct (gen_slip e n p ULm) eqn:G'; try discriminate;
     cbn [bind] in E, Em; injection E as <-; injection Em as <-; auto). }
  destruct S as [S Sm]. rewrite slip_is in S, Sm by lra.
  set (w := grid_speed (e_frame e) p) in *. set (d := e_d e) in *.
  set (u := boost d (opp w) UL) in *. set (um := boost d (opp w) ULm) in *.
  assert (EU : UL = boost d w u) by (unfold u; rewrite boost_back; reflexivity).
  assert (EUm : ULm = boost d w um) by (unfold um; rewrite boost_back; reflexivity).
  injection S as <-. injection Sm as <-.
  destruct (roe_family_opt x Hx) as (opt & _ & Eo). rewrite Eo in EF.
  replace UL with (boost d w u) in EF. replace ULm with (boost d w um) in EF.
  destruct (roe_wall d (mirror d n) n (mirror_linear d n) (mirror_iso d n Hn) (mirror_mirror d n Hn) (mirror_n d n Hn)
              opt _ dL w u um F Hn EF) as (R1 & R2 & l0 & l1 & R3).
  split; [exact R1|].
  assert (WI : (fun i => mirror d n (mom u) i - mom u i) = fun i => (-2 * dot d (mom u) n) * n i) by (fe; unfold mirror; ring).
  assert (M : forall i, mom F i = (dot d (mom u) n * dot d (velocity u) n + pressure d (e_gamma e) u + dot d (mom u) n * l0) * n i).
  { intro i. rewrite (R3 i). cbv zeta. rewrite WI. dots. unfold sqnorm in Hn. rewrite Hn.
    assert (WI' : mirror d n (mom u) i - mom u i = (-2 * dot d (mom u) n) * n i) by (unfold mirror; ring).
    rewrite WI'. field. }
  eexists. split; [exact M|]. rewrite R2.
  rewrite (dot_ext d (mom F) w _ w (fun i _ => M i) (fun i _ => eq_refl)). rewrite dot_scal_l, (dot_comm d n w). reflexivity.
Qed.

Lemma wall_flux : forall e b n p pf t fix_ UL ULm UL' UR ULm' URm x dL F,
  b_type b = BCWall -> In x roe_family -> sqnorm (e_d e) n = 1 -> 0 < rho UL -> 0 < rho ULm ->
  (fr_on (e_frame e) = true -> b_flag b "frameOpt"%string = Some 0%Z) ->
  boundary_value e b n p pf t fix_ UL ULm = Ok (UL', UR) ->
  boundary_value e b n p pf t fix_ ULm ULm = Ok (ULm', URm) ->
  numerical_flux (e_d e) x (e_gamma e) dL (grid_speed (e_frame e) p) n UL' UR ULm' URm = Ok F ->
  rho F = 0 /\ ene F = dot (e_d e) (mom F) (grid_speed (e_frame e) p).
Proof.
  intros e b n p pf t fix_ UL ULm UL' UR ULm' URm x dL F Hb Hx Hn PL PM Hf E Em EF.
  unfold boundary_value in E, Em. rewrite Hb in E, Em.
  assert (Hf' : fr_on (e_frame e) = true -> b_flag b "frameOpt"%string <> None) by (intro O; rewrite (Hf O); discriminate).
  rewrite wall_is in E, Em by (auto; lra).
  apply turb_core in E. apply turb_core in Em. destruct E as [E1 E2]. destruct Em as [E3 E4].
  rewrite flux_core in EF. rewrite E1, E2, E3, E4 in EF. rewrite <- flux_core in EF.
  assert (WS : wall_speed e b p = grid_speed (e_frame e) p).
  { unfold wall_speed. destruct (fr_on (e_frame e)) eqn:O; [rewrite (Hf eq_refl); reflexivity|].
    unfold grid_speed. rewrite O. reflexivity. }
  rewrite WS in EF.
  set (w := grid_speed (e_frame e) p) in *. set (d := e_d e) in *.
  set (u := boost d (opp w) UL) in *. set (um := boost d (opp w) ULm) in *.
  assert (EU : UL = boost d w u) by (unfold u; rewrite boost_back; reflexivity).
  assert (EUm : ULm = boost d w um) by (unfold um; rewrite boost_back; reflexivity).
  destruct (roe_family_opt x Hx) as (opt & _ & Eo). rewrite Eo in EF.
  replace UL with (boost d w u) in EF. replace ULm with (boost d w um) in EF.
  destruct (roe_wall d flip n flip_linear (flip_iso d) flip_flip (flip_n n)
              opt _ dL w u um F Hn EF) as (R1 & R2 & _). auto.
Qed.

Lemma slip_flux_exists : forall e b n p pf t fix_ UL ULm x dL,
  In (b_type b) [BCWallInvis; BCSym] -> In x roe_family -> sqnorm (e_d e) n = 1 -> 1 < e_gamma e -> 0 < rho UL ->
  admissible (e_d e) (e_gamma e) ULm ->
  exists UR URm F, boundary_value e b n p pf t fix_ UL ULm = Ok (UL, UR) /\
    boundary_value e b n p pf t fix_ ULm ULm = Ok (ULm, URm) /\
    numerical_flux (e_d e) x (e_gamma e) dL (grid_speed (e_frame e) p) n UL UR ULm URm = Ok F.
Proof.
  intros e b n p pf t fix_ UL ULm x dL Hb Hx Hn Hg PL [PM SM].
  pose proof (slip_is e n p UL ltac:(lra)) as S. pose proof (slip_is e n p ULm ltac:(lra)) as Sm.
  set (w := grid_speed (e_frame e) p) in *. set (d := e_d e) in *.
  set (u := boost d (opp w) UL) in *. set (um := boost d (opp w) ULm) in *.
  assert (EU : UL = boost d w u) by (unfold u; rewrite boost_back; reflexivity).
  assert (EUm : ULm = boost d w um) by (unfold um; rewrite boost_back; reflexivity).
  destruct (roe_family_opt x Hx) as (opt & Ho & Eo).
  assert (SM' : 0 < sound2 d (e_gamma e) um) by (unfold um; rewrite sound2_boost; auto; lra).
  destruct (roe_wall_exists d (mirror d n) n (mirror_linear d n) (mirror_iso d n Hn) (mirror_mirror d n Hn) opt (e_gamma e) dL w u um Ho Hg PL PM SM') as (F & EF).
  rewrite <- EU, <- EUm in EF.
  exists (boost d w (turn (mirror d n) u)), (boost d w (turn (mirror d n) um)), F.
  rewrite Eo. unfold boundary_value. cbn in Hb.
  destruct Hb as [<-|[<-|[]]]; rewrite S, Sm; auto.
Qed.
Lemma wall_flux_exists : forall e b n p pf t fix_ UL ULm x dL UL' UR ULm' URm,
  b_type b = BCWall -> In x roe_family -> 1 < e_gamma e -> 0 < rho UL -> admissible (e_d e) (e_gamma e) ULm ->
  (fr_on (e_frame e) = true -> b_flag b "frameOpt"%string = Some 0%Z) ->
  boundary_value e b n p pf t fix_ UL ULm = Ok (UL', UR) ->
  boundary_value e b n p pf t fix_ ULm ULm = Ok (ULm', URm) ->
  exists F, numerical_flux (e_d e) x (e_gamma e) dL (grid_speed (e_frame e) p) n UL' UR ULm' URm = Ok F.
Proof.
  intros e b n p pf t fix_ UL ULm x dL UL' UR ULm' URm Hb Hx Hg PL [PM SM] Hf E Em.
  unfold boundary_value in E, Em. rewrite Hb in E, Em.
  assert (Hf' : fr_on (e_frame e) = true -> b_flag b "frameOpt"%string <> None) by (intro O; rewrite (Hf O); discriminate).
  rewrite wall_is in E, Em by (auto; lra).
  apply turb_core in E. apply turb_core in Em. destruct E as [E1 E2]. destruct Em as [E3 E4].
  assert (WS : wall_speed e b p = grid_speed (e_frame e) p).
  { unfold wall_speed. destruct (fr_on (e_frame e)) eqn:O; [rewrite (Hf eq_refl); reflexivity|].
    unfold grid_speed. rewrite O. reflexivity. }
  rewrite WS in E2, E4.
  set (w := grid_speed (e_frame e) p) in *. set (d := e_d e) in *.
  set (u := boost d (opp w) UL) in *. set (um := boost d (opp w) ULm) in *.
  assert (EU : UL = boost d w u) by (unfold u; rewrite boost_back; reflexivity).
  assert (EUm : ULm = boost d w um) by (unfold um; rewrite boost_back; reflexivity).
  destruct (roe_family_opt x Hx) as (opt & Ho & Eo).
  assert (SM' : 0 < sound2 d (e_gamma e) um) by (unfold um; rewrite sound2_boost; auto; lra).
  destruct (roe_wall_exists d flip n flip_linear (flip_iso d) flip_flip opt (e_gamma e) dL w u um Ho Hg PL PM SM') as (F & EF).
  exists F. rewrite flux_core, E1, E2, E3, E4, <- flux_core, Eo.
  rewrite EU, EUm at 1. exact EF.
Qed.

Lemma frame_round : forall e p U, 0 < rho U -> exists V, shift_frame e p (-1) U = Ok V /\ shift_frame e p 1 V = Ok U /\
  rho V = rho U /\ extra V = extra U /\ static_p e V = static_p e U /\
  forall i, velocity V i = velocity U i - cross (vOmega (e_frame e)) (fun j => p j - fr_center (e_frame e) j) i.
Proof.
  intros e p U H. assert (N : rho U <> 0) by lra. set (w := cross (vOmega (e_frame e)) (fun j => p j - fr_center (e_frame e) j)).
  exists (boost (e_d e) (opp w) U). rewrite !shift_boost by (cbn; auto). fold w.
  replace (fun i => -1 * w i) with (opp w) by (fe; unfold opp; ring).
  replace (fun i => 1 * w i) with w by (fe; ring).
  split; [reflexivity|]. split; [rewrite boost_back; reflexivity|]. split; [reflexivity|]. split; [reflexivity|]. split.
  - unfold static_p. apply pressure_boost. auto.
  - intro i. rewrite velocity_boost by auto. unfold opp. ring.
Qed.
