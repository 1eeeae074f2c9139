From Coq Require Import Reals List Arith Lra Lia ZArith String FunctionalExtensionality.
From Verif Require Import Base.Prelude Euler.GasModel Euler.GasSpec Euler.GasProofs Euler.CompressModel Euler.CompressProofs Euler.RiemannModel
  Euler.RiemannSpec Euler.RiemannProofs Euler.JacobianProofs Geom.RotationModel Geom.BoundaryModel Euler.BndModel Euler.BndSpec Euler.BndFlux Euler.BndWall Euler.BndProofs.
Import ListNotations.
Local Open Scope R_scope.

(** *** states at walls *)
Lemma slip_state : forall e b n p pf t fix_ UL ULm, In (b_type b) [BCWallInvis; BCSym] -> sqnorm (e_d e) n = 1 -> 0 < rho UL ->
  exists UR, boundary_value e b n p pf t fix_ UL ULm = Ok (UL, UR) /\
    rho UR = rho UL /\ static_p e UR = static_p e UL /\ extra UR = extra UL /\
    rel_speed e n p UR = - rel_speed e n p UL /\
    forall tau, dot (e_d e) tau n = 0 -> dot (e_d e) (velocity UR) tau = dot (e_d e) (velocity UL) tau.
Proof.
  intros e b n p pf t fix_ UL ULm Hb Hn PL. assert (NL : rho UL <> 0) by lra.
  pose proof (slip_is e n p UL NL) as S. set (w := grid_speed (e_frame e) p) in *. set (d := e_d e) in *.
  set (u := boost d (opp w) UL) in *. assert (Nu : rho u <> 0) by (cbn; auto).
  assert (EU : UL = boost d w u) by (unfold u; rewrite boost_back; reflexivity).
  exists (boost d w (turn (mirror d n) u)). split.
  { unfold boundary_value. cbn in Hb. destruct Hb as [<-|[<-|[]]]; rewrite S; reflexivity. }
  assert (Nt : rho (turn (mirror d n) u) <> 0) by (cbn; auto).
  split; [reflexivity|]. split.
  { unfold static_p. fold d. rewrite pressure_boost by auto. rewrite pressure_turn; auto using mirror_linear, mirror_iso.
    rewrite EU at 1. rewrite pressure_boost by auto. reflexivity. }
  split; [reflexivity|].
  assert (V : velocity (boost d w (turn (mirror d n) u)) = fun i => mirror d n (velocity u) i + w i).
  { rewrite velocity_boost by auto. rewrite velocity_turn; auto using mirror_linear. }
  assert (VL : velocity UL = fun i => velocity u i + w i) by (rewrite EU; apply velocity_boost; auto).
  split.
  - unfold rel_speed, normal_speed. fold d w. rewrite V, VL.
    replace (fun i => mirror d n (velocity u) i + w i - w i) with (mirror d n (velocity u)) by (fe; ring).
    replace (fun i => velocity u i + w i - w i) with (velocity u) by (fe; ring).
    apply mirror_dot_n. auto.
  - intros tau Ht. rewrite V, VL. unfold mirror. dots. rewrite (dot_comm d n tau), Ht. ring.
Qed.

Lemma wall_state : forall e b n p pf t fix_ UL ULm UL' UR, b_type b = BCWall -> 0 < rho UL ->
  (fr_on (e_frame e) = true -> b_flag b "frameOpt"%string <> None) ->
  boundary_value e b n p pf t fix_ UL ULm = Ok (UL', UR) ->
  rho UL' = rho UL /\ mom UL' = mom UL /\ ene UL' = ene UL /\
  rho UR = rho UL /\ static_p e UR = static_p e UL /\
  (forall i, (velocity UL i + velocity UR i) / 2 = wall_speed e b p i).
Proof.
  intros e b n p pf t fix_ UL ULm UL' UR Hb PL Hf E. assert (NL : rho UL <> 0) by lra.
  unfold boundary_value in E. rewrite Hb, wall_is in E by auto.
  apply turb_core in E. destruct E as [E1 E2]. set (w := wall_speed e b p) in *. set (d := e_d e) in *.
  set (u := boost d (opp w) UL) in *. assert (Nu : rho u <> 0) by (cbn; auto).
  assert (EU : UL = boost d w u) by (unfold u; rewrite boost_back; reflexivity).
  assert (Nt : rho (turn flip u) <> 0) by (cbn; auto).
  assert (VL : velocity UL = fun i => velocity u i + w i) by (rewrite EU; apply velocity_boost; auto).
  assert (C : forall U V, core U = core V -> rho U = rho V /\ mom U = mom V /\ ene U = ene V).
  { intros U V H. unfold core in H. injection H as -> -> ->. auto. }
  destruct (C _ _ E1) as (-> & -> & ->). destruct (C _ _ E2) as (R1 & R2 & R3).
  repeat (split; [reflexivity|]). split; [rewrite R1; reflexivity|].
  assert (VR : velocity UR = fun i => flip (velocity u) i + w i).
  { unfold velocity at 1. rewrite R1, R2. fold (velocity (boost d w (turn flip u))).
    rewrite velocity_boost by auto. rewrite velocity_turn; auto using flip_linear. }
  split.
  - unfold static_p. fold d. transitivity (pressure d (e_gamma e) (boost d w (turn flip u))).
    + unfold pressure, velocity. rewrite R1, R2, R3. reflexivity.
    + rewrite pressure_boost by auto. rewrite pressure_turn; auto using flip_linear, flip_iso.
      rewrite EU at 1. rewrite pressure_boost by auto. reflexivity.
  - intro i. rewrite VL, VR. unfold flip. field.
Qed.
Lemma wall_exists : forall e b n p pf t fix_ UL ULm, b_type b = BCWall -> 0 < rho UL -> 0 < rho ULm -> 0 < e_dwall e ->
  (fr_on (e_frame e) = true -> b_flag b "frameOpt"%string <> None) ->
  exists UL' UR, boundary_value e b n p pf t fix_ UL ULm = Ok (UL', UR).
Proof.
  intros e b n p pf t fix_ UL ULm Hb PL PM PD Hf. unfold boundary_value. rewrite Hb, wall_is by (auto; lra).
  unfold wall_turb, rdiv.
  destruct (e_turb e); [|destruct fix_| | |]; repeat (destruct (Req_EM_T _ _); [lra|]; cbn [bind]); eauto.
Qed.
Lemma wall_turbulence : forall e b n p pf t fix_ UL ULm UL' UR, b_type b = BCWall -> 0 < rho UL ->
  (fr_on (e_frame e) = true -> b_flag b "frameOpt"%string <> None) ->
  boundary_value e b n p pf t fix_ UL ULm = Ok (UL', UR) ->
  match e_turb e with
  | NoTurb => extra UL' = extra UL /\ extra UR = extra UL
  | SA => face_mean UL' UR 0 = 0 /\ (fix_ = true -> extra UL' 0%nat = 0 /\ extra UR 0%nat = 0) /\ (fix_ = false -> UL' = UL)
  | TwoEq => UL' = UL /\ face_mean UL' UR 0 = 0 /\ face_mean UL' UR 1 = 0
  | RKE => UL' = UL /\ face_mean UL' UR 0 = 0 /\ face_mean UL' UR 1 = wall_eps e ULm UL
  | KOmega => UL' = UL /\ face_mean UL' UR 0 = 0 /\ face_mean UL' UR 1 = wall_omega e
  end.
Proof.
  intros e b n p pf t fix_ UL ULm UL' UR Hb PL Hf E. assert (NL : rho UL <> 0) by lra.
  unfold boundary_value in E. rewrite Hb, wall_is in E by auto. unfold wall_turb in E.
  destruct (e_turb e).
  - injection E as <- <-. auto.
  - destruct fix_; injection E as <- <-; unfold face_mean; cbn.
    + repeat split; try lra; try discriminate.
    + repeat split; try lra; try discriminate.
  - injection E as <- <-. unfold face_mean; cbn. repeat split; lra.
  - unfold rdiv in E. destruct (Req_EM_T _ _); [discriminate|]. cbn [bind] in E.
    destruct (Req_EM_T _ _); [discriminate|]. cbn [bind] in E. injection E as <- <-.
    unfold face_mean, wall_eps; cbn. repeat split; try lra; field; auto.
  - unfold rdiv in E. destruct (Req_EM_T _ _); [discriminate|]. cbn [bind] in E. injection E as <- <-.
    unfold face_mean, wall_omega; cbn. repeat split; try lra; field; auto.
Qed.

(** *** far field *)
Lemma prim_of : forall d g U, 0 < rho U -> cons2prim d U g = Ok (primitive d g U).
Proof. intros. unfold cons2prim. destruct (Rlt_dec _ _); [reflexivity|contradiction]. Qed.
Lemma prim_back : forall d g W U, g <> 1 -> prim2cons d W g = Ok U ->
  rho U = rho W /\ velocity U = mom W /\ pressure d g U = ene W /\ (forall i, extra U i / rho U = extra W i) /\ 0 < rho W.
Proof.
  intros d g W U Hg E. unfold prim2cons in E. destruct (Rlt_dec _ _) as [P|]; [|discriminate]. injection E as <-.
  assert (V : velocity {| rho := rho W; mom := fun i => mom W i * rho W; ene := ene W / (g - 1) + rho W * (1 / 2) * sqnorm d (mom W);
     extra := fun i => extra W i * rho W |} = mom W) by (fe; unfold velocity; cbn; field; lra).
  cbn [rho extra]. repeat split; auto.
  - unfold pressure. rewrite V. unfold th_p. cbn. field. lra.
  - intro. field. lra.
Qed.
Lemma prim_exists : forall d g W, 0 < rho W -> exists U, prim2cons d W g = Ok U.
Proof. intros. unfold prim2cons. destruct (Rlt_dec _ _); [eauto|contradiction]. Qed.
Lemma prim_round : forall d g U, g <> 1 -> 0 < rho U -> prim2cons d (primitive d g U) g = Ok U.
Proof.
  intros d g U Hg H. unfold prim2cons. destruct (Rlt_dec _ _) as [|N]; [|cbn in N; contradiction].
  f_equal. apply state_eq; cbn [rho mom ene extra primitive]; auto; try (fe; unfold velocity; field; lra).
  unfold pressure, th_p. field. lra.
Qed.
Lemma pressure_of_sound : forall d g U, 0 < g -> admissible d g U -> 0 < pressure d g U.
Proof.
  intros d g U Hg [H1 H2]. unfold sound2, th_asqr in H2. fold (pressure d g U) in H2.
  assert (0 < g * pressure d g U).
  { apply (Rmult_lt_reg_r (/ rho U)); [apply Rinv_0_lt_compat; auto|]. rewrite Rmult_0_l. exact H2. }
  nra.
Qed.
Lemma sound_of_pressure : forall d g U, 0 < g -> 0 < rho U -> 0 < pressure d g U -> admissible d g U.
Proof.
  intros d g U Hg H1 H2. split; auto. unfold sound2, th_asqr. fold (pressure d g U).
  apply Rdiv_lt_0_compat; auto. nra.
Qed.

Lemma rel_speed_val : forall e n pf U, rho U <> 0 ->
  rel_speed e n pf U = dot (e_d e) (mom U) n / rho U - dot (e_d e) (grid_speed (e_frame e) pf) n.
Proof.
  intros. unfold rel_speed. rewrite (normal_speed_val (e_d e) U _ n). rewrite velocity_dot by auto. field. auto.
Qed.

Lemma far_cases : forall e b n p pf t fix_ UL ULm far,
  In (b_type b) [BCFar; BCOutP] -> 1 < e_gamma e -> admissible (e_d e) (e_gamma e) UL ->
  far_state e b t = Ok far -> 0 < rho far ->
  let vn := rel_speed e n pf UL in let a := sound e UL in
  (a < vn -> boundary_value e b n p pf t fix_ UL ULm = Ok (UL, UL)) /\
  (forall pOut, 0 < vn <= a -> outlet_pressure e b UL (static_p e UL) (static_p e far) = Ok pOut ->
     exists UR, boundary_value e b n p pf t fix_ UL ULm = Ok (UL, UR) /\
       rho UR = rho UL /\ velocity UR = velocity UL /\ static_p e UR = pOut /\
       forall i, extra UR i / rho UR = extra UL i / rho UL) /\
  (- a < vn <= 0 ->
     exists UR, boundary_value e b n p pf t fix_ UL ULm = Ok (UL, UR) /\
       rho UR = rho far /\ velocity UR = velocity far /\ static_p e UR = static_p e UL /\
       forall i, extra UR i / rho UR = extra far i / rho far) /\
  (vn <= - a -> boundary_value e b n p pf t fix_ UL ULm = Ok (UL, far)).
Proof.
  intros e b n p pf t fix_ UL ULm far Hb Hg [PL PA] Ef PF vn a.
  assert (NL : rho UL <> 0) by lra. assert (Ng : e_gamma e <> 1) by lra.
  assert (B : forall r, gen_far e b n pf t UL = r -> boundary_value e b n p pf t fix_ UL ULm = do UR <- r; Ok (UL, UR)).
  { intros r <-. unfold boundary_value. cbn in Hb. destruct Hb as [<-|[<-|[]]]; reflexivity. }
  assert (Pa : 0 < a) by (apply sqrt_lt_R0; exact PA).
  assert (G : gen_far e b n pf t UL =
    if Rlt_dec 0 (vn - a) then Ok UL else if Rlt_dec 0 vn then
      do p <- outlet_pressure e b UL (static_p e UL) (static_p e far);
      prim2cons (e_d e) (with_ene (primitive (e_d e) (e_gamma e) UL) p) (e_gamma e)
    else if Rlt_dec 0 (vn + a) then
      prim2cons (e_d e) (with_ene (primitive (e_d e) (e_gamma e) far) (static_p e UL)) (e_gamma e)
    else Ok far).
  { unfold gen_far. destruct (Rlt_dec 0 (rho UL)); [|contradiction]. rewrite Ef. cbn [bind].
    destruct (Rle_dec 0 (sound2 _ _ _)) as [|N]; [|exfalso; apply N; lra].
    rewrite !prim_of by auto. cbn [bind]. fold (sound e UL). fold a.
    rewrite <- rel_speed_val by auto. fold vn. reflexivity. }
  split; [|split; [|split]].
  - intro H. rewrite (B _ G). destruct (Rlt_dec 0 (vn - a)); [reflexivity|lra].
  - intros pOut H Eo. destruct (prim_exists (e_d e) (e_gamma e) (with_ene (primitive (e_d e) (e_gamma e) UL) pOut)) as (UR & EU); [exact PL|].
    exists UR. rewrite (B _ G). destruct (Rlt_dec 0 (vn - a)); [lra|]. destruct (Rlt_dec 0 vn); [|lra].
    rewrite Eo. cbn [bind]. rewrite EU. cbn [bind]. split; [reflexivity|].
    destruct (prim_back _ _ _ _ Ng EU) as (R1 & R2 & R3 & R4 & _).
    repeat split; auto.
  - intro H. destruct (prim_exists (e_d e) (e_gamma e) (with_ene (primitive (e_d e) (e_gamma e) far) (static_p e UL))) as (UR & EU); [exact PF|].
    exists UR. rewrite (B _ G). destruct (Rlt_dec 0 (vn - a)); [lra|]. destruct (Rlt_dec 0 vn); [lra|].
    destruct (Rlt_dec 0 (vn + a)); [|lra].
    rewrite EU. cbn [bind]. split; [reflexivity|].
    destruct (prim_back _ _ _ _ Ng EU) as (R1 & R2 & R3 & R4 & _).
    repeat split; auto.
  - intro H. rewrite (B _ G). destruct (Rlt_dec 0 (vn - a)); [lra|]. destruct (Rlt_dec 0 vn); [lra|].
    destruct (Rlt_dec 0 (vn + a)); [lra|]. reflexivity.
Qed.

Lemma outlet_floor : forall e b UL pUL pFar q, 0 < pFar -> outlet_pressure e b UL pUL pFar = Ok q -> pFar / 20 <= q.
Proof.
  intros e b UL pUL pFar q P E. unfold outlet_pressure in E.
  assert (M : forall x y, 0 < y -> y / 20 <= y + Rmax x (- (95/100) * y)).
  { intros x y Hy. pose proof (Rmax_r x (- (95/100) * y)). lra. }
  destruct (b_type b); try (injection E as <-; lra).
  destruct (get_flag b _) as [o| |]; try discriminate. cbn [bind] in E.
  destruct (o =? 1)%Z eqn:O1.
  - destruct (cons2prim _ _ _) as [W| |]; try discriminate. cbn [bind] in E.
    apply Z.eqb_eq in O1. subst o. cbn in E. injection E as <-. apply M; auto.
  - cbn [bind] in E. destruct (o =? 2)%Z; injection E as <-; [apply M; auto|lra].
Qed.
Lemma outlet_plain : forall e b UL pUL pFar, b_type b = BCFar \/ b_flag b "anchorOpt"%string = Some 0%Z ->
  In (b_type b) [BCFar; BCOutP] -> outlet_pressure e b UL pUL pFar = Ok pFar.
Proof.
  intros e b UL pUL pFar H Hb. unfold outlet_pressure. cbn in Hb.
  destruct Hb as [<-|[T|[]]]; [reflexivity|].
  rewrite <- T. destruct H as [H|H]; [congruence|]. unfold get_flag. rewrite H. reflexivity.
Qed.
Lemma outlet_anchor : forall e b UL A pUL pFar, b_type b = BCOutP -> b_flag b "anchorOpt"%string = Some 1%Z ->
  e_anchor e = Some A -> 0 < rho A -> - (95/100) * pFar <= pUL - static_p e A ->
  outlet_pressure e b UL pUL pFar = Ok (pFar + (pUL - static_p e A)).
Proof.
  intros e b UL A pUL pFar Hb Hf Ha PA H. unfold outlet_pressure. rewrite Hb. unfold get_flag. rewrite Hf. cbn [bind Z.eqb Pos.eqb].
  rewrite Ha, prim_of by auto. cbn [bind]. rewrite Rmax_left; [reflexivity|]. exact H.
Qed.

Lemma free_stream : forall e b n p pf t fix_ U ULm,
  In (b_type b) [BCFar; BCOutP] -> (b_type b = BCFar \/ b_flag b "anchorOpt"%string = Some 0%Z) ->
  1 < e_gamma e -> admissible (e_d e) (e_gamma e) U -> far_state e b t = Ok U ->
  boundary_value e b n p pf t fix_ U ULm = Ok (U, U).
Proof.
  intros e b n p pf t fix_ U ULm Hb Ho Hg [PL PA] Ef.
  assert (NL : rho U <> 0) by lra. assert (Ng : e_gamma e <> 1) by lra.
  assert (G : gen_far e b n pf t U = Ok U).
  { unfold gen_far. destruct (Rlt_dec 0 (rho U)); [|contradiction]. rewrite Ef. cbn [bind].
    destruct (Rle_dec 0 (sound2 _ _ _)) as [|N]; [|exfalso; apply N; lra].
    rewrite !prim_of by auto. cbn [bind].
    destruct (Rlt_dec _ _); [reflexivity|].
    rewrite outlet_plain by auto. cbn [bind].
    assert (X : prim2cons (e_d e) (with_ene (primitive (e_d e) (e_gamma e) U) (ene (primitive (e_d e) (e_gamma e) U))) (e_gamma e) = Ok U).
    { rewrite <- prim_round with (d := e_d e) (g := e_gamma e) at 1 by auto. reflexivity. }
    rewrite X. destruct (Rlt_dec _ _); [reflexivity|]. destruct (Rlt_dec _ _); reflexivity. }
  unfold boundary_value. cbn in Hb. destruct Hb as [<-|[<-|[]]]; rewrite G; reflexivity.
Qed.

Lemma far_positive : forall e b n p pf t fix_ UL ULm far UL' UR,
  In (b_type b) [BCFar; BCOutP] -> 1 < e_gamma e -> admissible (e_d e) (e_gamma e) UL ->
  far_state e b t = Ok far -> admissible (e_d e) (e_gamma e) far ->
  boundary_value e b n p pf t fix_ UL ULm = Ok (UL', UR) -> UL' = UL /\ admissible (e_d e) (e_gamma e) UR.
Proof.
  intros e b n p pf t fix_ UL ULm far UL' UR Hb Hg AL Ef AF E.
  destruct (far_cases e b n p pf t fix_ UL ULm far Hb Hg AL Ef (proj1 AF)) as (C1 & C2 & C3 & C4).
  assert (Hg0 : 0 < e_gamma e) by lra.
  pose proof (pressure_of_sound _ _ _ Hg0 AL) as QL. pose proof (pressure_of_sound _ _ _ Hg0 AF) as QF.
  set (vn := rel_speed e n pf UL) in *. set (a := sound e UL) in *.
  destruct (Rlt_dec a vn) as [K1|K1]; [rewrite C1 in E by auto; injection E as <- <-; auto|].
  destruct (Rlt_dec 0 vn) as [K2|K2].
  { destruct (outlet_pressure e b UL (static_p e UL) (static_p e far)) as [q| |] eqn:O.
    - destruct (C2 q) as (U & EU & R1 & R2 & R3 & R4); [lra|auto|]. rewrite EU in E. injection E as <- <-. split; auto.
      apply sound_of_pressure; auto; [rewrite R1; apply AL|]. unfold static_p in R3. rewrite R3.
      pose proof (outlet_floor _ _ _ _ _ _ QF O). unfold static_p in *. lra.
    - exfalso. revert E. unfold boundary_value. cbn in Hb.
      assert (G : gen_far e b n pf t UL = Abort).
      { unfold gen_far. destruct AL as [PL PA]. destruct (Rlt_dec 0 (rho UL)); [|contradiction]. rewrite Ef. cbn [bind].
        destruct (Rle_dec 0 (sound2 _ _ _)) as [|N]; [|exfalso; apply N; lra].
        rewrite !prim_of by (auto; apply AF). cbn [bind]. fold (sound e UL). fold a.
        rewrite <- rel_speed_val by lra. fold vn. destruct (Rlt_dec 0 (vn - a)); [lra|]. destruct (Rlt_dec 0 vn); [|lra].
        unfold static_p in O. cbn [ene primitive]. rewrite O. reflexivity. }
      destruct Hb as [<-|[<-|[]]]; rewrite G; discriminate.
    - exfalso. revert E. unfold boundary_value. cbn in Hb.
      assert (G : gen_far e b n pf t UL = UB).
      { unfold gen_far. destruct AL as [PL PA]. destruct (Rlt_dec 0 (rho UL)); [|contradiction]. rewrite Ef. cbn [bind].
        destruct (Rle_dec 0 (sound2 _ _ _)) as [|N]; [|exfalso; apply N; lra].
        rewrite !prim_of by (auto; apply AF). cbn [bind]. fold (sound e UL). fold a.
        rewrite <- rel_speed_val by lra. fold vn. destruct (Rlt_dec 0 (vn - a)); [lra|]. destruct (Rlt_dec 0 vn); [|lra].
        unfold static_p in O. cbn [ene primitive]. rewrite O. reflexivity. }
      destruct Hb as [<-|[<-|[]]]; rewrite G; discriminate. }
  destruct (Rlt_dec (- a) vn) as [K3|K3].
  - destruct C3 as (U & EU & R1 & R2 & R3 & R4); [lra|]. rewrite EU in E. injection E as <- <-. split; auto.
    apply sound_of_pressure; auto; [rewrite R1; apply AF|]. unfold static_p in R3. rewrite R3. exact QL.
  - rewrite C4 in E by lra. injection E as <- <-. auto.
Qed.
