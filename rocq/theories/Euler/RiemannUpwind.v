From Coq Require Import Reals List Arith Lra Lia Psatz FunctionalExtensionality.
From Verif Require Import Base.Prelude Base.PreludeFacts Euler.GasModel Euler.GasSpec Euler.GasProofs
  Euler.CompressModel Euler.CompressProofs Euler.RiemannModel Euler.RiemannSpec Euler.RiemannProofs.
Local Open Scope R_scope.

(** ** HLLC under a swap of the sides *)
Lemma hllc_star_opp : forall U F n S SS p v,
  hllc_star U (opp_state F) (opp n) (- S) (- SS) p (- v) = opp_state (hllc_star U F n S SS p v).
Proof.
  intros. unfold hllc_star. replace (- S - - SS) with (- (S - SS)) by ring. rewrite Rabs_Ropp.
  destruct (Rlt_dec _ _) as [|Hn]; [reflexivity|]. pose proof verySmall_pos.
  assert (S - SS <> 0). { intro E. apply Hn. rewrite E, Rabs_R0. auto. }
  unfold opp_state, scale_state. cbn [rho mom ene extra]. unfold opp.
  f_equal; try (field; lra); apply functional_extensionality; intros; try ring; field; lra.
Qed.

Lemma hllc_outer_swap : forall d g A a vg n ULm URm SL SR,
  hllc_outer d g A a vg n ULm URm = Ok (SL, SR) -> hllc_outer d g A a vg (opp n) URm ULm = Ok (- SR, - SL).
Proof.
  intros d g A a vg n ULm URm SL SR H. unfold hllc_outer in *. rewrite !normal_speed_val in *. rewrite !dot_opp.
  set (uL := dot d (velocity ULm) n) in *. set (uR := dot d (velocity URm) n) in *. set (w := dot d vg n) in *.
  replace (1/2 * (pressure d g URm + pressure d g ULm) - 1/2 * (- uR - - w - (- uL - - w)) * av_rho A * a) with
    (1/2 * (pressure d g ULm + pressure d g URm) - 1/2 * (uL - w - (uR - w)) * av_rho A * a) by field.
  inv_bind. repeat match goal with E : _ = Ok _ |- _ => rewrite E; clear E; cbn [bind] end.
  do 2 f_equal; lra.
Qed.

Lemma hllc_contact_swap : forall d g vg n UL UR ULm URm SL SR,
  hllc_contact d g vg (opp n) UR UL URm ULm (- SR) (- SL) = - hllc_contact d g vg n UL UR ULm URm SL SR.
Proof.
  intros. unfold hllc_contact. rewrite !normal_speed_val, !dot_opp.
  set (uL := dot d (velocity ULm) n). set (uR := dot d (velocity URm) n). set (w := dot d vg n).
  replace (rho UR * (- SR - (- uR - - w)) - rho UL * (- SL - (- uL - - w))) with
    (rho UL * (SL - (uL - w)) - rho UR * (SR - (uR - w))) by ring.
  destruct (Rlt_dec _ _) as [Hn|]; [|ring]. pose proof verySmall_pos.
  set (D := rho UL * (SL - (uL - w)) - rho UR * (SR - (uR - w))) in *.
  assert (D <> 0). { intro E. rewrite E, Rabs_R0 in Hn. lra. }
  field. auto.
Qed.

Lemma hllc_q_ge : forall g p pS q, 1 < g -> 0 < p -> hllc_q g p pS = Ok q -> 1 <= q.
Proof.
  intros g p pS q Hg Hp H. unfold hllc_q in H. destruct (Rle_dec pS p); [injection H as <-; lra|]. inv_bind.
  unfold rdiv in *. destruct (Req_EM_T p 0); [discriminate|]. destruct (Req_EM_T g 0); [discriminate|].
  inv_bind. subst. unfold rsqrt in H. destruct (Rle_dec 0 _); [|discriminate]. injection H as <-.
  rewrite <- sqrt_1 at 1. apply sqrt_le_1_alt. assert (1 < pS / p).
  { apply (Rmult_lt_reg_r p); auto. unfold Rdiv. rewrite Rmult_assoc, Rinv_l by auto. lra. }
  assert (0 < (g + 1) / 2 / g). { apply Rmult_lt_0_compat; [lra|]. apply Rinv_0_lt_compat. lra. }
  nra.
Qed.

Lemma hllc_swap : forall d g vg n UL UR ULm URm F SL SR, 
  hllc_flux d g vg n UL UR ULm URm = Ok F ->
  hllc_outer d g (roe_average d g ULm URm) (sqrt (av_a2 (roe_average d g ULm URm))) vg n ULm URm = Ok (SL, SR) ->
  SL < 0 \/ 0 < SR ->
  hllc_contact d g vg n UL UR ULm URm SL SR <> 0 ->
  hllc_flux d g vg (opp n) UR UL URm ULm = Ok (opp_state F).
Proof.
  intros d g vg n UL UR ULm URm F SL SR H HO HS HC. unfold hllc_flux in *. inv_bind.
  match goal with E : common _ _ _ _ _ _ = Ok ?y |- _ => destruct y as (A & a); rename E into EC end.
  destruct (common_swap _ _ _ _ _ _ _ _ EC) as (EC' & Ha). rewrite EC'. cbn [bind].
  assert (EA : A = roe_average d g ULm URm /\ a = sqrt (av_a2 (roe_average d g ULm URm))).
  { unfold common in EC. repeat (destruct (Rlt_dec _ _) in EC; [|discriminate]). injection EC as <- <-. auto. }
  destruct EA as (-> & ->).
  rewrite HO in H. cbn [bind] in H. rewrite (hllc_outer_swap _ _ _ _ _ _ _ _ _ _ HO). cbn [bind].
  rewrite !flux_opp, hllc_contact_swap.
  destruct (Rle_dec 0 SL).
  { injection H as <-. destruct (Rle_dec 0 (- SR)); [lra|]. destruct (Rle_dec (- SL) 0); [reflexivity|lra]. }
  destruct (Rle_dec SR 0).
  { injection H as <-. destruct (Rle_dec 0 (- SR)); [reflexivity|lra]. }
  destruct (Rle_dec 0 (- SR)); [lra|]. destruct (Rle_dec (- SL) 0); [lra|].
  set (SS := hllc_contact d g vg n UL UR ULm URm SL SR) in *.
  assert (NL : forall V, normal_speed d V vg (opp n) = - normal_speed d V vg n).
  { intros V. rewrite !normal_speed_val, !dot_opp. ring. }
  rewrite !NL, !hllc_star_opp.
  destruct (Rle_dec 0 SS); injection H as <-.
  - destruct (Rle_dec 0 (- SS)); [lra|reflexivity].
  - destruct (Rle_dec 0 (- SS)); [reflexivity|lra].
Qed.

(** ** Roe's property *)
Lemma roe_bilinear : forall sl sr fl fr hl hr, sl + sr <> 0 ->
  (sr * sr) * fr * hr - (sl * sl) * fl * hl =
  (sl * fl + sr * fr) / (sl + sr) * ((sr * sr) * hr - (sl * sl) * hl)
  + (sl * hl + sr * hr) / (sl + sr) * ((sr * sr) * fr - (sl * sl) * fl)
  - (sl * fl + sr * fr) / (sl + sr) * ((sl * hl + sr * hr) / (sl + sr)) * (sr * sr - sl * sl).
Proof. intros. field. auto. Qed.

Section RoeProperty.
Variables (d : nat) (g : R) (vg n : vec) (UL UR : state).
Hypothesis HL : 0 < rho UL.
Hypothesis HR : 0 < rho UR.
Hypothesis Hn : dot d n n = 1.
Hypothesis Hg : g <> 1.
Let A := roe_average d g UL UR.
Let a := sqrt (av_a2 A).
Hypothesis Ha2 : 0 < av_a2 A.
Let sl := sqrt (rho UL).
Let sr := sqrt (rho UR).
Let vL := velocity UL.
Let vR := velocity UR.
Let dU := sub_state UR UL.
Let vn := dot d (av_v A) n.
Let vgn := dot d vg n.

Lemma sl_pos : 0 < sl. Proof. apply sqrt_lt_R0; auto. Qed.
Lemma sr_pos : 0 < sr. Proof. apply sqrt_lt_R0; auto. Qed.
Lemma ss_nz : sl + sr <> 0. Proof. pose proof sl_pos. pose proof sr_pos. lra. Qed.
Lemma rhoL_sq : rho UL = sl * sl. Proof. unfold sl. symmetry. apply sqrt_sqrt. lra. Qed.
Lemma rhoR_sq : rho UR = sr * sr. Proof. unfold sr. symmetry. apply sqrt_sqrt. lra. Qed.
Lemma a_pos : 0 < a. Proof. apply sqrt_lt_R0; auto. Qed.
Lemma a_sq : a * a = (g - 1) * (av_H A - 1/2 * av_vv A). Proof. unfold a. rewrite sqrt_sqrt by lra. reflexivity. Qed.
Lemma momL : forall i, mom UL i = (sl * sl) * vL i.
Proof. intros. rewrite <- rhoL_sq. unfold vL, velocity. field. lra. Qed.
Lemma momR : forall i, mom UR i = (sr * sr) * vR i.
Proof. intros. rewrite <- rhoR_sq. unfold vR, velocity. field. lra. Qed.
Lemma av_vi : forall i, av_v A i = (sl * vL i + sr * vR i) / (sl + sr).
Proof. reflexivity. Qed.
Lemma av_dot_l : forall w, dot d (av_v A) w = (sl * dot d vL w + sr * dot d vR w) / (sl + sr).
Proof.
  intros w. rewrite (dot_ext d (av_v A) w (fun i => sl / (sl + sr) * vL i + sr / (sl + sr) * vR i) w); auto.
  - rewrite dot_add_l, !dot_scal_l. field. apply ss_nz.
  - intros i _. rewrite av_vi. field. apply ss_nz.
Qed.
Lemma vn_val : vn = (sl * dot d vL n + sr * dot d vR n) / (sl + sr).
Proof. apply av_dot_l. Qed.

Lemma drho : rho dU = sr * sr - sl * sl.
Proof. cbn. rewrite rhoL_sq, rhoR_sq. reflexivity. Qed.
Lemma dmom : forall i, mom dU i = sr * sr * vR i - sl * sl * vL i.
Proof. intros. cbn. rewrite momL, momR. reflexivity. Qed.
Lemma dm_dot : forall w, dot d (mom dU) w = sr * sr * dot d vR w - sl * sl * dot d vL w.
Proof.
  intros w. rewrite <- !dot_scal_l. rewrite <- dot_sub_l. apply dot_ext; auto. intros; apply dmom.
Qed.

(** jumps of the products *)
Lemma jump_mom : forall i, sr * sr * vR i * dot d vR n - sl * sl * vL i * dot d vL n =
  av_v A i * dot d (mom dU) n + vn * mom dU i - av_v A i * vn * rho dU.
Proof. intros. rewrite dm_dot, dmom, drho, vn_val, av_vi. apply roe_bilinear. apply ss_nz. Qed.

Lemma jump_kin : sr * sr * sqnorm d vR - sl * sl * sqnorm d vL =
  2 * dot d (mom dU) (av_v A) - av_vv A * rho dU.
Proof.
  change (av_vv A) with (dot d (av_v A) (av_v A)). unfold sqnorm.
  rewrite dm_dot, (dot_comm d vR (av_v A)), (dot_comm d vL (av_v A)), !av_dot_l, drho.
  rewrite (dot_comm d vL (av_v A)), (dot_comm d vR (av_v A)), !av_dot_l, (dot_comm d vR vL).
  field. apply ss_nz.
Qed.

Definition HLv := enthalpy d g UL.
Definition HRv := enthalpy d g UR.
Let pL := pressure d g UL.
Let pR := pressure d g UR.
Lemma eneL : ene UL + pL = sl * sl * HLv.
Proof. rewrite <- rhoL_sq. unfold HLv, enthalpy, th_H, pL, pressure. field. lra. Qed.
Lemma eneR : ene UR + pR = sr * sr * HRv.
Proof. rewrite <- rhoR_sq. unfold HRv, enthalpy, th_H, pR, pressure. field. lra. Qed.
Lemma jump_H : sr * sr * HRv * dot d vR n - sl * sl * HLv * dot d vL n =
  av_H A * dot d (mom dU) n + vn * (ene dU + (pR - pL)) - av_H A * vn * rho dU.
Proof.
  replace (ene dU + (pR - pL)) with (sr * sr * HRv - sl * sl * HLv) by (rewrite <- eneL, <- eneR; cbn; ring).
  rewrite dm_dot, drho, vn_val. apply roe_bilinear. apply ss_nz.
Qed.
Lemma jump_p : pR - pL = (g - 1) * (ene dU - dot d (mom dU) (av_v A) + 1/2 * av_vv A * rho dU).
Proof.
  unfold pR, pL, pressure, th_p. rewrite rhoL_sq, rhoR_sq. fold vL vR. cbn [dU sub_state ene].
  pose proof jump_kin as K. unfold dU in K. 
  replace ((g - 1) * (ene UR - sr * sr * (1/2) * sqnorm d vR) - (g - 1) * (ene UL - sl * sl * (1/2) * sqnorm d vL))
    with ((g - 1) * (ene UR - ene UL - 1/2 * (sr * sr * sqnorm d vR - sl * sl * sqnorm d vL))) by ring.
  rewrite K. unfold dU. cbn [sub_state ene]. field.
Qed.

(** the strengths *)
Let s0 := strength0 d g n A a dU.
Let s1 := strength1 d g n A dU.
Let s4 := strength4 d g n A a dU.
Let st := strength_t d n A dU.
Lemma st_val : forall i, st i = mom dU i - rho dU * av_v A i - n i * (dot d (mom dU) n - rho dU * vn).
Proof. intros i. unfold st, strength_t. rewrite dot_sub_l, dot_scal_l. reflexivity. Qed.
Lemma st_dot : dot d st (av_v A) = dot d (mom dU) (av_v A) - rho dU * av_vv A - vn * (dot d (mom dU) n - rho dU * vn).
Proof.
  rewrite (dot_ext d st (av_v A) (fun i => (mom dU i - rho dU * av_v A i) - (dot d (mom dU) n - rho dU * vn) * n i) (av_v A)); auto.
  - rewrite !dot_sub_l, !dot_scal_l. change (dot d (av_v A) (av_v A)) with (av_vv A).
    rewrite (dot_comm d n (av_v A)). fold vn. ring.
  - intros i _. rewrite st_val. ring.
Qed.
Lemma s1_val : a * a * s1 = a * a * rho dU - (pR - pL).
Proof.
  rewrite jump_p. unfold s1, strength1. fold st. rewrite st_dot.
  assert (E : av_a2 A = a * a) by (unfold a; rewrite sqrt_sqrt; lra).
  fold vn. rewrite E. pose proof a_pos. field_simplify; [|lra].
  pose proof a_sq as Q. replace (a ^ 2) with (a * a) by ring. rewrite Q. field.
Qed.
Lemma s_sum : s0 + s1 + s4 = rho dU.
Proof. unfold s4, strength4. fold s0 s1. ring. Qed.
Lemma s_diff : a * (s4 - s0) = dot d (mom dU) n - rho dU * vn.
Proof.
  unfold s4, strength4. fold s0 s1. unfold s0, strength0. fold s1 vn. pose proof a_pos. field. lra.
Qed.

Let v := vn - vgn.
Let W := wave_sum d g n A a dU (v - a) v (v + a).
Let FL := exact_flux d g vg n UL.
Let FR := exact_flux d g vg n UR.

Lemma w0 : s0 * (v - a) + s1 * v + s4 * (v + a) = dot d (mom dU) n - vgn * rho dU.
Proof.
  replace (s0 * (v - a) + s1 * v + s4 * (v + a)) with (v * (s0 + s1 + s4) + a * (s4 - s0)) by ring.
  rewrite s_sum, s_diff. unfold v. ring.
Qed.
Lemma w1 : a * (s4 * (v + a) - s0 * (v - a)) = v * (dot d (mom dU) n - rho dU * vn) + (pR - pL).
Proof.
  replace (a * (s4 * (v + a) - s0 * (v - a))) with (v * (a * (s4 - s0)) + a * a * (s0 + s1 + s4) - a * a * s1) by ring.
  rewrite s_diff, s_sum, s1_val. ring.
Qed.

Lemma roe_property : same_state d 0 W (sub_state FR FL).
Proof.
  assert (nL : dot d (fun i => velocity UL i - vg i) n = dot d vL n - vgn) by apply dot_sub_l.
  assert (nR : dot d (fun i => velocity UR i - vg i) n = dot d vR n - vgn) by apply dot_sub_l.
  unfold W, wave_sum, FL, FR, exact_flux, flux, sub_state, same_state. fold dU s0 s1 s4 st vn. cbn [rho mom ene extra].
  rewrite nL, nR. fold pL pR. split; [|split; [|split]].
  - rewrite w0, rhoL_sq, rhoR_sq, dm_dot, drho. ring.
  - intros i _. rewrite momL, momR.
    replace ((av_v A i - a * n i) * (s0 * (v - a)) + (av_v A i + a * n i) * (s4 * (v + a)) + av_v A i * (s1 * v) + st i * v)
      with (av_v A i * (s0 * (v - a) + s1 * v + s4 * (v + a)) + n i * (a * (s4 * (v + a) - s0 * (v - a))) + st i * v) by ring.
    rewrite w0, w1, st_val.
    pose proof (jump_mom i) as J.
    replace (sr * sr * vR i * (dot d vR n - vgn) + pR * n i - (sl * sl * vL i * (dot d vL n - vgn) + pL * n i))
      with ((sr * sr * vR i * dot d vR n - sl * sl * vL i * dot d vL n) - vgn * (sr * sr * vR i - sl * sl * vL i) + n i * (pR - pL)) by ring.
    rewrite J, <- dmom. unfold v. ring.
  - fold vL vR.
    replace (dot d (fun i => st i * v) (av_v A)) with (v * dot d st (av_v A)).
    2:{ rewrite <- dot_scal_l. apply dot_ext; auto. intros; ring. }
    replace ((av_H A - vn * a) * (s0 * (v - a)) + 1 / 2 * av_vv A * (s1 * v) + (av_H A + vn * a) * (s4 * (v + a)) + v * dot d st (av_v A))
      with (av_H A * (s0 * (v - a) + s1 * v + s4 * (v + a)) + vn * (a * (s4 * (v + a) - s0 * (v - a)))
            - v * (s1 * (av_H A - 1/2 * av_vv A)) + v * dot d st (av_v A)) by (field; lra).
    rewrite w0, w1, st_dot.
    assert (K : s1 * (av_H A - 1/2 * av_vv A) = rho dU * (av_H A - 1/2 * av_vv A) - (ene dU - dot d (mom dU) (av_v A) + 1/2 * av_vv A * rho dU)).
    { pose proof s1_val as Q. rewrite a_sq, jump_p in Q. 
      apply (Rmult_eq_reg_l (g - 1)); [|lra]. lra. }
    rewrite K.
    replace (ene UR * (dot d vR n - vgn) + dot d vR n * pR - (ene UL * (dot d vL n - vgn) + dot d vL n * pL))
      with (((ene UR + pR) * dot d vR n - (ene UL + pL) * dot d vL n) - vgn * (ene UR - ene UL)) by ring.
    rewrite eneL, eneR, jump_H. replace (ene UR - ene UL) with (ene dU) by reflexivity. unfold v. field.
  - intros; lia.
Qed.
End RoeProperty.

(** ** Upwinding *)
Lemma wave_sum_opp_l : forall d g n A a W l0 l1 l4,
  wave_sum d g n A a W (- l0) (- l1) (- l4) = opp_state (wave_sum d g n A a W l0 l1 l4).
Proof.
  intros. unfold wave_sum, opp_state, scale_state. cbn [rho mom ene extra]. f_equal; try ring.
  - apply functional_extensionality. intros. ring.
  - rewrite (dot_ext d (fun i => strength_t d n A W i * - l1) (av_v A) (fun i => (-1) * (strength_t d n A W i * l1)) (av_v A)) by (intros; ring).
    rewrite dot_scal_l. ring.
  - apply functional_extensionality. intros. ring.
Qed.

Lemma speeds_right : forall opt vv v a vL vR aL2 aR2 dL th, (opt = 0 \/ opt = 3 \/ opt = 4)%nat -> 0 < a ->
  th = (if (opt =? 0)%nat then Rmax (scaleHartenYee * (sqrt vv + a)) dL else 0) -> th <= v - a -> 0 <= th ->
  speeds opt vv v a vL vR aL2 aR2 dL = Ok (v - a, v, v + a).
Proof.
  intros opt vv v a vL vR aL2 aR2 dL th Ho Ha Et Hv Hth.
  assert (R1 : Rabs (v - a) = v - a) by (apply Rabs_right; lra).
  assert (R2 : Rabs v = v) by (apply Rabs_right; lra).
  assert (R3 : Rabs (v + a) = v + a) by (apply Rabs_right; lra).
  destruct Ho as [-> | [-> | ->]]; cbn in *.
  - rewrite <- Et, R1, R2, R3. unfold harten_yee. destruct (Rlt_dec (v - a) th); [lra|]. destruct (Rlt_dec (v + a) th); [lra|]. reflexivity.
  - rewrite R2. rewrite Rmin_right. 
    + rewrite R1, R3. reflexivity.
    + unfold scaleLD. apply (Rmult_le_reg_r (2/10)); [lra|]. replace (v / (2/10) * (2/10)) with v by field. lra.
  - rewrite R2. assert (smallR < 1).
    { unfold smallR. rewrite <- Rinv_1. apply Rinv_lt_contravar; simpl; lra. }
    unfold signTol, scaleLD. destruct (Rlt_dec (a * smallR) v) as [_|X].
    2:{ exfalso. apply X. nra. }
    rewrite Rmax_right by lra. rewrite Rmult_1_l, R1, R2, R3. reflexivity.
Qed.

Lemma fix_width_pos : forall opt d g UL UR dL, 0 <= fix_width opt (roe_average d g UL UR) dL.
Proof.
  intros. unfold fix_width. destruct (opt =? 0)%nat; [|lra]. eapply Rle_trans; [|apply Rmax_l].
  unfold scaleHartenYee. apply Rmult_le_pos; [lra|]. apply Rplus_le_le_0_compat; apply sqrt_pos.
Qed.

Lemma roe_upwind_right : forall d opt g dL vg n UL UR, (opt = 0 \/ opt = 3 \/ opt = 4)%nat -> g <> 1 ->
  0 < rho UL -> 0 < rho UR -> dot d n n = 1 ->
  let A := roe_average d g UL UR in
  0 < av_a2 A ->
  fix_width opt A dL <= dot d (av_v A) n - dot d vg n - sqrt (av_a2 A) ->
  exists F, roe_flux d opt g dL vg n UL UR UL UR = Ok F /\ same_state d 0 F (exact_flux d g vg n UL).
Proof.
  intros d opt g dL vg n UL UR Ho Hg HL HR Hn A Ha2 Hv.
  pose proof (sqrt_lt_R0 _ Ha2) as Ha. pose proof (fix_width_pos opt d g UL UR dL) as Fp. fold A in Fp.
  unfold roe_flux, common.
  destruct (Rlt_dec 0 (rho UL)) as [_|]; [|lra]. destruct (Rlt_dec 0 (rho UR)) as [_|]; [|lra].
  fold A. destruct (Rlt_dec 0 (av_a2 A)) as [_|]; [|lra]. cbn [bind].
  rewrite (speeds_right opt _ _ _ _ _ _ _ _ (fix_width opt A dL)); auto. cbn [bind].
  assert (E2 : (opt =? 2)%nat = false) by (destruct Ho as [-> | [-> | ->]]; reflexivity). rewrite E2.
  eexists; split; [reflexivity|].
  pose proof (roe_property d g vg n UL UR HL HR Hg) as RP. cbv zeta in RP. fold A in RP.
  specialize (RP Ha2). destruct RP as (P1 & P2 & P3 & _). unfold same_state, central. cbn [rho mom ene extra].
  rewrite P1, P3. cbn [sub_state rho mom ene]. split; [lra|]. split; [|split; [lra|intros; lia]].
  intros i Hi. rewrite P2 by auto. cbn [sub_state mom]. lra.
Qed.

Lemma roe_upwind_left : forall d opt g dL vg n UL UR, (opt = 0 \/ opt = 3 \/ opt = 4)%nat -> g <> 1 ->
  0 < rho UL -> 0 < rho UR -> dot d n n = 1 ->
  let A := roe_average d g UL UR in
  0 < av_a2 A ->
  dot d (av_v A) n - dot d vg n + sqrt (av_a2 A) <= - fix_width opt A dL ->
  exists F, roe_flux d opt g dL vg n UL UR UL UR = Ok F /\ same_state d 0 F (exact_flux d g vg n UR).
Proof.
  intros d opt g dL vg n UL UR Ho Hg HL HR Hn A Ha2 Hv.
  assert (AS : roe_average d g UR UL = A) by (apply average_swap; auto).
  destruct (roe_upwind_right d opt g dL vg (opp n) UR UL Ho Hg HR HL) as (F & EF & (S1 & S2 & S3 & _)).
  - rewrite dot_opp, dot_comm, dot_opp. lra.
  - rewrite AS. auto.
  - rewrite AS, !dot_opp. lra.
  - apply roe_swap in EF. exists (opp_state F).
    assert (ON : opp (opp n) = n) by (apply functional_extensionality; intros; unfold opp; ring).
    rewrite ON in EF. split; [exact EF|]. rewrite flux_opp in S1, S2, S3.
    unfold opp_state, scale_state, same_state in *. cbn [rho mom ene extra] in *.
    split; [lra|]. split; [intros i Hi; rewrite S2 by auto; lra|]. split; [lra|intros; lia].
Qed.

(** HLLC returns a one-sided flux as soon as the outer waves go one way *)
Lemma hllc_upwind : forall d g vg n UL UR ULm URm A a SL SR,
  common d g UL UR ULm URm = Ok (A, a) -> hllc_outer d g A a vg n ULm URm = Ok (SL, SR) ->
  (0 <= SL -> hllc_flux d g vg n UL UR ULm URm = Ok (exact_flux d g vg n UL)) /\
  (SL < 0 -> SR <= 0 -> hllc_flux d g vg n UL UR ULm URm = Ok (exact_flux d g vg n UR)).
Proof.
  intros d g vg n UL UR ULm URm A a SL SR EC EO. unfold hllc_flux. rewrite EC. cbn [bind]. rewrite EO. cbn [bind].
  split; intros.
  - destruct (Rle_dec 0 SL); [reflexivity|lra].
  - destruct (Rle_dec 0 SL); [lra|]. destruct (Rle_dec SR 0); [reflexivity|lra].
Qed.

(** HLLEP is upwind, up to the regularised division, for flow to the right *)
Lemma hllep_upwind_right : forall d g vg n UL UR ULm URm A a, common d g UL UR ULm URm = Ok (A, a) ->
  0 <= sound2 d g UL -> 0 <= sound2 d g UR -> 
  sqrt (sound2 d g UL) <= normal_speed d ULm vg n -> 
  exists F theta, hllep_flux d 0 g vg n UL UR ULm URm = Ok F /\ 0 <= theta <= 1 /\
    same_state d 0 F (scale_state theta (exact_flux d g vg n UL)).
Proof.
  intros d g vg n UL UR ULm URm A a EC H1 H2 H3. unfold hllep_flux. rewrite EC. cbn [bind].
  unfold rsqrt. destruct (Rle_dec 0 (sound2 d g UL)); [|lra]. destruct (Rle_dec 0 (sound2 d g UR)); [|lra]. cbn [bind].
  unfold hllep_speeds.
  set (SR := Rmax (Rabs _) _). assert (P : 0 <= SR) by (eapply Rle_trans; [apply Rabs_pos|apply Rmax_l]).
  set (SL := Rmin (Rabs _) _). assert (PL : 0 <= SL) by (apply Rmin_glb; [apply Rabs_pos|lra]).
  rewrite (Rmax_left SR 0) by lra. rewrite (Rmin_right SL 0) by lra. pose proof verySmall_pos as Vp.
  unfold signP. destruct (Rle_dec 0 (SR - 0)); [|lra]. rewrite Rmult_1_l, Rminus_0_r. cbn [Nat.eqb].
  unfold rdiv. destruct (Req_EM_T _ 0); [lra|]. cbn [bind].
  eexists _, (SR / (SR + verySmall)). split; [reflexivity|]. split.
  - split; [apply Rmult_le_pos; [auto|left; apply Rinv_0_lt_compat; lra]|].
    apply (Rmult_le_reg_r (SR + verySmall)); [lra|]. unfold Rdiv. rewrite Rmult_assoc, Rinv_l by lra. lra.
  - unfold same_state, scale_state. cbn [rho mom ene extra]. 
    replace (SR * 0 / (SR + verySmall)) with 0 by (field; lra).
    split; [rewrite !Rmult_0_l; field; lra|]. split; [intros; rewrite !Rmult_0_l; field; lra|].
    split; [rewrite !Rmult_0_l; field; lra|]. intros; lia.
Qed.

(** HLLEP_V1 *)
Lemma hllep_v1_upwind_right : forall d g vg n UL UR, g <> 1 ->
  0 < rho UL -> 0 < rho UR -> 0 < av_a2 (roe_average d g UL UR) ->
  0 <= sound2 d g UL -> 0 <= sound2 d g UR -> 0 < normal_speed d UR vg n + sqrt (sound2 d g UR) ->
  sqrt (sound2 d g UL) <= normal_speed d UL vg n ->
  exists F, hllep_flux d 1 g vg n UL UR UL UR = Ok F /\ same_state d 0 F (exact_flux d g vg n UL).
Proof.
  intros d g vg n UL UR Hg HL HR Ha2 H1 H2 H4 H3. pose proof (sqrt_lt_R0 _ Ha2) as Ha.
  set (A := roe_average d g UL UR) in *. unfold hllep_flux, common.
  destruct (Rlt_dec 0 (rho UL)) as [_|]; [|lra]. destruct (Rlt_dec 0 (rho UR)) as [_|]; [|lra].
  fold A. destruct (Rlt_dec 0 (av_a2 A)) as [_|]; [|lra]. cbn [bind].
  unfold rsqrt. destruct (Rle_dec 0 (sound2 d g UL)); [|lra]. destruct (Rle_dec 0 (sound2 d g UR)); [|lra]. cbn [bind].
  unfold hllep_speeds. set (v := dot d (av_v A) n - dot d vg n).
  set (SR := Rmax (Rabs _) _). assert (P : 0 < SR) by (eapply Rlt_le_trans; [exact H4|apply Rmax_r]).
  set (SL := Rmin (Rabs _) _). assert (PL : 0 <= SL) by (apply Rmin_glb; [apply Rabs_pos|lra]).
  rewrite (Rmax_left SR 0) by lra. rewrite (Rmin_right SL 0) by lra. cbn [Nat.eqb].
  unfold rdiv. destruct (Req_EM_T _ 0); [lra|]. cbn [bind].
  eexists. split; [reflexivity|].
  set (a := sqrt (av_a2 A)) in *. set (dl := a / (Rabs v + a + verySmall)).
  replace (((SR + 0) * (v - a) - 2 * (1 - 0) * (SR * 0)) / (SR - 0)) with (v - a) by (field; lra).
  replace (((SR + 0) * v - 2 * (1 - dl) * (SR * 0)) / (SR - 0)) with v by (field; lra).
  replace (((SR + 0) * (v + a) - 2 * (1 - 0) * (SR * 0)) / (SR - 0)) with (v + a) by (field; lra).
  pose proof (roe_property d g vg n UL UR HL HR Hg) as RP. cbv zeta in RP. fold A in RP.
  specialize (RP Ha2). destruct RP as (P1 & P2 & P3 & _). unfold same_state, central. cbn [rho mom ene extra].
  fold a v in P1, P2, P3.
  rewrite P1, P3. cbn [sub_state rho mom ene]. split; [lra|]. split; [|split; [lra|intros; lia]].
  intros i Hi. rewrite P2 by auto. cbn [sub_state mom]. lra.
Qed.
