(** The numerical fluxes seen from another frame: turned and moving. *)
From Coq Require Import Reals List Arith Lra Lia FunctionalExtensionality.
From Verif Require Import Base.Prelude Euler.GasModel Euler.GasSpec Euler.GasProofs Euler.CompressModel Euler.RiemannModel
  Euler.RiemannSpec Euler.RiemannProofs Euler.JacobianProofs Euler.BndModel Euler.BndSpec Euler.BndFlux Euler.BndWall
  Euler.RiemannFrameSpec.
Import ListNotations.
Local Open Scope R_scope.


(** *** turning *)
Section Turn.
Variables (d : nat) (Q : vec -> vec).
Hypothesis QL : linear Q.
Hypothesis QI : forall u v, dot d (Q u) (Q v) = dot d u v.

Definition turn_avg (A : roe_avg) : roe_avg :=
  {| av_v := Q (av_v A); av_vv := av_vv A; av_H := av_H A; av_a2 := av_a2 A; av_rho := av_rho A |}.
Lemma vturn : forall U, velocity (turn Q U) = Q (velocity U).
Proof. intros. unfold velocity, turn. cbn. symmetry. apply linear_div. auto. Qed.
Lemma pturn : forall g U, pressure d g (turn Q U) = pressure d g U.
Proof. intros. unfold pressure, sqnorm. rewrite vturn, QI. reflexivity. Qed.
Lemma sturn : forall g U, sound2 d g (turn Q U) = sound2 d g U.
Proof. intros. unfold sound2, sqnorm. rewrite vturn, QI. reflexivity. Qed.
Lemma hturn : forall g U, enthalpy d g (turn Q U) = enthalpy d g U.
Proof. intros. unfold enthalpy, sqnorm. rewrite vturn, QI. reflexivity. Qed.
Lemma nturn : forall U vg n, normal_speed d (turn Q U) (Q vg) (Q n) = normal_speed d U vg n.
Proof. intros. unfold normal_speed. rewrite vturn, <- linear_sub, QI by auto. reflexivity. Qed.
Lemma fturn : forall g vg n U, exact_flux d g (Q vg) (Q n) (turn Q U) = turn Q (exact_flux d g vg n U).
Proof.
  intros. unfold exact_flux. rewrite pturn, vturn. unfold flux.
  rewrite <- linear_sub, !QI by auto. apply state_eq; cbn; auto.
  symmetry. set (wn := dot d (fun i => velocity U i - vg i) n).
  replace (fun i => mom U i * wn + pressure d g U * n i) with (fun i => wn * mom U i + pressure d g U * n i) by (fe; ring).
  rewrite QL. fe. ring.
Qed.
Lemma aturn : forall g UL UR, roe_average d g (turn Q UL) (turn Q UR) = turn_avg (roe_average d g UL UR).
Proof.
  intros. unfold roe_average, turn_avg. rewrite !vturn, !hturn. cbn [rho turn with_mom av_v av_vv av_H av_a2 av_rho].
  set (sl := sqrt (rho UL)). set (sr := sqrt (rho UR)).
  assert (E : (fun i => (sl * Q (velocity UL) i + sr * Q (velocity UR) i) / (sl + sr)) =
    Q (fun i => (sl * velocity UL i + sr * velocity UR i) / (sl + sr))).
  { rewrite linear_div, QL by auto. reflexivity. }
  rewrite E. unfold sqnorm. rewrite QI. reflexivity.
Qed.
Lemma tturn : forall n A W, strength_t d (Q n) (turn_avg A) (turn Q W) = Q (strength_t d n A W).
Proof.
  intros. unfold strength_t. cbn [turn with_mom mom rho turn_avg av_v].
  assert (E : (fun i => Q (mom W) i - rho W * Q (av_v A) i) = Q (fun i => mom W i - rho W * av_v A i)).
  { rewrite linear_sub, linear_scal by auto. reflexivity. }
  rewrite E, QI. set (c := dot d _ n).
  replace (fun i => mom W i - rho W * av_v A i - n i * c) with (fun i => (mom W i - rho W * av_v A i) - c * n i) by (fe; ring).
  rewrite linear_sub, linear_scal by auto. rewrite <- E. fe. ring.
Qed.
Lemma s1turn : forall g n A W, strength1 d g (Q n) (turn_avg A) (turn Q W) = strength1 d g n A W.
Proof.
  intros. unfold strength1. rewrite tturn. cbn [turn with_mom mom rho ene turn_avg av_v av_a2 av_H]. rewrite !QI. reflexivity.
Qed.
Lemma s0turn : forall g n A a W, strength0 d g (Q n) (turn_avg A) a (turn Q W) = strength0 d g n A a W.
Proof.
  intros. unfold strength0. rewrite s1turn. cbn [turn with_mom mom rho ene turn_avg av_v av_a2 av_H]. rewrite !QI. reflexivity.
Qed.
Lemma s4turn : forall g n A a W, strength4 d g (Q n) (turn_avg A) a (turn Q W) = strength4 d g n A a W.
Proof. intros. unfold strength4. rewrite s1turn, s0turn. reflexivity. Qed.
Lemma wturn : forall g n A a W l0 l1 l4,
  wave_sum d g (Q n) (turn_avg A) a (turn Q W) l0 l1 l4 = turn Q (wave_sum d g n A a W l0 l1 l4).
Proof.
  intros. unfold wave_sum. rewrite s0turn, s1turn, s4turn, tturn.
  set (a0 := strength0 d g n A a W * l0). set (a1 := strength1 d g n A W * l1). set (a4 := strength4 d g n A a W * l4).
  assert (T : (fun i => Q (strength_t d n A W) i * l1) = Q (fun i => strength_t d n A W i * l1)).
  { replace (fun i => strength_t d n A W i * l1) with (fun i => l1 * strength_t d n A W i) by (fe; ring).
    rewrite linear_scal by auto. fe. ring. }
  apply state_eq; cbn [rho mom ene extra turn with_mom turn_avg av_v av_H av_vv]; auto.
  - replace (fun i => (av_v A i - a * n i) * a0 + (av_v A i + a * n i) * a4 + av_v A i * a1 + strength_t d n A W i * l1)
      with (fun i => 1 * ((a0 + a4 + a1) * av_v A i + (a * (a4 - a0)) * n i) + l1 * strength_t d n A W i) by (fe; ring).
    rewrite QL, QL. fe. ring.
  - rewrite T, !QI. reflexivity.
Qed.
Lemma cturn : forall F G I, central (turn Q F) (turn Q G) (turn Q I) = turn Q (central F G I).
Proof.
  intros. apply state_eq; cbn; auto.
  replace (fun i => (mom F i + mom G i) * (1/2) - 1/2 * mom I i) with (fun i => (1/2) * (mom F i + mom G i) - 1/2 * mom I i) by (fe; ring).
  rewrite linear_sub, !linear_scal, linear_add by auto. fe. ring.
Qed.
Lemma subturn : forall U V, sub_state (turn Q U) (turn Q V) = turn Q (sub_state U V).
Proof. intros. apply state_eq; cbn; auto. rewrite linear_sub by auto. reflexivity. Qed.
Lemma scturn : forall c U, scale_state c (turn Q U) = turn Q (scale_state c U).
Proof. intros. apply state_eq; cbn; auto. rewrite linear_scal by auto. reflexivity. Qed.

Lemma comturn : forall g UL UR ULm URm, common d g (turn Q UL) (turn Q UR) (turn Q ULm) (turn Q URm) =
  res_map (fun Aa => (turn_avg (fst Aa), snd Aa)) (common d g UL UR ULm URm).
Proof.
  intros. unfold common. rewrite aturn. cbn [rho turn with_mom turn_avg av_a2].
  repeat (destruct (Rlt_dec _ _); [|reflexivity]). reflexivity.
Qed.

Lemma roe_turn : forall opt g dL vg n UL UR ULm URm,
  roe_flux d opt g dL (Q vg) (Q n) (turn Q UL) (turn Q UR) (turn Q ULm) (turn Q URm) =
  res_map (turn Q) (roe_flux d opt g dL vg n UL UR ULm URm).
Proof.
  intros. unfold roe_flux. rewrite comturn. destruct (common _ _ _ _ _ _) as [[A a]| |]; try reflexivity. cbn [bind res_map fst snd].
  rewrite !fturn, !nturn, !sturn. cbn [turn_avg av_v av_vv]. rewrite !QI.
  destruct (speeds _ _ _ _ _ _ _ _ _) as [[[l0 l1] l4]| |]; try reflexivity. cbn [bind].
  rewrite subturn. fold (turn_avg A). destruct (opt =? 2)%nat; cbn [res_map].
  - rewrite scturn, cturn. reflexivity.
  - rewrite wturn, cturn. reflexivity.
Qed.
Lemma hllep_turn : forall ty g vg n UL UR ULm URm,
  hllep_flux d ty g (Q vg) (Q n) (turn Q UL) (turn Q UR) (turn Q ULm) (turn Q URm) =
  res_map (turn Q) (hllep_flux d ty g vg n UL UR ULm URm).
Proof.
  intros. unfold hllep_flux. rewrite comturn. destruct (common _ _ _ _ _ _) as [[A a]| |]; try reflexivity. cbn [bind res_map fst snd].
  rewrite !fturn, !nturn, !sturn. destruct (rsqrt (sound2 d g UL)) as [aL| |]; try reflexivity.
  destruct (rsqrt (sound2 d g UR)) as [aR| |]; try reflexivity. cbn [bind].
  rewrite subturn, s1turn. cbn [turn_avg av_v av_vv]. rewrite !QI. fold (turn_avg A).
  destruct (hllep_speeds _ _ _ _ _ _) as [SP SM]. destruct (ty =? 0)%nat.
  - destruct (rdiv _ _) as [r| |]; try reflexivity. cbn [bind res_map]. f_equal.
    apply state_eq; cbn [rho mom ene extra turn with_mom]; auto. symmetry.
    set (FL := exact_flux d g vg n UL). set (FR := exact_flux d g vg n UR). set (D := SP - SM + _). set (a1 := strength1 _ _ _ _ _).
    set (K := a / (a + Rabs _)).
    replace (fun i => (SP * mom FL i - SM * mom FR i) / D + SP * SM / D * (mom UR i - mom UL i - K * av_v A i * a1))
      with (fun i => 1 * (SP / D * mom FL i + - (SM / D) * mom FR i) + SP * SM / D * ((1 * mom UR i + -1 * mom UL i) - K * a1 * av_v A i))
      by (fe; unfold Rdiv; ring).
    rewrite QL, QL, linear_sub, QL, linear_scal by auto. fe. unfold Rdiv. ring.
  - destruct (rdiv _ _) as [r| |]; try reflexivity. cbn [bind res_map].
    rewrite wturn, cturn. reflexivity.
Qed.
Lemma star_turn : forall U F n s SS p v, hllc_star (turn Q U) (turn Q F) (Q n) s SS p v = turn Q (hllc_star U F n s SS p v).
Proof.
  intros. unfold hllc_star. destruct (Rlt_dec _ _); [reflexivity|]. apply state_eq; cbn [rho mom ene extra turn with_mom]; auto.
  set (k := (p + _) * s). set (D := s - SS).
  replace (fun i => ((mom U i * s - mom F i) * SS + n i * k) / D) with
    (fun i => SS / D * (s * mom U i + -1 * mom F i) + k / D * n i) by (fe; unfold Rdiv; ring).
  rewrite QL, QL. fe. unfold Rdiv. ring.
Qed.
Lemma hllc_turn : forall g vg n UL UR ULm URm,
  hllc_flux d g (Q vg) (Q n) (turn Q UL) (turn Q UR) (turn Q ULm) (turn Q URm) =
  res_map (turn Q) (hllc_flux d g vg n UL UR ULm URm).
Proof.
  intros. unfold hllc_flux. rewrite comturn. destruct (common _ _ _ _ _ _) as [[A a]| |]; try reflexivity. cbn [bind res_map fst snd].
  unfold hllc_outer. rewrite !nturn, !pturn, !sturn. cbn [turn_avg av_rho].
  match goal with |- bind ?x _ = res_map _ (bind ?y _) => destruct y as [[SL SR]| |] end; try reflexivity.
  cbn [bind]. rewrite !fturn. destruct (Rle_dec 0 SL); [reflexivity|]. destruct (Rle_dec SR 0); [reflexivity|].
  assert (C : hllc_contact d g (Q vg) (Q n) (turn Q UL) (turn Q UR) (turn Q ULm) (turn Q URm) SL SR = hllc_contact d g vg n UL UR ULm URm SL SR).
  { unfold hllc_contact. rewrite !nturn, !pturn. cbn [rho mom turn with_mom]. rewrite !QI. reflexivity. }
  rewrite C. destruct (Rle_dec 0 _); rewrite star_turn; reflexivity.
Qed.
Lemma flux_turn : forall t g dL vg n UL UR ULm URm,
  numerical_flux d t g dL (Q vg) (Q n) (turn Q UL) (turn Q UR) (turn Q ULm) (turn Q URm) =
  res_map (turn Q) (numerical_flux d t g dL vg n UL UR ULm URm).
Proof. intros. destruct t; first [apply roe_turn | apply hllep_turn | apply hllc_turn]. Qed.
End Turn.

(** *** moving *)
Section Move.
Variables (d : nat) (w n : vec).
Hypothesis Hn : sqnorm d n = 1.
Let add_w (vg : vec) : vec := fun i => vg i + w i.

Lemma nboost : forall U vg, rho U <> 0 -> normal_speed d (boost d w U) (add_w vg) n = normal_speed d U vg n.
Proof. intros. unfold normal_speed, add_w. rewrite velocity_boost by auto. apply dot_ext; auto. intros. ring. Qed.
Lemma comboost : forall g UL UR ULm URm, common d g (boost d w UL) (boost d w UR) (boost d w ULm) (boost d w URm) =
  res_map (fun Aa => (boost_avg d w (fst Aa), snd Aa)) (common d g UL UR ULm URm).
Proof.
  intros. unfold common. cbn [rho boost].
  destruct (Rlt_dec _ _); [|reflexivity]. destruct (Rlt_dec _ _); [|reflexivity].
  destruct (Rlt_dec _ _); [|reflexivity]. destruct (Rlt_dec _ _); [|reflexivity].
  rewrite average_boost by auto.
  change (av_a2 (boost_avg d w (roe_average d g ULm URm))) with (av_a2 (roe_average d g ULm URm)).
  destruct (Rlt_dec _ _); reflexivity.
Qed.
Lemma com_inv : forall g UL UR ULm URm A a, common d g UL UR ULm URm = Ok (A, a) ->
  0 < rho UL /\ 0 < rho UR /\ 0 < rho ULm /\ 0 < rho URm /\ A = roe_average d g ULm URm /\ 0 < av_a2 A /\ a = sqrt (av_a2 A).
Proof.
  intros g UL UR ULm URm A a H. unfold common in H. repeat (destruct (Rlt_dec _ _); [|discriminate]).
  assert (EA : A = roe_average d g ULm URm) by congruence.
  assert (Ea : a = sqrt (av_a2 (roe_average d g ULm URm))) by congruence. subst. auto 10.
Qed.
Lemma avg_dot : forall A vg, dot d (av_v (boost_avg d w A)) n - dot d (add_w vg) n = dot d (av_v A) n - dot d vg n.
Proof. intros. unfold add_w. cbn [av_v boost_avg]. dots. ring. Qed.

Lemma roe_boost : forall opt g dL vg UL UR ULm URm, opt <> 0%nat ->
  roe_flux d opt g dL (add_w vg) n (boost d w UL) (boost d w UR) (boost d w ULm) (boost d w URm) =
  res_map (boost d w) (roe_flux d opt g dL vg n UL UR ULm URm).
Proof.
  intros opt g dL vg UL UR ULm URm Ho. unfold roe_flux. rewrite comboost.
  destruct (common _ _ _ _ _ _) as [[A a]| |] eqn:C; try reflexivity. cbn [bind res_map fst snd].
  destruct (com_inv _ _ _ _ _ _ _ C) as (P1 & P2 & P3 & P4 & EA & PA & Ea).
  rewrite avg_dot, !nboost, !sound2_boost by lra.
  replace (speeds opt (av_vv (boost_avg d w A))) with (speeds opt (av_vv A)).
  2:{ unfold speeds. destruct opt as [|[|[|[|[|[|]]]]]]; [congruence|reflexivity..]. }
  destruct (speeds _ _ _ _ _ _ _ _ _) as [[[l0 l1] l4]| |]; try reflexivity. cbn [bind].
  unfold add_w. rewrite !flux_boost, sub_boost by lra. destruct (opt =? 2)%nat; cbn [res_map].
  - rewrite scale_boost, central_boost. reflexivity.
  - assert (Na : a <> 0) by (subst a; apply Rgt_not_eq, sqrt_lt_R0; auto).
    rewrite wave_boost; auto; try lra; try (subst A; reflexivity). 
    rewrite central_boost. reflexivity.
Qed.
Lemma hllep_boost : forall ty g vg UL UR ULm URm,
  hllep_flux d ty g (add_w vg) n (boost d w UL) (boost d w UR) (boost d w ULm) (boost d w URm) =
  res_map (boost d w) (hllep_flux d ty g vg n UL UR ULm URm).
Proof.
  intros ty g vg UL UR ULm URm. unfold hllep_flux. rewrite comboost.
  destruct (common _ _ _ _ _ _) as [[A a]| |] eqn:C; try reflexivity. cbn [bind res_map fst snd].
  destruct (com_inv _ _ _ _ _ _ _ C) as (P1 & P2 & P3 & P4 & EA & PA & Ea).
  assert (Na : a <> 0) by (subst a; apply Rgt_not_eq, sqrt_lt_R0; auto).
  assert (N2 : av_a2 A <> 0) by lra.
  assert (Vv : av_vv A = sqnorm d (av_v A)) by (subst A; reflexivity).
  assert (A2 : av_a2 A = (g - 1) * (av_H A - 1/2 * av_vv A)) by (subst A; reflexivity).
  rewrite avg_dot, !nboost, !sound2_boost by lra.
  destruct (rsqrt (sound2 d g UL)) as [aL| |]; try reflexivity.
  destruct (rsqrt (sound2 d g UR)) as [aR| |]; try reflexivity. cbn [bind].
  destruct (hllep_speeds _ _ _ _ _ _) as [SP SM]. rewrite sub_boost. unfold add_w. rewrite !flux_boost by lra.
  destruct (ty =? 0)%nat.
  - destruct (rdiv _ _) as [r| |] eqn:RD; try reflexivity. cbn [bind res_map]. f_equal.
    assert (S1 : strength1 d g n (boost_avg d w A) (boost d w (sub_state UR UL)) = strength1 d g n A (sub_state UR UL)).
    { pose proof (wave_boost d g n A a w (sub_state UR UL) 0 1 0 Na N2 Vv Hn A2) as K. apply (f_equal rho) in K. cbn in K. lra. }
    rewrite S1. set (a1 := strength1 _ _ _ _ _). set (D := SP - SM + _). set (K := a / (a + Rabs _)).
    set (FL := exact_flux d g vg n UL). set (FR := exact_flux d g vg n UR).
    assert (ND : D <> 0).
    { unfold rdiv in RD. destruct (Req_EM_T _ 0) as [|X] in RD; [discriminate|exact X]. }
    apply state_eq; cbn [rho mom ene extra boost]; auto.
    + fe. cbn [av_v boost_avg]. field. exact ND.
    + cbn [av_vv boost_avg]. rewrite sqnorm_add, Vv.
      rewrite (dot_ext d (fun i => (SP * mom FL i - SM * mom FR i) / D + SP * SM / D * (mom UR i - mom UL i - K * av_v A i * a1)) w
        (fun i => (SP / D * mom FL i - SM / D * mom FR i) + SP * SM / D * (mom UR i - mom UL i - K * a1 * av_v A i)) w)
        by (intros; try reflexivity; unfold Rdiv; ring).
      dots. field. exact ND.
  - destruct (rdiv _ _) as [r| |]; try reflexivity. cbn [bind res_map].
    rewrite wave_boost, central_boost by auto. reflexivity.
Qed.
Lemma flux_move : forall t g dL vg UL UR ULm URm, In t [Roe_M1; Roe_M2; Roe_M3; Roe_M4; Roe_M5; HLLEP; HLLEP_V1] ->
  numerical_flux d t g dL (add_w vg) n (boost d w UL) (boost d w UR) (boost d w ULm) (boost d w URm) =
  res_map (boost d w) (numerical_flux d t g dL vg n UL UR ULm URm).
Proof.
  intros t g dL vg UL UR ULm URm H. cbn in H.
  repeat destruct H as [<-|H]; try contradiction; first [apply roe_boost; discriminate | apply hllep_boost].
Qed.
End Move.

(** *** Roe with the fix of Harten and Yee: its threshold is the speed of the observer *)
From Verif Require Import Euler.RiemannCases Euler.RiemannUpwind Euler.RiemannFinal.
Definition along (W : R) : vec := fun i => if (i =? 1)%nat then W else 0.
Definition hit : state := gas_x 1 (40/79) (5/7).
Definition back : state := gas_x 1 (-(40/79)) (5/7).
Definition hitA : roe_avg := avg1 (40/79) (-(40/79)) (7/2 * (5/7) + 40/79 * (40/79) / 2) (7/2 * (5/7) + -(40/79) * -(40/79) / 2).

Lemma hit_common : common 2 air hit back hit back = Ok (hitA, 81/79).
Proof.
  unfold hit, back. rewrite (common1 _ _ _ _ (81/79 * (81/79))) by (cbn; lra). rewrite sqrt_square by lra. reflexivity.
Qed.
Lemma hit_wave : forall l0 l1 l4,
  mom (wave_sum 2 air ex hitA (81/79) (sub_state back hit) l0 l1 l4) 0%nat = - (40/79) * (l0 + l4).
Proof.
  intros. unfold wave_sum, strength4, strength0, strength1, strength_t. rewrite !dot_ex.
  unfold dot, ex, hitA. cbn. field.
Qed.
Lemma hit_speed : forall W, exists l1, 0 <= W ->
  speeds 0 (W * W) 0 (81/79) 0 0 0 0 0 = Ok (harten_yee (5/100 * (W + 81/79)) (81/79), l1, harten_yee (5/100 * (W + 81/79)) (81/79)).
Proof.
  intros. exists (Rabs 0). intros HW. unfold speeds, scaleHartenYee. rewrite sqrt_square by auto. rewrite Rmax_left by lra.
  rewrite Rminus_0_l, Rplus_0_l, Rabs_Ropp, (Rabs_right (81/79)) by lra. reflexivity.
Qed.

Lemma hit_flux : forall W, 0 <= W -> exists F,
  roe_flux 2 0 air 0 (fun i => still i + along W i) ex (boost 2 (along W) hit) (boost 2 (along W) back)
    (boost 2 (along W) hit) (boost 2 (along W) back) = Ok (boost 2 (along W) F) /\
  mom F 0%nat = 5/7 + 40/79 * (40/79) + 40/79 * harten_yee (5/100 * (W + 81/79)) (81/79).
Proof.
  intros W HW. unfold roe_flux. rewrite comboost, hit_common. cbn [res_map bind fst snd].
  rewrite avg_dot. 
  assert (V : av_vv (boost_avg 2 (along W) hitA) = W * W).
  { cbn [av_vv boost_avg]. unfold sqnorm, dot, hitA, along. cbn. field. }
  rewrite V, !nboost, !sound2_boost by (cbn; lra).
  assert (D0 : dot 2 (av_v hitA) ex - dot 2 still ex = 0) by (rewrite !dot_ex; unfold hitA, still; cbn; field).
  rewrite D0. destruct (hit_speed W) as [l1 HS].
  match goal with |- context [speeds 0 (W * W) 0 (81/79) ?x1 ?x2 ?x3 ?x4 0] =>
    change (speeds 0 (W * W) 0 (81/79) x1 x2 x3 x4 0) with (speeds 0 (W * W) 0 (81/79) 0 0 0 0 0) end.
  rewrite HS by auto. cbn [bind Nat.eqb].
  rewrite !flux_boost, sub_boost by (cbn; lra).
  rewrite wave_boost; [| lra | cbn; lra | unfold sqnorm, dot, hitA; cbn; field | unfold sqnorm; rewrite dot_ex; reflexivity | cbn; unfold air; field ].
  rewrite central_boost. eexists. split; [reflexivity|]. 
  unfold central. cbn [mom]. rewrite hit_wave.
  unfold exact_flux, flux. cbn [mom]. unfold hit, back. rewrite !gx_p, !dot_ex, !gx_vel by lra. unfold still. cbn. field.
Qed.

Lemma roe_moving : exists w vg n UL UR F F', dot 2 n n = 1 /\
  numerical_flux 2 Roe air 0 vg n UL UR UL UR = Ok F /\
  numerical_flux 2 Roe air 0 (fun i => vg i + w i) n (boost 2 w UL) (boost 2 w UR) (boost 2 w UL) (boost 2 w UR) = Ok F' /\
  mom F' 0%nat <> mom (boost 2 w F) 0%nat.
Proof.
  destruct (hit_flux 0 ltac:(lra)) as (F & E & M). destruct (hit_flux 100 ltac:(lra)) as (F' & E' & M').
  assert (Z : along 0 = fun _ => 0) by (fe; unfold along; destruct (_ =? _)%nat; reflexivity).
  rewrite Z, !boost_zero in E.
  exists (along 100), still, ex, hit, back, F, (boost 2 (along 100) F').
  split; [rewrite dot_ex; reflexivity|]. split; [|split].
  - cbn [numerical_flux]. rewrite <- E. f_equal. fe. unfold still. ring.
  - exact E'.
  - cbn [mom boost]. unfold along. cbn [Nat.eqb]. rewrite M, M'. unfold harten_yee.
    destruct (Rlt_dec _ (5/100 * (100 + 81/79))); [|lra]. destruct (Rlt_dec _ (5/100 * (0 + 81/79))); [lra|].
    apply Rgt_not_eq. assert (81/79 < (81/79 * (81/79) + 5/100 * (100 + 81/79) * (5/100 * (100 + 81/79))) / (2 * (5/100 * (100 + 81/79)))) by lra.
    lra.
Qed.

Lemma hllc_frame : exists w vg n U F F', dot 2 n n = 1 /\
  numerical_flux 2 HLLC air 0 vg n U U U U = Ok F /\
  numerical_flux 2 HLLC air 0 (fun i => vg i + w i) n (boost 2 w U) (boost 2 w U) (boost 2 w U) (boost 2 w U) = Ok F' /\
  ene F' <> ene (boost 2 w F).
Proof.
  destruct hllc_moving as (F' & E' & N).
  assert (B : boost 2 half_x (gas_x 1 (-(1/2)) (5/7)) = rest).
  { apply state_eq; cbn; auto; [|unfold dot, sqnorm, dot, half_x; cbn; field].
    apply functional_extensionality. intros [|i]; unfold half_x; cbn; field. }
  assert (A2 : sound2 2 air (gas_x 1 (-(1/2)) (5/7)) = 1) by (rewrite gx_a2 by lra; field).
  destruct (consistent_hllc 2 air 0 still ex (gas_x 1 (-(1/2)) (5/7))) as (F & E & S).
  { split; [cbn; lra|rewrite A2; lra]. }
  { unfold air. lra. }
  { rewrite A2, sqrt_1. cbn [rho gas_x]. unfold verySmall.
    assert (/ 10 ^ 200 < 1); [|lra]. rewrite <- Rinv_1. apply Rinv_lt_contravar; [|apply Rlt_pow_R1; [lra|lia]].
    rewrite Rmult_1_l. apply pow_lt. lra. }
  { apply dot_still. }
  exists half_x, still, ex, (gas_x 1 (-(1/2)) (5/7)), F, F'. split; [rewrite dot_ex; reflexivity|]. split; [exact E|].
  assert (H : (fun i => still i + half_x i) = half_x) by (fe; unfold still; ring).
  rewrite B, H. split; [exact E'|]. intros C. apply N. rewrite C.
  replace (exact_flux 2 air half_x ex rest) with
    (exact_flux 2 air (fun i => still i + half_x i) ex (boost 2 half_x (gas_x 1 (-(1/2)) (5/7)))) by (rewrite B, H; reflexivity).
  rewrite flux_boost by (cbn; lra).
  destruct S as (S1 & S2 & S3 & _). cbn [ene boost]. rewrite S1, S3. f_equal. f_equal.
  apply dot_ext; auto.
Qed.

(** ... and it is not used when no sound wave is slow *)
Lemma roe_no_fix : forall d g dL w vg n UL UR ULm URm, sqnorm d n = 1 ->
  no_slow_wave d dL vg n (roe_average d g ULm URm) ->
  no_slow_wave d dL (fun i => vg i + w i) n (roe_average d g (boost d w ULm) (boost d w URm)) ->
  numerical_flux d Roe g dL (fun i => vg i + w i) n (boost d w UL) (boost d w UR) (boost d w ULm) (boost d w URm) =
  res_map (boost d w) (numerical_flux d Roe g dL vg n UL UR ULm URm).
Proof.
  intros d g dL w vg n UL UR ULm URm Hn (S1 & S2) (T1 & T2). cbn [numerical_flux]. unfold roe_flux. rewrite comboost.
  destruct (common _ _ _ _ _ _) as [[A a]| |] eqn:C; try reflexivity. cbn [bind res_map fst snd].
  destruct (com_inv _ _ _ _ _ _ _ _ C) as (P1 & P2 & P3 & P4 & EA & PA & Ea).
  rewrite average_boost in T1, T2 by auto. rewrite <- EA in *. 
  assert (Na : a <> 0) by (subst a; apply Rgt_not_eq, sqrt_lt_R0; auto).
  assert (N2 : av_a2 A <> 0) by lra.
  rewrite avg_dot in T1, T2. change (av_a2 (boost_avg d w A)) with (av_a2 A) in T1, T2. rewrite <- Ea in *.
  unfold fix_width in *. cbn [Nat.eqb] in *. change (av_a2 (boost_avg d w A)) with (av_a2 A) in T1, T2. rewrite <- Ea in *.
  rewrite avg_dot. unfold speeds, harten_yee.
  repeat (destruct (Rlt_dec _ _); [lra|]). cbn [bind Nat.eqb res_map].
  rewrite !flux_boost, sub_boost by lra. rewrite wave_boost; auto; try (subst A; reflexivity).
  rewrite central_boost. reflexivity.
Qed.

Lemma isometry_turn : forall d Q t g dL vg n UL UR ULm URm, isometry d Q ->
  numerical_flux d t g dL (Q vg) (Q n) (turn Q UL) (turn Q UR) (turn Q ULm) (turn Q URm) =
  res_map (turn Q) (numerical_flux d t g dL vg n UL UR ULm URm).
Proof. intros d Q t g dL vg n UL UR ULm URm (QL & QI). apply flux_turn; auto. Qed.
Definition quarter (v : vec) : vec := fun i => match i with 0%nat => - v 1%nat | 1%nat => v 0%nat | S (S _) => 0 end.
Lemma quarter_iso : isometry 2 quarter.
Proof. split; [intros a b u v; apply functional_extensionality; intros [|[|i]]; cbn; ring|]. intros. unfold dot, quarter. cbn. ring. Qed.
Lemma quarter_case : exists F, numerical_flux 2 Roe air 0 (quarter still) (quarter ex) (turn quarter hit) (turn quarter back) (turn quarter hit) (turn quarter back) = Ok F /\
  mom F 1%nat = 5/7 + 40/79 * (40/79) + 40/79 * (81/79).
Proof.
  destruct (hit_flux 0 ltac:(lra)) as (F & E & M).
  assert (Z : along 0 = fun _ => 0) by (fe; unfold along; destruct (_ =? _)%nat; reflexivity).
  rewrite Z, !boost_zero in E. exists (turn quarter F).
  rewrite isometry_turn by apply quarter_iso. cbn [numerical_flux].
  replace still with (fun i => still i + 0) by (fe; unfold still; ring). rewrite E. split; [reflexivity|].
  cbn. rewrite M. unfold harten_yee. destruct (Rlt_dec _ _); lra.
Qed.
Lemma slow_case : no_slow_wave 2 0 still ex hitA /\ no_slow_wave 2 0 (fun i => still i + along 1 i) ex (boost_avg 2 (along 1) hitA).
Proof.
  unfold no_slow_wave, fix_width. rewrite !avg_dot. cbn [Nat.eqb].
  assert (D0 : dot 2 (av_v hitA) ex - dot 2 still ex = 0) by (rewrite !dot_ex; unfold hitA, still; cbn; field).
  assert (V : av_vv (boost_avg 2 (along 1) hitA) = 1 * 1) by (cbn [av_vv boost_avg]; unfold sqnorm, dot, hitA, along; cbn; field).
  assert (V0 : av_vv hitA = 0 * 0) by (cbn; field).
  assert (A2 : av_a2 hitA = 81/79 * (81/79)) by (cbn; field).
  change (av_a2 (boost_avg 2 (along 1) hitA)) with (av_a2 hitA). rewrite V, V0, A2, D0, !sqrt_square by lra.
  rewrite Rminus_0_l, Rplus_0_l, Rabs_Ropp, (Rabs_right (81/79)) by lra. unfold scaleHartenYee.
  rewrite !Rmax_left by lra. lra.
Qed.
Lemma moving_case : exists F, In Roe_M4 [Roe_M1; Roe_M2; Roe_M3; Roe_M4; Roe_M5; HLLEP; HLLEP_V1] /\ sqnorm 2 ex = 1 /\
  numerical_flux 2 Roe_M4 air 0 still ex hit back hit back = Ok F.
Proof.
  cbn [numerical_flux]. unfold roe_flux. rewrite hit_common. cbn [bind speeds Nat.eqb]. eexists. split; [cbn; auto 10|].
  split; [unfold sqnorm; rewrite dot_ex; reflexivity|]. reflexivity.
Qed.
