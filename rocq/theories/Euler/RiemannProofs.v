From Coq Require Import Reals List Arith Lra Lia Psatz FunctionalExtensionality.
From Verif Require Import Base.Prelude Base.PreludeFacts Euler.GasModel Euler.GasSpec Euler.GasProofs
  Euler.CompressModel Euler.CompressProofs Euler.RiemannModel.
Local Open Scope R_scope.

Definition zero_state : state := {| rho := 0; mom := fun _ => 0; ene := 0; extra := fun _ => 0 |}.

Lemma sub_self : forall U, sub_state U U = zero_state.
Proof.
  intros U. unfold sub_state, zero_state. f_equal; try ring; apply functional_extensionality; intros; ring.
Qed.
Lemma dot_zero_l : forall d v, dot d (fun _ => 0) v = 0.
Proof. intros. unfold dot. rewrite (sumn_ext _ _ (fun _ => 0)) by (intros; ring). apply sumn_zero. Qed.

Lemma strength_t_zero : forall d n A, strength_t d n A zero_state = fun _ => 0.
Proof.
  intros. unfold strength_t. cbn [mom rho zero_state]. apply functional_extensionality. intros i.
  rewrite (dot_ext d _ n (fun _ => 0) n) by (intros; ring). rewrite dot_zero_l. ring.
Qed.
Lemma strength1_zero : forall d g n A, strength1 d g n A zero_state = 0.
Proof. intros. unfold strength1. rewrite strength_t_zero. cbn [mom rho ene zero_state]. rewrite !dot_zero_l. ring. Qed.
Lemma wave_sum_zero : forall d g n A a l0 l1 l4, wave_sum d g n A a zero_state l0 l1 l4 = zero_state.
Proof.
  intros. unfold wave_sum, strength4, strength0. rewrite strength1_zero, strength_t_zero. unfold zero_state. cbn [rho mom ene].
  rewrite !dot_zero_l. f_equal; unfold Rdiv; try ring.
  - apply functional_extensionality. intros. ring.
  - rewrite (dot_ext d _ (av_v A) (fun _ => 0) (av_v A)) by (intros; ring). rewrite dot_zero_l. ring.
Qed.
Lemma scale_zero : forall c, scale_state c zero_state = zero_state.
Proof. intros. unfold scale_state, zero_state. cbn. f_equal; try ring; apply functional_extensionality; intros; ring. Qed.
Lemma central_same : forall d F, same_state d 0 (central F F zero_state) F.
Proof.
  intros. unfold central, zero_state, same_state. cbn [rho mom ene extra]. split; [lra|]. split; [intros; lra|]. split; [lra|].
  intros; lia.
Qed.

Section SameStates.
Variables (d : nat) (g : R) (U : state).
Hypothesis Hr : 0 < rho U.
Hypothesis Hs : 0 < sound2 d g U.

Lemma sq_pos : 0 < sqrt (rho U).
Proof. apply sqrt_lt_R0. auto. Qed.
Lemma avg_v : av_v (roe_average d g U U) = velocity U.
Proof. pose proof sq_pos. cbn. apply functional_extensionality. intros i. field. lra. Qed.
Lemma avg_H : av_H (roe_average d g U U) = enthalpy d g U.
Proof. pose proof sq_pos. cbn. field. lra. Qed.
Lemma avg_a2 : av_a2 (roe_average d g U U) = sound2 d g U.
Proof.
  rewrite sound_enthalpy by lra. rewrite <- avg_H, <- avg_v. reflexivity.
Qed.
Lemma avg_rho : av_rho (roe_average d g U U) = rho U.
Proof. cbn. apply sqrt_sqrt. lra. Qed.
Lemma common_same : common d g U U U U = Ok (roe_average d g U U, sqrt (sound2 d g U)).
Proof.
  unfold common. destruct (Rlt_dec 0 (rho U)); [|lra]. rewrite avg_a2. destruct (Rlt_dec 0 (sound2 d g U)); [|lra]. reflexivity.
Qed.
Lemma rsqrt_same : rsqrt (sound2 d g U) = Ok (sqrt (sound2 d g U)).
Proof. unfold rsqrt. destruct (Rle_dec 0 (sound2 d g U)); [reflexivity|lra]. Qed.
Lemma normal_speed_val : forall V vg n, normal_speed d V vg n = dot d (velocity V) n - dot d vg n.
Proof. intros. unfold normal_speed. apply dot_sub_l. Qed.

Lemma roe_consistent : forall opt dL vg n, (opt <= 5)%nat ->
  exists F, roe_flux d opt g dL vg n U U U U = Ok F /\ same_state d 0 F (exact_flux d g vg n U).
Proof.
  intros opt dL vg n Ho. unfold roe_flux. rewrite common_same. cbn [bind]. rewrite sub_self.
  assert (S : exists l0 l1 l4, speeds opt (av_vv (roe_average d g U U)) (dot d (av_v (roe_average d g U U)) n - dot d vg n)
    (sqrt (sound2 d g U)) (normal_speed d U vg n) (normal_speed d U vg n) (sound2 d g U) (sound2 d g U) dL = Ok (l0, l1, l4)).
  { do 6 (destruct opt as [|opt]; [cbn; rewrite ?rsqrt_same; cbn; eauto|]). exfalso; lia. }
  destruct S as (l0 & l1 & l4 & E). rewrite E. cbn [bind]. rewrite scale_zero, wave_sum_zero.
  destruct (opt =? 2)%nat; eexists; split; try reflexivity; apply central_same.
Qed.

Lemma hllep_same : forall vg n, let a := sqrt (sound2 d g U) in let v := dot d (velocity U) n - dot d vg n in
  hllep_speeds v a (normal_speed d U vg n) (normal_speed d U vg n) a a = (Rabs (v + a), Rmin (v - a) 0).
Proof.
  intros vg n a v. unfold hllep_speeds. rewrite normal_speed_val. fold v. f_equal.
  - rewrite (Rmax_left (Rabs (v + a)) (v + a)) by apply Rle_abs. apply Rmax_left. apply Rabs_pos.
  - rewrite (Rmin_right (Rabs (v - a)) (v - a)) by apply Rle_abs. reflexivity.
Qed.
Lemma hllep_gap : forall a v, 0 < a -> 2 * a <= Rabs (v + a) - Rmin (v - a) 0.
Proof.
  intros a v Ha. pose proof (Rle_abs (v + a)). pose proof (Rabs_pos (v + a)).
  destruct (Rle_dec (v - a) 0); [rewrite Rmin_left by lra; lra|]. rewrite Rmin_right by lra. lra.
Qed.

Lemma hllep_v1_consistent : forall vg n,
  exists F, hllep_flux d 1 g vg n U U U U = Ok F /\ same_state d 0 F (exact_flux d g vg n U).
Proof.
  intros vg n. unfold hllep_flux. rewrite common_same. cbn [bind]. rewrite rsqrt_same. cbn [bind].
  rewrite avg_v, hllep_same. rewrite sub_self.
  pose proof (sqrt_lt_R0 _ Hs) as Ha. pose proof (hllep_gap _ (dot d (velocity U) n - dot d vg n) Ha) as G.
  cbn [Nat.eqb]. unfold rdiv at 1. destruct (Req_EM_T _ 0); [lra|]. cbn [bind]. rewrite wave_sum_zero.
  eexists; split; [reflexivity|]. apply central_same.
Qed.

(** the regularised division loses at most one part in [2 a / verySmall] *)
Lemma hllep_consistent : forall vg n,
  exists F theta, hllep_flux d 0 g vg n U U U U = Ok F /\
    1 - verySmall / (2 * sqrt (sound2 d g U)) <= theta <= 1 /\
    same_state d 0 F (scale_state theta (exact_flux d g vg n U)).
Proof.
  intros vg n. unfold hllep_flux. rewrite common_same. cbn [bind]. rewrite rsqrt_same. cbn [bind].
  rewrite avg_v, hllep_same. rewrite sub_self.
  pose proof (sqrt_lt_R0 _ Hs) as Ha. set (a := sqrt (sound2 d g U)) in *.
  set (v := dot d (velocity U) n - dot d vg n). pose proof (hllep_gap a v Ha) as G.
  set (SP := Rabs (v + a)) in *. set (SM := Rmin (v - a) 0) in *. pose proof verySmall_pos as Vp.
  unfold signP. destruct (Rle_dec 0 (SP - SM)); [|lra]. rewrite Rmult_1_l.
  cbn [Nat.eqb]. unfold rdiv. destruct (Req_EM_T _ 0); [lra|]. cbn [bind].
  exists {| rho := (SP * rho (exact_flux d g vg n U) - SM * rho (exact_flux d g vg n U)) / (SP - SM + verySmall) +
                   SP * SM / (SP - SM + verySmall) * (rho U - rho U - a / (a + Rabs v) * 1 * strength1 d g n (roe_average d g U U) zero_state);
            mom := fun i => (SP * mom (exact_flux d g vg n U) i - SM * mom (exact_flux d g vg n U) i) / (SP - SM + verySmall) +
                   SP * SM / (SP - SM + verySmall) * (mom U i - mom U i - a / (a + Rabs v) * velocity U i * strength1 d g n (roe_average d g U U) zero_state);
            ene := (SP * ene (exact_flux d g vg n U) - SM * ene (exact_flux d g vg n U)) / (SP - SM + verySmall) +
                   SP * SM / (SP - SM + verySmall) * (ene U - ene U - a / (a + Rabs v) * (av_vv (roe_average d g U U) * (1/2)) * strength1 d g n (roe_average d g U U) zero_state);
            extra := fun _ => 0 |}.
  exists ((SP - SM) / (SP - SM + verySmall)). split; [reflexivity|]. split.
  - set (D := SP - SM) in *. assert (0 < D + verySmall) by lra. split.
    + replace (D / (D + verySmall)) with (1 - verySmall / (D + verySmall)) by (field; lra).
      apply Rplus_le_compat_l. apply Ropp_le_contravar. apply Rmult_le_compat_l; [lra|]. apply Rinv_le_contravar; lra.
    + apply (Rmult_le_reg_r (D + verySmall)); [lra|]. unfold Rdiv. rewrite Rmult_assoc, Rinv_l by lra. lra.
  - rewrite strength1_zero. unfold same_state, scale_state. cbn [rho mom ene extra]. 
    assert (a + Rabs v <> 0) by (pose proof (Rabs_pos v); lra).
    split; [field; lra|]. split; [intros; field; lra|]. split; [field; lra|]. intros; lia.
Qed.

Lemma mom_dot : forall V n, rho V <> 0 -> dot d (mom V) n = rho V * dot d (velocity V) n.
Proof. intros V n H. rewrite <- dot_scal_l. apply dot_ext; auto. intros. unfold velocity. field. auto. Qed.

Lemma pressure_pos : 1 < g -> 0 < pressure d g U.
Proof.
  intros Hg. assert (E : pressure d g U = sound2 d g U * rho U / g).
  { unfold sound2, th_asqr, pressure. field. lra. }
  rewrite E. apply Rmult_lt_0_compat; [nra|]. apply Rinv_0_lt_compat. lra.
Qed.

Lemma hllc_star_same : forall vg n s, dot d vg n = 0 -> s <> 0 -> 
  same_state d 0 (hllc_star U (exact_flux d g vg n U) n (dot d (velocity U) n + s) (dot d (velocity U) n)
                   (pressure d g U) (dot d (velocity U) n)) (exact_flux d g vg n U).
Proof.
  intros vg n s Hg Hn. unfold hllc_star. destruct (Rlt_dec _ _).
  - split; [auto|]. split; [auto|]. split; [auto|]. intros; lia.
  - unfold exact_flux, flux. rewrite dot_sub_l, Hg. set (u := dot d (velocity U) n). set (p := pressure d g U).
    unfold same_state. cbn [rho mom ene extra].
    split; [field; lra|]. split; [intros; field; lra|]. split; [field; lra|]. intros; lia.
Qed.

Lemma hllc_consistent : forall vg n, 1 < g -> verySmall < 2 * rho U * sqrt (sound2 d g U) -> dot d vg n = 0 ->
  exists F, hllc_flux d g vg n U U U U = Ok F /\ same_state d 0 F (exact_flux d g vg n U).
Proof.
  intros vg n Hg1 Hv Hg. pose proof (pressure_pos Hg1) as Hp. unfold hllc_flux. rewrite common_same. cbn [bind].
  unfold hllc_outer, hllc_contact. rewrite rsqrt_same. rewrite normal_speed_val, Hg, Rminus_0_r, mom_dot by lra.
  pose proof (hllc_star_same vg n) as HS.
  set (F := exact_flux d g vg n U) in *. 
  set (u := dot d (velocity U) n) in *. set (a := sqrt (sound2 d g U)) in *. set (p := pressure d g U) in *.
  pose proof (sqrt_lt_R0 _ Hs) as Ha. fold a in Ha.
  assert (Q : forall q, hllc_q g p (Rmax 0 (1/2 * (p + p) - 1/2 * (u - u) * q * a)) = Ok 1).
  { intros q. unfold hllc_q. replace (1/2 * (p + p) - 1/2 * (u - u) * q * a) with p by field.
    rewrite Rmax_right by lra. destruct (Rle_dec p p); [reflexivity|lra]. }
  cbn [bind]. rewrite Q. cbn [bind]. rewrite !Rmult_1_r.
  assert (RF : same_state d 0 F F) by (split; [auto|]; split; [auto|]; split; [auto|]; intros; lia).
  destruct (Rle_dec 0 (u - a)); [eauto|]. destruct (Rle_dec (u + a) 0); [eauto|].
  replace (rho U * (u - a - u) - rho U * (u + a - u)) with (- (2 * rho U * a)) by ring.
  rewrite Rabs_Ropp, Rabs_right by nra. destruct (Rlt_dec verySmall (2 * rho U * a)); [|lra].
  match goal with |- context [Rle_dec 0 ?x] => replace x with u end.
  2:{ field. nra. }
  destruct (Rle_dec 0 u); eexists; (split; [reflexivity|]).
  - replace (u - a) with (u + - a) by ring. apply HS; auto. lra.
  - apply HS; auto. lra.
Qed.
End SameStates.

(** ** Swapping the sides *)

Lemma average_swap : forall d g UL UR, 0 < rho UL -> 0 < rho UR -> roe_average d g UR UL = roe_average d g UL UR.
Proof.
  intros d g UL UR H1 H2. pose proof (sqrt_lt_R0 _ H1). pose proof (sqrt_lt_R0 _ H2). unfold roe_average.
  assert (E : (fun i => (sqrt (rho UR) * velocity UR i + sqrt (rho UL) * velocity UL i) / (sqrt (rho UR) + sqrt (rho UL)))
    = (fun i => (sqrt (rho UL) * velocity UL i + sqrt (rho UR) * velocity UR i) / (sqrt (rho UL) + sqrt (rho UR)))).
  { apply functional_extensionality. intros. field. lra. }
  rewrite E. 
  assert (EH : (sqrt (rho UR) * enthalpy d g UR + sqrt (rho UL) * enthalpy d g UL) / (sqrt (rho UR) + sqrt (rho UL))
    = (sqrt (rho UL) * enthalpy d g UL + sqrt (rho UR) * enthalpy d g UR) / (sqrt (rho UL) + sqrt (rho UR))) by (field; lra).
  rewrite EH. f_equal. ring.
Qed.

Lemma dot_opp : forall d u n, dot d u (opp n) = - dot d u n.
Proof. intros. apply dot_opp_r. Qed.

Lemma flux_opp : forall d g vg n U, exact_flux d g vg (opp n) U = opp_state (exact_flux d g vg n U).
Proof.
  intros. unfold exact_flux, flux, opp_state, scale_state. cbn [rho mom ene extra]. rewrite !dot_opp. unfold opp.
  f_equal; try ring; apply functional_extensionality; intros; ring.
Qed.

Lemma sub_swap : forall U V, sub_state V U = opp_state (sub_state U V).
Proof.
  intros. unfold sub_state, opp_state, scale_state. cbn [rho mom ene extra].
  f_equal; try ring; apply functional_extensionality; intros; ring.
Qed.

Lemma strength_t_opp : forall d n A W, strength_t d (opp n) A (opp_state W) = fun i => - strength_t d n A W i.
Proof.
  intros. unfold strength_t, opp_state, scale_state. cbn [rho mom]. apply functional_extensionality. intros i.
  rewrite dot_opp. unfold opp.
  rewrite (dot_ext d (fun j => -1 * mom W j - -1 * rho W * av_v A j) n (fun j => (-1) * (mom W j - rho W * av_v A j)) n) by (intros; ring).
  rewrite dot_scal_l. ring.
Qed.
Lemma dot_opp_l : forall d u n, dot d (fun i => - u i) n = - dot d u n.
Proof. intros. rewrite dot_comm, dot_opp_r, dot_comm. auto. Qed.
Lemma dot_mom_opp : forall d n W, dot d (mom (opp_state W)) (opp n) = dot d (mom W) n.
Proof.
  intros. rewrite dot_opp. unfold opp_state, scale_state. cbn [mom]. rewrite dot_scal_l. ring.
Qed.
Lemma strength1_opp : forall d g n A W, strength1 d g (opp n) A (opp_state W) = - strength1 d g n A W.
Proof.
  intros. unfold strength1. rewrite strength_t_opp, dot_mom_opp, dot_opp, dot_opp_l. 
  unfold opp_state, scale_state. cbn [rho ene]. ring.
Qed.
Lemma strength0_opp : forall d g n A a W, a <> 0 -> strength0 d g (opp n) A a (opp_state W) = - strength4 d g n A a W.
Proof.
  intros. unfold strength4, strength0. rewrite strength1_opp, dot_mom_opp, dot_opp. 
  unfold opp_state, scale_state. cbn [rho ene]. field. auto.
Qed.
Lemma strength4_opp : forall d g n A a W, a <> 0 -> strength4 d g (opp n) A a (opp_state W) = - strength0 d g n A a W.
Proof.
  intros. unfold strength4. rewrite strength0_opp, strength1_opp by auto. unfold strength4. 
  unfold opp_state, scale_state. cbn [rho ene]. ring.
Qed.
Lemma wave_sum_swap : forall d g n A a W l0 l1 l4, a <> 0 ->
  wave_sum d g (opp n) A a (opp_state W) l4 l1 l0 = opp_state (wave_sum d g n A a W l0 l1 l4).
Proof.
  intros. unfold wave_sum. rewrite strength0_opp, strength1_opp, strength_t_opp, strength4_opp, !dot_opp by auto.
  unfold opp_state, scale_state. cbn [rho mom ene extra]. f_equal; try ring.
  - apply functional_extensionality. intros. unfold opp. ring.
  - rewrite (dot_ext d (fun i => - strength_t d n A W i * l1) (av_v A) (fun i => (- 1) * (strength_t d n A W i * l1)) (av_v A)) by (intros; ring).
    rewrite dot_scal_l. ring.
  - apply functional_extensionality. intros. ring.
Qed.

Lemma central_swap : forall FL FR I, central (opp_state FR) (opp_state FL) (opp_state I) = opp_state (central FL FR I).
Proof.
  intros. unfold central, opp_state, scale_state. cbn [rho mom ene extra]. 
  f_equal; try field; apply functional_extensionality; intros; field.
Qed.

Lemma Rabs_swap : forall x y, Rabs (- x - y) = Rabs (x + y).
Proof. intros. replace (- x - y) with (- (x + y)) by ring. apply Rabs_Ropp. Qed.
Lemma Rabs_swap' : forall x y, Rabs (- x + y) = Rabs (x - y).
Proof. intros. replace (- x + y) with (- (x - y)) by ring. apply Rabs_Ropp. Qed.
Lemma signTol_opp : forall x t, 0 <= t -> signTol (- x) t = - signTol x t.
Proof.
  intros. unfold signTol. repeat match goal with |- context [Rlt_dec ?a ?b] => destruct (Rlt_dec a b) end; lra.
Qed.

Lemma rsqrt_pos : forall x y, rsqrt x = Ok y -> 0 <= y.
Proof. intros x y H. unfold rsqrt in H. destruct (Rle_dec 0 x); [|discriminate]. injection H as <-. apply sqrt_pos. Qed.

Lemma speeds_swap : forall opt vv v a vL vR aL2 aR2 dL l0 l1 l4, 0 <= a ->
  speeds opt vv v a vL vR aL2 aR2 dL = Ok (l0, l1, l4) ->
  speeds opt vv (- v) a (- vR) (- vL) aR2 aL2 dL = Ok (l4, l1, l0).
Proof.
  intros opt vv v a vL vR aL2 aR2 dL l0 l1 l4 Ha H. pose proof smallR_pos as Sp.
  destruct opt as [|[|[|[|[|[|opt]]]]]]; cbn in *; try discriminate.
  - injection H as <- <- <-. rewrite Rabs_Ropp, Rabs_swap, Rabs_swap'. reflexivity.
  - inv_bind. cbn in *. repeat match goal with E : rsqrt _ = Ok _ |- _ => pose proof (rsqrt_pos _ _ E); rewrite E; clear E end. cbn.
    subst. rewrite !signTol_opp by nra. rewrite !Rabs_Ropp, !Ropp_mult_distr_l_reverse, !Rabs_swap, !Rabs_swap', !Rabs_Ropp.
    apply f_equal, f_equal2; [apply f_equal2|]; apply Rmax_comm.
  - inv_bind. cbn in *. repeat match goal with E : rsqrt _ = Ok _ |- _ => rewrite E; clear E end. cbn.
    subst. rewrite !Rabs_Ropp. apply f_equal, f_equal2; [apply f_equal2|]; apply Rmax_comm.
  - injection H as <- <- <-. rewrite !Rabs_Ropp, Rabs_swap, Rabs_swap'. reflexivity.
  - injection H as <- <- <-. rewrite signTol_opp by nra. rewrite !Rabs_Ropp, !Ropp_mult_distr_l_reverse, Rabs_swap, Rabs_swap', Rabs_Ropp. reflexivity.
  - inv_bind. cbn in *. repeat match goal with E : rsqrt _ = Ok _ |- _ => rewrite E; clear E end. cbn.
    subst. rewrite !Rabs_Ropp, !Rabs_swap, !Rabs_swap'. apply f_equal, f_equal2; [apply f_equal2|]; apply Rmax_comm.
Qed.

Lemma common_swap : forall d g UL UR ULm URm A a, common d g UL UR ULm URm = Ok (A, a) ->
  common d g UR UL URm ULm = Ok (A, a) /\ 0 < a.
Proof.
  intros d g UL UR ULm URm A a H. unfold common in *.
  destruct (Rlt_dec 0 (rho UL)); [|discriminate]. destruct (Rlt_dec 0 (rho UR)); [|discriminate].
  destruct (Rlt_dec 0 (rho ULm)); [|discriminate]. destruct (Rlt_dec 0 (rho URm)); [|discriminate].
  rewrite (average_swap d g ULm URm) by auto. destruct (Rlt_dec 0 (av_a2 _)); [|discriminate].
  split; [auto|]. injection H as <- <-. apply sqrt_lt_R0. auto.
Qed.

Lemma roe_swap : forall d opt g dL vg n UL UR ULm URm F,
  roe_flux d opt g dL vg n UL UR ULm URm = Ok F ->
  roe_flux d opt g dL vg (opp n) UR UL URm ULm = Ok (opp_state F).
Proof.
  intros d opt g dL vg n UL UR ULm URm F H. unfold roe_flux in *. inv_bind.
  match goal with E : common _ _ _ _ _ _ = Ok ?y |- _ => destruct y as (A & a); rename E into EC end. inv_bind.
  match goal with E : speeds _ _ _ _ _ _ _ _ _ = Ok ?y |- _ => destruct y as ((l0 & l1) & l4); rename E into ES end.
  destruct (common_swap _ _ _ _ _ _ _ _ EC) as (EC' & Ha). rewrite EC'. cbn [bind].
  apply speeds_swap in ES; [|lra].
  rewrite !normal_speed_val, !dot_opp. rewrite !normal_speed_val in ES.
  replace (- dot d (av_v A) n - - dot d vg n) with (- (dot d (av_v A) n - dot d vg n)) by ring.
  replace (- dot d (velocity URm) n - - dot d vg n) with (- (dot d (velocity URm) n - dot d vg n)) by ring.
  replace (- dot d (velocity ULm) n - - dot d vg n) with (- (dot d (velocity ULm) n - dot d vg n)) by ring.
  rewrite ES. cbn [bind]. rewrite !flux_opp, (sub_swap UR UL).
  destruct (opt =? 2)%nat eqn:E2.
  - injection H as <-. f_equal. rewrite <- central_swap. f_equal. 
    assert (l0 = l4).
    { apply Nat.eqb_eq in E2. subst opt. cbn in ES. inv_bind. congruence. }
    subst l4. unfold scale_state, opp_state, scale_state. cbn. f_equal; try ring; apply functional_extensionality; intros; ring.
  - injection H as <-. f_equal. rewrite <- central_swap. f_equal. apply wave_sum_swap. lra.
Qed.
