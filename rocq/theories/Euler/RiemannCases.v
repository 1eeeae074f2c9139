(** Concrete states used by the counterexamples and the non-vacuity examples of the
    numerical fluxes. *)
From Coq Require Import Reals List Arith Lra Lia Psatz FunctionalExtensionality.
From Verif Require Import Base.Prelude Base.PreludeFacts Euler.GasModel Euler.GasSpec Euler.GasProofs
  Euler.CompressModel Euler.CompressProofs Euler.RiemannModel Euler.RiemannSpec Euler.RiemannProofs Euler.RiemannUpwind.
Local Open Scope R_scope.

Definition air : R := 7 / 5.
Definition gas_x (r u p : R) : state :=
  {| rho := r; mom := fun i => if (i =? 0)%nat then r * u else 0; ene := p / (2/5) + r * u * u / 2; extra := fun _ => 0 |}.
Definition still : vec := fun _ => 0.

Lemma gx_vel : forall r u p, r <> 0 -> velocity (gas_x r u p) = fun i => if (i =? 0)%nat then u else 0.
Proof. intros. unfold velocity, gas_x. cbn [rho mom]. apply functional_extensionality. intros [|i]; cbn; field; auto. Qed.
Lemma gx_p : forall r u p, r <> 0 -> pressure 2 air (gas_x r u p) = p.
Proof. intros. unfold pressure. rewrite gx_vel by auto. unfold th_p, sqnorm, dot, air. cbn. field. Qed.
Lemma gx_a2 : forall r u p, r <> 0 -> sound2 2 air (gas_x r u p) = 7/5 * p / r.
Proof. intros. unfold sound2, th_asqr. fold (pressure 2 air (gas_x r u p)). rewrite gx_p by auto. cbn [rho gas_x]. unfold air. field. auto. Qed.
Lemma gx_H : forall r u p, r <> 0 -> enthalpy 2 air (gas_x r u p) = 7/2 * p / r + u * u / 2.
Proof. intros. unfold enthalpy, th_H. fold (pressure 2 air (gas_x r u p)). rewrite gx_p by auto. cbn [rho ene gas_x]. field. auto. Qed.
Lemma dot_ex : forall v, dot 2 v ex = v 0%nat.
Proof. intros. unfold dot, ex. cbn. ring. Qed.
Lemma dot_still : forall d n, dot d still n = 0.
Proof. intros. apply dot_zero_l. Qed.

Ltac sq x y := let H := fresh in assert (H : sqrt x = y) by (replace x with (y * y) by lra; apply sqrt_square; lra); rewrite ?H.

(** *** the Roe averages of two states of density one *)
Definition avg1 (uL uR HL HR : R) : roe_avg :=
  {| av_v := fun i => if (i =? 0)%nat then (uL + uR) / 2 else 0;
     av_vv := ((uL + uR) / 2) * ((uL + uR) / 2); av_H := (HL + HR) / 2;
     av_a2 := 2/5 * ((HL + HR) / 2 - 1/2 * (((uL + uR) / 2) * ((uL + uR) / 2))); av_rho := 1 |}.
Lemma avg1_ok : forall uL uR pL pR,
  roe_average 2 air (gas_x 1 uL pL) (gas_x 1 uR pR) = avg1 uL uR (7/2 * pL + uL * uL / 2) (7/2 * pR + uR * uR / 2).
Proof.
  intros. unfold roe_average. rewrite !gx_vel, !gx_H by lra. cbn [rho gas_x]. rewrite sqrt_1.
  assert (E : (fun i : nat => (1 * (if (i =? 0)%nat then uL else 0) + 1 * (if (i =? 0)%nat then uR else 0)) / (1 + 1)) =
    fun i => if (i =? 0)%nat then (uL + uR) / 2 else 0).
  { apply functional_extensionality. intros [|i]; cbn; field. }
  rewrite E. unfold avg1, sqnorm, dot, air. cbn [sumn Nat.eqb]. f_equal; field.
Qed.

Lemma common1 : forall uL uR pL pR a2, a2 = av_a2 (avg1 uL uR (7/2 * pL + uL * uL / 2) (7/2 * pR + uR * uR / 2)) -> 0 < a2 ->
  common 2 air (gas_x 1 uL pL) (gas_x 1 uR pR) (gas_x 1 uL pL) (gas_x 1 uR pR) =
  Ok (avg1 uL uR (7/2 * pL + uL * uL / 2) (7/2 * pR + uR * uR / 2), sqrt a2).
Proof.
  intros uL uR pL pR a2 E H. unfold common. rewrite avg1_ok, <- E. cbn [rho gas_x].
  destruct (Rlt_dec 0 1); [|lra]. destruct (Rlt_dec 0 a2); [reflexivity|lra].
Qed.

Lemma ns1 : forall u p vg, normal_speed 2 (gas_x 1 u p) vg ex = u - vg 0%nat.
Proof. intros. rewrite normal_speed_val, !dot_ex, gx_vel by lra. reflexivity. Qed.
Lemma ns1' : forall u p vg, normal_speed 2 (gas_x 1 u p) vg (opp ex) = - (u - vg 0%nat).
Proof. intros. rewrite normal_speed_val, !dot_opp, !dot_ex, gx_vel by lra. cbn. ring. Qed.

(** *** 1: HLLC, gas at rest, face moving *)
Definition half_x : vec := fun i => if (i =? 0)%nat then 1/2 else 0.
Definition rest : state := gas_x 1 0 (5/7).

Lemma hllc_moving : exists F, hllc_flux 2 air half_x ex rest rest rest rest = Ok F /\
  ene F <> ene (exact_flux 2 air half_x ex rest).
Proof.
  unfold hllc_flux, rest. rewrite (common1 _ _ _ _ 1) by (cbn; lra). rewrite sqrt_1. cbn [bind].
  unfold hllc_outer. rewrite ns1, !gx_p, !gx_a2 by lra. cbn [half_x Nat.eqb av_rho avg1].
  unfold rsqrt. destruct (Rle_dec 0 (7/5 * (5/7) / 1)); [|lra]. cbn [bind].
  unfold hllc_q. rewrite Rmax_right by lra. destruct (Rle_dec _ (5/7)); [|lra]. cbn [bind].
  sq (7/5 * (5/7) / 1) 1. destruct (Rle_dec 0 _); [lra|]. destruct (Rle_dec (0 - 1/2 + 1 * 1) 0); [lra|].
  unfold hllc_contact. rewrite ns1, !gx_p, !dot_ex by lra. cbn [half_x Nat.eqb rho mom gas_x].
  assert (HV : verySmall < 1).
  { unfold verySmall. rewrite <- Rinv_1. apply Rinv_lt_contravar; [|apply Rlt_pow_R1; [lra|lia]].
    rewrite Rmult_1_l. apply pow_lt. lra. }
  destruct (Rlt_dec verySmall _) as [_|X].
  2:{ exfalso. apply X. match goal with |- _ < Rabs ?x => replace x with (- (2)) by lra end. rewrite Rabs_Ropp, Rabs_right; lra. }
  match goal with |- context [Rle_dec 0 ?x] => replace x with (-(1/2)) by field end.
  destruct (Rle_dec 0 (-(1/2))); [lra|]. eexists; split; [reflexivity|].
  unfold hllc_star. destruct (Rlt_dec (Rabs _) verySmall) as [X|_].
  { exfalso. rewrite Rabs_right in X by lra. lra. }
  unfold exact_flux, flux. rewrite gx_p, !dot_ex, gx_vel by lra. cbn [half_x rho mom ene gas_x Nat.eqb].
  replace (0 - 1/2 + 1 * 1 - - (1/2)) with 1 by lra. apply Rlt_not_eq. lra.
Qed.

(** *** 2: HLLC, two streams meeting head on *)
Definition east : state := gas_x 1 10 (5/7).
Definition west : state := gas_x 1 (-10) (5/7).

Lemma hllc_collide : exists F F', hllc_flux 2 air still ex east west east west = Ok F /\
  hllc_flux 2 air still (opp ex) west east west east = Ok F' /\ rho F' <> - rho F.
Proof.
  exists (exact_flux 2 air still ex east), (exact_flux 2 air still (opp ex) west).
  assert (S21 : 1 < sqrt 21) by (rewrite <- sqrt_1 at 1; apply sqrt_lt_1_alt; lra).
  split; [|split].
  - unfold hllc_flux, east, west. rewrite (common1 _ _ _ _ 21) by (cbn; lra). cbn [bind].
    unfold hllc_outer. rewrite !ns1, !gx_p, !gx_a2 by lra. unfold still. cbn [av_rho avg1].
    unfold rsqrt. destruct (Rle_dec 0 (7/5 * (5/7) / 1)); [|lra]. cbn [bind].
    unfold hllc_q. rewrite Rmax_left by lra. destruct (Rle_dec 0 (5/7)); [|lra]. cbn [bind].
    sq (7/5 * (5/7) / 1) 1. destruct (Rle_dec 0 _); [reflexivity|lra].
  - unfold hllc_flux, east, west. rewrite (common1 _ _ _ _ 21) by (cbn; lra). cbn [bind].
    unfold hllc_outer. rewrite !ns1', !gx_p, !gx_a2 by lra. unfold still. cbn [av_rho avg1].
    unfold rsqrt. destruct (Rle_dec 0 (7/5 * (5/7) / 1)); [|lra]. cbn [bind].
    unfold hllc_q. rewrite Rmax_left by lra. destruct (Rle_dec 0 (5/7)); [|lra]. cbn [bind].
    sq (7/5 * (5/7) / 1) 1. destruct (Rle_dec 0 _); [reflexivity|lra].
  - unfold exact_flux, flux, east, west. cbn [rho]. rewrite dot_opp, !dot_ex, !gx_vel by lra. cbn. lra.
Qed.

(** *** 3: HLLEP, supersonic flow to the left *)
Definition wl : state := gas_x 1 (-10) (5/7).
Definition wr : state := gas_x 1 (-10) 35.

Lemma wl_wr_common : common 2 air wl wr wl wr = Ok (avg1 (-10) (-10) (7/2 * (5/7) + (-10) * (-10) / 2) (7/2 * 35 + (-10) * (-10) / 2), 5).
Proof. unfold wl, wr. rewrite (common1 _ _ _ _ 25) by (cbn; lra). sq 25 5. reflexivity. Qed.

Lemma strength_w : strength1 2 air ex (avg1 (-10) (-10) (7/2 * (5/7) + (-10) * (-10) / 2) (7/2 * 35 + (-10) * (-10) / 2)) (sub_state wr wl) = -(48/35).
Proof. unfold strength1, strength_t, dot, wl, wr, ex, air. cbn. field. Qed.

Lemma hllep_left_flux : exists F, hllep_flux 2 0 air still ex wl wr wl wr = Ok F /\ rho F < -10.
Proof.
  pose proof verySmall_pos as Vp.
  assert (HV : verySmall < 1/10).
  { unfold verySmall. replace (1/10) with (/ 10 ^ 1) by (simpl; field). apply Rinv_lt_contravar.
    - apply Rmult_lt_0_compat; apply pow_lt; lra.
    - apply Rlt_pow; [lra|lia]. }
  unfold hllep_flux. rewrite wl_wr_common. cbn [bind]. rewrite strength_w.
  unfold wl, wr. rewrite !gx_a2 by lra. unfold rsqrt. destruct (Rle_dec 0 (7/5 * (5/7) / 1)); [|lra].
  destruct (Rle_dec 0 (7/5 * 35 / 1)); [|lra].
  cbn [bind]. sq (7/5 * (5/7) / 1) 1. sq (7/5 * 35 / 1) 7. unfold hllep_speeds. rewrite !ns1, !dot_ex.
  unfold still. cbn [avg1 av_v Nat.eqb].
  replace ((-10 + -10) / 2 - 0) with (-10) by field.
  replace (-10 - 5) with (-15) by lra. replace (-10 + 5) with (-5) by lra.
  assert (A15 : Rabs (-15) = 15) by (rewrite <- Rabs_Ropp, Rabs_right; lra).
  assert (A5 : Rabs (-5) = 5) by (rewrite <- Rabs_Ropp, Rabs_right; lra).
  assert (A10 : Rabs (-10) = 10) by (rewrite <- Rabs_Ropp, Rabs_right; lra).
  rewrite A15, A5, A10. replace (-10 - 0 - 1) with (-11) by lra. replace (-10 - 0 + 7) with (-3) by lra.
  rewrite (Rmax_left 5 (-3)), (Rmin_right 15 (-11)), (Rmax_left 5 0), (Rmin_left (-11) 0) by lra.
  unfold signP. destruct (Rle_dec 0 (5 - -11)); [|lra].
  unfold rdiv. destruct (Req_EM_T _ 0); [lra|]. cbn [bind].
  eexists. split; [reflexivity|]. cbn [rho].
  unfold exact_flux, flux. cbn [rho gas_x]. rewrite !dot_ex, !gx_vel by lra. cbn [Nat.eqb].
  set (D := 5 - -11 + 1 * verySmall). assert (HD : 16 < D < 16 + 1/10) by (unfold D; lra).
  apply (Rmult_lt_reg_r D); [lra|]. 
  match goal with |- ?x * D < _ => replace (x * D) with (-160 + 5 * -11 * (5 / 15 * (48/35))) by (field; lra) end. lra.
Qed.

Lemma hllep_left : exists F F', hllep_flux 2 0 air still ex wl wr wl wr = Ok F /\ rho F < -10 /\
  rho (exact_flux 2 air still ex wr) = -10 /\
  hllep_flux 2 0 air still (opp ex) wr wl wr wl = Ok F' /\ 0 <= rho F' <= 10.
Proof.
  destruct hllep_left_flux as (F & E1 & E2). exists F.
  destruct (common_swap _ _ _ _ _ _ _ _ wl_wr_common) as (EC & _).
  destruct (hllep_upwind_right 2 air still (opp ex) wr wl wr wl _ _ EC) as (F' & th & E3 & Ht & (S1 & _)).
  - unfold wr. rewrite gx_a2; lra.
  - unfold wl. rewrite gx_a2; lra.
  - unfold wr. rewrite gx_a2, ns1' by lra. sq (7/5 * 35 / 1) 7. unfold still. lra.
  - exists F'. split; [auto|]. split; [auto|]. split.
    { unfold exact_flux, flux, wr. cbn [rho]. rewrite !dot_ex, !gx_vel by lra. unfold still. cbn. lra. }
    split; [auto|]. rewrite S1. unfold exact_flux, flux, wr, scale_state. cbn [rho]. rewrite !dot_opp, !dot_ex, !gx_vel by lra. unfold still. cbn. lra.
Qed.

(** *** 4: options 1, 2 and 5, supersonic flow to the right *)
Definition el : state := gas_x 1 10 (5/7).
Definition er : state := gas_x 1 10 35.
Definition eavg : roe_avg := avg1 10 10 (7/2 * (5/7) + 10 * 10 / 2) (7/2 * 35 + 10 * 10 / 2).
Lemma el_er_common : common 2 air el er el er = Ok (eavg, 5).
Proof. unfold el, er. rewrite (common1 _ _ _ _ 25) by (cbn; lra). sq 25 5. reflexivity. Qed.

Lemma e_strengths : strength1 2 air ex eavg (sub_state er el) = -(48/35) /\
  strength0 2 air ex eavg 5 (sub_state er el) = 24/35 /\ strength4 2 air ex eavg 5 (sub_state er el) = 24/35.
Proof.
  unfold strength4, strength0, strength1, strength_t, dot, el, er, ex, air, eavg. cbn. split; [field|split; field].
Qed.

Lemma lax_not_upwind : forall dL, exists F, roe_flux 2 2 air dL still ex el er el er = Ok F /\
  ene F <> ene (exact_flux 2 air still ex el).
Proof.
  intros dL. unfold roe_flux. rewrite el_er_common. cbn [bind]. unfold el, er. rewrite !gx_a2, !ns1 by lra. cbn [speeds].
  unfold rsqrt. destruct (Rle_dec 0 (7/5 * (5/7) / 1)); [|lra]. destruct (Rle_dec 0 (7/5 * 35 / 1)); [|lra].
  cbn [bind]. sq (7/5 * (5/7) / 1) 1. sq (7/5 * 35 / 1) 7. unfold still. replace (10 - 0) with 10 by lra. rewrite Rabs_right, Rmax_right by lra.
  cbn [Nat.eqb]. eexists; split; [reflexivity|].
  unfold central, exact_flux, flux, sub_state, scale_state. cbn [rho mom ene]. rewrite !gx_p, !dot_ex, !gx_vel by lra.
  cbn [gas_x ene Nat.eqb]. apply Rlt_not_eq. lra.
Qed.

Lemma cllf_not_upwind : forall dL opt, (opt = 1 \/ opt = 5)%nat -> exists F, roe_flux 2 opt air dL still ex el er el er = Ok F /\
  rho F <> rho (exact_flux 2 air still ex el).
Proof.
  intros dL opt Ho.
  assert (Sm : smallR < 1) by (unfold smallR; rewrite <- Rinv_1; apply Rinv_lt_contravar; simpl; lra).
  assert (S : speeds opt (av_vv eavg) (dot 2 (av_v eavg) ex - dot 2 still ex) 5 (normal_speed 2 el still ex) (normal_speed 2 er still ex)
     (sound2 2 air el) (sound2 2 air er) dL = Ok (9, 10, 17)).
  { unfold el, er. rewrite !gx_a2, !ns1 by lra. unfold still. replace (10 - 0) with 10 by lra.
    destruct Ho as [-> | ->]; cbn [speeds]; unfold rsqrt; (destruct (Rle_dec 0 (7/5 * (5/7) / 1)); [|lra]); (destruct (Rle_dec 0 (7/5 * 35 / 1)); [|lra]);
      cbn [bind]; sq (7/5 * (5/7) / 1) 1; sq (7/5 * 35 / 1) 7; unfold scaleLD; rewrite (Rabs_right 10) by lra.
    - unfold signTol. pose proof smallR_pos. destruct (Rlt_dec (1 * smallR) 10); [|lra]. destruct (Rlt_dec (7 * smallR) 10); [|lra].
      rewrite !(Rmax_left 10 (_ * (2/10))) by lra. rewrite !Rabs_right by lra.
      rewrite (Rmax_left (1 * 10 - 1)), (Rmax_left (1 * 10) (1 * 10)), (Rmax_right (1 * 10 + 1)) by lra. apply f_equal, f_equal2; [apply f_equal2|]; lra.
    - rewrite !(Rmin_left _ (10 / (2/10))) by lra. rewrite !Rabs_right by lra.
      rewrite (Rmax_left (10 - 1)), (Rmax_left 10 10), (Rmax_right (10 + 1)) by lra. apply f_equal, f_equal2; [apply f_equal2|]; lra. }
  unfold roe_flux. rewrite el_er_common. cbn [bind]. rewrite S. cbn [bind].
  assert (E2 : (opt =? 2)%nat = false) by (destruct Ho as [-> | ->]; reflexivity). rewrite E2.
  eexists; split; [reflexivity|]. destruct e_strengths as (T1 & T0 & T4).
  unfold central, wave_sum. cbn [rho]. rewrite T1, T0, T4.
  unfold exact_flux, flux, el, er. cbn [rho mom ene]. rewrite !dot_ex, !gx_vel by lra. cbn [gas_x rho Nat.eqb]. unfold still.
  apply Rlt_not_eq. lra.
Qed.

(** *** the hypotheses of the positive theorems are met *)
Lemma roe_right_case : forall opt, (opt = 0 \/ opt = 3 \/ opt = 4)%nat ->
  0 < av_a2 (roe_average 2 air el er) /\
  fix_width opt (roe_average 2 air el er) 0 <=
    dot 2 (av_v (roe_average 2 air el er)) ex - dot 2 still ex - sqrt (av_a2 (roe_average 2 air el er)).
Proof.
  intros opt Ho. unfold el, er. rewrite avg1_ok. fold eavg.
  assert (E : av_a2 eavg = 25) by (cbn; lra). assert (E' : av_vv eavg = 100) by (cbn; lra). rewrite E. split; [lra|].
  unfold fix_width. rewrite E, E'. sq 25 5. sq 100 10. rewrite dot_still, dot_ex. unfold scaleHartenYee.
  replace (av_v eavg 0%nat) with 10 by (cbn; field).
  destruct (opt =? 0)%nat; [|lra]. apply Rmax_lub; lra.
Qed.

Lemma rest_ok : 0 < rho rest /\ 0 < sound2 2 air rest /\ dot 2 ex ex = 1.
Proof. unfold rest. rewrite gx_a2, dot_ex by lra. cbn. lra. Qed.
Lemma east_west_ok : 0 < rho east /\ 0 < rho west /\ 0 < sound2 2 air east /\ 0 < sound2 2 air west.
Proof. unfold east, west. rewrite !gx_a2 by lra. cbn. lra. Qed.
Lemma wl_wr_ok : 0 < rho wl /\ 0 < rho wr /\ 0 < sound2 2 air wl /\ 0 < sound2 2 air wr /\
  normal_speed 2 wl still ex + sqrt (sound2 2 air wl) < 0 /\ normal_speed 2 wr still ex + sqrt (sound2 2 air wr) < 0.
Proof.
  unfold wl, wr. rewrite !gx_a2, !ns1 by lra. sq (7/5 * (5/7) / 1) 1. sq (7/5 * 35 / 1) 7. unfold still. cbn. lra.
Qed.
Lemma el_er_ok : 0 < rho el /\ 0 < rho er /\ 0 < sound2 2 air el /\ 0 < sound2 2 air er /\
  0 < normal_speed 2 el still ex - sqrt (sound2 2 air el) /\ 0 < normal_speed 2 er still ex - sqrt (sound2 2 air er).
Proof.
  unfold el, er. rewrite !gx_a2, !ns1 by lra. sq (7/5 * (5/7) / 1) 1. sq (7/5 * 35 / 1) 7. unfold still. cbn. lra.
Qed.
