From Coq Require Import Reals List Arith Lra Lia ZArith String FunctionalExtensionality.
From Verif Require Import Base.Prelude Euler.GasModel Euler.GasSpec Euler.GasProofs Euler.CompressModel Euler.CompressProofs Euler.RiemannModel
  Euler.RiemannSpec Euler.RiemannProofs Euler.JacobianProofs Geom.RotationModel Geom.BoundaryModel Euler.BndModel Euler.BndSpec Euler.BndFlux
  Euler.BndWall Euler.BndProofs Euler.BndFar.
Import ListNotations.
Local Open Scope R_scope.

Lemma normalized_norm : forall d u, 0 < sqnorm d u -> sqnorm d (normalized d u) = 1.
Proof.
  intros d u H. unfold normalized. destruct (Rlt_dec _ _); [|contradiction].
  assert (N : norm d u * norm d u = sqnorm d u) by (apply sqrt_sqrt; lra).
  assert (P : 0 < norm d u) by (apply sqrt_lt_R0; auto).
  rewrite sqnorm_div by lra. rewrite N. field. lra.
Qed.
Lemma sqnorm_scale : forall d u c, sqnorm d (fun i => u i * c) = c * c * sqnorm d u.
Proof. intros. unfold sqnorm, dot. rewrite <- sumn_scal. apply sumn_ext. intros. ring. Qed.

Section Stag.
Variables (e : env) (b : bc) (UL : state).
Let V := b_value b.
Let pStag := rho V.
Let tStag := mom V 0%nat.
Let dir := inlet_direction (e_d e) V.
Hypothesis Hg : 1 < e_gamma e.
Hypothesis HCp : 0 < e_Cp e.
Hypothesis HR : 0 < e_Rgas e.
Hypothesis Hp : 0 < pStag.
Hypothesis Ht : 0 < tStag.
Hypothesis Hd : 0 < sqnorm (e_d e) dir.
Hypothesis PL : 0 < rho UL.
Hypothesis NoCl : e_cl e = None.

Lemma stag_inlet : exists UR, gen_stag e b UL = Ok UR /\ 0 < rho UR /\
  let W := primitive (e_d e) (e_gamma e) UR in
  total_temperature (e_d e) (e_Rgas e) (e_Cp e) W = tStag /\
  total_pressure (e_d e) (e_gamma e) (e_Rgas e) (e_Cp e) W = pStag /\
  0 < ene W /\
  sqnorm (e_d e) (mom W) = Rmin (sqnorm (e_d e) (velocity UL)) (95/100 * (2 * e_Cp e * tStag)) /\
  (exists c, 0 <= c /\ forall i, mom W i = c * dir i) /\
  (forall i, extra W i = extra V i).
Proof.
  pose proof (sqnorm_pos (e_d e) (velocity UL)) as SP.
  set (q := Rmin (sqnorm (e_d e) (velocity UL)) (tStag * 2 * e_Cp e * (95/100))).
  assert (Q0 : 0 <= q).
  { unfold q. apply Rmin_glb; auto. assert (0 < tStag * e_Cp e) by (apply Rmult_lt_0_compat; auto). lra. }
  assert (Q1 : q <= tStag * 2 * e_Cp e * (95/100)) by apply Rmin_r.
  set (h := 1/2 * q / e_Cp e).
  assert (H1 : h <= 95/100 * tStag).
  { unfold h. apply (Rmult_le_reg_r (e_Cp e)); auto. replace (1/2 * q / e_Cp e * e_Cp e) with (1/2 * q) by (field; lra). nra. }
  assert (Pt : 0 < tStag - h) by lra.
  assert (Pr : 0 < (tStag - h) / tStag) by (apply Rdiv_lt_0_compat; auto).
  set (k := e_gamma e / (e_gamma e - 1)).
  set (ps := pStag * Rpower ((tStag - h) / tStag) k).
  assert (Pps : 0 < ps) by (unfold ps, Rpower; apply Rmult_lt_0_compat; auto using exp_pos).
  set (rs := ps / (e_Rgas e * (tStag - h))).
  assert (Prs : 0 < rs).
  { unfold rs. apply Rdiv_lt_0_compat; auto. apply Rmult_lt_0_compat; auto. }
  set (W0 := {| rho := rs; mom := fun i => normalized (e_d e) dir i * sqrt q; ene := ps; extra := extra V |}).
  destruct (prim_exists (e_d e) (e_gamma e) W0 Prs) as (UR & EU).
  assert (Ng : e_gamma e <> 1) by lra.
  destruct (prim_back _ _ _ _ Ng EU) as (R1 & R2 & R3 & R4 & _).
  exists UR. split.
  { unfold gen_stag. rewrite prim_of by auto. cbn [bind]. unfold rdiv. fold V.
    change (rho V) with pStag. change (mom V 0%nat) with tStag. fold q.
    destruct (Req_EM_T (e_Cp e) 0); [lra|]. cbn [bind]. fold h.
    destruct (Req_EM_T tStag 0); [lra|]. cbn [bind].
    destruct (Req_EM_T (e_gamma e - 1) 0); [lra|]. cbn [bind]. fold k.
    destruct (Rlt_dec 0 _); [|contradiction]. cbn [bind]. fold ps.
    destruct (Req_EM_T (e_Rgas e * (tStag - h)) 0) as [Z|].
    { exfalso. assert (0 < e_Rgas e * (tStag - h)) by (apply Rmult_lt_0_compat; auto). lra. }
    cbn [bind]. fold rs. unfold rsqrt. destruct (Rle_dec 0 q); [|contradiction]. cbn [bind]. fold dir. fold W0.
    rewrite EU. cbn [bind]. unfold cl_turn. rewrite NoCl. reflexivity. }
  split; [rewrite R1; exact Prs|]. intro W.
  assert (WM : mom W = mom W0) by exact R2. assert (WE : ene W = ps) by exact R3. assert (WR : rho W = rs) by exact R1.
  assert (SQ : sqnorm (e_d e) (mom W) = q).
  { rewrite WM. unfold W0. cbn [mom]. rewrite sqnorm_scale, normalized_norm by auto. rewrite sqrt_sqrt by auto. ring. }
  assert (T : temperature (e_Rgas e) W = tStag - h).
  { unfold temperature. rewrite WE, WR. unfold rs. field. repeat split; lra. }
  assert (TT : total_temperature (e_d e) (e_Rgas e) (e_Cp e) W = tStag).
  { unfold total_temperature. rewrite T, SQ. unfold h. field. lra. }
  split; [exact TT|]. split.
  { unfold total_pressure. rewrite TT, T, WE. fold k. unfold ps. rewrite Rmult_assoc.
    rewrite Rpower_mult_distr by (auto; apply Rdiv_lt_0_compat; auto).
    replace ((tStag - h) / tStag * (tStag / (tStag - h))) with 1 by (field; split; lra).
    unfold Rpower. rewrite ln_1, Rmult_0_r, exp_0. ring. }
  split; [rewrite WE; exact Pps|]. split.
  { rewrite SQ. unfold q. f_equal. ring. }
  split.
  - exists (sqrt q / norm (e_d e) dir). assert (P : 0 < norm (e_d e) dir) by (apply sqrt_lt_R0; auto).
    split; [apply Rmult_le_pos; [apply sqrt_pos|left; apply Rinv_0_lt_compat; auto]|].
    intro i. rewrite WM. unfold W0. cbn [mom]. unfold normalized. destruct (Rlt_dec _ _); [|contradiction]. field. lra.
  - intro i. exact (R4 i).
Qed.
End Stag.

(** *** HLLC at a slip wall in a frame at rest *)
Lemma hllc_q_ge : forall g p pS, 0 < g -> 0 < p -> exists q, hllc_q g p pS = Ok q /\ 1 <= q.
Proof.
  intros g p pS Hg Hp. unfold hllc_q, rdiv. destruct (Rle_dec pS p); [exists 1; split; [auto|lra]|].
  destruct (Req_EM_T p 0); [lra|]. destruct (Req_EM_T g 0); [lra|]. cbn [bind].
  assert (K : 0 <= (g + 1) / 2 / g * (pS / p - 1)).
  { apply Rmult_le_pos.
    - apply Rmult_le_pos; [lra|left; apply Rinv_0_lt_compat; auto].
    - apply (Rmult_le_reg_r p); auto. replace ((pS / p - 1) * p) with (pS - p) by (field; lra). lra. }
  unfold rsqrt. destruct (Rle_dec 0 _) as [|N]; [|exfalso; apply N; lra].
  eexists. split; [reflexivity|]. rewrite <- sqrt_1 at 1. apply sqrt_le_1_alt. lra.
Qed.

Section Hllc.
Variables (d : nat) (n : vec) (g : R).
Hypothesis Hn : sqnorm d n = 1.
Hypothesis Hg : 1 < g.
Let Q := mirror d n.
Let still : vec := fun _ => 0.

Lemma speed_still : forall U, normal_speed d U still n = dot d (velocity U) n.
Proof. intros. unfold normal_speed, still. apply dot_ext; auto. intros. ring. Qed.
Lemma speed_mirror : forall U, normal_speed d (turn Q U) still n = - dot d (velocity U) n.
Proof.
  intros. rewrite speed_still, velocity_turn by apply mirror_linear. apply mirror_dot_n. auto.
Qed.

Lemma mirror_avg_a2 : forall U, 0 < rho U -> sound2 d g U <= av_a2 (roe_average d g U (turn Q U)).
Proof.
  intros U PU. pose proof (sqrt_lt_R0 _ PU) as SU.
  pose proof (avg_reflect_v d Q (mirror_linear d n) g U PU) as V.
  unfold roe_average in V |- *. cbn [av_v av_a2] in V |- *. rewrite V.
  rewrite enthalpy_turn by (try apply mirror_linear; apply mirror_iso; auto). cbn [rho turn with_mom].
  replace ((sqrt (rho U) * enthalpy d g U + sqrt (rho U) * enthalpy d g U) / (sqrt (rho U) + sqrt (rho U))) with (enthalpy d g U) by (field; lra).
  assert (S : sqnorm d (fun i => 1/2 * (velocity U i + Q (velocity U) i)) <= sqnorm d (velocity U)).
  { replace (fun i => 1/2 * (velocity U i + Q (velocity U) i)) with (fun i => velocity U i - dot d (velocity U) n * n i)
      by (fe; unfold Q, mirror; field).
    unfold sqnorm in *. dots. rewrite (dot_comm d n (velocity U)), Hn. nra. }
  assert (E : sound2 d g U = (g - 1) * (enthalpy d g U - 1/2 * sqnorm d (velocity U))).
  { unfold sound2, enthalpy, th_asqr, th_H, th_p. field. lra. }
  rewrite E. nra.
Qed.

Lemma hllc_slip : forall u um, admissible d g u -> admissible d g um ->
  dot d (velocity um) n <= sqrt (sound2 d g um) - verySmall ->
  exists F P, hllc_flux d g still n u (turn Q u) um (turn Q um) = Ok F /\
    rho F = 0 /\ ene F = 0 /\ forall i, mom F i = P * n i.
Proof.
  intros u um [Pu Su] [Pm Sm] Hx. unfold hllc_flux, common. cbn [rho turn with_mom].
  destruct (Rlt_dec 0 (rho u)); [|contradiction]. destruct (Rlt_dec 0 (rho um)); [|contradiction].
  fold (turn Q um). pose proof (mirror_avg_a2 um Pm) as A2. set (A := roe_average d g um (turn Q um)) in *.
  destruct (Rlt_dec 0 (av_a2 A)); [|exfalso; lra]. cbn [bind].
  unfold hllc_outer. rewrite speed_mirror, speed_still.
  rewrite pressure_turn, sound2_turn by (try apply mirror_linear; apply mirror_iso; auto).
  set (x := dot d (velocity um) n) in *. set (pS := Rmax 0 _).
  assert (Qm : 0 < pressure d g um) by (apply pressure_of_sound; [lra|split; auto]).
  unfold rsqrt. destruct (Rle_dec 0 (sound2 d g um)) as [|N]; [|exfalso; lra]. cbn [bind].
  destruct (hllc_q_ge g _ pS ltac:(lra) Qm) as (q & Eq & Gq). rewrite Eq. cbn [bind].
  set (a := sqrt (sound2 d g um)) in *. assert (Pa : 0 < a) by (apply sqrt_lt_R0; auto).
  pose proof verySmall_pos as VS.
  assert (SL : x - a * q <= - verySmall) by nra.
  destruct (Rle_dec 0 (x - a * q)); [lra|]. destruct (Rle_dec (- x + a * q) 0); [lra|].
  assert (SS : hllc_contact d g still n u (turn Q u) um (turn Q um) (x - a * q) (- x + a * q) = 0).
  { unfold hllc_contact. rewrite speed_mirror, speed_still. fold x.
    rewrite pressure_turn by (try apply mirror_linear; apply mirror_iso; auto).
    destruct (Rlt_dec _ _) as [K|]; [|reflexivity].
    cbn [mom rho turn with_mom] in *. unfold Q at 1. rewrite mirror_dot_n by auto.
    unfold still at 1 2. rewrite dot_zero_l. unfold Rdiv. apply Rmult_eq_0_compat_r. ring. }
  fold (turn Q u). rewrite SS. destruct (Rle_dec 0 0); [|lra].
  unfold hllc_star. replace (x - a * q - 0) with (x - a * q) by ring.
  destruct (Rlt_dec _ _) as [K|_].
  { exfalso. rewrite Rabs_left1 in K by lra. lra. }
  eexists. exists (pressure d g u + rho u * (x - a * q - x) * (0 - x)).
  split; [reflexivity|]. cbn [rho ene mom]. unfold Rdiv. split; [ring|]. split; [ring|].
  intro i. field. lra.
Qed.
End Hllc.
