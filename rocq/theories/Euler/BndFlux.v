From Coq Require Import Reals List Arith Lra Lia FunctionalExtensionality.
From Verif Require Import Base.Prelude Euler.GasModel Euler.GasSpec Euler.GasProofs Euler.CompressModel Euler.RiemannModel
  Euler.RiemannSpec Euler.RiemannProofs Euler.JacobianProofs Euler.BndModel Euler.BndSpec.
Import ListNotations.
Local Open Scope R_scope.

Ltac fe := apply functional_extensionality; intro.
Ltac dots := repeat first [rewrite dot_add_l | rewrite dot_add_r | rewrite dot_sub_l | rewrite dot_sub_r
  | rewrite dot_scal_l | rewrite dot_scal_r | rewrite dot_opp_r | rewrite dot_opp_l | rewrite dot_zero_l].

Lemma dot_div_l : forall d u r w, dot d (fun i => u i / r) w = dot d u w / r.
Proof.
  intros. unfold Rdiv at 2. rewrite Rmult_comm, <- dot_scal_l. apply dot_ext; auto.
  intros. unfold Rdiv. ring.
Qed.

(** *** change of frame *)
Lemma velocity_boost : forall d w U, rho U <> 0 -> velocity (boost d w U) = fun i => velocity U i + w i.
Proof. intros. fe. unfold velocity, boost. cbn. field. auto. Qed.
Lemma sqnorm_add : forall d u w, sqnorm d (fun i => u i + w i) = sqnorm d u + 2 * dot d u w + sqnorm d w.
Proof. intros. unfold sqnorm. dots. rewrite (dot_comm d w u). ring. Qed.
Lemma velocity_dot : forall d U w, rho U <> 0 -> dot d (mom U) w = rho U * dot d (velocity U) w.
Proof. intros. unfold velocity. rewrite dot_div_l. field. auto. Qed.
Lemma pressure_boost : forall d g w U, rho U <> 0 -> pressure d g (boost d w U) = pressure d g U.
Proof.
  intros. unfold pressure. rewrite velocity_boost by auto. rewrite sqnorm_add.
  unfold th_p. cbn [rho mom ene boost]. rewrite velocity_dot by auto. field.
Qed.
Lemma sound2_boost : forall d g w U, rho U <> 0 -> sound2 d g (boost d w U) = sound2 d g U.
Proof.
  intros. unfold sound2, th_asqr. fold (pressure d g U). fold (pressure d g (boost d w U)).
  rewrite pressure_boost by auto. reflexivity.
Qed.
Lemma enthalpy_boost : forall d g w U, rho U <> 0 ->
  enthalpy d g (boost d w U) = enthalpy d g U + dot d (velocity U) w + 1/2 * sqnorm d w.
Proof.
  intros. unfold enthalpy, th_H. fold (pressure d g U). fold (pressure d g (boost d w U)).
  rewrite pressure_boost by auto. cbn. rewrite velocity_dot by auto. field. auto.
Qed.
Lemma boost_boost : forall d v w U, boost d v (boost d w U) = boost d (fun i => v i + w i) U.
Proof.
  intros. apply state_eq; cbn; auto; try fe; try ring.
  unfold sqnorm. dots. rewrite (dot_comm d w v). field.
Qed.
Lemma boost_zero : forall d U, boost d (fun _ => 0) U = U.
Proof.
  intros. apply state_eq; cbn; auto; try fe; try ring.
  unfold sqnorm. rewrite dot_zero_l, dot_comm, dot_zero_l. ring.
Qed.
Lemma boost_back : forall d w U, boost d w (boost d (opp w) U) = U.
Proof.
  intros. rewrite boost_boost.
  replace (fun i => w i + opp w i) with (fun _ : nat => 0) by (fe; unfold opp; ring). apply boost_zero.
Qed.

Lemma flux_boost : forall d g w vg n U, rho U <> 0 ->
  exact_flux d g (fun i => vg i + w i) n (boost d w U) = boost d w (exact_flux d g vg n U).
Proof.
  intros. unfold exact_flux. rewrite pressure_boost, velocity_boost by auto. unfold flux.
  replace (fun i => velocity U i + w i - (vg i + w i)) with (fun i => velocity U i - vg i) by (fe; ring).
  set (wn := dot d (fun i => velocity U i - vg i) n).
  apply state_eq; cbn; auto; try fe; try ring.
  rewrite (dot_ext d (fun i => mom U i * wn + pressure d g U * n i) w (fun i => wn * mom U i + pressure d g U * n i) w)
    by (intros; try ring; reflexivity).
  dots. rewrite (dot_comm d n w). ring.
Qed.

Definition boost_avg (d : nat) (w : vec) (A : roe_avg) : roe_avg :=
  {| av_v := fun i => av_v A i + w i; av_vv := sqnorm d (fun i => av_v A i + w i);
     av_H := av_H A + dot d (av_v A) w + 1/2 * sqnorm d w; av_a2 := av_a2 A; av_rho := av_rho A |}.
Lemma avg_eq : forall A B, av_v A = av_v B -> av_vv A = av_vv B -> av_H A = av_H B -> av_a2 A = av_a2 B ->
  av_rho A = av_rho B -> A = B.
Proof. intros [] []; cbn; intros; subst; reflexivity. Qed.
Lemma average_boost : forall d g w UL UR, 0 < rho UL -> 0 < rho UR ->
  roe_average d g (boost d w UL) (boost d w UR) = boost_avg d w (roe_average d g UL UR).
Proof.
  intros d g w UL UR HL HR.
  pose proof (sqrt_lt_R0 _ HL) as SL. pose proof (sqrt_lt_R0 _ HR) as SR.
  assert (NL : rho UL <> 0) by lra. assert (NR : rho UR <> 0) by lra.
  unfold roe_average, boost_avg. cbn [rho boost av_v av_vv av_H av_a2 av_rho].
  rewrite !velocity_boost, !enthalpy_boost by auto.
  set (sl := sqrt (rho UL)) in *. set (sr := sqrt (rho UR)) in *.
  assert (V : (fun i => (sl * (velocity UL i + w i) + sr * (velocity UR i + w i)) / (sl + sr)) =
              fun i => (sl * velocity UL i + sr * velocity UR i) / (sl + sr) + w i) by (fe; field; lra).
  assert (E : (sl * (enthalpy d g UL + dot d (velocity UL) w + 1 / 2 * sqnorm d w) +
    sr * (enthalpy d g UR + dot d (velocity UR) w + 1 / 2 * sqnorm d w)) / (sl + sr) =
    (sl * enthalpy d g UL + sr * enthalpy d g UR) / (sl + sr) +
    dot d (fun i => (sl * velocity UL i + sr * velocity UR i) / (sl + sr)) w + 1 / 2 * sqnorm d w).
  { rewrite dot_div_l. dots. field. lra. }
  rewrite V, E. f_equal. rewrite sqnorm_add. field. lra.
Qed.

Lemma wave_boost : forall d g n A a w W l0 l1 l4, a <> 0 -> av_a2 A <> 0 -> av_vv A = sqnorm d (av_v A) ->
  sqnorm d n = 1 -> av_a2 A = (g - 1) * (av_H A - 1/2 * av_vv A) ->
  wave_sum d g n (boost_avg d w A) a (boost d w W) l0 l1 l4 = boost d w (wave_sum d g n A a W l0 l1 l4).
Proof.
  intros d g n A a w W l0 l1 l4 Ha H2 Hvv Hn HA.
  assert (T : strength_t d n (boost_avg d w A) (boost d w W) = strength_t d n A W).
  { unfold strength_t. cbn.
    replace (fun i => mom W i + rho W * w i - rho W * (av_v A i + w i)) with (fun i => mom W i - rho W * av_v A i) by (fe; ring).
    fe. ring. }
  assert (TN : dot d (strength_t d n A W) n = 0).
  { unfold strength_t. unfold sqnorm in Hn.
    rewrite (dot_ext d (fun i => mom W i - rho W * av_v A i - n i * dot d (fun j => mom W j - rho W * av_v A j) n) n
       (fun i => (mom W i - rho W * av_v A i) - dot d (fun j => mom W j - rho W * av_v A j) n * n i) n) by (intros; try ring; reflexivity).
    dots. rewrite Hn. ring. }
  assert (TW : dot d (strength_t d n A W) w = dot d (mom W) w - rho W * dot d (av_v A) w - (dot d (mom W) n - rho W * dot d (av_v A) n) * dot d n w).
  { unfold strength_t.
    rewrite (dot_ext d (fun i => mom W i - rho W * av_v A i - n i * dot d (fun j => mom W j - rho W * av_v A j) n) w
       (fun i => (mom W i - rho W * av_v A i) - dot d (fun j => mom W j - rho W * av_v A j) n * n i) w) by (intros; try ring; reflexivity).
    dots. ring. }
  assert (S1 : strength1 d g n (boost_avg d w A) (boost d w W) = strength1 d g n A W).
  { unfold strength1. rewrite T. cbn. f_equal. dots. rewrite (dot_comm d w n), TW. ring. }
  assert (S0 : strength0 d g n (boost_avg d w A) a (boost d w W) = strength0 d g n A a W).
  { unfold strength0. rewrite S1. cbn. dots. rewrite (dot_comm d w n). field. auto. }
  assert (S4 : strength4 d g n (boost_avg d w A) a (boost d w W) = strength4 d g n A a W).
  { unfold strength4. rewrite S0, S1. reflexivity. }
  unfold wave_sum. rewrite S0, S1, S4, T.
  set (a0 := strength0 d g n A a W * l0). set (a1 := strength1 d g n A W * l1). set (a4 := strength4 d g n A a W * l4).
  apply state_eq; cbn; auto; try fe; try ring.
  rewrite Hvv, sqnorm_add.
  rewrite (dot_ext d (fun i => strength_t d n A W i * l1) (fun i => av_v A i + w i) (fun i => l1 * strength_t d n A W i) (fun i => av_v A i + w i)) by (intros; try ring; reflexivity).
  rewrite (dot_ext d (fun i => strength_t d n A W i * l1) (av_v A) (fun i => l1 * strength_t d n A W i) (av_v A)) by (intros; try ring; reflexivity).
  rewrite (dot_ext d (fun i => (av_v A i - a * n i) * a0 + (av_v A i + a * n i) * a4 + av_v A i * a1 + strength_t d n A W i * l1) w
    (fun i => a0 * (av_v A i - a * n i) + a4 * (av_v A i + a * n i) + a1 * av_v A i + l1 * strength_t d n A W i) w) by (intros; try ring; reflexivity).
  dots. rewrite (dot_comm d w n). field.
Qed.

Lemma central_boost : forall d w F G I, central (boost d w F) (boost d w G) (boost d w I) = boost d w (central F G I).
Proof.
  intros. apply state_eq; cbn; auto; try fe; try ring.
  rewrite (dot_ext d (fun i => (mom F i + mom G i) * (1 / 2) - 1 / 2 * mom I i) w
    (fun i => (1/2) * (mom F i + mom G i) - 1 / 2 * mom I i) w) by (intros; try ring; reflexivity).
  dots. field.
Qed.
Lemma scale_boost : forall d w c U, scale_state c (boost d w U) = boost d w (scale_state c U).
Proof. intros. apply state_eq; cbn; auto; try fe; try ring. dots. ring. Qed.
Lemma sub_boost : forall d w U V, sub_state (boost d w U) (boost d w V) = boost d w (sub_state U V).
Proof. intros. apply state_eq; cbn; auto; try fe; try ring. dots. ring. Qed.
