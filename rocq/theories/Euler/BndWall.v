From Coq Require Import Reals List Arith Lra Lia FunctionalExtensionality.
From Verif Require Import Base.Prelude Euler.GasModel Euler.GasSpec Euler.GasProofs Euler.CompressModel Euler.RiemannModel
  Euler.RiemannSpec Euler.RiemannProofs Euler.JacobianProofs Euler.BndModel Euler.BndSpec Euler.BndFlux.
Import ListNotations.
Local Open Scope R_scope.

Lemma linear_scal : forall Q, linear Q -> forall c u, Q (fun i => c * u i) = fun i => c * Q u i.
Proof.
  intros Q L c u. replace (fun i => c * u i) with (fun i => c * u i + 0 * u i) by (fe; ring).
  rewrite L. fe. ring.
Qed.
Lemma linear_div : forall Q, linear Q -> forall u r, Q (fun i => u i / r) = fun i => Q u i / r.
Proof.
  intros Q L u r. replace (fun i => u i / r) with (fun i => (/ r) * u i) by (fe; unfold Rdiv; ring).
  rewrite linear_scal by auto. fe. unfold Rdiv. ring.
Qed.
Lemma linear_sub : forall Q, linear Q -> forall u v, Q (fun i => u i - v i) = fun i => Q u i - Q v i.
Proof.
  intros Q L u v. replace (fun i => u i - v i) with (fun i => 1 * u i + (-1) * v i) by (fe; ring).
  rewrite L. fe. ring.
Qed.
Lemma linear_add : forall Q, linear Q -> forall u v, Q (fun i => u i + v i) = fun i => Q u i + Q v i.
Proof.
  intros Q L u v. replace (fun i => u i + v i) with (fun i => 1 * u i + 1 * v i) by (fe; ring).
  rewrite L. fe. ring.
Qed.

Section Reflect.
Variables (d : nat) (Q : vec -> vec) (n : vec).
Hypothesis QL : linear Q.
Hypothesis QI : forall u v, dot d (Q u) (Q v) = dot d u v.
Hypothesis QQ : forall u, Q (Q u) = u.
Hypothesis Qn : Q n = opp n.

Lemma Q_move : forall u v, dot d (Q u) v = dot d u (Q v).
Proof. intros. rewrite <- (QQ v) at 1. apply QI. Qed.
Lemma Q_normal : forall u, dot d (Q u) n = - dot d u n.
Proof. intros. rewrite Q_move, Qn. apply dot_opp. Qed.
Lemma velocity_turn : forall U, velocity (turn Q U) = Q (velocity U).
Proof. intros. unfold velocity, turn. cbn. symmetry. apply linear_div. auto. Qed.
Lemma sqnorm_turn : forall u, sqnorm d (Q u) = sqnorm d u.
Proof. intros. apply QI. Qed.
Lemma pressure_turn : forall g U, pressure d g (turn Q U) = pressure d g U.
Proof. intros. unfold pressure. rewrite velocity_turn, sqnorm_turn. reflexivity. Qed.
Lemma sound2_turn : forall g U, sound2 d g (turn Q U) = sound2 d g U.
Proof. intros. unfold sound2. rewrite velocity_turn, sqnorm_turn. reflexivity. Qed.
Lemma enthalpy_turn : forall g U, enthalpy d g (turn Q U) = enthalpy d g U.
Proof. intros. unfold enthalpy. rewrite velocity_turn, sqnorm_turn. reflexivity. Qed.

(** *** the Roe average of a state and its reflection *)
Lemma avg_reflect_v : forall g U, 0 < rho U -> av_v (roe_average d g U (turn Q U)) = fun i => 1/2 * (velocity U i + Q (velocity U) i).
Proof.
  intros g U H. pose proof (sqrt_lt_R0 _ H). unfold roe_average. cbn [av_v turn with_mom rho].
  rewrite velocity_turn. fe. field. lra.
Qed.
Lemma avg_reflect_n : forall g U, 0 < rho U -> dot d (av_v (roe_average d g U (turn Q U))) n = 0.
Proof. intros. rewrite avg_reflect_v by auto. dots. rewrite Q_normal. lra. Qed.

(** *** the dissipation: no mass and no energy when the acoustic speeds agree *)
Section Wave.
Variables (g a l0 l1 : R) (u um : state).
Let A := roe_average d g um (turn Q um).
Let W := sub_state (turn Q u) u.
Hypothesis Pm : 0 < rho um.
Hypothesis Pa : a <> 0.

Lemma An : dot d (av_v A) n = 0.
Proof. apply avg_reflect_n. auto. Qed.
Lemma inc_fix : dot d (mom W) (av_v A) = 0.
Proof.
  unfold A. rewrite avg_reflect_v by auto. unfold W. cbn. dots.
  rewrite QI, Q_move. ring.
Qed.
Lemma W_rho : rho W = 0. Proof. cbn. ring. Qed.
Lemma W_ene : ene W = 0. Proof. cbn. ring. Qed.
Lemma t_fix : dot d (strength_t d n A W) (av_v A) = 0.
Proof.
  unfold strength_t. rewrite W_rho.
  rewrite (dot_ext d (fun i => mom W i - 0 * av_v A i - n i * dot d (fun j => mom W j - 0 * av_v A j) n) (av_v A)
    (fun i => mom W i - dot d (fun j => mom W j - 0 * av_v A j) n * n i) (av_v A)) by (intros; try ring; reflexivity).
  dots. rewrite inc_fix. rewrite (dot_comm d n (av_v A)). rewrite An. ring.
Qed.
Lemma s1_fix : strength1 d g n A W = 0.
Proof.
  unfold strength1. rewrite W_rho, W_ene, t_fix. rewrite An. ring.
Qed.
Lemma s0_fix : strength0 d g n A a W = - dot d (mom W) n / (2 * a).
Proof.
  unfold strength0. rewrite s1_fix, W_rho. field. auto.
Qed.
Lemma s4_fix : strength4 d g n A a W = dot d (mom W) n / (2 * a).
Proof. unfold strength4. rewrite s0_fix, s1_fix, W_rho. field. auto. Qed.

Lemma wave_fix : let F := wave_sum d g n A a W l0 l1 l0 in
  rho F = 0 /\ ene F = 0 /\
  forall i, mom F i = n i * dot d (mom W) n * l0 + l1 * (mom W i - n i * dot d (mom W) n).
Proof.
  intro F. unfold F, wave_sum. cbn [rho mom ene]. rewrite s0_fix, s1_fix, s4_fix.
  split; [field; auto|]. split.
  - rewrite (dot_ext d (fun i => strength_t d n A W i * l1) (av_v A) (fun i => l1 * strength_t d n A W i) (av_v A)) by (intros; try ring; reflexivity).
    dots. rewrite t_fix. rewrite An. field. auto.
  - intro i. unfold strength_t. rewrite W_rho.
    rewrite (dot_ext d (fun i => mom W i - 0 * av_v A i) n (mom W) n) by (intros; try ring; reflexivity).
    field. auto.
Qed.
End Wave.

Lemma flux_reflect : forall g u, let F := exact_flux d g (fun _ => 0) n u in let G := exact_flux d g (fun _ => 0) n (turn Q u) in
  let vn := dot d (velocity u) n in
  rho F + rho G = 0 /\ ene F + ene G = 0 /\
  forall i, mom F i + mom G i = (mom u i - Q (mom u) i) * vn + 2 * pressure d g u * n i.
Proof.
  intros. unfold F, G, exact_flux. rewrite pressure_turn, velocity_turn. unfold flux. cbn [rho mom ene].
  assert (E : forall v : vec, (fun i => v i - 0) = v) by (intro; fe; ring).
  rewrite !E, Q_normal. fold vn. cbn. repeat split; try ring. intro. ring.
Qed.

(** *** the speeds *)
Lemma speeds_reflect : forall opt vv a x c dL l0 l1 l4, speeds opt vv 0 a x (- x) c c dL = Ok (l0, l1, l4) -> 0 <= a -> l0 = l4.
Proof.
  intros opt vv a x c dL l0 l1 l4 E Ha.
  pose proof (speeds_swap opt vv 0 a x (- x) c c dL l0 l1 l4 Ha E) as S.
  replace (- - x) with x in S by ring. replace (-0) with 0 in S by ring.
  rewrite E in S. injection S as E1 E2. auto.
Qed.

Lemma zero_boost_speed : forall w U, rho U <> 0 -> normal_speed d (boost d w U) w n = dot d (velocity U) n.
Proof.
  intros. unfold normal_speed. rewrite velocity_boost by auto. apply dot_ext; auto. intros. ring.
Qed.
Lemma flux_boost0 : forall g w U, rho U <> 0 -> exact_flux d g w n (boost d w U) = boost d w (exact_flux d g (fun _ => 0) n U).
Proof.
  intros. rewrite <- flux_boost by auto. f_equal. fe. ring.
Qed.

Lemma roe_wall : forall opt g dL w u um F, sqnorm d n = 1 ->
  roe_flux d opt g dL w n (boost d w u) (boost d w (turn Q u)) (boost d w um) (boost d w (turn Q um)) = Ok F ->
  rho F = 0 /\ ene F = dot d (mom F) w /\
  exists l0 l1, forall i, let W := fun i => Q (mom u) i - mom u i in
    mom F i = 1/2 * (- W i * dot d (velocity u) n + 2 * pressure d g u * n i)
              - 1/2 * (n i * dot d W n * l0 + l1 * (W i - n i * dot d W n)).
Proof.
  intros opt g dL w u um F Hn E. unfold roe_flux in E.
  destruct (common _ _ _ _ _ _) as [[A a] | |] eqn:C; try discriminate. cbn [bind] in E.
  unfold common in C. cbn [rho boost turn with_mom] in C.
  destruct (Rlt_dec 0 (rho u)) as [Pu|]; [|discriminate].
  destruct (Rlt_dec 0 (rho um)) as [Pm|]; [|discriminate].
  assert (Pm' : 0 < rho (turn Q um)) by (cbn; auto).
  assert (Nu : rho u <> 0) by lra. assert (Nm : rho um <> 0) by lra.
  assert (Nu' : rho (turn Q u) <> 0) by (cbn; auto). assert (Nm' : rho (turn Q um) <> 0) by (cbn; auto).
  rewrite average_boost in C by auto.
  set (A0 := roe_average d g um (turn Q um)) in *.
  destruct (Rlt_dec 0 (av_a2 _)) as [P2|]; [|discriminate].
  assert (EA : A = boost_avg d w A0) by congruence.
  assert (Ea : a = sqrt (av_a2 (boost_avg d w A0))) by congruence. clear C. subst A a.
  cbn [av_a2 boost_avg] in P2. pose proof (sqrt_lt_R0 _ P2) as Pa.
  change (av_a2 (boost_avg d w A0)) with (av_a2 A0) in E.
  change (av_v (boost_avg d w A0)) with (fun i => av_v A0 i + w i) in E. set (a := sqrt (av_a2 A0)) in *.
  assert (V0 : dot d (fun i => av_v A0 i + w i) n - dot d w n = 0).
  { rewrite dot_add_l. unfold A0. rewrite avg_reflect_n by auto. ring. }
  rewrite V0 in E. rewrite !zero_boost_speed, velocity_turn, Q_normal in E by auto.
  rewrite !sound2_boost, sound2_turn in E by auto.
  destruct (speeds _ _ _ _ _ _ _ _ _) as [[[l0 l1] l4] | |] eqn:SP; try discriminate. cbn [bind] in E.
  apply speeds_reflect in SP; [subst l4 | unfold a; apply sqrt_pos].
  rewrite !flux_boost0, sub_boost in E by auto.
  destruct (flux_reflect g u) as (R1 & R2 & R3).
  set (FL := exact_flux d g (fun _ => 0) n u) in *. set (FR := exact_flux d g (fun _ => 0) n (turn Q u)) in *.
  assert (K : forall I, rho I = 0 -> ene I = 0 ->
    (exists x0 x1, forall i, let W := fun i => Q (mom u) i - mom u i in
      mom I i = n i * dot d W n * x0 + x1 * (W i - n i * dot d W n)) ->
    F = central (boost d w FL) (boost d w FR) (boost d w I) ->
    rho F = 0 /\ ene F = dot d (mom F) w /\
    exists l0 l1, forall i, let W := fun i => Q (mom u) i - mom u i in
      mom F i = 1/2 * (- W i * dot d (velocity u) n + 2 * pressure d g u * n i)
                - 1/2 * (n i * dot d W n * l0 + l1 * (W i - n i * dot d W n))).
  { intros I I1 I2 (x0 & x1 & I3) ->. rewrite central_boost.
    assert (RF : rho (central FL FR I) = 0) by (cbn [rho central]; rewrite I1, R1; ring).
    assert (EF : ene (central FL FR I) = 0) by (cbn [ene central]; rewrite I2, R2; ring).
    assert (MF : mom (boost d w (central FL FR I)) = mom (central FL FR I)).
    { fe. cbn [mom boost]. rewrite RF. ring. }
    split; [exact RF|]. split.
    - rewrite MF. cbn [ene boost]. rewrite RF, EF. ring.
    - exists x0, x1. intros i W. rewrite MF. cbn [mom central]. rewrite R3, I3. fold W.
      assert (WI : W i = Q (mom u) i - mom u i) by reflexivity. rewrite WI. field. }
  destruct (opt =? 2)%nat.
  - match type of E with Ok ?X = Ok F => assert (E' : X = F) by congruence end. clear E. rename E' into E.
    rewrite scale_boost in E. symmetry in E. apply (K _) in E; auto.
    + cbn. ring.
    + cbn. ring.
    + exists l0, l0. intros i W. cbn [mom scale_state sub_state turn with_mom].
      assert (WI : W i = Q (mom u) i - mom u i) by reflexivity. rewrite WI. ring.
  - match type of E with Ok ?X = Ok F => assert (E' : X = F) by congruence end. clear E. rename E' into E.
    assert (Na : a <> 0) by lra. assert (N2 : av_a2 A0 <> 0) by lra.
    rewrite (wave_boost d g n A0 a w) in E by (auto; reflexivity).
    destruct (wave_fix g a l0 l1 u um Pm) as (W1 & W2 & W3); [exact Na|]. fold A0 in W1, W2, W3.
    symmetry in E. apply (K _) in E; auto.
    exists l0, l1. intros i W. rewrite W3. reflexivity.
Qed.

Lemma reflect_a2 : forall g U, 1 < g -> 0 < rho U -> sound2 d g U <= av_a2 (roe_average d g U (turn Q U)).
Proof.
  intros g U Hg PU. pose proof (sqrt_lt_R0 _ PU) as SU.
  pose proof (avg_reflect_v g U PU) as V.
  unfold roe_average in V |- *. cbn [av_v av_a2] in V |- *. rewrite V.
  rewrite enthalpy_turn. cbn [rho turn with_mom].
  replace ((sqrt (rho U) * enthalpy d g U + sqrt (rho U) * enthalpy d g U) / (sqrt (rho U) + sqrt (rho U))) with (enthalpy d g U) by (field; lra).
  assert (S : sqnorm d (fun i => 1/2 * (velocity U i + Q (velocity U) i)) <= sqnorm d (velocity U)).
  { pose proof (sqnorm_pos d (fun i => velocity U i - Q (velocity U) i)) as P.
    unfold sqnorm in *. revert P. dots. rewrite QI, Q_move. lra. }
  assert (E : sound2 d g U = (g - 1) * (enthalpy d g U - 1/2 * sqnorm d (velocity U))).
  { unfold sound2, enthalpy, th_asqr, th_H, th_p. field. lra. }
  rewrite E. apply Rmult_le_compat_l; lra.
Qed.

Lemma roe_wall_exists : forall opt g dL w u um, (opt <= 5)%nat -> 1 < g -> 0 < rho u -> 0 < rho um -> 0 < sound2 d g um ->
  exists F, roe_flux d opt g dL w n (boost d w u) (boost d w (turn Q u)) (boost d w um) (boost d w (turn Q um)) = Ok F.
Proof.
  intros opt g dL w u um Ho Hg Pu Pm Sm. unfold roe_flux, common. cbn [rho boost turn with_mom].
  destruct (Rlt_dec 0 (rho u)); [|contradiction]. destruct (Rlt_dec 0 (rho um)); [|contradiction].
  assert (Nm : rho um <> 0) by lra. assert (Nm' : rho (turn Q um) <> 0) by (cbn; auto).
  rewrite average_boost by (cbn; auto).
  change (av_a2 (boost_avg d w (roe_average d g um (turn Q um)))) with (av_a2 (roe_average d g um (turn Q um))).
  pose proof (reflect_a2 g um Hg Pm).
  destruct (Rlt_dec 0 (av_a2 _)) as [|N]; [|exfalso; apply N; lra]. cbn [bind].
  rewrite !sound2_boost, sound2_turn by auto.
  match goal with |- exists F, bind ?s _ = _ => assert (S : exists l, s = Ok l) end.
  { unfold speeds, rsqrt. destruct (Rle_dec 0 (sound2 d g um)); [|lra].
    do 6 (destruct opt as [|opt]; [cbn [bind]; eauto|]). lia. }
  destruct S as ([[l0 l1] l4] & ->). cbn [bind]. destruct (opt =? 2)%nat; eauto.
Qed.
End Reflect.
