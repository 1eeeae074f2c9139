From Coq Require Import Reals List Lra Psatz.
From Verif Require Import Base.Prelude Base.PreludeFacts.
From Verif Require Import CFV.LimiterModel CFV.LimiterSpec.
Import ListNotations.
Open Scope R_scope.

Lemma verySmall_pos : 0 < verySmallReal.
Proof. apply pow_lt; lra. Qed.

Lemma root_pos : 0 < verySmallReal_pDiP.
Proof. apply pow_lt; lra. Qed.

Lemma verySmall_root : verySmallReal_pDiP ^ 4 = verySmallReal.
Proof. unfold verySmallReal_pDiP, verySmallReal. rewrite <- pow_mult. f_equal. Qed.

Lemma sgn_pos : forall x, 0 < x -> sgn x = 1.
Proof. intros x H. unfold sgn. destruct (Rlt_dec 0 x); lra. Qed.

Lemma sgn_neg : forall x, x < 0 -> sgn x = -1.
Proof. intros x H. unfold sgn. destruct (Rlt_dec 0 x); [lra|]. destruct (Rlt_dec x 0); lra. Qed.

Lemma sgn_zero : sgn 0 = 0.
Proof. unfold sgn. destruct (Rlt_dec 0 0); lra. Qed.

Lemma sgn_opp : forall x, sgn (- x) = - sgn x.
Proof.
  intros x. destruct (Rtotal_order x 0) as [H|[->|H]].
  - rewrite (sgn_neg x) by lra. rewrite sgn_pos; lra.
  - rewrite Ropp_0, sgn_zero. lra.
  - rewrite (sgn_pos x) by lra. rewrite sgn_neg; lra.
Qed.

Lemma sgn_scale : forall k x, 0 < k -> sgn (k * x) = sgn x.
Proof.
  intros k x Hk. destruct (Rtotal_order x 0) as [H|[->|H]].
  - rewrite (sgn_neg x) by lra. apply sgn_neg. nra.
  - rewrite Rmult_0_r. reflexivity.
  - rewrite (sgn_pos x) by lra. apply sgn_pos. nra.
Qed.

Lemma abs_pos : forall x, 0 < x -> Rabs x = x.
Proof. intros. apply Rabs_right. lra. Qed.
Lemma abs_neg : forall x, x < 0 -> Rabs x = - x.
Proof. intros. apply Rabs_left. lra. Qed.
Lemma abs_scale : forall k x, 0 < k -> Rabs (k * x) = k * Rabs x.
Proof. intros. rewrite Rabs_mult, (abs_pos k); auto. Qed.

(** ** min-mod *)
Ltac rcases x := destruct (Rtotal_order x 0) as [?H|[?H|?H]];
  [rewrite ?(sgn_neg x), ?(abs_neg x) by lra
  |subst x; rewrite ?sgn_zero, ?Rabs_R0
  |rewrite ?(sgn_pos x), ?(abs_pos x) by lra].

Ltac minmax := unfold Rmin, Rmax in *;
  repeat match goal with
  | |- context [Rle_dec ?a ?b] => destruct (Rle_dec a b)
  | H : context [Rle_dec ?a ?b] |- _ => destruct (Rle_dec a b)
  end.

Lemma minmod_between : forall u1 u2,
  between 0 u1 (minmod u1 u2) /\ between 0 u2 (minmod u1 u2).
Proof.
  intros u1 u2. unfold minmod, between. rcases u1; rcases u2; minmax; lra.
Qed.

Lemma minmod_opposite : forall u1 u2, u1 * u2 <= 0 -> minmod u1 u2 = 0.
Proof.
  intros u1 u2 H. unfold minmod. rcases u1; rcases u2; minmax; try lra; nra.
Qed.

Lemma minmod_attains : forall u1 u2, 0 < u1 * u2 ->
  (minmod u1 u2 = u1 /\ Rabs u1 <= Rabs u2) \/ (minmod u1 u2 = u2 /\ Rabs u2 <= Rabs u1).
Proof.
  intros u1 u2 H. unfold minmod. rcases u1; rcases u2; minmax; try lra; nra.
Qed.

Lemma minmod_odd : forall u1 u2, minmod (- u1) (- u2) = - minmod u1 u2.
Proof. intros. unfold minmod. rewrite !sgn_opp, !Rabs_Ropp. lra. Qed.

Lemma minmod_sym : forall u1 u2, minmod u1 u2 = minmod u2 u1.
Proof. intros. unfold minmod. rewrite Rmin_comm. lra. Qed.

Lemma minmod_scale : forall k u1 u2, 0 < k -> minmod (k * u1) (k * u2) = k * minmod u1 u2.
Proof.
  intros k u1 u2 Hk. unfold minmod. rewrite !sgn_scale, !abs_scale by auto.
  assert (E : Rmin (k * Rabs u1) (k * Rabs u2) = k * Rmin (Rabs u1) (Rabs u2)).
  { minmax; try lra; exfalso; nra. }
  rewrite E. lra.
Qed.

(** ** van Leer *)
Lemma div_le : forall a b c, 0 < b -> a <= c * b -> a / b <= c.
Proof.
  intros a b c Hb H. apply (Rmult_le_reg_r b); auto.
  unfold Rdiv. rewrite Rmult_assoc, Rinv_l by lra. lra.
Qed.
Lemma le_div : forall a b c, 0 < b -> c * b <= a -> c <= a / b.
Proof.
  intros a b c Hb H. apply (Rmult_le_reg_r b); auto.
  unfold Rdiv. rewrite Rmult_assoc, Rinv_l by lra. lra.
Qed.

Lemma van_leer_same : forall eps u1 u2, 0 < eps -> 0 < u1 -> 0 < u2 ->
  van_leer_eps eps u1 u2 = 2 * (u1 * u2) / (u1 + u2 + eps).
Proof.
  intros eps u1 u2 He H1 H2. unfold van_leer_eps.
  rewrite (sgn_pos u1), (sgn_pos u2), (abs_pos (u1 + u2)), abs_pos by nra.
  f_equal.
Qed.

Lemma van_leer_odd_eps : forall eps u1 u2,
  van_leer_eps eps (- u1) (- u2) = - van_leer_eps eps u1 u2.
Proof.
  intros. unfold van_leer_eps. rewrite !sgn_opp.
  replace (- u1 * - u2) with (u1 * u2) by ring.
  replace (- u1 + - u2) with (- (u1 + u2)) by ring. rewrite Rabs_Ropp.
  unfold Rdiv. ring.
Qed.

Lemma van_leer_opposite : forall eps u1 u2, u1 * u2 <= 0 -> van_leer_eps eps u1 u2 = 0.
Proof.
  intros eps u1 u2 H. unfold van_leer_eps, Rdiv. rcases u1; rcases u2;
    rewrite ?Rmult_0_l, ?Rmult_0_r, ?Rabs_R0; try (exfalso; nra); try ring.
Qed.

Lemma van_leer_pos_bounds : forall eps u1 u2, 0 < eps -> 0 < u1 -> 0 < u2 ->
  0 < van_leer_eps eps u1 u2 /\
  van_leer_eps eps u1 u2 <= Rmax u1 u2 /\
  van_leer_eps eps u1 u2 <= 2 * Rmin u1 u2 /\
  Rmin u1 u2 * ((u1 + u2) / (u1 + u2 + eps)) <= van_leer_eps eps u1 u2.
Proof.
  intros eps u1 u2 He H1 H2. rewrite van_leer_same by auto.
  assert (Hp : 0 < u1 * u2) by nra. assert (Hd : 0 < u1 + u2 + eps) by lra.
  repeat split.
  - apply Rdiv_lt_0_compat; lra.
  - apply div_le; auto. minmax; nra.
  - apply div_le; auto. minmax; nra.
  - unfold Rdiv. rewrite <- Rmult_assoc. apply Rmult_le_compat_r.
    + left. apply Rinv_0_lt_compat; auto.
    + minmax; nra.
Qed.

Lemma van_leer_bounds : forall eps u1 u2, 0 < eps -> 0 < u1 * u2 ->
  0 < van_leer_eps eps u1 u2 * u1 /\
  Rabs (van_leer_eps eps u1 u2) <= Rmax (Rabs u1) (Rabs u2) /\
  Rabs (van_leer_eps eps u1 u2) <= 2 * Rmin (Rabs u1) (Rabs u2) /\
  Rmin (Rabs u1) (Rabs u2) * (Rabs (u1 + u2) / (Rabs (u1 + u2) + eps))
    <= Rabs (van_leer_eps eps u1 u2).
Proof.
  intros eps u1 u2 He H.
  assert (Hpos : forall u1 u2, 0 < u1 -> 0 < u2 ->
    0 < van_leer_eps eps u1 u2 * u1 /\
    Rabs (van_leer_eps eps u1 u2) <= Rmax (Rabs u1) (Rabs u2) /\
    Rabs (van_leer_eps eps u1 u2) <= 2 * Rmin (Rabs u1) (Rabs u2) /\
    Rmin (Rabs u1) (Rabs u2) * (Rabs (u1 + u2) / (Rabs (u1 + u2) + eps))
      <= Rabs (van_leer_eps eps u1 u2)).
  { intros v1 v2 H1 H2. destruct (van_leer_pos_bounds eps v1 v2 He H1 H2) as (A & B & C & D).
    rewrite (abs_pos v1), (abs_pos v2), (abs_pos (v1 + v2)), (abs_pos (van_leer_eps eps v1 v2)) by lra.
    repeat split; auto. nra. }
  destruct (Rlt_dec 0 u1) as [P|P].
  - apply Hpos; nra.
  - specialize (Hpos (- u1) (- u2)). rewrite van_leer_odd_eps, !Rabs_Ropp in Hpos.
    replace (- u1 + - u2) with (- (u1 + u2)) in Hpos by ring. rewrite Rabs_Ropp in Hpos.
    assert (N1 : u1 < 0) by (destruct (Req_dec u1 0) as [->|]; lra).
    assert (N2 : u2 < 0) by nra.
    destruct Hpos as (A & B & C & D); [lra|lra|].
    split; [|auto]. replace (van_leer_eps eps u1 u2 * u1) with (- van_leer_eps eps u1 u2 * - u1) by ring. exact A.
Qed.

Lemma van_leer_scale_eps : forall k eps u1 u2, 0 < k -> 0 < eps ->
  van_leer_eps (k * eps) (k * u1) (k * u2) = k * van_leer_eps eps u1 u2.
Proof.
  intros k eps u1 u2 Hk He. unfold van_leer_eps. rewrite !sgn_scale by auto.
  replace (k * u1 * (k * u2)) with (k * (k * (u1 * u2))) by ring.
  replace (k * u1 + k * u2) with (k * (u1 + u2)) by ring.
  rewrite (abs_scale k (k * (u1 * u2))), (abs_scale k (u1 * u2)), (abs_scale k (u1 + u2)) by auto.
  pose proof (Rabs_pos (u1 + u2)). field. split; nra.
Qed.

(** ** WBAP *)
Lemma wbap_zero2 : forall e n u1, wbap_eps e n u1 0 = 0.
Proof. intros. unfold wbap_eps. rewrite sgn_zero, Rabs_R0. ring. Qed.

Lemma sq_nonneg : forall x, 0 <= x * x.
Proof. intros. nra. Qed.

Lemma pow4_pos : forall x, x <> 0 -> 0 < x ^ 4.
Proof.
  intros x H. replace (x ^ 4) with ((x * x) * (x * x)) by ring.
  assert (0 < x * x) by nra. nra.
Qed.
Lemma pow4_nonneg : forall x, 0 <= x ^ 4.
Proof. intros. replace (x ^ 4) with ((x * x) * (x * x)) by ring. nra. Qed.

Lemma wbap_average_eps : forall e n u1 u2 s, 0 < e -> 0 < n -> away e u2 s ->
  average (n * s ^ 4) u1 (u1 ^ 4) s (wbap_eps e n u1 u2).
Proof.
  intros e n u1 u2 s He Hn Hs.
  assert (S0 : s <> 0) by (destruct Hs as [[? ->]|[? ->]]; lra).
  pose proof (pow4_pos s S0) as P. pose proof (pow4_nonneg u1) as Q.
  assert (Hw : 0 < n * s ^ 4) by nra.
  repeat split; try lra.
  unfold wbap_eps, theta_inverse.
  destruct Hs as [[H2 ->]|[H2 ->]].
  - rewrite (sgn_pos u2), (abs_pos u2), (abs_pos 1) by lra. field. split; [|lra].
    replace (n * (u2 + e) * (u2 + e) * (u2 + e) * (u2 + e) + u1 * u1 * u1 * u1)
      with (n * (u2 + e) ^ 4 + u1 ^ 4) by ring. lra.
  - rewrite (sgn_neg u2), (abs_neg u2), (abs_neg (-1)) by lra. field. split.
    + replace (n * u2 ^ 4 - 4 * n * u2 ^ 3 * e + 6 * n * u2 ^ 2 * e ^ 2 - 4 * n * u2 * e ^ 3 + n * e ^ 4 + u1 ^ 4) with (n * (u2 - e) ^ 4 + u1 ^ 4) by ring. lra.
    + lra.
Qed.

Lemma average_between : forall p a q b y, average p a q b y -> between a b y.
Proof.
  intros p a q b y (Hp & Hq & Hs & ->). unfold between. split.
  - apply le_div; auto. minmax; nra.
  - apply div_le; auto. minmax; nra.
Qed.

Lemma wbap_odd_eps : forall e n u1 u2, wbap_eps e n (- u1) (- u2) = - wbap_eps e n u1 u2.
Proof.
  intros. unfold wbap_eps, theta_inverse. rewrite sgn_opp, !Rabs_Ropp.
  replace (- u1 / (Rabs u2 + e) * - sgn u2) with (u1 / (Rabs u2 + e) * sgn u2)
    by (unfold Rdiv; ring).
  unfold Rdiv. ring.
Qed.

Lemma theta_scale : forall k e u1 u2, 0 < k -> 0 < e ->
  theta_inverse (k * e) (k * u1) (k * u2) = theta_inverse e u1 u2.
Proof.
  intros k e u1 u2 Hk He. unfold theta_inverse.
  rewrite sgn_scale, abs_scale by auto. pose proof (Rabs_pos u2). field. split; nra.
Qed.

Lemma wbap_scale_eps : forall k e n u1 u2, 0 < k -> 0 < e ->
  wbap_eps (k * e) n (k * u1) (k * u2) = k * wbap_eps e n u1 u2.
Proof.
  intros k e n u1 u2 Hk He. unfold wbap_eps. rewrite theta_scale, sgn_scale by auto.
  unfold Rdiv. ring.
Qed.

Lemma wbap_cut_is : forall e n u1 u2,
  wbap_cut_eps e n u1 u2 = wbap_eps e n u1 u2 * (1 / 2 * Rabs (sgn u1 + sgn u2)).
Proof. intros. unfold wbap_cut_eps, wbap_eps. unfold Rdiv. ring. Qed.

Lemma wbap_cut_same : forall e n u1 u2, 0 < u1 * u2 ->
  wbap_cut_eps e n u1 u2 = wbap_eps e n u1 u2.
Proof.
  intros e n u1 u2 H. rewrite wbap_cut_is.
  destruct (Rtotal_order u1 0) as [A|[->|A]]; [|lra|].
  - rewrite (sgn_neg u1), (sgn_neg u2) by nra. rewrite abs_neg by lra. lra.
  - rewrite (sgn_pos u1), (sgn_pos u2) by nra. rewrite abs_pos by lra. lra.
Qed.

Lemma wbap_cut_opposite : forall e n u1 u2, u1 * u2 <= 0 -> wbap_cut_eps e n u1 u2 = 0.
Proof.
  intros e n u1 u2 H. rewrite wbap_cut_is.
  destruct (Req_dec u2 0) as [->|Z2]; [rewrite wbap_zero2; ring|].
  destruct (Req_dec u1 0) as [->|Z1]; [unfold wbap_eps, Rdiv; ring|].
  replace (sgn u1 + sgn u2) with 0; [rewrite Rabs_R0; ring|].
  destruct (Rtotal_order u1 0) as [A|[A|A]]; [| lra |];
    destruct (Rtotal_order u2 0) as [B|[B|B]]; try lra; try (exfalso; nra).
  - rewrite (sgn_neg u1), (sgn_pos u2) by lra. lra.
  - rewrite (sgn_pos u1), (sgn_neg u2) by lra. lra.
Qed.

Lemma away_exists : forall e u, u <> 0 -> exists s, away e u s.
Proof.
  intros e u H. destruct (Rtotal_order u 0) as [A|[A|A]]; [|lra|].
  - exists (u - e). right. auto.
  - exists (u + e). left. auto.
Qed.

Lemma away_abs : forall e u s, 0 < e -> away e u s -> Rabs s = Rabs u + e.
Proof.
  intros e u s He [[H ->]|[H ->]].
  - rewrite !abs_pos; lra.
  - rewrite !abs_neg; lra.
Qed.

Lemma between_abs : forall a b y m, between a b y -> Rabs a <= m -> Rabs b <= m -> Rabs y <= m.
Proof.
  intros a b y m [H1 H2] Ha Hb. apply Rabs_le. 
  assert (- m <= a <= m /\ - m <= b <= m).
  { revert Ha Hb. unfold Rabs. destruct (Rcase_abs a), (Rcase_abs b); lra. }
  revert H1 H2. minmax; lra.
Qed.

Lemma wbap_bound_eps : forall e n u1 u2, 0 < e -> 0 < n ->
  Rabs (wbap_eps e n u1 u2) <= Rmax (Rabs u1) (Rabs u2 + e).
Proof.
  intros e n u1 u2 He Hn. destruct (Req_dec u2 0) as [->|Z].
  - rewrite wbap_zero2, Rabs_R0. eapply Rle_trans; [|apply Rmax_r]. pose proof (Rabs_pos 0). lra.
  - destruct (away_exists e u2 Z) as [s Hs].
    pose proof (average_between _ _ _ _ _ (wbap_average_eps e n u1 u2 s He Hn Hs)) as B.
    eapply between_abs; [exact B|apply Rmax_l|].
    rewrite (away_abs e u2 s) by auto. apply Rmax_r.
Qed.

(** ** The multi-way average *)
Section Multi.
  Variables (e n1 u0 : R).
  Let step : R * R * R -> R -> R * R * R := fun '(up, down, cent) u =>
    let t := theta_inverse e u0 u in
    (up + t * t * t, down + (t * t) * (t * t), cent * Rabs (sgn u)).

  Definition w4 (u : R) : R := let t := theta_inverse e u0 u in (t * t) * (t * t).
  Definition w3 (u : R) : R := let t := theta_inverse e u0 u in t * t * t.
  Definition rsum (f : R -> R) (l : list R) : R := fold_right (fun x a => f x + a) 0 l.

  Lemma multi_fold : forall l up down cent,
    fold_left step l (up, down, cent) =
    (up + rsum w3 l, down + rsum w4 l,
     cent * fold_right (fun u a => Rabs (sgn u) * a) 1 l).
  Proof.
    induction l as [|u l IH]; intros up down cent; cbn [fold_left rsum fold_right].
    - f_equal; [f_equal|]; ring.
    - unfold step at 2. cbn beta iota zeta. rewrite IH. unfold rsum. cbn [fold_right].
      unfold w3 at 2, w4 at 2. cbn zeta. f_equal; [f_equal|]; ring.
  Qed.

  Lemma multi_is : forall l,
    wbap_multi_eps e n1 u0 l =
    u0 * fold_right (fun u a => Rabs (sgn u) * a) 1 l * (rsum w3 l + n1) / (rsum w4 l + n1).
  Proof.
    intros l. unfold wbap_multi_eps.
    change (fold_left _ l (0, 0, u0)) with (fold_left step l (0, 0, u0)).
    rewrite multi_fold. rewrite !Rplus_0_l. reflexivity.
  Qed.

  Lemma w4_nonneg : forall l, 0 <= rsum w4 l.
  Proof.
    induction l as [|u l IH]; cbn; [lra|]. unfold rsum in IH.
    assert (0 <= w4 u) by (unfold w4; apply sq_nonneg). lra.
  Qed.
End Multi.

Lemma multi_zero : forall e n1 u0 l, In 0 l -> wbap_multi_eps e n1 u0 l = 0.
Proof.
  intros e n1 u0 l H. rewrite multi_is.
  replace (fold_right (fun u a => Rabs (sgn u) * a) 1 l) with 0; [unfold Rdiv; ring|].
  induction l as [|u l IH]; [destruct H|]. cbn. destruct H as [->|H].
  - rewrite sgn_zero, Rabs_R0. ring.
  - rewrite <- (IH H). ring.
Qed.

Lemma signs_one : forall l, ~ In 0 l -> fold_right (fun u a => Rabs (sgn u) * a) 1 l = 1.
Proof.
  induction l as [|u l IH]; cbn; intros H; [reflexivity|].
  rewrite IH by tauto. destruct (Rtotal_order u 0) as [A|[A|A]].
  - rewrite sgn_neg, abs_neg; lra.
  - exfalso. apply H. auto.
  - rewrite sgn_pos, abs_pos; lra.
Qed.

(** The weighted sum of the pulled values. *)
Fixpoint pulled (e u0 : R) (l : list R) : R :=
  match l with
  | [] => 0
  | u :: l' => (u0 / (Rabs u + e)) ^ 4 * (sgn u * (Rabs u + e)) + pulled e u0 l'
  end.
Fixpoint weights (e u0 : R) (l : list R) : R :=
  match l with
  | [] => 0
  | u :: l' => (u0 / (Rabs u + e)) ^ 4 + weights e u0 l'
  end.

Lemma sgn_sq : forall u, u <> 0 -> sgn u * sgn u = 1.
Proof.
  intros u H. destruct (Rtotal_order u 0) as [A|[A|A]]; [rewrite sgn_neg; lra|lra|rewrite sgn_pos; lra].
Qed.

Lemma w4_is : forall e u0 u, u <> 0 -> 0 < e -> w4 e u0 u = (u0 / (Rabs u + e)) ^ 4.
Proof.
  intros e u0 u H He. unfold w4, theta_inverse. cbn zeta.
  transitivity ((u0 / (Rabs u + e)) ^ 4 * ((sgn u * sgn u) * (sgn u * sgn u))); [ring|].
  rewrite sgn_sq by auto. ring.
Qed.

Lemma w3_is : forall e u0 u, u <> 0 -> 0 < e ->
  u0 * w3 e u0 u = (u0 / (Rabs u + e)) ^ 4 * (sgn u * (Rabs u + e)).
Proof.
  intros e u0 u H He. unfold w3, theta_inverse. cbn zeta. pose proof (Rabs_pos u).
  transitivity ((u0 / (Rabs u + e)) ^ 4 * (sgn u * (Rabs u + e)) * (sgn u * sgn u)).
  - field. lra.
  - rewrite sgn_sq by auto. ring.
Qed.

Lemma multi_average : forall e n1 u0 l, 0 < e -> 0 < n1 -> ~ In 0 l ->
  wbap_multi_eps e n1 u0 l = (n1 * u0 + pulled e u0 l) / (n1 + weights e u0 l).
Proof.
  intros e n1 u0 l He Hn H. rewrite multi_is, signs_one by auto.
  assert (A : u0 * rsum (w3 e u0) l = pulled e u0 l /\ rsum (w4 e u0) l = weights e u0 l).
  { clear -H He. induction l as [|u l IH]; cbn [pulled weights]; unfold rsum; cbn [fold_right];
      [split; [ring|reflexivity]|].
    cbn in H. destruct IH as [I J]; [tauto|]. unfold rsum in I, J.
    rewrite <- I, <- J. rewrite <- w3_is, w4_is by (auto; intros E; apply H; auto).
    split; ring. }
  destruct A as [A B]. rewrite <- A, <- B. f_equal; ring.
Qed.

Lemma multi_bound : forall e n1 u0 l m, 0 < e -> 0 < n1 ->
  Rabs u0 <= m -> (forall u, In u l -> Rabs u + e <= m) ->
  Rabs (wbap_multi_eps e n1 u0 l) <= m.
Proof.
  intros e n1 u0 l m He Hn H0 H.
  destruct (in_dec Req_EM_T 0 l) as [I|I].
  - rewrite multi_zero by auto. rewrite Rabs_R0. pose proof (Rabs_pos u0). lra.
  - rewrite multi_average by auto.
    assert (A : 0 <= weights e u0 l /\ Rabs (pulled e u0 l) <= m * weights e u0 l).
    { clear I H0. induction l as [|u l IH]; cbn [pulled weights].
      - rewrite Rabs_R0. lra.
      - destruct IH as [I J]; [intros; apply H; right; auto|].
        specialize (H u (or_introl eq_refl)). pose proof (Rabs_pos u).
        set (w := (u0 / (Rabs u + e)) ^ 4) in *.
        assert (Hw : 0 <= w) by (subst w; apply pow4_nonneg).
        split; [lra|]. eapply Rle_trans; [apply Rabs_triang|].
        rewrite Rabs_mult, (Rabs_right w) by lra. rewrite Rabs_mult.
        assert (Hs : Rabs (sgn u) <= 1).
        { destruct (Rtotal_order u 0) as [A|[->|A]].
          - rewrite sgn_neg, abs_neg; lra.
          - rewrite sgn_zero, Rabs_R0; lra.
          - rewrite sgn_pos, abs_pos; lra. }
        rewrite (Rabs_right (Rabs u + e)) by lra. pose proof (Rabs_pos (sgn u)).
        assert (Rabs (sgn u) * (Rabs u + e) <= m) by nra.
        nra. }
    destruct A as [A B]. unfold Rdiv. rewrite Rabs_mult.
    rewrite (Rabs_right (/ _)) by (left; apply Rinv_0_lt_compat; lra).
    apply div_le; [lra|]. eapply Rle_trans; [apply Rabs_triang|].
    rewrite Rabs_mult, (abs_pos n1) by lra. nra.
Qed.

Lemma multi_odd : forall e n1 u0 l,
  wbap_multi_eps e n1 (- u0) (map Ropp l) = - wbap_multi_eps e n1 u0 l.
Proof.
  intros e n1 u0 l. rewrite !multi_is.
  assert (A : rsum (w3 e (- u0)) (map Ropp l) = rsum (w3 e u0) l /\
              rsum (w4 e (- u0)) (map Ropp l) = rsum (w4 e u0) l /\
              fold_right (fun u a => Rabs (sgn u) * a) 1 (map Ropp l) =
              fold_right (fun u a => Rabs (sgn u) * a) 1 l).
  { assert (T : forall u, theta_inverse e (- u0) (- u) = theta_inverse e u0 u).
    { intros u. unfold theta_inverse. rewrite sgn_opp, Rabs_Ropp. unfold Rdiv. ring. }
    induction l as [|u l IH]; cbn; [auto|]. destruct IH as (A & B & C). unfold rsum in *.
    rewrite A, B, C. unfold w3, w4. rewrite !T, sgn_opp, Rabs_Ropp. auto. }
  destruct A as (-> & -> & ->). unfold Rdiv. ring.
Qed.

Lemma multi_scale : forall k e n1 u0 l, 0 < k -> 0 < e ->
  wbap_multi_eps (k * e) n1 (k * u0) (map (Rmult k) l) = k * wbap_multi_eps e n1 u0 l.
Proof.
  intros k e n1 u0 l Hk He. rewrite !multi_is.
  assert (A : rsum (w3 (k * e) (k * u0)) (map (Rmult k) l) = rsum (w3 e u0) l /\
              rsum (w4 (k * e) (k * u0)) (map (Rmult k) l) = rsum (w4 e u0) l /\
              fold_right (fun u a => Rabs (sgn u) * a) 1 (map (Rmult k) l) =
              fold_right (fun u a => Rabs (sgn u) * a) 1 l).
  { induction l as [|u l IH]; cbn; [auto|]. destruct IH as (A & B & C). unfold rsum in *.
    rewrite A, B, C. unfold w3, w4. rewrite !theta_scale, sgn_scale by auto. auto. }
  destruct A as (-> & -> & ->). unfold Rdiv. ring.
Qed.
