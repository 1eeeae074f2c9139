(** The statements of LimiterProps, for the constants of the code. *)
From Coq Require Import Reals List Lra Lia Psatz.
From Verif Require Import Base.Prelude.
From Verif Require Import CFV.LimiterModel CFV.LimiterSpec CFV.LimiterProofs.
From Verif Require Import CFV.LimiterNorm CFV.LimiterRotate.
Import ListNotations.
Open Scope R_scope.

Lemma minmod_all : forall u1 u2,
  between 0 u1 (minmod u1 u2) /\ between 0 u2 (minmod u1 u2) /\
  (u1 * u2 <= 0 -> minmod u1 u2 = 0) /\
  (0 < u1 * u2 -> (minmod u1 u2 = u1 /\ Rabs u1 <= Rabs u2) \/
                  (minmod u1 u2 = u2 /\ Rabs u2 <= Rabs u1)).
Proof.
  intros u1 u2. destruct (minmod_between u1 u2). repeat split; try apply H; try apply H0.
  - apply minmod_opposite.
  - apply minmod_attains.
Qed.

Lemma minmod_symmetries : forall u1 u2 k, 0 < k ->
  minmod u2 u1 = minmod u1 u2 /\ minmod (- u1) (- u2) = - minmod u1 u2 /\
  minmod (k * u1) (k * u2) = k * minmod u1 u2.
Proof.
  intros. split; [apply minmod_sym|]. split; [apply minmod_odd|apply minmod_scale; auto].
Qed.

Lemma van_leer_all : forall u1 u2,
  (u1 * u2 <= 0 -> van_leer u1 u2 = 0) /\
  (0 < u1 * u2 ->
    0 < van_leer u1 u2 * u1 /\
    Rabs (van_leer u1 u2) <= Rmax (Rabs u1) (Rabs u2) /\
    Rabs (van_leer u1 u2) <= 2 * Rmin (Rabs u1) (Rabs u2) /\
    Rmin (Rabs u1) (Rabs u2) * (Rabs (u1 + u2) / (Rabs (u1 + u2) + verySmallReal))
      <= Rabs (van_leer u1 u2)).
Proof.
  intros u1 u2. split; [apply van_leer_opposite|].
  apply van_leer_bounds. apply verySmall_pos.
Qed.

Lemma van_leer_symmetries : forall u1 u2 k eps, 0 < k -> 0 < eps ->
  van_leer u2 u1 = van_leer u1 u2 /\ van_leer (- u1) (- u2) = - van_leer u1 u2 /\
  van_leer_eps (k * eps) (k * u1) (k * u2) = k * van_leer_eps eps u1 u2.
Proof.
  intros u1 u2 k eps Hk He. split; [|split; [apply van_leer_odd_eps|apply van_leer_scale_eps; auto]].
  unfold van_leer, van_leer_eps. rewrite (Rplus_comm (sgn u2)), (Rmult_comm u2), (Rplus_comm u2). reflexivity.
Qed.

Lemma verySmall_lt1 : verySmallReal < 1.
Proof.
  unfold verySmallReal.
  assert (G : forall n, (0 < n)%nat -> (/ 10) ^ n < 1).
  { induction n as [|[|n] IH]; intros H; [lia|cbn; lra|].
    specialize (IH ltac:(lia)). cbn [pow] in *.
    assert (0 < / 10 * (/ 10) ^ n) by (apply Rmult_lt_0_compat; [lra|apply pow_lt; lra]). nra. }
  apply G. lia.
Qed.

Lemma van_leer_exceeds : Rmin (Rabs 1) (Rabs 3) < Rabs (van_leer 1 3).
Proof.
  unfold van_leer. rewrite van_leer_same by (try apply verySmall_pos; lra).
  pose proof verySmall_pos. pose proof verySmall_lt1.
  assert (A : 6 / 5 <= 2 * (1 * 3) / (1 + 3 + verySmallReal)) by (apply le_div; lra).
  rewrite (abs_pos 1), (abs_pos 3), abs_pos by lra. minmax; lra.
Qed.

Lemma wbap_average : forall n u1 u2 s, 0 < n -> away verySmallReal_pDiP u2 s ->
  average (n * s ^ 4) u1 (u1 ^ 4) s (wbap n u1 u2).
Proof. intros. apply wbap_average_eps; auto. apply root_pos. Qed.

Lemma wbap_bound : forall n u1 u2, 0 < n ->
  wbap n u1 0 = 0 /\
  Rabs (wbap n u1 u2) <= Rmax (Rabs u1) (Rabs u2 + verySmallReal_pDiP).
Proof.
  intros. split; [apply wbap_zero2|]. apply wbap_bound_eps; auto. apply root_pos.
Qed.

Lemma wbap_exceeds : Rmax (Rabs 1) (Rabs 1) < Rabs (wbap 1 1 1).
Proof.
  pose proof root_pos as He.
  destruct (wbap_average 1 1 1 (1 + verySmallReal_pDiP)) as (_ & _ & _ & E); [lra|left; split; lra|].
  rewrite E. clear E. set (e := verySmallReal_pDiP) in *. clearbody e.
  assert (P : 0 < (1 + e) ^ 4) by (apply pow4_pos; lra).
  assert (A : 1 < (1 * (1 + e) ^ 4 * 1 + 1 ^ 4 * (1 + e)) / (1 * (1 + e) ^ 4 + 1 ^ 4)).
  { set (D := 1 * (1 + e) ^ 4 + 1 ^ 4).
    assert (HD : 0 < D) by (unfold D; rewrite pow1; lra).
    apply (Rmult_lt_reg_r D); auto.
    replace ((1 * (1 + e) ^ 4 * 1 + 1 ^ 4 * (1 + e)) / D * D)
      with (1 * (1 + e) ^ 4 * 1 + 1 ^ 4 * (1 + e)) by (field; lra).
    unfold D. rewrite pow1. lra. }
  rewrite (abs_pos 1), abs_pos by lra. minmax; lra.
Qed.

Lemma wbap_symmetries : forall n u1 u2 k e, 0 < k -> 0 < e ->
  wbap n (- u1) (- u2) = - wbap n u1 u2 /\
  wbap_eps (k * e) n (k * u1) (k * u2) = k * wbap_eps e n u1 u2.
Proof. intros. split; [apply wbap_odd_eps|apply wbap_scale_eps; auto]. Qed.

Lemma wbap_cut_all : forall n u1 u2, 0 < n ->
  (u1 * u2 <= 0 -> wbap_cut n u1 u2 = 0) /\
  (0 < u1 * u2 -> exists s, away verySmallReal_pDiP u2 s /\ 0 < wbap_cut n u1 u2 * u1 /\
     average (n * s ^ 4) u1 (u1 ^ 4) s (wbap_cut n u1 u2)).
Proof.
  intros n u1 u2 Hn. split; [apply wbap_cut_opposite|]. intros H.
  assert (Z : u2 <> 0) by (intros ->; lra).
  destruct (away_exists verySmallReal_pDiP u2 Z) as [s Hs]. exists s. split; [exact Hs|].
  pose proof (wbap_average n u1 u2 s Hn Hs) as A.
  unfold wbap_cut. rewrite wbap_cut_same by auto. fold wbap. fold (wbap n u1 u2). split; [|exact A].
  pose proof (average_between _ _ _ _ _ A) as B. pose proof root_pos as He.
  assert (C : 0 < s * u1).
  { destruct Hs as [[P ->]|[P ->]]; nra. }
  assert (Z1 : u1 <> 0) by (intros ->; lra).
  destruct B as [B1 B2]. unfold Rmin, Rmax in *.
  destruct (Rle_dec u1 s); nra.
Qed.

Lemma pulled_total : forall e u0 others ss, 0 < e -> Forall2 (away e) others ss ->
  ~ In 0 others /\ pulled e u0 others = total (fun s => (u0 / s) ^ 4 * s) ss /\
  weights e u0 others = total (fun s => (u0 / s) ^ 4) ss.
Proof.
  intros e u0 others ss He H. induction H as [|u s us ss Hs H IH].
  - split; [intros []|]. split; reflexivity.
  - destruct IH as (I & J & K). unfold total in *. cbn [pulled weights fold_right]. rewrite J, K.
    assert (E : sgn u * (Rabs u + e) = s /\ (u0 / (Rabs u + e)) ^ 4 = (u0 / s) ^ 4).
    { destruct Hs as [[P ->]|[P ->]].
      - rewrite sgn_pos, abs_pos by lra. split; [ring|reflexivity].
      - rewrite sgn_neg, abs_neg by lra. split; [ring|].
        replace (u0 / (- u + e)) with (- (u0 / (u - e))) by (field; lra). ring. }
    destruct E as [E1 E2]. rewrite E1, E2. split; [|split; reflexivity].
    intros [Hu|Hu]; [|contradiction]. subst u. destruct Hs as [[P _]|[P _]]; lra.
Qed.

Lemma wbap_multi_all : forall n u0 others, 0 < n ->
  (In 0 others -> wbap_multi n u0 others = 0) /\
  (forall m, Rabs u0 <= m -> (forall u, In u others -> Rabs u + verySmallReal_pDiP <= m) ->
     Rabs (wbap_multi n u0 others) <= m) /\
  (forall ss, Forall2 (away verySmallReal_pDiP) others ss ->
     wbap_multi n u0 others =
     (n * u0 + total (fun s => (u0 / s) ^ 4 * s) ss) / (n + total (fun s => (u0 / s) ^ 4) ss)).
Proof.
  intros n u0 others Hn. split; [apply multi_zero|]. split.
  - intros. apply multi_bound; auto. apply root_pos.
  - intros ss H. destruct (pulled_total _ u0 _ _ root_pos H) as (A & <- & <-).
    apply multi_average; auto. apply root_pos.
Qed.

Lemma wbap_multi_symmetries : forall n u0 others k e, 0 < k -> 0 < e ->
  wbap_multi n (- u0) (map Ropp others) = - wbap_multi n u0 others /\
  wbap_multi_eps (k * e) n (k * u0) (map (Rmult k) others) = k * wbap_multi_eps e n u0 others.
Proof. intros. split; [apply multi_odd|apply multi_scale; auto]. Qed.

Lemma wbap_norm_all : forall n dim u1 u2 w, 0 < n -> length u1 = length u2 ->
  norm_weights dim (length u1) = Ok w ->
  exists out a b, wbap_norm n dim u1 u2 = Ok out /\ length out = length u1 /\
    0 <= a /\ 0 <= b /\ a + b <= 1 /\
    (forall i, (i < length u1)%nat -> nth i out 0 = a * nth i u1 0 + b * nth i u2 0) /\
    a * (wsq w u1) ^ 2 = n * b * (wsq w u2) ^ 2 /\
    (verySmallReal_pDiP <= col_max u1 u2 -> 1 - (a + b) <= 576 * verySmallReal / Rmin 1 n).
Proof.
  intros n dim u1 u2 w Hn L W.
  destruct (wbap_norm_ok verySmallReal verySmallReal_pDiP n dim u1 u2 w verySmall_pos root_pos Hn L W)
    as (out & E & a & b & A & B & C & F & G & H).
  exists out, a, b. split; [exact E|]. subst out. split; [apply map2_length; auto|].
  do 3 (split; [auto|]). split; [|auto].
  intros i Hi. rewrite map2_nth; auto.
Qed.

Lemma wbap_orth_all : forall n u1 u2, 0 < n -> length u1 = length u2 ->
  exists out a b, wbap_orth n u1 u2 = Ok out /\ length out = length u1 /\
    0 <= a /\ 0 <= b /\ a + b <= 1 /\
    (forall i, (i < length u1)%nat -> nth i out 0 = a * nth i u1 0 + b * nth i u2 0) /\
    a * (fold_right (fun x s => x * x + s) 0 u1) ^ 2 = n * b * (fold_right (fun x s => x * x + s) 0 u2) ^ 2 /\
    (verySmallReal_pDiP <= col_max u1 u2 -> 1 - (a + b) <= 576 * verySmallReal / Rmin 1 n).
Proof.
  intros n u1 u2 Hn L.
  destruct (wbap_orth_ok verySmallReal verySmallReal_pDiP n u1 u2 verySmall_pos root_pos Hn L)
    as (out & E & a & b & A & B & C & F & G & H).
  exists out, a, b. split; [exact E|]. subst out. split; [apply map2_length; auto|].
  do 3 (split; [auto|]).
  assert (Q : forall (v u : list R), length v = length u ->
    wsq (map (fun _ => 1) v) u = fold_right (fun x s => x * x + s) 0 u).
  { clear. induction v as [|y v IH]; intros [|x u] Hl; cbn in *; try discriminate; auto.
    rewrite IH by lia. ring. }
  split; [intros i Hi; rewrite map2_nth; auto|]. split; [|auto].
  rewrite !Q in G by lia. exact G.
Qed.

Lemma wbap_multi_poly_bound : forall n us w rows B, 0 <= n -> us <> [] ->
  (forall u, In u us -> length u = rows /\
     forall i, (i < rows)%nat -> Rabs (nth i u 0) <= B i) ->
  norm_weights 2 rows = Ok w ->
  exists out, wbap_multi_poly2 n us = Ok out /\ length out = rows /\
    forall i, (i < rows)%nat -> Rabs (nth i out 0) <= B i.
Proof.
  intros n [|u0 rest] w rows B Hn Hne H W; [congruence|]. unfold wbap_multi_poly2, multi_check.
  assert (L0 : length u0 = rows) by (apply H; left; auto).
  replace (forallb _ rest) with true.
  2:{ symmetry. apply forallb_forall. intros u Hu. apply Nat.eqb_eq.
      rewrite L0. apply H. right; auto. }
  cbn [assert_ bind]. rewrite L0, W. cbn [bind]. eexists. split; [reflexivity|].
  destruct (norm_weights_ok _ _ _ W) as [LW GW].
  apply multi_out_bound; auto; [apply verySmall_pos|apply root_pos].
Qed.

Lemma wbap_multi_orth_bound : forall n us rows B, 0 <= n -> us <> [] ->
  (forall u, In u us -> length u = rows /\
     forall i, (i < rows)%nat -> Rabs (nth i u 0) <= B i) ->
  exists out, wbap_multi_orth n us = Ok out /\ length out = rows /\
    forall i, (i < rows)%nat -> Rabs (nth i out 0) <= B i.
Proof.
  intros n [|u0 rest] rows B Hn Hne H; [congruence|]. unfold wbap_multi_orth, multi_check.
  assert (L0 : length u0 = rows) by (apply H; left; auto).
  replace (forallb _ rest) with true.
  2:{ symmetry. apply forallb_forall. intros u Hu. apply Nat.eqb_eq.
      rewrite L0. apply H. right; auto. }
  cbn [assert_ bind]. eexists. split; [reflexivity|].
  apply multi_out_bound; auto; [apply verySmall_pos|apply root_pos|].
  apply Forall_forall. intros x Hx. apply repeat_spec in Hx. lra.
Qed.

Lemma memm_all : forall dim u1 u2 w,
  length u1 = length u2 -> norm_weights dim (length u1) = Ok w ->
  exists out, memm dim u1 u2 = Ok out /\ length out = length u1 /\
    wsq w out <= wsq w u1 /\ wsq w out <= wsq w u2 /\
    ((wsq w u1 < wsq w u2 /\ out = u1) \/ (wsq w u2 < wsq w u1 /\ out = u2) \/
     (wsq w u1 = wsq w u2 /\ out = map2 (fun x y => x * (1/2) + y * (1/2)) u1 u2)).
Proof. intros. apply memm_least; auto. apply root_pos. Qed.
