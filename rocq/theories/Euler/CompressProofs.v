From Coq Require Import Reals List Arith Lra Lia Psatz.
From Verif Require Import Base.Prelude Base.PreludeFacts Euler.GasModel Euler.GasProofs Euler.CompressModel.
Local Open Scope R_scope.

Lemma verySmall_pos : 0 < verySmall.
Proof. unfold verySmall. apply Rinv_0_lt_compat. apply pow_lt. lra. Qed.
Lemma smallR_pos : 0 < smallR.
Proof. unfold smallR. apply Rinv_0_lt_compat. apply pow_lt. lra. Qed.
Lemma safety_range : 0 < safety < 1.
Proof.
  unfold safety. assert (1 < 10 ^ 5) by (simpl; lra). 
  assert (0 < / 10 ^ 5 < 1). { split; [apply Rinv_0_lt_compat; lra|]. rewrite <- Rinv_1. apply Rinv_lt_contravar; lra. }
  lra.
Qed.
Lemma decay_range : 0 < decay < 1.
Proof.
  unfold decay. assert (1 < 10 ^ 2) by (simpl; lra). 
  assert (0 < / 10 ^ 2 < 1). { split; [apply Rinv_0_lt_compat; lra|]. rewrite <- Rinv_1. apply Rinv_lt_contravar; lra. }
  lra.
Qed.

Lemma cut_range : forall a, 0 <= a <= 1 -> 0 <= cut a <= 1.
Proof. intros a H. unfold cut. destruct (Rlt_dec a smallR); lra. Qed.
Lemma cut_le : forall a, 0 <= a -> cut a <= a.
Proof. intros a H. unfold cut. destruct (Rlt_dec a smallR); lra. Qed.

Lemma convex_range : forall x y f, 0 <= convex_estimate x y f <= 1.
Proof.
  intros. unfold convex_estimate. split; [apply Rmax_r|]. apply Rmax_lub; [apply Rmin_r|lra].
Qed.
Lemma quadratic_range : forall d u v f a, quadratic_estimate d u v f = Ok a -> 0 <= a <= 1.
Proof.
  intros d u v f a. unfold quadratic_estimate. destruct (Rle_dec _ _); [discriminate|]. intros [= <-].
  split; [apply Rmax_l|]. apply Rmax_lub; [lra|].
  destruct (Rlt_dec _ _); [destruct (Rlt_dec _ _); [lra|]|]; apply Rmin_r.
Qed.

Lemma decay_ok : forall d u v f n a r, decay_loop d u v f n a = Ok r -> 0 <= a <= 1 ->
  0 <= r <= 1 /\ r <= a /\ exists e, einner d u v r = Ok e /\ f <= e.
Proof.
  intros d u v f. induction n; intros a r H Ha; cbn in H; [discriminate|]. inv_bind.
  pose proof decay_range as Hdc.
  match goal with E : einner d u v a = Ok ?y |- _ => rename y into e0 end.
  destruct (Rlt_dec e0 f).
  - apply IHn in H; [|nra]. destruct H as (H1 & H2 & H3). split; [auto|]. split; [nra|auto].
  - injection H as <-. split; [auto|]. split; [lra|]. exists e0. split; [auto|lra].
Qed.

Lemma decay_first : forall d u v f n a e, n <> 0%nat -> einner d u v a = Ok e -> f <= e -> decay_loop d u v f n a = Ok a.
Proof.
  intros d u v f n a e Hn E He. destruct n as [|k]; [congruence|]. cbn. rewrite E. cbn [bind].
  destruct (Rlt_dec e f); [lra|reflexivity].
Qed.

Lemma ratio_ok : forall d s u v f r, compression_ratio d s u v f = Ok r ->
  0 <= r <= 1 /\ exists e, einner d u v r = Ok e /\ f <= e.
Proof.
  intros d s u v f r H. unfold compression_ratio in H. inv_bind.
  match goal with E : (if (s =? 0)%nat then _ else _) = Ok ?y |- _ => rename y into al; rename E into Eal end.
  assert (Hal : 0 <= al <= 1).
  { destruct (s =? 0)%nat; [eapply quadratic_range; eauto|]. injection Eal as <-. apply convex_range. }
  pose proof safety_range. apply decay_ok in H; [|apply cut_range; nra].
  destruct H as (G1 & _ & e & G3 & G4). split; [auto|]. exists e. split; auto.
  eapply Rle_trans; [|exact G4]. apply Rmax_r.
Qed.

(** concavity of the internal energy along an increment *)
Lemma kin_convex : forall d (m n : vec) r q t, 0 < r -> 0 < q -> 0 <= t <= 1 ->
  sqnorm d (fun i => (1 - t) * m i + t * n i) / ((1 - t) * r + t * q)
  <= (1 - t) * (sqnorm d m / r) + t * (sqnorm d n / q).
Proof.
  intros d m n r q t Hr Hq Ht. assert (Hp : 0 < (1 - t) * r + t * q) by nra.
  apply (Rmult_le_reg_r ((1 - t) * r + t * q)); auto. unfold Rdiv at 1. rewrite Rmult_assoc, Rinv_l, Rmult_1_r by lra.
  pose proof (sqnorm_pos d (fun i => q * m i - r * n i)) as HP.
  unfold sqnorm in *. rewrite dot_sub_l, !dot_sub_r, !dot_scal_l, !dot_scal_r in HP.
  rewrite dot_add_l, !dot_add_r, !dot_scal_l, !dot_scal_r. rewrite (dot_comm d n m) in *.
  set (A := dot d m m) in *. set (B := dot d n n) in *. set (C := dot d m n) in *.
  assert (E : ((1 - t) * (A / r) + t * (B / q)) * ((1 - t) * r + t * q)
    - ((1 - t) * ((1 - t) * A) + (1 - t) * (t * C) + (t * ((1 - t) * C) + t * (t * B)))
    = t * (1 - t) * (q * (q * A) - q * (r * C) - (r * (q * C) - r * (r * B))) / (r * q)) by (field; lra).
  assert (0 <= t * (1 - t) * (q * (q * A) - q * (r * C) - (r * (q * C) - r * (r * B))) / (r * q)).
  { apply Rmult_le_pos; [apply Rmult_le_pos; [nra|lra]|]. left. apply Rinv_0_lt_compat. nra. }
  lra.
Qed.

Lemma einner_val : forall d u v a, 0 <= rho u -> 0 <= rho u + rho v -> 0 <= a <= 1 ->
  einner d u v a = Ok (a * ene v + ene u - 1/2 * sqnorm d (fun i => mom u i + a * mom v i) / (rho u + a * rho v + verySmall)).
Proof.
  intros d u v a H1 H2 Ha. pose proof verySmall_pos. unfold einner, ekin.
  assert (0 < rho u + a * rho v + verySmall) by nra.
  destruct (Req_EM_T _ 0); [lra|]. reflexivity.
Qed.

Lemma sqnorm_ext : forall d u v, (forall i, (i < d)%nat -> u i = v i) -> sqnorm d u = sqnorm d v.
Proof. intros. unfold sqnorm. apply dot_ext; auto. Qed.

Lemma einner_concave : forall d u v t e0 e1, 0 <= rho u -> 0 <= rho u + rho v -> 0 <= t <= 1 ->
  einner d u v 0 = Ok e0 -> einner d u v 1 = Ok e1 ->
  exists e, einner d u v t = Ok e /\ (1 - t) * e0 + t * e1 <= e.
Proof.
  intros d u v t e0 e1 H1 H2 Ht E0 E1. rewrite einner_val in E0, E1 by (auto; lra). rewrite einner_val by auto.
  injection E0 as <-. injection E1 as <-. eexists. split; [reflexivity|].
  pose proof verySmall_pos.
  rewrite (sqnorm_ext d (fun i => mom u i + 0 * mom v i) (mom u)) by (intros; ring).
  rewrite (sqnorm_ext d (fun i => mom u i + 1 * mom v i) (fun i => mom u i + mom v i)) by (intros; ring).
  rewrite (sqnorm_ext d (fun i => mom u i + t * mom v i) (fun i => (1 - t) * mom u i + t * (mom u i + mom v i))) by (intros; ring).
  pose proof (kin_convex d (mom u) (fun i => mom u i + mom v i) (rho u + verySmall) (rho u + rho v + verySmall) t) as K.
  specialize (K ltac:(lra) ltac:(lra) Ht).
  replace (rho u + t * rho v + verySmall) with ((1 - t) * (rho u + verySmall) + t * (rho u + rho v + verySmall)) by ring.
  replace (rho u + 0 * rho v + verySmall) with (rho u + verySmall) by ring.
  replace (rho u + 1 * rho v + verySmall) with (rho u + rho v + verySmall) by ring.
  unfold Rdiv in *. lra.
Qed.

(** with the convex estimate no decay round is ever needed *)
Lemma convex_returns : forall d s u v f e0, s <> 0%nat -> 0 <= rho u -> 0 <= rho u + rho v ->
  einner d u v 0 = Ok e0 -> 0 <= e0 -> f <= e0 ->
  exists e1, einner d u v 1 = Ok e1 /\
    compression_ratio d s u v f = Ok (cut (convex_estimate e0 e1 (Rmax (smallR * e0) f) * safety)).
Proof.
  intros d s u v f e0 Hs H1 H2 E0 P0 Hf. 
  assert (E1 : exists e1, einner d u v 1 = Ok e1) by (rewrite einner_val by (auto; lra); eauto).
  destruct E1 as (e1 & E1). exists e1. split; [auto|].
  unfold compression_ratio. rewrite E0. cbn [bind]. rewrite E1. cbn [bind].
  replace (s =? 0)%nat with false by (symmetry; apply Nat.eqb_neq; auto). cbn [bind].
  set (F := Rmax (smallR * e0) f). set (a := cut (convex_estimate e0 e1 F * safety)).
  pose proof (convex_range e0 e1 F) as Ce. pose proof safety_range as Sr.
  assert (Ha : 0 <= a <= 1) by (apply cut_range; nra).
  assert (Hl : a <= convex_estimate e0 e1 F).
  { unfold a. eapply Rle_trans; [apply cut_le; nra|]. nra. }
  assert (HF : F <= e0).
  { apply Rmax_lub; auto. assert (smallR <= 1).
    { unfold smallR. rewrite <- Rinv_1. apply Rinv_le_contravar; [lra|]. simpl. lra. }
    pose proof smallR_pos. nra. }
  destruct (einner_concave d u v a e0 e1 H1 H2 Ha E0 E1) as (e & Ee & He).
  assert (HFe : F <= e).
  { eapply Rle_trans; [|exact He]. unfold convex_estimate in Hl. destruct (Rlt_dec e0 e1).
    - nra.
    - pose proof (Rmax_l (- e1 + e0) verySmall). pose proof (Rmax_r (- e1 + e0) verySmall). pose proof verySmall_pos.
      set (D := Rmax (- e1 + e0) verySmall) in *.
      assert (a <= (e0 - F) / D).
      { eapply Rle_trans; [exact Hl|]. apply Rmax_lub; [apply Rmin_l|].
        apply Rmult_le_pos; [lra|]. left. apply Rinv_0_lt_compat. lra. }
      assert (a * D <= e0 - F).
      { apply (Rmult_le_compat_r D) in H4; [|lra]. unfold Rdiv in H4. rewrite Rmult_assoc, Rinv_l in H4 by lra. lra. }
      nra. }
  apply (decay_first _ _ _ _ _ _ e); [lia|auto|auto].
Qed.
