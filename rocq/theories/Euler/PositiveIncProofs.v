From Coq Require Import Reals List Arith Lra Lia Psatz.
From Verif Require Import Base.Prelude Base.PreludeFacts Euler.GasModel Euler.GasProofs
  Euler.CompressModel Euler.CompressProofs Euler.PositiveModel Euler.PositiveSpec Euler.PositiveProofs.
Import ListNotations.
Local Open Scope R_scope.

Lemma internal_ext : forall d u v, rho u = rho v -> (forall i, (i < d)%nat -> mom u i = mom v i) -> ene u = ene v ->
  internal d u = internal d v.
Proof. intros d u v Er Em Ee. unfold internal. rewrite Er, Ee, (sqnorm_ext d (mom u) (mom v)) by auto. reflexivity. Qed.

Lemma step_0 : forall d u x, internal d (step u x 0) = internal d u.
Proof. intros. apply internal_ext; cbn; intros; ring. Qed.

Lemma internal_concave : forall d u x t, 0 < rho u -> 0 < rho u + rho x -> 0 <= t <= 1 ->
  (1 - t) * internal d u + t * internal d (sadd u x) <= internal d (step u x t).
Proof.
  intros d u x t H1 H2 Ht. unfold internal, step, sadd, sscale. cbn.
  pose proof (kin_convex d (mom u) (fun i => mom u i + mom x i) (rho u) (rho u + rho x) t H1 H2 Ht) as K.
  rewrite (sqnorm_ext d (fun i => mom u i + t * mom x i) (fun i => (1 - t) * mom u i + t * (mom u i + mom x i))) by (intros; ring).
  replace (rho u + t * rho x) with ((1 - t) * rho u + t * (rho u + rho x)) by ring.
  unfold Rdiv in *. lra.
Qed.

Lemma rho_between : forall r s t a, 0 < r -> 0 < r + a * s -> 0 <= t <= a -> 0 < r + t * s.
Proof. intros. destruct (Rle_or_lt 0 s); nra. Qed.

Lemma internal_below : forall d u x F t a, 0 < rho u -> 0 < rho u + a * rho x -> 0 <= t <= a ->
  F <= internal d u -> F <= internal d (step u x a) -> F <= internal d (step u x t).
Proof.
  intros d u x F t a H1 H2 Ht Fu Fa. destruct (Req_dec a 0) as [->|Na].
  - assert (t = 0) as -> by lra. rewrite step_0. auto.
  - assert (Pa : 0 < a) by lra.
    assert (Rs : 0 <= t / a <= 1).
    { split; [apply Rmult_le_pos; [lra|left; apply Rinv_0_lt_compat; auto]|].
      apply (Rmult_le_reg_r a); [auto|]. unfold Rdiv. rewrite Rmult_assoc, Rinv_l, Rmult_1_r by auto. lra. }
    pose proof (internal_concave d u (sscale a x) (t / a) H1 H2 Rs) as C.
    rewrite (internal_ext d (step u (sscale a x) (t / a)) (step u x t)) in C
      by (cbn; intros; unfold Rdiv; try (field; auto)).
    change (sadd u (sscale a x)) with (step u x a) in C. nra.
Qed.

(** *** one cell of the increment limiter *)
Lemma eps_pos : forall r, 0 < r -> 0 < eps r.
Proof. intros r H. unfold eps. pose proof smallR_pos. assert (0 < smallR * r) by (apply Rmult_lt_0_compat; auto). lra. Qed.

Lemma eps_nonneg : forall st, sane st -> 0 <= mean_rho_eps st /\ 0 <= mean_p_eps st /\ (relaxed st = false -> 0 < mean_rho_eps st).
Proof.
  intros st (A & B & C). pose proof (eps_pos _ A). pose proof (eps_pos _ B).
  unfold mean_rho_eps, mean_p_eps. destruct (relaxed st); repeat split; try lra; congruence.
Qed.

Lemma rho_e_val : forall d u, 0 < rho u -> rho_e d u = Ok (internal d u).
Proof. intros d u H. unfold rho_e. destruct (Req_EM_T _ 0); [lra|reflexivity]. Qed.

Lemma pow_le_self : forall a n, 0 <= a <= 1 -> (1 <= n)%nat -> 0 <= a ^ n <= a.
Proof.
  intros a n Ha Hn. destruct n as [|n]; [lia|]. cbn.
  assert (0 <= a ^ n <= 1).
  { split; [apply pow_le; lra|]. rewrite <- (pow1 n). apply pow_incr. lra. }
  nra.
Qed.

Lemma swamped_bound : forall d u x e0, 0 < rho u -> not_swamped d u -> einner d u x 0 = Ok e0 -> e0 <= 2 * internal d u.
Proof.
  intros d u x e0 H N E. pose proof verySmall_pos as VS. unfold einner, ekin in E.
  destruct (Req_EM_T _ 0); [discriminate|]. cbn [bind] in E. injection E as <-.
  rewrite (sqnorm_ext d (fun i => mom u i + 0 * mom x i) (mom u)) by (intros; ring).
  unfold not_swamped, kinetic, internal in *.
  set (s := 1/2 * sqnorm d (mom u)) in *. assert (0 <= s) by (unfold s; pose proof (sqnorm_pos d (mom u)); lra).
  replace (rho u + 0 * rho x + verySmall) with (rho u + verySmall) by ring.
  assert (K : s / rho u - s / (rho u + verySmall) = verySmall * (s / rho u) / (rho u + verySmall)) by (field; lra).
  assert (verySmall * (s / rho u) / (rho u + verySmall) <= ene u - s / rho u).
  { apply (Rmult_le_reg_r (rho u + verySmall)); [lra|].
    unfold Rdiv at 1. rewrite Rmult_assoc, Rinv_l, Rmult_1_r by lra.
    assert (0 <= s / rho u) by (apply Rmult_le_pos; [lra|left; apply Rinv_0_lt_compat; auto]).
    assert (0 <= verySmall * (s / rho u)) by nra.
    assert (0 <= ene u - s / rho u). { apply (Rmult_le_reg_l (rho u)); [auto|]. lra. }
    nra. }
  lra.
Qed.

(** the compression ratio as the increment limiter calls it *)
Lemma ratio_returns : forall d st rx u x floor, sane st -> cell_ok d st rx u -> 0 <= rx <= 1 -> 0 < rho u + rho x ->
  floor <= kept_e d st rx u ->
  exists r, compression_ratio d 0 u x floor = Ok r /\ 0 <= r <= 1 /\ floor <= internal d (step u x r).
Proof.
  intros d st rx u x floor SA ((P & _ & Pe) & RS & NS) Hrx Px Hf.
  destruct (eps_nonneg st SA) as (_ & P0 & _). pose proof verySmall_pos as VS.
  destruct SA as (_ & _ & Hg).
  destruct (step_internal_reg d u x 0) as (e0 & E0 & He0); [lra|].
  pose proof (swamped_bound d u x e0 P NS E0) as B. rewrite step_0 in He0.
  assert (Pf : 0 <= mean_p_eps st / (gam st - 1)).
  { apply Rmult_le_pos; [auto|]. left. apply Rinv_0_lt_compat. lra. }
  assert (K0 : 0 <= kept_e d st rx u) by (unfold kept_e; nra).
  unfold resolved in RS.
  assert (V : 10 ^ 20 * verySmall = 10 * (10 ^ 19 * verySmall)) by ring. rewrite V in RS.
  assert (VP : 0 < 10 ^ 19 * verySmall) by (apply Rmult_lt_0_compat; [apply pow_lt; lra|auto]).
  set (w := 10 ^ 19 * verySmall) in *.
  destruct (quadratic_returns d u x floor e0 P Px E0) as (r & Er & Rr & Ir).
  - fold w. unfold Rmax. destruct (Rle_dec (smallR * e0) floor).
    + assert (2 * rho u * (internal d u - kept_e d st rx u) <= 2 * rho u * (internal d u - floor)) by (apply Rmult_le_compat_l; lra). lra.
    + rewrite smallR_val in *.
      assert (2 * rho u * (internal d u - kept_e d st rx u) <= 2 * rho u * internal d u) by (apply Rmult_le_compat_l; lra).
      assert (2 * rho u * (internal d u * (1/2)) <= 2 * rho u * (internal d u - 1/10000000000 * e0)) by (apply Rmult_le_compat_l; lra). lra.
  - exists r. split; [auto|]. split; [auto|]. eapply Rle_trans; [apply Rmax_r|exact Ir].
Qed.

Lemma kept_rho_pos : forall st rx u, sane st -> relax_allowed st rx -> 0 < rho u -> mean_rho_eps st <= rho u ->
  0 < kept_rho st rx u /\ mean_rho_eps st <= kept_rho st rx u <= rho u.
Proof.
  intros st rx u SA (H1 & H2) P M. destruct (eps_nonneg st SA) as (A & _ & C). unfold kept_rho.
  split; [|split; nra]. destruct (relaxed st) eqn:E; [specialize (H2 eq_refl); nra|specialize (C eq_refl); nra].
Qed.

Lemma rhs_alpha_cell_ok : forall d st rx compress u x, sane st -> relax_allowed st rx -> cell_ok d st rx u ->
  (1 <= compress * alpha_power st)%nat ->
  exists a b, rhs_alpha_cell d st rx compress u x = Ok (a, b) /\ 0 <= a <= 1 /\ (b = true <-> a < 1) /\
    forall t, 0 <= t <= a -> physical d (kept_rho st rx u) (kept_e d st rx u) (step u x t).
Proof.
  intros d st rx compress u x SA RX CO HN. pose proof CO as ((P & M & Pe) & RS & NS).
  pose proof RX as (Hrx & _).
  destruct (kept_rho_pos st rx u SA RX P M) as (KP & KM & KU).
  pose proof SA as (_ & _ & Hg).
  unfold rhs_alpha_cell. destruct (Rle_dec (mean_rho_eps st) (rho u)); [|lra].
  fold (kept_rho st rx u).
  set (aR := if Rlt_dec (rho x) 0 then Rmin 1 ((rho u - kept_rho st rx u) / (- rho x - smallR * rho x)) else 1).
  pose proof smallR_pos as SP.
  assert (HaR : 0 <= aR <= 1 /\ kept_rho st rx u <= rho u + aR * rho x).
  { unfold aR. destruct (Rlt_dec (rho x) 0); [|split; nra].
    assert (DP : 0 < - rho x - smallR * rho x) by nra.
    set (q := (rho u - kept_rho st rx u) / (- rho x - smallR * rho x)).
    assert (Q0 : 0 <= q) by (apply Rmult_le_pos; [lra|left; apply Rinv_0_lt_compat; auto]).
    assert (Qe : q * (- rho x - smallR * rho x) = rho u - kept_rho st rx u) by (unfold q; field; lra).
    assert (Rmin 1 q <= q) by apply Rmin_r. assert (Rmin 1 q <= 1) by apply Rmin_l.
    assert (0 <= Rmin 1 q) by (apply Rmin_glb; lra).
    split; [lra|]. assert (0 <= q * (- (smallR * rho x))) by (apply Rmult_le_pos; nra).
    assert (q * rho x <= Rmin 1 q * rho x) by nra. nra. }
  destruct HaR as (HaR & Rr). destruct (Rle_dec 0 aR); [|lra].
  set (inc := sscale aR x).
  rewrite (rho_e_val d (sadd u inc)) by (cbn; lra). cbn [bind]. rewrite (rho_e_val d u) by auto. cbn [bind].
  set (g := gam st - 1) in *. assert (Pg : 0 < g) by (unfold g; lra).
  set (iN := internal d (sadd u inc)). set (iO := internal d u).
  set (pE := mean_p_eps st) in *.
  set (rP := if Rlt_dec (iN * g) (iO * g) then pE + (iO * g - pE) * (1 - rx) else pE).
  assert (EK : kept_e d st rx u = (pE + (iO * g - pE) * (1 - rx)) / g).
  { unfold kept_e. fold g pE. unfold iO. field. lra. }
  assert (Pe' : pE <= iO * g).
  { unfold physical in *. fold iO in Pe. apply (Rmult_le_compat_r g) in Pe; [|lra].
    unfold Rdiv in Pe. rewrite Rmult_assoc, Rinv_l, Rmult_1_r in Pe by lra. auto. }
  assert (KE : kept_e d st rx u <= iO).
  { rewrite EK. apply (Rmult_le_reg_r g); [auto|]. unfold Rdiv. rewrite Rmult_assoc, Rinv_l, Rmult_1_r by lra. nra. }
  (* the multiplier of the pressure *)
  assert (AP : exists aP, (if Rlt_dec (iN * g) rP then
             if Req_EM_T (gam st) 1 then UB else
             do c <- compression_ratio d 0 u inc (rP / g); Ok (Rmin 1 c) else Ok 1) = Ok aP
     /\ 0 <= aP <= 1 /\ kept_e d st rx u <= internal d (step u x (aR * aP))).
  { destruct (Rlt_dec (iN * g) rP) as [Low|High].
    - destruct (Req_EM_T (gam st) 1); [lra|].
      assert (ErP : rP = pE + (iO * g - pE) * (1 - rx)).
      { unfold rP in *. destruct (Rlt_dec (iN * g) (iO * g)); [reflexivity|]. lra. }
      destruct (ratio_returns d st rx u inc (rP / g) SA CO Hrx) as (rt & Er & Rr2 & Ir).
      + cbn. lra.
      + rewrite EK, ErP. lra.
      + rewrite Er. cbn [bind]. rewrite Rmin_right by lra. exists rt. split; [reflexivity|]. split; [auto|].
        rewrite EK, <- ErP. eapply Rle_trans; [exact Ir|]. right. apply internal_ext; cbn; intros; ring.
    - exists 1. split; [reflexivity|]. split; [lra|].
      rewrite (internal_ext d (step u x (aR * 1)) (sadd u inc)) by (cbn; intros; ring). fold iN.
      unfold rP in High. destruct (Rlt_dec (iN * g) (iO * g)).
      + rewrite EK. apply (Rmult_le_reg_r g); [auto|]. unfold Rdiv. rewrite Rmult_assoc, Rinv_l, Rmult_1_r by lra. lra.
      + assert (iO <= iN) by (apply (Rmult_le_reg_r g); lra). lra. }
  destruct AP as (aP & EaP & RaP & IaP).
  rewrite EaP. cbn [bind]. set (a0 := aR * aP) in *. assert (R0 : 0 <= a0 <= 1) by (unfold a0; nra).
  assert (R0R : a0 <= aR) by (unfold a0; nra).
  assert (ALL : forall t, 0 <= t <= a0 -> physical d (kept_rho st rx u) (kept_e d st rx u) (step u x t)).
  { intros t Ht.
    assert (Kt : kept_rho st rx u <= rho u + t * rho x) by (destruct (Rle_or_lt 0 (rho x)); nra).
    split; [cbn; lra|]. split; [exact Kt|].
    apply (internal_below d u x _ t a0); auto. destruct (Rle_or_lt 0 (rho x)); nra. }
  destruct (Rlt_dec a0 1) as [Lt|Ge].
  - pose proof (pow_le_self a0 _ R0 HN) as PW. pose proof safety_range as SR.
    set (w := a0 ^ (compress * alpha_power st)) in *. exists (w * safety), true.
    assert (0 <= w * safety <= w) by nra.
    split; [reflexivity|]. split; [lra|]. split; [split; [lra|auto]|].
    intros t Ht. apply ALL. lra.
  - exists a0, false. split; [reflexivity|]. split; [auto|]. split; [split; [discriminate|lra]|]. exact ALL.
Qed.
