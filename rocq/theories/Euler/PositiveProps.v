(** Property C57: the positivity-preserving limiters of the Euler solver keep density,
    internal energy and turbulence variables within their bounds. *)
From Coq Require Import Reals List Arith Lra Lia.
From Verif Require Import Base.Prelude Euler.GasModel Euler.GasProofs Euler.CompressModel Euler.CompressProofs Euler.PositiveModel Euler.PositiveSpec
  Euler.PositiveProofs Euler.PositiveIncProofs Euler.PositiveFixProofs Euler.PositiveAllProofs Euler.PositiveBetaProofs
  Euler.PositiveExample Euler.PositiveTight.
Import ListNotations.
Local Open Scope R_scope.

(** The quadratic scheme of the compression ratio (the one all limiters here use) answers
    with a ratio in [0,1] that leaves the internal energy above the floor, for every
    increment that keeps the density positive. *)
Theorem C48_quadratic_estimate_returns : forall d u x floor e0, 0 < rho u -> 0 < rho u + rho x ->
  einner d u x 0 = Ok e0 -> 10 ^ 19 * verySmall <= 2 * rho u * (internal d u - Rmax (smallR * e0) floor) ->
  exists r, compression_ratio d 0 u x floor = Ok r /\ 0 <= r <= 1 /\
    Rmax (smallR * e0) floor <= internal d (step u x r).
Proof. exact quadratic_returns. Qed.
Print Assumptions C48_quadratic_estimate_returns.

Example C48_quadratic_estimate_returns_met : exists r, compression_ratio 2 0 (still 1 1) (still 0 (-3)) (1/2) = Ok r /\ 0 <= r <= 1 /\
  1/2 <= internal 2 (step (still 1 1) (still 0 (-3)) r).
Proof.
  pose proof tiny as T. pose proof verySmall_pos as VS. assert (P : 0 < 10 ^ 19) by (apply pow_lt; lra).
  assert (T' : 10 ^ 19 * verySmall <= / 10).
  { replace (10 ^ 20) with (10 * 10 ^ 19) in T by reflexivity. assert (0 < 10 ^ 19 * verySmall) by (apply Rmult_lt_0_compat; auto). lra. }
  assert (EM : Rmax (smallR * (0 * -3 + 1)) (1/2) = 1/2) by (rewrite smallR_val; apply Rmax_right; lra).
  destruct (C48_quadratic_estimate_returns 2 (still 1 1) (still 0 (-3)) (1/2) (0 * -3 + 1)) as (r & A & B & C).
  - cbn; lra.
  - cbn; lra.
  - apply einner_still. lra.
  - rewrite EM, still_internal. cbn [rho still]. lra.
  - rewrite EM in C. exists r. auto.
Qed.

(** A reconstructed face value never has a negative density, internal energy or (for the
    two-equation models) turbulence variable; it is the mean plus the reconstruction unless
    that one has a negative quantity. *)
Theorem C57_face_value_not_negative : forall d tb u x e0, 0 <= rho u -> einner d u szero 0 = Ok e0 -> 0 <= e0 ->
  (tb = TwoEq -> extras_nonneg tb u) ->
  exists v b e, compress_rec_part d tb u x = Ok (v, b) /\ 0 <= rho v /\
    ekin d (rho v) (mom v) = Ok e /\ 0 <= ene v - e /\ (tb = TwoEq -> extras_nonneg tb v) /\
    (b = false -> v = sadd u x) /\
    (b = true -> rho (sadd u x) < 0 \/ (exists k, ekin d (rho (sadd u x)) (mom (sadd u x)) = Ok k /\ ene (sadd u x) < k)
       \/ (tb = TwoEq /\ exists i, In i (extras_of tb) /\ extra (sadd u x) i < 0)).
Proof. exact rec_part_ok. Qed.
Print Assumptions C57_face_value_not_negative.

Example C57_face_value_not_negative_met : exists v b e, compress_rec_part 2 TwoEq (still 1 1) emptying = Ok (v, b) /\ 0 <= rho v /\
    ekin 2 (rho v) (mom v) = Ok e /\ 0 <= ene v - e.
Proof.
  destruct (C57_face_value_not_negative 2 TwoEq (still 1 1) emptying (0 * 0 + 1)) as (v & b & e & A & B & C & D & _).
  - cbn; lra.
  - apply einner_still. lra.
  - lra.
  - intros _ i _. cbn. lra.
  - exists v, b, e. auto.
Qed.

(** The face value may have no mass at all: a density of exactly zero passes. *)
Theorem C57_face_value_positive_refuted : ~ (forall d tb u x v b, 0 < rho u -> 0 < internal d u ->
  compress_rec_part d tb u x = Ok (v, b) -> 0 < rho v).
Proof.
  intro H. assert (W := H 2%nat Laminar (still 1 1) _ _ _ ltac:(cbn; lra) ltac:(rewrite still_internal; lra) zero_density).
  cbn in W. lra.
Qed.
Print Assumptions C57_face_value_positive_refuted.

(** The increment fix-up answers for every increment of a cell above the bounds: the flow
    part is a multiple of the increment asked for, density and internal energy stay above
    the bounds, turbulence variables stay non-negative, and an increment that is fine
    already is left as it is. *)
Theorem C57_increment_keeps_physical : forall d tb st u x, sane st -> inc_rho_eps st <= rho u ->
  inc_p_eps st / (gam st - 1) < internal d u -> extras_nonneg tb u ->
  exists y t e, compress_inc d tb st u x = Ok y /\ 0 <= t <= 1 /\ flow_multiple t y x /\
    inc_rho_eps st <= rho (sadd u y) /\
    einner d u y 1 = Ok e /\ inc_p_eps st < e /\
    (inc_p_eps st / (gam st - 1) <= internal d (sadd u y) \/
     (0 < rho u + rho x -> Rmin (internal d u) (internal d (sadd u x)) <= internal d (sadd u y))) /\
    extras_nonneg tb (sadd u y) /\
    (inc_rho_eps st < rho (sadd u x) -> (forall e0, einner d u x 1 = Ok e0 -> inc_p_eps st < e0) ->
     extras_nonneg tb (sadd u x) -> y = x).
Proof. exact compress_inc_ok. Qed.
Print Assumptions C57_increment_keeps_physical.

Example C57_increment_keeps_physical_met : exists y t e, compress_inc 2 TwoEq air moving emptying = Ok y /\ 0 <= t <= 1 /\
  flow_multiple t y emptying /\ inc_rho_eps air <= rho (sadd moving y) /\ einner 2 moving y 1 = Ok e /\ inc_p_eps air < e.
Proof.
  destruct (C57_increment_keeps_physical 2 TwoEq air moving emptying air_sane) as (y & t & e & A & B & C & D & E & F & _).
  - unfold inc_rho_eps. cbn [relaxed air ref_rho]. rewrite eps_1. cbn. lra.
  - rewrite moving_internal. unfold inc_p_eps. cbn [relaxed air ref_p gam]. rewrite eps_1. lra.
  - intros i _. cbn. lra.
  - exists y, t, e. repeat split; auto; try apply B; apply C.
Qed.

(** A turbulence variable that would become negative is damped exponentially instead, that
    of the one-equation model not below 1e-6; otherwise it takes the same multiple of its
    increment as the flow. *)
Theorem C57_increment_turbulence : forall d tb st u x y, compress_inc d tb st u x = Ok y ->
  exists t, flow_multiple t y x /\ forall i, In i (extras_of tb) -> extra (sadd u y) i = damped tb (extra u i) (t * extra x i).
Proof. exact inc_turbulence. Qed.
Print Assumptions C57_increment_turbulence.

(** Below the bound it asks for, the fix-up fails on a cell of positive pressure. *)
Theorem C57_increment_always_returns_refuted : ~ (forall d tb st u x, sane st -> inc_rho_eps st <= rho u ->
  0 < internal d u -> extras_nonneg tb u -> exists y, compress_inc d tb st u x = Ok y).
Proof.
  intro H. destruct (H 2%nat Laminar air (still 1 (1/100000000000))
    {| rho := 0; mom := fun _ => 0; ene := - (1/1000000000000); extra := fun _ => 0 |} air_sane) as (y & E).
  - unfold inc_rho_eps. cbn [relaxed air ref_rho]. rewrite eps_1. cbn. lra.
  - rewrite still_internal. lra.
  - intros i [].
  - rewrite thin_aborts in E. discriminate E.
Qed.
Print Assumptions C57_increment_always_returns_refuted.

(** Adding a fixed-up increment to a good mean value can give one the solver's own check of
    the mean values refuses: the two compare different quantities with the same bound. *)
Theorem C57_added_increment_passes_check_refuted : ~ (forall d tb st u x v, sane st ->
  assert_mean_pp d st u = Ok tt -> add_fixed_increment d tb st 1 u x = Ok v -> assert_mean_pp d st v = Ok tt).
Proof.
  intro H. destruct between_added as (v & E & A).
  rewrite (H 2%nat Laminar air (still 1 1) between v air_sane) in A; [discriminate A| |exact E].
  apply assert_mean_ok; [apply air_sane|]. unfold physical, mean_rho_eps, mean_p_eps. cbn [relaxed air ref_rho ref_p gam].
  rewrite eps_1, still_internal. cbn. lra.
Qed.
Print Assumptions C57_added_increment_passes_check_refuted.

(** The increment limiter over all cells of all ranks.  Every cell receives a multiplier in
    [0,1] such that it and every smaller one keeps density and internal energy above the
    relaxed bounds; the number of limited cells and the least multiplier are reported
    truthfully. *)
Theorem C57_increment_limiter : forall d st rx compress, sane st -> relax_allowed st rx ->
  (1 <= compress * alpha_power st)%nat ->
  forall f1 f2 ranks, (forall r c, In r ranks -> In c r -> cell_ok d st rx (fst c)) ->
  exists alphas n m, rhs_alpha d st rx compress f1 f2 ranks = Ok (alphas, n, m) /\ 0 <= m <= 1 /\
    Forall2 (Forall2 (fun c a => 0 <= a <= 1 /\
      forall t, 0 <= t <= a -> physical d (kept_rho st rx (fst c)) (kept_e d st rx (fst c)) (step (fst c) (snd c) t))) ranks alphas /\
    (f2 = false -> n = count_below_one (concat alphas)) /\
    (forall l a, In l alphas -> In a l -> m <= a) /\
    (f1 = true -> forall l a, In l alphas -> In a l -> a = m \/ a = 1).
Proof. exact rhs_alpha_ok. Qed.
Print Assumptions C57_increment_limiter.

Example C57_increment_limiter_met : exists alphas n m,
  rhs_alpha 2 air_relaxed (9/10) 2 true false [[(moving, emptying); (moving, szero)]; [(moving, moving)]] = Ok (alphas, n, m) /\ 0 <= m <= 1.
Proof.
  destruct (C57_increment_limiter 2 air_relaxed (9/10) 2 air_relaxed_sane (allowed _) ltac:(cbn; lia) true false
    [[(moving, emptying); (moving, szero)]; [(moving, moving)]]) as (al & n & m & A & B & _).
  - intros r c Hr Hc. assert (fst c = moving) as -> by (destruct Hr as [<- | [<- | []]]; cbn in Hc; intuition subst; reflexivity).
    apply moving_ok. auto.
  - exists al, n, m. auto.
Qed.

(** With a compression power of zero the multiplier is the safety factor whatever the
    bounds say, and the density goes negative. *)
Theorem C57_zero_power_refuted : ~ (forall d st rx compress u x a b, sane st -> relax_allowed st rx -> cell_ok d st rx u ->
  rhs_alpha_cell d st rx compress u x = Ok (a, b) -> 0 < rho (step u x a)).
Proof.
  intro H. destruct power_zero as (a & E & N).
  assert (W := H 2%nat no_power 1 2%nat (still 1 1) draining a true). apply Rlt_not_le in N. apply N. apply Rlt_le. apply W; auto.
  - unfold sane. cbn. lra.
  - unfold relax_allowed. cbn. split; [lra|discriminate].
  - unfold cell_ok, physical, resolved, not_swamped, kept_e, mean_rho_eps, mean_p_eps. cbn [relaxed no_power ref_rho ref_p gam].
    rewrite eps_1, still_internal. cbn [rho still]. pose proof tiny.
    assert (K : kinetic 2 (still 1 1) = 0) by (unfold kinetic, still, sqnorm, dot; cbn; field). rewrite K. split; [lra|]. split; lra.
Qed.
Print Assumptions C57_zero_power_refuted.

(** The update of one cell, as the solver performs it: limit, add, check.  The check of the
    mean values never fails, and the new mean value is a fraction of the increment away. *)
Theorem C57_update_passes_check : forall d tb st rx alpha u x, sane st -> relax_allowed st rx -> cell_ok d st rx u ->
  (1 <= alpha_power st)%nat -> 0 <= alpha <= 1 -> extras_nonneg tb u ->
  inc_rho_eps st <= rho u -> inc_p_eps st / (gam st - 1) < internal d u ->
  exists v t, fincrement d tb st rx 1 alpha u x = Ok v /\ 0 <= t <= alpha /\
    rho v = rho u + t * rho x /\ (forall i, mom v i = mom u i + t * mom x i) /\ ene v = ene u + t * ene x /\
    physical d (mean_rho_eps st) (mean_p_eps st / (gam st - 1)) v /\ extras_nonneg tb v.
Proof. exact fincrement_ok. Qed.
Print Assumptions C57_update_passes_check.

Example C57_update_passes_check_met : exists v t, fincrement 2 OneEq air (9/10) 1 1 moving emptying = Ok v /\ 0 <= t <= 1 /\
  rho v = rho moving + t * rho emptying /\ extras_nonneg OneEq v.
Proof.
  destruct (C57_update_passes_check 2 OneEq air (9/10) 1 moving emptying air_sane (allowed _)) as (v & t & A & B & C & _ & _ & _ & D).
  - apply moving_ok. auto.
  - cbn. lia.
  - lra.
  - intros i _. cbn. lra.
  - unfold inc_rho_eps. cbn [relaxed air ref_rho]. rewrite eps_1. cbn. lra.
  - rewrite moving_internal. unfold inc_p_eps. cbn [relaxed air ref_p gam]. rewrite eps_1. lra.
  - exists v, t. auto.
Qed.

(** Relaxing the turbulence increments is meant to leave the flow alone.  It scales the
    energy, and one of the two turbulence variables is not relaxed. *)
Theorem C57_turbulence_relaxation_refuted : ~ (forall d st rx rr u x v w, sane st -> relax_allowed st rx -> cell_ok d st rx u ->
  fincrement d TwoEq st rx rr 1 u x = Ok v -> fincrement d TwoEq st rx 1 1 u x = Ok w -> ene v = ene w).
Proof.
  intro H. destruct (ransrelax_scales_energy (1/2) ltac:(lra)) as (v & Ev & Hv & _).
  destruct (ransrelax_scales_energy 1 ltac:(lra)) as (w & Ew & Hw & _).
  assert (W := H 2%nat air (9/10) (1/2) (still 1 1) heated v w air_sane (allowed _)). rewrite Hv, Hw in W.
  assert (C : 1 + 1/2 = 1 + 1); [|lra]. apply W; auto.
  unfold cell_ok, physical, resolved, not_swamped, kept_e, mean_rho_eps, mean_p_eps. cbn [relaxed air ref_rho ref_p gam].
  rewrite eps_1, still_internal. cbn [rho still]. pose proof tiny.
  assert (K : kinetic 2 (still 1 1) = 0) by (unfold kinetic, still, sqnorm, dot; cbn; field). rewrite K. split; [lra|]. split; lra.
Qed.
Print Assumptions C57_turbulence_relaxation_refuted.

(** Re-expanding the multipliers gives a cell the global minimum exactly when the whole
    increment would leave the bounds. *)
Theorem C57_expansion : forall d st m u x a, sane st -> 0 < rho u + rho x ->
  exists a', rhs_alpha_expand d st m u x a = Ok a' /\
    ((physical d (eps (ref_rho st)) (eps (ref_p st) / (gam st - 1)) (sadd u x) /\ a' = a) \/
     (~ physical d (eps (ref_rho st)) (eps (ref_p st) / (gam st - 1)) (sadd u x) /\ a' = m)).
Proof. exact expand_ok. Qed.
Print Assumptions C57_expansion.

Example C57_expansion_met : exists a', rhs_alpha_expand 2 air (1/3) moving (sscale (1/4) emptying) (1/2) = Ok a' /\ (a' = 1/2 \/ a' = 1/3).
Proof.
  destruct (C57_expansion 2 air (1/3) moving (sscale (1/4) emptying) (1/2) air_sane) as (a' & A & B); [cbn; lra|].
  exists a'. split; [exact A|]. destruct B as [(_ & ->) | (_ & ->)]; auto.
Qed.

(** The smoothed local time step is positive, never above the old one and never below half
    of it, and unchanged where no neighbour is smaller. *)
Theorem C57_smoothed_time_step : forall dt l, 0 < dt -> (forall x, In x l -> 0 < x) ->
  0 < min_smooth dt l <= dt /\ dt / 2 <= min_smooth dt l /\
  ((forall x, In x l -> dt <= x) -> min_smooth dt l = dt).
Proof. exact min_smooth_ok. Qed.
Print Assumptions C57_smoothed_time_step.

Example C57_smoothed_time_step_met : 0 < min_smooth 2 [1; 3] <= 2.
Proof. apply C57_smoothed_time_step; [lra|]. intros x [<- | [<- | []]]; lra. Qed.

(** The limited reconstruction keeps density and internal energy above the bounds at every
    quadrature point handed to the limiter, for every polynomial and every base order. *)
Theorem C57_limited_reconstruction_physical : forall d dim3 tb st rE pE u rows, 0 < rE ->
  forall to_mean order c c' beta, to_mean = true \/ (1 <= order)%nat ->
  urec_beta d dim3 tb st rE pE to_mean order u rows c = Ok (c', beta) ->
  0 <= beta <= 1 /\ forall row, In row rows -> physical d rE pE (sadd (rec_at c' row) u).
Proof. exact urec_beta_physical. Qed.
Print Assumptions C57_limited_reconstruction_physical.

(** And it answers whenever the mean is above the bounds and the truncations of the
    polynomial that are physical are so by more than rounding. *)
Theorem C57_limited_reconstruction_returns : forall d dim3 tb st rE pE u rows, 0 < rE -> 0 < pE -> 1 < gam st < 2 ->
  forall (to_mean : bool) order c,
  (to_mean = true \/ (1 <= order <= 3)%nat) -> rE <= rho u -> pE <= (gam st - 1) * internal d u ->
  (forall k v, In v (points u rows (truncated k c)) -> physical d rE pE v -> resolved d pE v /\ not_swamped d v) ->
  exists c' beta, urec_beta d dim3 tb st rE pE to_mean order u rows c = Ok (c', beta).
Proof. exact urec_beta_returns. Qed.
Print Assumptions C57_limited_reconstruction_returns.

Example C57_limited_reconstruction_met : exists c' beta, urec_beta 2 false Laminar air (eps 1) (eps 1) false 2 moving [[1]; [-1]] steep = Ok (c', beta) /\
  0 <= beta <= 1 /\ physical 2 (eps 1) (eps 1) (sadd (rec_at c' [1]) moving).
Proof.
  assert (EP : 0 < eps 1) by (rewrite eps_1; lra). destruct steep_ok as (A & B & C).
  destruct (C57_limited_reconstruction_returns 2 false Laminar air (eps 1) (eps 1) moving [[1]; [-1]] EP EP ltac:(cbn; lra) false 2%nat steep
    (or_intror (conj (le_S _ _ (le_n _)) (le_S _ _ (le_n _)))) A B C) as (c' & b & E).
  exists c', b. split; [exact E|].
  destruct (C57_limited_reconstruction_physical 2 false Laminar air (eps 1) (eps 1) moving [[1]; [-1]] EP false 2%nat steep c' b
    (or_intror (le_S _ _ (le_n _))) E) as (F & G).
  split; [exact F|]. apply G. left. reflexivity.
Qed.

(** The turbulence variable of the one-equation model is not limited at all, although a
    negative one makes the limiter start. *)
Theorem C57_limited_one_equation_refuted : ~ (forall d dim3 st rE pE u rows order c c' beta, 0 < rE -> 0 < pE -> extras_nonneg OneEq u ->
  urec_beta d dim3 OneEq st rE pE true order u rows c = Ok (c', beta) ->
  forall row, In row rows -> extras_nonneg OneEq (sadd (rec_at c' row) u)).
Proof.
  intro H. assert (EP : 0 < eps 1) by (rewrite eps_1; lra).
  assert (W := H 2%nat false air (eps 1) (eps 1) (still 1 1) [[1]] 1%nat _ _ 1 EP EP ltac:(intros i _; cbn; lra) one_equation [1] (or_introl eq_refl) 0%nat (or_introl eq_refl)).
  cbn in W. lra.
Qed.
Print Assumptions C57_limited_one_equation_refuted.

(** With a base above the constants the two-equation variables are scaled as a whole, not
    towards the base, and come out negative. *)
Theorem C57_limited_two_equations_refuted : ~ (forall d dim3 st rE pE u rows order c c' beta, 0 < rE -> 0 < pE -> extras_nonneg TwoEq u ->
  urec_beta d dim3 TwoEq st rE pE false order u rows c = Ok (c', beta) ->
  forall row, In row rows -> extras_nonneg TwoEq (sadd (rec_at c' row) u)).
Proof.
  intro H. assert (EP : 0 < eps 1) by (rewrite eps_1; lra). destruct two_equations as (c' & E & N).
  assert (W := H 2%nat false air (eps 1) (eps 1) (still 1 1) [[1; 0; 1]] 2%nat _ _ 1 EP EP ltac:(intros i _; cbn; lra) E [1; 0; 1] (or_introl eq_refl) 0%nat (or_introl eq_refl)).
  lra.
Qed.
Print Assumptions C57_limited_two_equations_refuted.
