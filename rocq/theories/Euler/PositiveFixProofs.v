From Coq Require Import Reals List Arith Lra Lia Psatz.
From Verif Require Import Base.Prelude Base.PreludeFacts Euler.GasModel Euler.GasProofs
  Euler.CompressModel Euler.CompressProofs Euler.PositiveModel Euler.PositiveSpec Euler.PositiveProofs Euler.PositiveIncProofs.
Import ListNotations.
Local Open Scope R_scope.

(** *** CompressInc *)
Lemma inc_eps_pos : forall st, sane st -> 0 < inc_rho_eps st /\ 0 < inc_p_eps st.
Proof.
  intros st (A & B & C). pose proof (eps_pos _ A). pose proof (eps_pos _ B). pose proof verySmall_pos.
  unfold inc_rho_eps, inc_p_eps. destruct (relaxed st); split; auto; apply Rmult_lt_0_compat; auto.
Qed.

Lemma flow_internal : forall d u x y t, flow_multiple t y x -> internal d (sadd u y) = internal d (step u x t).
Proof. intros d u x y t (A & B & C). apply internal_ext; cbn; intros; rewrite ?A, ?B, ?C; ring. Qed.
Lemma flow_step : forall d u x y t s, flow_multiple t y x -> internal d (step u y s) = internal d (step u x (t * s)).
Proof. intros d u x y t s (A & B & C). apply internal_ext; cbn; intros; rewrite ?A, ?B, ?C; ring. Qed.

Lemma fix_density_ok : forall st u x, sane st -> 0 < rho u -> inc_rho_eps st <= rho u ->
  exists t, 0 <= t <= 1 /\ fix_density st u x = Ok (if Rle_dec (rho u + rho x) (inc_rho_eps st) then sscale t x else x)
    /\ inc_rho_eps st <= rho u + (if Rle_dec (rho u + rho x) (inc_rho_eps st) then t else 1) * rho x.
Proof.
  intros st u x SA P H. unfold fix_density. pose proof verySmall_pos as VS.
  destruct (Rle_dec (rho u + rho x) (inc_rho_eps st)) as [L|G].
  - assert (rho x - verySmall < 0) by lra. destruct (Req_EM_T _ 0); [lra|].
    set (t := (inc_rho_eps st - rho u) / (rho x - verySmall)).
    assert (Et : t * (verySmall - rho x) = rho u - inc_rho_eps st) by (unfold t; field; lra).
    exists t. assert (0 <= t).
    { apply (Rmult_le_reg_r (verySmall - rho x)); [lra|]. rewrite Et. lra. }
    assert (t <= 1). { apply (Rmult_le_reg_r (verySmall - rho x)); [lra|]. rewrite Et. lra. }
    split; [lra|]. split; [reflexivity|]. nra.
  - exists 1. split; [lra|]. split; [reflexivity|]. lra.
Qed.

Lemma inc_decay_first : forall d u x f n a e, einner d u x a = Ok e -> f <= e -> inc_decay d u x f n a = Ok a.
Proof.
  intros d u x f n a e E He. destruct n as [|k]; [reflexivity|]. cbn. rewrite E. cbn [bind].
  destruct (Rlt_dec e f); [lra|reflexivity].
Qed.

Lemma fix_energy_ok : forall d st u x, sane st -> 0 < rho u -> 0 < rho u + rho x ->
  inc_p_eps st / (gam st - 1) < internal d u ->
  exists e1, einner d u x 1 = Ok e1 /\
  ((inc_p_eps st < e1 /\ fix_energy d st u x = Ok x) \/
   (e1 <= inc_p_eps st /\ exists t, 0 <= t <= 1 /\ fix_energy d st u x = Ok (sscale t x) /\
      inc_p_eps st / (gam st - 1) <= internal d (step u x t))).
Proof.
  intros d st u x SA P Px He. destruct (inc_eps_pos st SA) as (_ & PE). pose proof SA as (_ & _ & Hg).
  set (g := gam st - 1) in *. assert (Pg : 0 < g < 1) by (unfold g; lra).
  set (pE := inc_p_eps st) in *. set (F := pE / g) in *.
  assert (FE : F * g = pE) by (unfold F; field; lra).
  assert (FP : pE < F) by nra.
  destruct (step_internal_reg d u x 1) as (e1 & E1 & I1); [lra|]. exists e1. split; [auto|].
  unfold fix_energy. pose proof verySmall_pos as VS.
  destruct (step_internal_reg d u szero 0) as (e0 & E0 & I0); [cbn; lra|].
  assert (EK : exists k, ekin d (rho u) (mom u) = Ok k /\ 0 < ene u - k).
  { unfold ekin. destruct (Req_EM_T _ 0); [lra|]. eexists. split; [reflexivity|].
    assert (1/2 * sqnorm d (mom u) / (rho u + verySmall) <= 1/2 * sqnorm d (mom u) / rho u).
    { apply Rmult_le_compat_l; [pose proof (sqnorm_pos d (mom u)); lra|]. apply Rinv_le_contravar; lra. }
    unfold internal in He. lra. }
  destruct EK as (k & EK & Pk). rewrite EK. cbn [bind]. destruct (Rlt_dec 0 (ene u - k)); [|lra].
  rewrite E1. cbn [bind]. fold pE. destruct (Rle_dec e1 pE) as [Low|High]; [|left; split; [lra|reflexivity]].
  right. split; [auto|]. destruct (Req_EM_T (gam st) 1); [lra|].
  fold g. fold F. fold (q0 d u F). fold (q1 d u x F). fold (q2 d x).
  assert (C0 : 0 < q0 d u F).
  { assert (q0 d u F = 2 * rho u * (internal d u - F)) as -> by (unfold q0, internal; field; lra). nra. }
  assert (C1 : q0 d u F + q1 d u x F + q2 d x < 0).
  { destruct (Rlt_or_le (q0 d u F + q1 d u x F + q2 d x) 0) as [|N]; [auto|exfalso].
    assert (N' : 0 <= q0 d u F + q1 d u x F * 1 + q2 d x * (1 * 1)) by lra.
    apply (q_internal d u x F 1) in N'; [|lra]. lra. }
  set (c0 := q0 d u F) in *. set (c1 := q1 d u x F) in *. set (c2 := q2 d x) in *.
  assert (DP : 0 < c1 * c1 - 4 * c0 * c2).
  { clear - C0 C1. destruct (Rle_or_lt c2 0).
    - destruct (Req_dec c2 0) as [->|]; [assert (c1 < 0) by lra; nra|]. pose proof (Rle_0_sqr c1) as S2. unfold Rsqr in S2.
      assert (c2 < 0) by lra. nra.
    - assert (- c1 > c0 + c2) by lra. pose proof (Rle_0_sqr (c0 - c2)) as S2. unfold Rsqr in S2. nra. }
  destruct (Rlt_dec 0 (c1 * c1 - 4 * c0 * c2)); [|lra].
  assert (RT : exists al, inc_root c1 c2 (c1 * c1 - 4 * c0 * c2) = Ok al /\ 0 <= al <= 1 /\
     0 <= c0 + c1 * (al * (99/100)) + c2 * (al * (99/100) * (al * (99/100)))).
  { unfold inc_root. destruct (Req_EM_T c2 0) as [Z|N2].
    - destruct (Rlt_dec 0 c1); [lra|]. exists 0. split; [reflexivity|]. lra.
    - eexists. split; [reflexivity|]. split.
      + split; [apply Rmax_l|]. apply Rmax_lub; [lra|apply Rmin_r].
      + pose proof (root_margin c0 c1 c2 (99/100) (Rlt_le _ _ C0) N2 ltac:(lra)) as RM. cbv zeta in RM.
        rewrite (Rmax_right 0 (c1 * c1 - 4 * c0 * c2)) in RM by lra.
        rewrite (Rmult_comm (99/100)) in RM. lra. }
  destruct RT as (al & -> & Ral & Qal). cbn [bind].
  set (a := al * (99/100)) in *. assert (Ra : 0 <= a <= 1) by (unfold a; lra).
  assert (Pa : 0 < rho u + a * rho x) by (apply (rho_between _ _ a 1); lra).
  apply (q_internal d u x F a Pa) in Qal.
  destruct (step_internal_reg d u x a Pa) as (ea & Ea & Ia).
  assert (DE : inc_decay d u x F 1000 a = Ok a).
  { apply (inc_decay_first _ _ _ _ _ _ ea); [auto|lra]. }
  rewrite DE. cbn [bind]. rewrite Ea. cbn [bind]. destruct (Rlt_dec ea (F * (1/2))); [lra|].
  exists a. split; [auto|]. split; [reflexivity|auto].
Qed.

Lemma fix_extra_ok : forall least i u x, 0 <= extra u i -> (forall l, least = Some l -> 0 < l) ->
  exists y, fix_extra least i u x = Ok y /\ flow_multiple 1 y x /\ 0 <= extra u i + extra y i /\
    (forall j, j <> i -> extra y j = extra x j) /\ (0 <= extra u i + extra x i -> y = x).
Proof.
  intros least i u x H Hl. unfold fix_extra. destruct (Rlt_dec (extra u i + extra x i) 0) as [N|N].
  - destruct (Rle_dec 0 (extra u i)); [|lra]. eexists. split; [reflexivity|]. split; [|split; [|split]].
    + unfold flow_multiple. cbn. repeat split; intros; lra.
    + cbn. rewrite Nat.eqb_refl. set (w := exp _). assert (0 < w) by apply exp_pos.
      assert (0 <= extra u i * w) by nra.
      destruct least as [l|]; [|lra]. pose proof (Rmax_r l (extra u i * w)). lra.
    + intros j Hj. cbn. rewrite (proj2 (Nat.eqb_neq j i)) by auto. reflexivity.
    + intro. lra.
  - exists x. split; [reflexivity|]. split; [unfold flow_multiple; repeat split; intros; ring|]. split; [lra|]. auto.
Qed.

Lemma flow_trans : forall t s x y z, flow_multiple t y x -> flow_multiple s z y -> flow_multiple (s * t) z x.
Proof. intros t s x y z (A & B & C) (A' & B' & C'). repeat split; intros; rewrite ?A', ?B', ?C', ?A, ?B, ?C; ring. Qed.
Lemma flow_1 : forall x, flow_multiple 1 x x.
Proof. intros; repeat split; intros; ring. Qed.
Lemma flow_scale : forall t x, flow_multiple t (sscale t x) x.
Proof. intros; repeat split. Qed.

(** the fix of the turbulence variables *)
Definition fix_extras (tb : turbulence) (u ret : state) : res state :=
  match tb with
  | Laminar => Ok ret
  | OneEq => fix_extra (Some (/ 10 ^ 6)) 0 u ret
  | TwoEq => do ret <- fix_extra None 0 u ret; fix_extra None 1 u ret
  end.
Lemma fix_extras_ok : forall tb u x, extras_nonneg tb u ->
  exists y, fix_extras tb u x = Ok y /\ flow_multiple 1 y x /\ extras_nonneg tb (sadd u y) /\
    (extras_nonneg tb (sadd u x) -> y = x).
Proof.
  intros tb u x H. destruct tb; cbn [fix_extras].
  - exists x. split; [reflexivity|]. split; [apply flow_1|]. split; [intros i []|auto].
  - destruct (fix_extra_ok (Some (/ 10 ^ 6)) 0 u x) as (y & E & F & P & O & I).
    + apply H. left. reflexivity.
    + intros l [= <-]. apply Rinv_0_lt_compat. lra.
    + exists y. split; [auto|]. split; [auto|]. split.
      * intros i [<-|[]]. exact P.
      * intro G. apply I. apply (G 0%nat). left. reflexivity.
  - destruct (fix_extra_ok None 0 u x) as (y & E & F & P & O & I); [apply H; left; reflexivity|discriminate|].
    rewrite E. cbn [bind].
    destruct (fix_extra_ok None 1 u y) as (z & E' & F' & P' & O' & I'); [apply H; right; left; reflexivity|discriminate|].
    exists z. split; [auto|]. split; [rewrite <- (Rmult_1_l 1); eapply flow_trans; eauto|]. split.
    + intros i [<-|[<-|[]]]; cbn; [rewrite O' by discriminate; exact P|exact P'].
    + intro G. assert (y = x) as -> by (apply I; apply (G 0%nat); left; reflexivity).
      apply I'. apply (G 1%nat). right. left. reflexivity.
Qed.

Lemma compress_inc_eq : forall d tb st u x, compress_inc d tb st u x =
  if Rlt_dec 0 (rho u) then do r <- fix_density st u x; do r <- fix_energy d st u r; fix_extras tb u r else Abort.
Proof. intros. unfold compress_inc, fix_extras. reflexivity. Qed.

Lemma compress_inc_ok : forall d tb st u x, sane st -> inc_rho_eps st <= rho u ->
  inc_p_eps st / (gam st - 1) < internal d u -> extras_nonneg tb u ->
  exists y t e, compress_inc d tb st u x = Ok y /\ 0 <= t <= 1 /\ flow_multiple t y x /\
    inc_rho_eps st <= rho (sadd u y) /\
    einner d u y 1 = Ok e /\ inc_p_eps st < e /\
    (inc_p_eps st / (gam st - 1) <= internal d (sadd u y) \/
     (0 < rho u + rho x -> Rmin (internal d u) (internal d (sadd u x)) <= internal d (sadd u y))) /\
    extras_nonneg tb (sadd u y) /\
    (inc_rho_eps st < rho (sadd u x) -> (forall e0, einner d u x 1 = Ok e0 -> inc_p_eps st < e0) ->
     extras_nonneg tb (sadd u x) -> y = x).
Proof.
  intros d tb st u x SA Hr He Hx. destruct (inc_eps_pos st SA) as (PR & PE).
  assert (P : 0 < rho u) by lra.
  rewrite compress_inc_eq. destruct (Rlt_dec 0 (rho u)); [|lra].
  destruct (fix_density_ok st u x SA P Hr) as (t & Rt & Ed & Kd). rewrite Ed. cbn [bind].
  set (t' := if Rle_dec (rho u + rho x) (inc_rho_eps st) then t else 1) in *.
  set (v := if Rle_dec (rho u + rho x) (inc_rho_eps st) then sscale t x else x) in *.
  assert (Fv : flow_multiple t' v x).
  { unfold t', v. destruct (Rle_dec _ _); [apply flow_scale|apply flow_1]. }
  assert (Rt' : 0 <= t' <= 1) by (unfold t'; destruct (Rle_dec _ _); lra).
  assert (Rv : inc_rho_eps st <= rho u + rho v) by (destruct Fv as (-> & _); auto).
  destruct (fix_energy_ok d st u v SA P ltac:(lra) He) as (e1 & E1 & CS).
  pose proof SA as (_ & _ & Hg).
  assert (FG : inc_p_eps st < inc_p_eps st / (gam st - 1)).
  { apply (Rmult_lt_reg_r (gam st - 1)); [lra|]. unfold Rdiv. rewrite Rmult_assoc, Rinv_l by lra. nra. }
  (* the result of the energy fix *)
  assert (EN : exists w s e, fix_energy d st u v = Ok w /\ 0 <= s <= 1 /\ flow_multiple s w x /\
     inc_rho_eps st <= rho u + rho w /\ einner d u w 1 = Ok e /\ inc_p_eps st < e /\
     (inc_p_eps st / (gam st - 1) <= internal d (sadd u w) \/ 
       (0 < rho u + rho x -> Rmin (internal d u) (internal d (sadd u x)) <= internal d (sadd u w))) /\
     (inc_rho_eps st < rho (sadd u x) -> (forall e0, einner d u x 1 = Ok e0 -> inc_p_eps st < e0) -> w = x)).
  { destruct CS as [(Hi & Ee)|(Lo & s & Rs & Ee & Is)].
    - exists v, t', e1. split; [auto|]. split; [auto|]. split; [auto|]. split; [auto|]. split; [auto|]. split; [auto|]. split.
      + right. intro Px. rewrite (flow_internal d u x v t' Fv).
        apply (internal_below d u x _ t' 1); try lra; [apply Rmin_l|].
        rewrite (internal_ext d (step u x 1) (sadd u x)) by (cbn; intros; ring). apply Rmin_r.
      + intros G _. unfold v. cbn in G. destruct (Rle_dec _ _); [lra|reflexivity].
    - pose proof (flow_trans t' s x v (sscale s v) Fv (flow_scale s v)) as Fs.
      assert (Rw : inc_rho_eps st <= rho u + rho (sscale s v)).
      { cbn. destruct (Rle_or_lt 0 (rho v)); nra. }
      destruct (step_internal_reg d u (sscale s v) 1) as (e & Ee1 & Ie); [lra|].
      assert (EI : internal d (sadd u (sscale s v)) = internal d (step u v s)) by reflexivity.
      exists (sscale s v), (s * t'), e. split; [auto|]. split; [nra|]. split; [auto|]. split; [auto|]. split; [auto|]. split.
      { rewrite (internal_ext d (step u (sscale s v) 1) (step u v s)) in Ie by (cbn; intros; ring). lra. }
      split; [left; rewrite EI; auto|].
      intros G Q. exfalso. assert (v = x) as V. { unfold v. cbn in G. destruct (Rle_dec _ _); [lra|reflexivity]. }
      rewrite V in E1. specialize (Q e1 E1). lra. }
  destruct EN as (w & s & e & -> & Rs & Fw & Rw & Ew & Pw & Iw & Kw). cbn [bind].
  destruct (fix_extras_ok tb u w Hx) as (y & -> & Fy & Xy & Ky).
  exists y, s, e. pose proof (flow_trans _ _ _ _ _ Fw Fy) as Fyx. rewrite Rmult_1_l in Fyx.
  assert (Iy : internal d (sadd u y) = internal d (sadd u w)).
  { rewrite (flow_internal d u w y 1 Fy). apply internal_ext; cbn; intros; ring. }
  split; [reflexivity|]. split; [auto|]. split; [auto|].
  destruct Fy as (Ar & Am & Ae).
  split; [cbn; rewrite Ar; lra|]. split.
  { rewrite <- Ew. unfold einner. rewrite Ar, Ae.
    replace (1 * (1 * rho w)) with (1 * rho w) by ring. replace (1 * (1 * ene w)) with (1 * ene w) by ring.
    unfold ekin. destruct (Req_EM_T _ 0); [reflexivity|].
    rewrite (sqnorm_ext d (fun i => mom u i + 1 * mom y i) (fun i => mom u i + 1 * mom w i)); [reflexivity|].
    intros. rewrite Am. ring. }
  split; [auto|]. split; [rewrite Iy; exact Iw|]. split; [auto|].
  intros G1 G2 G3. rewrite (Kw G1 G2) in *. apply Ky. exact G3.
Qed.

(** AssertMeanValuePP *)
Lemma assert_mean_ok : forall d st u, sane st -> physical d (mean_rho_eps st) (mean_p_eps st / (gam st - 1)) u ->
  assert_mean_pp d st u = Ok tt.
Proof.
  intros d st u (_ & _ & Hg) (P & A & B). unfold assert_mean_pp. destruct (Rlt_dec _ _); [lra|].
  rewrite rho_e_val by auto. cbn [bind]. destruct (Req_EM_T _ _); [lra|]. destruct (Rlt_dec _ _); [lra|reflexivity].
Qed.
Lemma assert_mean_iff : forall d st u, sane st -> (assert_mean_pp d st u = Ok tt <->
  rho u <> 0 /\ mean_rho_eps st <= rho u /\ mean_p_eps st / (gam st - 1) <= internal d u).
Proof.
  intros d st u (_ & _ & Hg). unfold assert_mean_pp. destruct (Rlt_dec _ _); [split; [discriminate|intros (_ & ? & _); lra]|].
  unfold rho_e. destruct (Req_EM_T (rho u) 0); cbn [bind]; [split; [discriminate|intros (? & _); congruence]|].
  destruct (Req_EM_T _ _); [lra|]. fold (internal d u). destruct (Rlt_dec _ _).
  - split; [discriminate|intros (_ & _ & ?); lra].
  - split; [|reflexivity]. intros _. repeat split; auto; lra.
Qed.

(** *** the whole update of a cell *)
Lemma inc_mean_eps : forall st, sane st -> mean_rho_eps st <= inc_rho_eps st /\ mean_p_eps st <= inc_p_eps st.
Proof.
  intros st SA. destruct (inc_eps_pos st SA). unfold mean_rho_eps, mean_p_eps, inc_rho_eps, inc_p_eps in *.
  destruct (relaxed st); lra.
Qed.

Lemma ransrelax_1 : forall tb v, flow_multiple 1 (ransrelax_inc tb 1 v) v.
Proof. intros [] v; unfold flow_multiple; cbn [ransrelax_inc rho mom ene]; repeat split; intros; lra. Qed.

Lemma fincrement_ok : forall d tb st rx alpha u x, sane st -> relax_allowed st rx -> cell_ok d st rx u ->
  (1 <= alpha_power st)%nat -> 0 <= alpha <= 1 -> extras_nonneg tb u ->
  inc_rho_eps st <= rho u -> inc_p_eps st / (gam st - 1) < internal d u ->
  exists v t, fincrement d tb st rx 1 alpha u x = Ok v /\ 0 <= t <= alpha /\
    rho v = rho u + t * rho x /\ (forall i, mom v i = mom u i + t * mom x i) /\ ene v = ene u + t * ene x /\
    physical d (mean_rho_eps st) (mean_p_eps st / (gam st - 1)) v /\ extras_nonneg tb v.
Proof.
  intros d tb st rx al u x SA RX CO HN Hal HX Hr He.
  assert (HN2 : (1 <= 2 * alpha_power st)%nat) by lia.
  destruct (rhs_alpha_cell_ok d st rx 2 u x SA RX CO HN2) as (a & b & Ea & Ra & _ & PH).
  pose proof CO as ((P & M & Pe) & _). pose proof RX as (Hrx & RL).
  destruct (kept_rho_pos st rx u SA RX P M) as (KP & KM & KU).
  unfold fincrement.
  replace (if relaxed st then if Rlt_dec rx 1 then true else false else true) with true
    by (destruct (relaxed st); [destruct (Rlt_dec rx 1); [auto|specialize (RL eq_refl); lra]|auto]).
  rewrite Ea. cbn [bind fst]. unfold add_fixed_increment.
  set (inc := sscale al (ransrelax_inc tb 1 (sscale a x))).
  assert (Fi : flow_multiple (al * a) inc x).
  { unfold inc. rewrite <- (Rmult_1_r (al * a)), (Rmult_assoc al a 1).
    eapply flow_trans; [|apply flow_scale]. rewrite Rmult_comm. eapply flow_trans; [apply flow_scale|apply ransrelax_1]. }
  destruct (compress_inc_ok d tb st u inc SA Hr He HX) as (y & t & e & Ey & Rt & Fy & Ry & Ee & Pe' & Iy & Xy & _).
  rewrite Ey. cbn [bind].
  pose proof (flow_trans _ _ _ _ _ Fi Fy) as Fyx. set (T := t * (al * a)) in *.
  assert (RT : 0 <= T <= al * a) by (unfold T; assert (0 <= al * a) by nra; nra).
  assert (RTa : 0 <= T <= a) by nra. assert (RTal : T <= al) by nra.
  destruct (PH T RTa) as (PT & PR & PI).
  assert (PG : 0 < gam st - 1) by (destruct SA as (_ & _ & ?); lra).
  assert (KE : mean_p_eps st / (gam st - 1) <= kept_e d st rx u).
  { unfold kept_e. set (f := mean_p_eps st / (gam st - 1)) in *. nra. }
  assert (PV : physical d (mean_rho_eps st) (mean_p_eps st / (gam st - 1)) (sadd u y)).
  { split; [|split].
    - destruct Fyx as (Ar & _). cbn. rewrite Ar. exact PT.
    - destruct (inc_mean_eps st SA). lra.
    - rewrite (flow_internal d u x y T Fyx). lra. }
  assert (SAME : forall v, rho v = rho (sadd u y) -> mom v = mom (sadd u y) -> ene v = ene (sadd u y) ->
     physical d (mean_rho_eps st) (mean_p_eps st / (gam st - 1)) v).
  { intros v Ar Am Ae. destruct PV as (V1 & V2 & V3). split; [rewrite Ar; auto|]. split; [rewrite Ar; auto|].
    rewrite (internal_ext d v (sadd u y)); [auto|auto|intros; rewrite Am; auto|auto]. }
  set (v := match tb, omega_floor st with
            | TwoEq, Some w => set_extra 1 (Rmax (extra (sadd u y) 1%nat) w) (sadd u y)
            | _, _ => sadd u y end).
  assert (EV : (match tb, omega_floor st with
            | TwoEq, Some w => Ok (set_extra 1 (Rmax (extra (sadd u y) 1%nat) w) (sadd u y))
            | _, _ => Ok (sadd u y) end) = Ok v).
  { unfold v. destruct tb, (omega_floor st); reflexivity. }
  cbv zeta. rewrite EV. cbn [bind].
  assert (Vr : rho v = rho (sadd u y) /\ mom v = mom (sadd u y) /\ ene v = ene (sadd u y)).
  { unfold v. destruct tb, (omega_floor st); auto. }
  destruct Vr as (Vr & Vm & Ve).
  rewrite assert_mean_ok by (auto; apply SAME; auto). cbn [bind].
  exists v, T. destruct Fyx as (Ar & Am & Ae).
  split; [reflexivity|]. split; [split; lra|]. split; [rewrite Vr; cbn; lra|]. split; [intro i; rewrite Vm; cbn; rewrite Am; reflexivity|].
  split; [rewrite Ve; cbn; lra|]. split; [apply SAME; auto|].
  intros i Hi. specialize (Xy i Hi). unfold v. destruct tb, (omega_floor st); auto.
  cbn [set_extra extra]. destruct (Nat.eqb_spec i 1) as [->|]; [|exact Xy].
  eapply Rle_trans; [exact Xy|apply Rmax_l].
Qed.
