From Coq Require Import Reals List Arith Lra Lia Psatz.
From Verif Require Import Base.Prelude Base.PreludeFacts Euler.GasModel Euler.GasProofs
  Euler.CompressModel Euler.CompressProofs Euler.PositiveModel Euler.PositiveSpec.
Import ListNotations.
Local Open Scope R_scope.

Lemma smallR_val : smallR = 1/10000000000.
Proof. unfold smallR. field. Qed.
Lemma safety_val : safety = 99999/100000.
Proof. unfold safety. field. Qed.

(** *** the quadratic in the multiplier *)
Section Quadratic.
  Variables (d : nat) (u x : state) (F : R).
  Definition q0 : R := 2 * ene u * rho u - sqnorm d (mom u) - 2 * rho u * F.
  Definition q1 : R := 2 * ene u * rho x + 2 * rho u * ene x - 2 * dot d (mom u) (mom x) - 2 * rho x * F.
  Definition q2 : R := 2 * ene x * rho x - sqnorm d (mom x).

  Lemma q_val : forall t, q0 + q1 * t + q2 * (t * t)
    = 2 * (rho u + t * rho x) * (ene u + t * ene x - F) - sqnorm d (fun i => mom u i + t * mom x i).
  Proof.
    intro t. unfold q0, q1, q2, sqnorm. rewrite dot_add_l, !dot_add_r, !dot_scal_l, !dot_scal_r.
    rewrite (dot_comm d (mom x) (mom u)). ring.
  Qed.

  Lemma q_disc : 0 < q0 -> 0 <= q1 * q1 - 4 * q0 * q2.
  Proof.
    intro H. destruct (Req_dec (rho x) 0) as [E|E].
    - assert (Q2 : q2 <= 0). { unfold q2. rewrite E. pose proof (sqnorm_pos d (mom x)). lra. }
      pose proof (Rle_0_sqr q1) as S2. unfold Rsqr in S2. clear E.
      set (a := q0) in *. set (b := q1) in *. set (c := q2) in *. clearbody a b c. nra.
    - pose proof (q_val (- rho u / rho x)) as V.
      replace (rho u + - rho u / rho x * rho x) with 0 in V by (field; auto).
      pose proof (sqnorm_pos d (fun i => mom u i + - rho u / rho x * mom x i)) as P.
      set (t := - rho u / rho x) in *.
      assert (W : q0 + q1 * t + q2 * (t * t) <= 0) by lra. clear V P.
      set (a := q0) in *. set (b := q1) in *. set (c := q2) in *. clearbody a b c t.
      destruct (Rle_or_lt c 0).
      + assert (0 <= b * b) by apply Rle_0_sqr. nra.
      + pose proof (Rle_0_sqr (2 * c * t + b)) as S2. unfold Rsqr in S2.
        assert (4 * c * (a + b * t + c * (t * t)) <= 0) by nra. nra.
  Qed.

  Lemma q_internal : forall t, 0 < rho u + t * rho x ->
    (0 <= q0 + q1 * t + q2 * (t * t) <-> F <= internal d (step u x t)).
  Proof.
    intros t P. rewrite q_val. unfold internal, step, sadd, sscale. cbn.
    set (s := sqnorm d _). set (r := rho u + t * rho x) in *. set (e := ene u + t * ene x).
    assert (E : 1/2 * s / r * r = 1/2 * s) by (field; lra).
    set (k := 1/2 * s / r) in *. split; intro; nra.
  Qed.
End Quadratic.

(** a root is never passed *)
Lemma root_margin : forall c0 c1 c2 s, 0 <= c0 -> c2 <> 0 -> 0 <= s <= 1 ->
  let D := Rmax 0 (c1 * c1 - 4 * c0 * c2) in
  let a := Rmax 0 (Rmin ((- sqrt D - c1) / (2 * c2)) 1) in
  c0 * ((1 - s) * (1 - s)) <= c0 + c1 * (s * a) + c2 * (s * a * (s * a)).
Proof.
  intros c0 c1 c2 s H0 H2 Hs D a.
  set (L := (- sqrt D - c1) / (2 * c2)) in *.
  assert (EL : 2 * c2 * L = - sqrt D - c1) by (unfold L; field; auto).
  pose proof (sqrt_pos D) as SP.
  assert (SD : sqrt D * sqrt D = D) by (apply sqrt_sqrt; unfold D; apply Rmax_l).
  destruct (Rle_or_lt L 0) as [N|P].
  { assert (a = 0) as ->. { unfold a. apply Rmax_left. eapply Rle_trans; [apply Rmin_l|auto]. }
    assert ((1 - s) * (1 - s) <= 1) by nra. replace (c0 + c1 * (s * 0) + c2 * (s * 0 * (s * 0))) with (c0 * 1) by ring.
    apply Rmult_le_compat_l; auto. }
  assert (A0 : 0 <= a) by (unfold a; apply Rmax_l).
  assert (AL : a <= L). { unfold a. apply Rmax_lub; [lra|apply Rmin_l]. }
  clearbody a. clearbody L. 
  assert (T0 : 0 <= s * a) by nra. assert (TL : s * a <= s * L) by nra.
  set (t := s * a) in *. clearbody t.
  set (P0 := c0 + c1 * L + c2 * (L * L)).
  assert (EP : 4 * c2 * P0 = D - (c1 * c1 - 4 * c0 * c2)) by (unfold P0; nra).
  assert (DP : 0 <= D - (c1 * c1 - 4 * c0 * c2)) by (unfold D; pose proof (Rmax_r 0 (c1 * c1 - 4 * c0 * c2)); lra).
  destruct (Rtotal_order c2 0) as [Neg|[Z|Pos]]; [|lra|].
  - assert (D = c1 * c1 - 4 * c0 * c2) as ED by (unfold D; apply Rmax_right; nra).
    assert (P0 = 0) as EZ by nra. unfold P0 in EZ.
    assert (SL : s * L <= L) by (rewrite <- (Rmult_1_l L) at 2; apply Rmult_le_compat_r; lra).
    assert (S1 : t <= L) by lra.
    assert (E2 : L * (c0 + c1 * t + c2 * (t * t)) = c0 * (L - t) - c2 * (L * t * (L - t))).
    { replace (L * (c0 + c1 * t + c2 * (t * t))) with (L * c0 + t * (c1 * L) + c2 * (t * t) * L) by ring.
      replace (c1 * L) with (- c0 - c2 * (L * L)) by lra. ring. }
    assert (S2 : c0 * (1 - s) * L <= c0 * (L - t)).
    { rewrite Rmult_assoc. apply Rmult_le_compat_l; [auto|]. lra. }
    assert (S3 : 0 <= - c2 * (L * t * (L - t))).
    { apply Rmult_le_pos; [lra|]. apply Rmult_le_pos; [nra|lra]. }
    assert (L * (c0 * (1 - s)) <= L * (c0 + c1 * t + c2 * (t * t))) as S4 by lra.
    apply Rmult_le_reg_l in S4; [|auto]. eapply Rle_trans; [|exact S4].
    apply Rmult_le_compat_l; [auto|]. assert (0 <= 1 - s <= 1) as R1 by lra. revert R1. generalize (1 - s). intros y R1. nra.
  - assert (PP : 0 <= P0) by nra.
    assert (M : c0 + c1 * (s * L) + c2 * (s * L * (s * L)) <= c0 + c1 * t + c2 * (t * t)).
    { assert (c1 + c2 * (t + s * L) <= 0). { assert (t + s * L <= 2 * L) by nra. nra. } nra. }
    eapply Rle_trans; [|exact M].
    (* c2 L^2 <= c0, because 2 c2 L + c1 <= 0 *)
    assert (c1 * L <= - 2 * c2 * (L * L)) by nra.
    assert (C : c0 - c2 * (L * L) >= P0) by (unfold P0; lra).
    assert (E : c0 + c1 * (s * L) + c2 * (s * L * (s * L)) - c0 * ((1 - s) * (1 - s))
      = s * P0 + s * (1 - s) * (c0 - c2 * (L * L))) by (unfold P0; ring).
    assert (0 <= s * P0) by nra. assert (0 <= s * (1 - s) * (c0 - c2 * (L * L))) by (apply Rmult_le_pos; [nra|lra]).
    lra.
Qed.

(** the estimate of the quadratic scheme leaves a margin *)
Lemma quadratic_margin : forall d u x F, 10 ^ 19 * verySmall <= q0 d u F ->
  exists a, quadratic_estimate d u x F = Ok a /\ 0 <= a <= 1 /\
    forall t, t = a * safety \/ t = 0 -> 0 <= q0 d u F + q1 d u x F * t + q2 d x * (t * t).
Proof.
  intros d u x F H. pose proof verySmall_pos as VS.
  assert (V20 : 10 ^ 19 * verySmall = 10000000000000000000 * verySmall) by ring. rewrite V20 in H.
  assert (C0 : 0 < q0 d u F) by lra.
  pose proof (q_disc d u x F C0) as DC.
  unfold quadratic_estimate.
  fold (q0 d u F). fold (q1 d u x F). fold (q2 d x).
  set (c0 := q0 d u F) in *. set (c1 := q1 d u x F) in *. set (c2 := q2 d x) in *.
  set (c2' := c2 + signP c2 * verySmall).
  assert (Hc2 : c2' <> 0 /\ - verySmall <= c2 - c2' <= verySmall).
  { unfold c2', signP. destruct (Rle_dec 0 c2); split; lra. }
  destruct Hc2 as (N2 & B2).
  destruct (Rle_dec (c1 * c1 - 4 * c0 * c2') (- (c0 * c0) * smallR)) as [Bad|G].
  { exfalso. rewrite smallR_val in Bad.
    assert (c0 * (c2' - c2) <= c0 * verySmall) by nra.
    assert (c0 * (10000000000000000000 * verySmall) <= c0 * c0) by nra. nra. }
  eexists. split; [reflexivity|].
  set (D := Rmax 0 (c1 * c1 - 4 * c0 * c2')).
  match goal with |- 0 <= ?a <= 1 /\ _ => set (al := a) end.
  assert (R1 : 0 <= al <= 1).
  { unfold al. split; [apply Rmax_l|]. apply Rmax_lub; [lra|].
    destruct (Rlt_dec _ _); [destruct (Rlt_dec _ _); [lra|]|]; apply Rmin_r. }
  split; [exact R1|].
  intros t [-> | ->]; [|nra].
  assert (M : c0 * (1/10000000000) <= c0 + c1 * (al * safety) + c2' * (al * safety * (al * safety))).
  { unfold al. destruct (Rlt_dec (Rabs c2') (/ 10 ^ 10 * c0)) as [S2|L2].
    - assert (I10 : / 10 ^ 10 = 1/10000000000) by field. rewrite I10 in *.
      destruct (Rlt_dec (Rabs c1) (1/10000000000 * c0)) as [S1|L1].
      + rewrite Rmax_left by lra. lra.
      + destruct (Rle_or_lt 0 c1) as [Pc|Nc].
        * assert (Rmin (- c0 / c1) 1 <= 0).
          { eapply Rle_trans; [apply Rmin_l|]. destruct Pc as [Pc|<-].
            - assert (0 < / c1) by (apply Rinv_0_lt_compat; auto). unfold Rdiv. nra.
            - unfold Rdiv. rewrite Rinv_0. lra. }
          rewrite Rmax_left by auto. lra.
        * set (L := - c0 / c1). assert (EL : c1 * L = - c0) by (unfold L; field; lra).
          assert (PL : 0 < L) by nra.
          assert (B : Rmax 0 (Rmin L 1) <= L) by (apply Rmax_lub; [lra|apply Rmin_l]).
          assert (B1 : Rmax 0 (Rmin L 1) <= 1) by (apply Rmax_lub; [lra|apply Rmin_r]).
          assert (B0 : 0 <= Rmax 0 (Rmin L 1)) by apply Rmax_l.
          set (a := Rmax 0 (Rmin L 1)) in *. clearbody a. rewrite safety_val.
          assert (c1 * L <= c1 * a) by nra.
          set (t := a * (99999/100000)) in *. assert (0 <= t * t <= 1) by (unfold t; nra).
          assert (- (1/10000000000 * c0) <= c2' * (t * t)).
          { apply Rabs_def2 in S2. nra. }
          unfold t in *. lra.
    - pose proof (root_margin c0 c1 c2' safety (Rlt_le _ _ C0) N2) as RM.
      specialize (RM (conj (Rlt_le _ _ (proj1 safety_range)) (Rlt_le _ _ (proj2 safety_range)))).
      cbv zeta in RM. fold D in RM.
      rewrite (Rmult_comm safety) in RM. 
      eapply Rle_trans; [|exact RM]. rewrite safety_val. lra. }
  clearbody al. pose proof safety_range as SR.
  assert (T1 : 0 <= al * safety <= 1) by nra.
  set (t := al * safety) in *. clearbody t. assert (T2 : 0 <= t * t <= 1) by nra.
  assert (c2' * (t * t) - verySmall <= c2 * (t * t)).
  { revert T2. generalize (t * t). intros y T2. nra. }
  lra.
Qed.

Lemma step_internal_reg : forall d u x t, 0 < rho u + t * rho x -> 
  exists e, einner d u x t = Ok e /\ internal d (step u x t) <= e.
Proof.
  intros d u x t P. pose proof verySmall_pos. unfold einner, ekin.
  destruct (Req_EM_T _ 0); [lra|]. cbn [bind]. eexists. split; [reflexivity|].
  unfold internal, step, sadd, sscale. cbn.
  set (s := sqnorm d _). assert (0 <= s) by apply sqnorm_pos.
  assert (1/2 * s / (rho u + t * rho x + verySmall) <= 1/2 * s / (rho u + t * rho x)).
  { apply Rmult_le_compat_l; [lra|]. apply Rinv_le_contravar; lra. }
  lra.
Qed.

Lemma smallR_le : smallR <= 1.
Proof. rewrite smallR_val. lra. Qed.

(** The scheme the solver uses always returns, and the true internal energy of what it
    returns is not below the bound. *)
Lemma quadratic_returns : forall d u x floor e0, 0 < rho u -> 0 < rho u + rho x ->
  einner d u x 0 = Ok e0 ->
  10 ^ 19 * verySmall <= 2 * rho u * (internal d u - Rmax (smallR * e0) floor) ->
  exists r, compression_ratio d 0 u x floor = Ok r /\ 0 <= r <= 1 /\
    Rmax (smallR * e0) floor <= internal d (step u x r).
Proof.
  intros d u x floor e0 H1 H2 E0 RS. set (F := Rmax (smallR * e0) floor) in *.
  assert (Q : 10 ^ 19 * verySmall <= q0 d u F).
  { eapply Rle_trans; [exact RS|]. unfold q0, internal. right. field. lra. }
  destruct (quadratic_margin d u x F Q) as (a & Ea & Ra & Ma).
  destruct (step_internal_reg d u x 1) as (e1 & E1 & _); [lra|].
  unfold compression_ratio. rewrite E0. cbn [bind]. rewrite E1. cbn [bind Nat.eqb]. fold F. rewrite Ea. cbn [bind].
  pose proof safety_range as SR.
  set (t := cut (a * safety)).
  assert (Rt : 0 <= t <= 1). { apply cut_range. clear - Ra SR. nra. }
  assert (Qt : 0 <= q0 d u F + q1 d u x F * t + q2 d x * (t * t)).
  { apply Ma. unfold t, cut. destruct (Rlt_dec _ _); auto. }
  assert (Pt : 0 < rho u + t * rho x). { clear - H1 H2 Rt. destruct (Rle_or_lt 0 (rho x)); nra. }
  pose proof (proj1 (q_internal d u x F t Pt) Qt) as It.
  destruct (step_internal_reg d u x t Pt) as (e & Ee & He).
  exists t. split; [|auto]. apply (decay_first _ _ _ _ _ _ e); [lia|auto|lra].
Qed.
