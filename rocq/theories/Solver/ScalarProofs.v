From Coq Require Import Reals ZArith Lra Lia.
From Verif Require Import Base.Prelude Solver.ScalarModel.
Open Scope R_scope.

Lemma verySmall_pos : 0 < verySmallReal.
Proof. apply Rinv_0_lt_compat, pow_lt. lra. Qed.

Lemma bisect_loop_inv F f0 fT n : forall v0 v1 a b,
  v0 < v1 -> F v0 <= fT -> fT <= F v1 ->
  bisect_loop F f0 fT n v0 v1 = (a, b) ->
  v0 <= a /\ a < b /\ b <= v1 /\ F a <= fT /\ fT <= F b /\
  (f0 < fT - verySmallReal -> b - a = (v1 - v0) / 2 ^ n) /\
  (fT - verySmallReal <= f0 -> a = v0 /\ b = v1).
Proof.
  induction n as [|n IH]; intros v0 v1 a b H H0 H1; cbn [bisect_loop].
  - intros E; inversion E; subst. simpl. repeat split; try lra.
  - destruct (Rle_dec (fT - verySmallReal) f0) as [L|L].
    + intros E; inversion E; subst. repeat split; try lra.
    + destruct (Rle_dec (F (0.5 * (v0 + v1))) fT) as [L'|L'];
        (intros E; apply IH in E;
         [ destruct E as (A & B & C & D & G & I & J) | | |]).
      * rewrite Rmax_left in * by lra.
        repeat split; try lra.
        intros K. rewrite (I K). simpl.
        replace 0.5 with (/ 2) by lra. field. apply pow_nonzero; lra.
      * rewrite Rmax_left by lra. lra.
      * exact L'.
      * rewrite Rmax_left by lra. exact H1.
      * rewrite Rmin_left in * by lra.
        repeat split; try lra.
        intros K. rewrite (I K). simpl.
        replace 0.5 with (/ 2) by lra. field. apply pow_nonzero; lra.
      * rewrite Rmin_left by lra. lra.
      * rewrite Rmin_left by lra. exact H0.
      * lra.
Qed.

Lemma bisect_ok F v0 v1 fT n r :
  BisectSolveLower F v0 v1 fT n = Ok r ->
  exists hi, v0 <= r /\ r < hi /\ hi <= v1 /\ F r <= fT /\ fT <= F hi /\
    (F v0 < fT - verySmallReal -> hi - r = (v1 - v0) / 2 ^ Z.to_nat n) /\
    (fT - verySmallReal <= F v0 -> r = v0).
Proof.
  unfold BisectSolveLower.
  destruct (Rle_dec (F v0) fT); [|discriminate].
  destruct (Rle_dec fT (F v1)); [|discriminate].
  destruct (Rlt_dec v0 v1); [|discriminate].
  intros E; inversion E; subst.
  destruct (bisect_loop F (F v0) fT (Z.to_nat n) v0 v1) as [a b] eqn:L.
  apply bisect_loop_inv in L; try assumption.
  exists b. cbn [fst]. intuition.
Qed.

Lemma bisect_defined F v0 v1 fT n :
  (exists r, BisectSolveLower F v0 v1 fT n = Ok r) <->
  (F v0 <= fT /\ fT <= F v1 /\ v0 < v1).
Proof.
  unfold BisectSolveLower.
  destruct (Rle_dec (F v0) fT); [|split; [intros [? E]; discriminate|tauto]].
  destruct (Rle_dec fT (F v1)); [|split; [intros [? E]; discriminate|tauto]].
  destruct (Rlt_dec v0 v1); [|split; [intros [? E]; discriminate|tauto]].
  split; [auto|]. intros _. eexists; reflexivity.
Qed.

Lemma bisect_monotone F v0 v1 fT n r x :
  BisectSolveLower F v0 v1 fT n = Ok r ->
  F v0 < fT - verySmallReal ->
  (forall a b, v0 <= a -> a <= b -> b <= v1 -> F a <= F b) ->
  (forall a b, v0 <= a -> a < b -> b <= v1 -> F a = fT -> F b = fT -> False) ->
  v0 <= x <= v1 -> F x = fT ->
  r <= x <= r + (v1 - v0) / 2 ^ Z.to_nat n.
Proof.
  intros E L M U X XF.
  destruct (bisect_ok _ _ _ _ _ _ E) as (hi & A & B & C & D & G & W & _).
  specialize (W L).
  replace (r + (v1 - v0) / 2 ^ Z.to_nat n) with hi by lra.
  split.
  - destruct (Rle_dec r x) as [|N]; [assumption|].
    exfalso. assert (F x <= F r) by (apply M; lra).
    apply (U x r); lra.
  - destruct (Rle_dec x hi) as [|N]; [assumption|].
    exfalso. assert (F hi <= F x) by (apply M; lra).
    apply (U hi x); lra.
Qed.

(** Non-vacuity: F(x) = x on [0,4] with target 1. *)
Lemma bisect_example : exists r, BisectSolveLower (fun x => x) 0 4 1 3 = Ok r /\ r = 1.
Proof.
  assert (V : verySmallReal < 1).
  { unfold verySmallReal. apply Rmult_lt_reg_l with (10 ^ 200); [apply pow_lt; lra|].
    rewrite Rinv_r by (apply pow_nonzero; lra). rewrite Rmult_1_r.
    apply Rlt_pow_R1; [lra|lia]. }
  unfold BisectSolveLower.
  destruct (Rle_dec 0 1); [|lra]. destruct (Rle_dec 1 4); [|lra].
  destruct (Rlt_dec 0 4); [|lra]. eexists; split; [reflexivity|].
  change (Z.to_nat 3) with 3%nat. cbn [bisect_loop].
  destruct (Rle_dec (1 - verySmallReal) 0); [lra|].
  destruct (Rle_dec (0.5 * (0 + 4)) 1); [lra|].
  rewrite Rmin_left by lra.
  destruct (Rle_dec (0.5 * (0 + 0.5 * (0 + 4))) 1); [|lra].
  rewrite Rmax_left by lra.
  destruct (Rle_dec (0.5 * (0.5 * (0 + 0.5 * (0 + 4)) + 0.5 * (0 + 4))) 1); [lra|].
  rewrite Rmin_left by lra. cbn [fst]. lra.
Qed.
