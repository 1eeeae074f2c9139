(** C44: the slope limiters stay within the data. *)
From Coq Require Import Reals List Lra.
From Verif Require Import Base.Prelude.
From Verif Require Import CFV.LimiterModel CFV.LimiterSpec CFV.LimiterProofs.
From Verif Require Import CFV.LimiterNorm CFV.LimiterRotate CFV.LimiterFinal.
Import ListNotations.
Open Scope R_scope.

(** Min-mod lies between zero and each argument, is zero for opposite
    signs, and is the argument of smaller magnitude otherwise. *)
Theorem C44_minmod_between : forall u1 u2,
  between 0 u1 (minmod u1 u2) /\ between 0 u2 (minmod u1 u2) /\
  (u1 * u2 <= 0 -> minmod u1 u2 = 0) /\
  (0 < u1 * u2 -> (minmod u1 u2 = u1 /\ Rabs u1 <= Rabs u2) \/
                  (minmod u1 u2 = u2 /\ Rabs u2 <= Rabs u1)).
Proof. exact minmod_all. Qed.
Print Assumptions C44_minmod_between.

Theorem C44_minmod_symmetries : forall u1 u2 k, 0 < k ->
  minmod u2 u1 = minmod u1 u2 /\ minmod (- u1) (- u2) = - minmod u1 u2 /\
  minmod (k * u1) (k * u2) = k * minmod u1 u2.
Proof. exact minmod_symmetries. Qed.
Print Assumptions C44_minmod_symmetries.

Example minmod_value : minmod (-2) (-5) = -2.
Proof.
  unfold minmod. rewrite (sgn_neg (-2)), (sgn_neg (-5)), (abs_neg (-2)), (abs_neg (-5)) by lra.
  rewrite Rmin_left; lra.
Qed.

(** Van Leer's limiter is zero for opposite signs; otherwise it has the
    common sign, is at most the larger argument and at most twice the
    smaller, and at least the smaller up to the regularisation. *)
Theorem C44_van_leer_bounds : forall u1 u2,
  (u1 * u2 <= 0 -> van_leer u1 u2 = 0) /\
  (0 < u1 * u2 ->
    0 < van_leer u1 u2 * u1 /\
    Rabs (van_leer u1 u2) <= Rmax (Rabs u1) (Rabs u2) /\
    Rabs (van_leer u1 u2) <= 2 * Rmin (Rabs u1) (Rabs u2) /\
    Rmin (Rabs u1) (Rabs u2) * (Rabs (u1 + u2) / (Rabs (u1 + u2) + verySmallReal))
      <= Rabs (van_leer u1 u2)).
Proof. exact van_leer_all. Qed.
Print Assumptions C44_van_leer_bounds.

Theorem C44_van_leer_symmetries : forall u1 u2 k eps, 0 < k -> 0 < eps ->
  van_leer u2 u1 = van_leer u1 u2 /\ van_leer (- u1) (- u2) = - van_leer u1 u2 /\
  van_leer_eps (k * eps) (k * u1) (k * u2) = k * van_leer_eps eps u1 u2.
Proof. exact van_leer_symmetries. Qed.
Print Assumptions C44_van_leer_symmetries.

(** It is not bounded by the smaller argument, as min-mod is. *)
Theorem C44_van_leer_below_both_refuted : Rmin (Rabs 1) (Rabs 3) < Rabs (van_leer 1 3).
Proof. exact van_leer_exceeds. Qed.
Print Assumptions C44_van_leer_below_both_refuted.

Example van_leer_value : van_leer_eps 1 1 2 = 1.
Proof. rewrite van_leer_same by lra. lra. Qed.

(** The two-way biased average is the mean of the first argument, with a
    weight growing with the fourth power of the second, and the second
    argument (pulled away from zero by the regularisation), with a weight
    growing with the fourth power of the first. *)
Theorem C44_wbap_average : forall n u1 u2 s, 0 < n -> away verySmallReal_pDiP u2 s ->
  average (n * s ^ 4) u1 (u1 ^ 4) s (wbap n u1 u2).
Proof. exact wbap_average. Qed.
Print Assumptions C44_wbap_average.

Theorem C44_wbap_bound : forall n u1 u2, 0 < n ->
  wbap n u1 0 = 0 /\
  Rabs (wbap n u1 u2) <= Rmax (Rabs u1) (Rabs u2 + verySmallReal_pDiP).
Proof. exact wbap_bound. Qed.
Print Assumptions C44_wbap_bound.

(** The regularisation is needed in the bound. *)
Theorem C44_wbap_within_data_refuted : Rmax (Rabs 1) (Rabs 1) < Rabs (wbap 1 1 1).
Proof. exact wbap_exceeds. Qed.
Print Assumptions C44_wbap_within_data_refuted.

Theorem C44_wbap_symmetries : forall n u1 u2 k e, 0 < k -> 0 < e ->
  wbap n (- u1) (- u2) = - wbap n u1 u2 /\
  wbap_eps (k * e) n (k * u1) (k * u2) = k * wbap_eps e n u1 u2.
Proof. exact wbap_symmetries. Qed.
Print Assumptions C44_wbap_symmetries.

Example wbap_value : wbap_eps 1 1 1 1 = 18 / 17.
Proof.
  unfold wbap_eps, theta_inverse. rewrite (sgn_pos 1), (abs_pos 1) by lra. lra.
Qed.

(** The cut variant is zero for opposite signs and keeps the sign. *)
Theorem C44_wbap_cut : forall n u1 u2, 0 < n ->
  (u1 * u2 <= 0 -> wbap_cut n u1 u2 = 0) /\
  (0 < u1 * u2 -> exists s, away verySmallReal_pDiP u2 s /\ 0 < wbap_cut n u1 u2 * u1 /\
     average (n * s ^ 4) u1 (u1 ^ 4) s (wbap_cut n u1 u2)).
Proof. exact wbap_cut_all. Qed.
Print Assumptions C44_wbap_cut.

(** Many candidates: the same mean, zero as soon as one candidate is. *)
Theorem C44_wbap_multiway : forall n u0 others, 0 < n ->
  (In 0 others -> wbap_multi n u0 others = 0) /\
  (forall m, Rabs u0 <= m -> (forall u, In u others -> Rabs u + verySmallReal_pDiP <= m) ->
     Rabs (wbap_multi n u0 others) <= m) /\
  (forall ss, Forall2 (away verySmallReal_pDiP) others ss ->
     wbap_multi n u0 others =
     (n * u0 + total (fun s => (u0 / s) ^ 4 * s) ss) / (n + total (fun s => (u0 / s) ^ 4) ss)).
Proof. exact wbap_multi_all. Qed.
Print Assumptions C44_wbap_multiway.

Theorem C44_wbap_multiway_symmetries : forall n u0 others k e, 0 < k -> 0 < e ->
  wbap_multi n (- u0) (map Ropp others) = - wbap_multi n u0 others /\
  wbap_multi_eps (k * e) n (k * u0) (map (Rmult k) others) = k * wbap_multi_eps e n u0 others.
Proof. exact wbap_multi_symmetries. Qed.
Print Assumptions C44_wbap_multiway_symmetries.

Example away_both : Forall2 (away verySmallReal_pDiP) [2; -3]
  [2 + verySmallReal_pDiP; -3 - verySmallReal_pDiP].
Proof. constructor; [left; lra|]. constructor; [right; lra|]. constructor. Qed.

(** Whole polynomials: one pair of weights for all coefficients, in inverse
    proportion to the fourth power of the norms, adding up to one but for
    the regularisation. *)
Theorem C44_polynomial_average : forall n dim u1 u2 w, 0 < n -> length u1 = length u2 ->
  norm_weights dim (length u1) = Ok w ->
  exists out a b, wbap_norm n dim u1 u2 = Ok out /\ length out = length u1 /\
    0 <= a /\ 0 <= b /\ a + b <= 1 /\
    (forall i, (i < length u1)%nat -> nth i out 0 = a * nth i u1 0 + b * nth i u2 0) /\
    a * (wsq w u1) ^ 2 = n * b * (wsq w u2) ^ 2 /\
    (verySmallReal_pDiP <= col_max u1 u2 -> 1 - (a + b) <= 576 * verySmallReal / Rmin 1 n).
Proof. exact wbap_norm_all. Qed.
Print Assumptions C44_polynomial_average.

Theorem C44_orthonormal_average : forall n u1 u2, 0 < n -> length u1 = length u2 ->
  exists out a b, wbap_orth n u1 u2 = Ok out /\ length out = length u1 /\
    0 <= a /\ 0 <= b /\ a + b <= 1 /\
    (forall i, (i < length u1)%nat -> nth i out 0 = a * nth i u1 0 + b * nth i u2 0) /\
    a * (fold_right (fun x s => x * x + s) 0 u1) ^ 2
      = n * b * (fold_right (fun x s => x * x + s) 0 u2) ^ 2 /\
    (verySmallReal_pDiP <= col_max u1 u2 -> 1 - (a + b) <= 576 * verySmallReal / Rmin 1 n).
Proof. exact wbap_orth_all. Qed.
Print Assumptions C44_orthonormal_average.

(** A row bound shared by all candidates bounds the result. *)
Theorem C44_polynomial_multiway_bound : forall n us w rows B, 0 <= n -> us <> [] ->
  (forall u, In u us -> length u = rows /\
     forall i, (i < rows)%nat -> Rabs (nth i u 0) <= B i) ->
  norm_weights 2 rows = Ok w ->
  exists out, wbap_multi_poly2 n us = Ok out /\ length out = rows /\
    forall i, (i < rows)%nat -> Rabs (nth i out 0) <= B i.
Proof. exact wbap_multi_poly_bound. Qed.
Print Assumptions C44_polynomial_multiway_bound.

Theorem C44_orthonormal_multiway_bound : forall n us rows B, 0 <= n -> us <> [] ->
  (forall u, In u us -> length u = rows /\
     forall i, (i < rows)%nat -> Rabs (nth i u 0) <= B i) ->
  exists out, wbap_multi_orth n us = Ok out /\ length out = rows /\
    forall i, (i < rows)%nat -> Rabs (nth i out 0) <= B i.
Proof. exact wbap_multi_orth_bound. Qed.
Print Assumptions C44_orthonormal_multiway_bound.

(** The norm used is the same in every rotated (or reflected) frame: [v]
    holds the coefficients of the polynomial of [u] in rotated axes. *)
Theorem C44_norm_rotation_2d : forall c s u v w, c * c + s * s = 1 -> length v = length u ->
  norm_weights 2 (length u) = Ok w ->
  (forall x y, hpoly2 v x y = hpoly2 u (c * x - s * y) (s * x + c * y)) ->
  wsq w v = wsq w u.
Proof. exact rotate2. Qed.
Print Assumptions C44_norm_rotation_2d.

Theorem C44_norm_rotation_3d : forall q u v w, orthonormal q -> length v = length u ->
  norm_weights 3 (length u) = Ok w ->
  (forall x y z, hpoly3 v x y z =
     hpoly3 u (app3 q 0%nat x y z) (app3 q 1%nat x y z) (app3 q 2%nat x y z)) ->
  wsq w v = wsq w u.
Proof. exact rotate3. Qed.
Print Assumptions C44_norm_rotation_3d.

Example rotation_case : forall x y,
  hpoly2 [1; 0; -1] x y = hpoly2 [-1; 0; 1] (0 * x - 1 * y) (1 * x + 0 * y).
Proof. intros. cbn. ring. Qed.

(** The minimum-norm limiter returns the candidate of smaller norm, the
    midpoint for equal norms, and never a larger norm than a candidate.
    Among many candidates of different norms it returns one of them. *)
Theorem C44_least_norm : forall dim u1 u2 w,
  length u1 = length u2 -> norm_weights dim (length u1) = Ok w ->
  exists out, memm dim u1 u2 = Ok out /\ length out = length u1 /\
    wsq w out <= wsq w u1 /\ wsq w out <= wsq w u2 /\
    ((wsq w u1 < wsq w u2 /\ out = u1) \/ (wsq w u2 < wsq w u1 /\ out = u2) \/
     (wsq w u1 = wsq w u2 /\ out = map2 (fun x y => x * (1/2) + y * (1/2)) u1 u2)).
Proof. exact memm_all. Qed.
Print Assumptions C44_least_norm.

Theorem C44_least_norm_multiway : forall u others w,
  (forall v, In v others -> length v = length u) ->
  norm_weights 2 (length u) = Ok w ->
  exists out, memm_multi u others = Ok out /\ length out = length u /\
    wsq w out <= wsq w u /\ forall v, In v others -> wsq w out <= wsq w v.
Proof. exact memm_multi_least. Qed.
Print Assumptions C44_least_norm_multiway.

Theorem C44_least_norm_multiway_picks : forall u others w out,
  (forall v, In v others -> length v = length u) ->
  norm_weights 2 (length u) = Ok w ->
  NoDup (map (wsq w) (u :: others)) ->
  memm_multi u others = Ok out -> In out (u :: others).
Proof. exact memm_multi_picks. Qed.
Print Assumptions C44_least_norm_multiway_picks.

Example norm_cases : norm_weights 2 3 = Ok [1; 1/2; 1] /\
  wsq [1; 1/2; 1] [1; 2; 0] < wsq [1; 1/2; 1] [3; 0; 1].
Proof. split; [reflexivity|]. cbn. lra. Qed.
