(** Concrete uses of the Krylov solvers. *)
From Coq Require Import List ZArith Reals Lia Lra Bool FunctionalExtensionality.
From Verif Require Import Base.Prelude Base.PreludeFacts Solver.ScalarModel Solver.OdeModel Solver.OdeSpec Solver.RkSpec
  Solver.LinearModel Solver.LinearSpec Solver.RkProofs Solver.LinearProofs.
Import ListNotations.
Local Open Scope R_scope.

(** A shear in the plane, restarts of one vector, and the exact step for one vector. *)
Definition plane (x y : D) : R := x 0%nat * y 0%nat + x 1%nat * y 1%nat.
Definition shear (x : D) : D := fun i => match i with O => x 0%nat + x 1%nat | _ => x i end.
Definition same (x : D) : D := x.
Definition up : D := fun i => match i with S O => 1 | _ => 0 end.
Definition one_step (j : nat) (h : nat -> nat -> R) (beta : R) : (nat -> R) * nat :=
  (fun k => if andb (Nat.eqb k 0) (Nat.eqb j 1) then beta * h 0%nat 0%nat / (h 0%nat 0%nat * h 0%nat 0%nat + h 1%nat 0%nat * h 1%nat 0%nat) else 0, j).
Definition nine_tenths (_ : nat) (r s : R) : bool := if Rle_dec r (s * (9 / 10)) then true else false.

Lemma plane_form : form plane.
Proof. constructor; unfold plane; intros; try ring. nra. Qed.
Lemma shear_linear : linear shear.
Proof. intros a b x y [|i]; cbn; ring. Qed.
Lemma same_linear : linear same.
Proof. intros a b x y i; reflexivity. Qed.
Lemma one_step_ok : never_worse one_step.
Proof.
  intros j h beta. rewrite defect_zero. unfold one_step. cbn [fst]. destruct (Nat.eqb_spec j 1) as [->|N].
  - unfold defect. cbn [seq map Rsum Nat.eqb andb]. set (a := h 0%nat 0%nat). set (c := h 1%nat 0%nat).
    destruct (Req_EM_T (a * a + c * c) 0) as [E|E].
    + assert (a = 0) by nra. assert (c = 0) by nra. rewrite H, H0. nra.
    + assert (Hp : 0 < a * a + c * c) by nra. set (q := beta * a / (a * a + c * c)).
      assert (Q : q * (a * a + c * c) = beta * a) by (unfold q; field; auto).
      assert (Q2 : 0 <= q * (q * (a * a + c * c))) by nra. nra.
  - right. rewrite <- (defect_zero j h beta). f_equal. ext. now rewrite andb_false_r.
Qed.

Lemma half_vec : exists x', gmres_solve shear same plane nine_tenths one_step 1 up (only 0) 2 = Ok (x', true) /\ x' 1%nat = 1 / 2.
Proof.
  unfold gmres_solve, gmres_run. cbn [restarts]. set (v0 := addTo _ _ _).
  assert (Em : plane (same up) (same up) = 1) by (unfold plane, same, up; ring).
  assert (E0 : plane v0 v0 = 1) by (unfold plane, v0, addTo, same, shear, up, only; ring).
  rewrite Em, E0, sqrt_1. unfold nine_tenths at 1. destruct (Rle_dec 1 (1 * (9 / 10))) as [L|_]; [lra|].
  pose proof vsr_small as V. destruct (Rlt_dec (Rabs 1) verySmallReal) as [L|_]; [rewrite Rabs_R1 in L; lra|].
  cbn [arnoldi]. unfold arnoldi_column. cbn [last map combine fold_left fst snd].
  set (V0 := scale v0 (-1 / 1)). set (w0 := same (shear V0)).
  assert (H0 : plane w0 V0 = 1).
  { unfold plane, w0, V0, scale, v0, addTo, same, shear, up, only. field. }
  rewrite H0. set (w := addTo w0 V0 (- (1))).
  assert (W : plane w w = 1).
  { unfold plane, w, w0, V0, addTo, scale, v0, addTo, same, shear, up, only. field. }
  rewrite W, sqrt_1.
  assert (T : 1 * / 10 ^ 32 < 1).
  { assert (P : 1 < 10 ^ 32) by (apply Rlt_pow_R1; [lra|lia]). rewrite Rmult_1_l.
    apply (Rmult_lt_reg_l (10 ^ 32)); [lra|]. rewrite Rinv_r by lra. lra. }
  destruct (Rlt_dec 1 (1 * / 10 ^ 32)) as [L|_]; [lra|]. destruct (Req_EM_T 1 0) as [L|_]; [lra|].
  cbn [app bind length Nat.ltb Nat.leb]. unfold one_step at 1. cbn [Nat.ltb Nat.leb].
  set (y := fun k : nat => _). set (x1 := add_directions _ _ _ _).
  assert (Y : y 0%nat = 1 / 2) by (unfold y, h_entry; cbn [Nat.eqb andb nth app]; field).
  assert (X0 : x1 0%nat = 0) by (unfold x1, add_directions; cbn [seq fold_left nth]; rewrite Y; unfold addTo, V0, scale, v0, addTo, same, shear, up, only; field).
  assert (X1 : x1 1%nat = 1 / 2) by (unfold x1, add_directions; cbn [seq fold_left nth]; rewrite Y; unfold addTo, V0, scale, v0, addTo, same, shear, up, only; field).
  set (v1 := addTo _ _ _).
  assert (E1 : plane v1 v1 = 1 / 2).
  { unfold plane, v1, addTo, same, shear, up. rewrite X0, X1. field. }
  rewrite E1. unfold nine_tenths at 1. destruct (Rle_dec (sqrt (1 / 2)) (1 * (9 / 10))) as [_|N].
  - cbn [bind fst snd Nat.ltb Nat.leb]. exists x1. auto.
  - exfalso. apply N. rewrite Rmult_1_l. replace (9 / 10) with (sqrt (9 / 10 * (9 / 10))) by (apply sqrt_square; lra).
    apply sqrt_le_1_alt. lra.
Qed.

(** One unknown, A = 2, b = 1. *)
Definition twice (x : D) : D := fun i => 2 * x i.
Definition prec_res (x : D) : D := minus (only 1) (twice x).
Lemma twice_setting : pcg_setting twice same prec_res same first (only 1).
Proof.
  constructor; unfold prec_res, twice, same, minus, first, only; intros; try reflexivity; try ring; try nra.
  - apply first_form.
  - intros a b x y i. ring.
Qed.
Definition fresh : pcg :=
  {| initialized := false; c_r := only 0; c_z := only 0; c_p := only 0; c_Ap := only 0; zrDot := 0; pHistorySize := 0 |}.
Definition tiny_res (_ : nat) (zr _ : R) : bool := if Rlt_dec zr (1 / 10) then true else false.
Lemma pcg_descends : exists s x', pcg_solve twice same prec_res first (fun _ _ _ => false) fresh (only 0) 1 = (s, x', false) /\
  energy twice first (only 1) x' < energy twice first (only 1) (only 0).
Proof.
  unfold pcg_solve. cbn [initialized fresh pcg_loop c_z c_r c_p c_Ap zrDot pHistorySize].
  do 2 eexists. split; [reflexivity|]. pose proof vsr_small as V.
  set (z := prec_res (only 0)). set (q := first z (same z) / _).
  assert (Z : z 0%nat = 1) by (unfold z, prec_res, minus, twice, only; ring).
  assert (Q : q * (2 + verySmallReal) = 1) by (unfold q, first, twice, same; rewrite Z; field; lra).
  assert (Q0 : 0 < q) by nra.
  unfold energy, first, addTo, only, twice. rewrite Z. nra.
Qed.
Lemma pcg_succeeds : exists s x', pcg_solve twice same prec_res first tiny_res fresh (only 0) 2 = (s, x', true) /\ x' 0%nat <> 0.
Proof.
  unfold pcg_solve. cbn [initialized fresh pcg_loop c_z c_r c_p c_Ap zrDot pHistorySize]. pose proof vsr_small as V.
  set (z := prec_res (only 0)).
  assert (Z : z 0%nat = 1) by (unfold z, prec_res, minus, twice, only; ring).
  replace (first z (same z)) with 1 by (unfold first, same; rewrite Z; ring).
  replace (first z (twice z)) with 2 by (unfold first, twice; rewrite Z; ring).
  unfold tiny_res at 1. destruct (Rlt_dec 1 (1 / 10)) as [L|_]; [lra|].
  cbn [initialized c_z c_r c_p c_Ap zrDot pHistorySize]. set (x1 := addTo _ _ _).
  assert (Q : x1 0%nat * (2 + verySmallReal) = 1) by (unfold x1, addTo, only; rewrite Z; field; lra).
  assert (X : 49 / 100 < x1 0%nat < 51 / 100) by nra.
  unfold tiny_res at 1. destruct (Rlt_dec (first (prec_res x1) (same (prec_res x1))) (1 / 10)) as [_|N].
  - do 2 eexists. split; [reflexivity|]. lra.
  - exfalso. apply N. unfold first, same, prec_res, minus, twice, only. nra.
Qed.
