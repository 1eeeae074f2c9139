(** Data for the examples of C55: functions quadratic in y. *)
From Coq Require Import List ZArith Reals Bool Lia Lra.
From Verif Require Import Base.Prelude Base.PreludeFacts Geom.BoundaryModel Geom.PeriodicModel Geom.PeriodicSpec Geom.PeriodicProofs
  Geom.BaseFnModel Geom.BaseFnSpec Geom.BaseFnProofs
  Geom.DiffTensorModel Geom.DiffTensorSpec Geom.DiffTensorAnalysis Geom.DiffTensorChain Geom.DiffTensorProofs.
Import ListNotations.
Local Open Scope R_scope.

Definition quad (a0 a1 a2 q : R) : fn := fun X Y Z => a0 * X + a1 * Y + a2 * Z + q * (Y * Y).
Definition dquad (a0 a1 a2 q : R) (m : nat * nat * nat) : fn :=
  match m with
  | (0, 0, 0) => quad a0 a1 a2 q
  | (1, 0, 0) => fun _ _ _ => a0
  | (0, 1, 0) => fun _ Y _ => (a1 + 2 * q * Y)%R
  | (0, 0, 1) => fun _ _ _ => a2
  | (0, 2, 0) => fun _ _ _ => (2 * q)%R
  | _ => fun _ _ _ => 0%R
  end%nat.

Lemma small_error : forall D f (g : axis -> fn) q,
  (forall X Y Z u v w, f (X + u) (Y + v) (Z + w) - f X Y Z - (g AX X Y Z * u + g AY X Y Z * v + g AZ X Y Z * w) = q * (v * v)) ->
  differential_in D f g.
Proof.
  intros D f g q H X Y Z _ e He. exists (e / (Rabs q + 1)). pose proof (Rabs_pos q) as Pq.
  split; [apply Rdiv_lt_0_compat; lra|]. intros u v w _ Hv _. rewrite H, !Rabs_mult.
  pose proof (Rabs_pos u). pose proof (Rabs_pos v). pose proof (Rabs_pos w).
  assert (B : Rabs q * Rabs v <= e).
  { apply Rle_trans with ((Rabs q + 1) * (e / (Rabs q + 1))); [apply Rmult_le_compat; lra|right; field; lra]. }
  rewrite <- Rmult_assoc. apply Rle_trans with (e * Rabs v); [apply Rmult_le_compat_r; lra|apply Rmult_le_compat_l; lra].
Qed.

Lemma quad_smooth : forall D k a0 a1 a2 q, smooth_in D k (quad a0 a1 a2 q) (dquad a0 a1 a2 q).
Proof.
  intros D k a0 a1 a2 q. split; [reflexivity|]. intros [[p r] s] _.
  assert (C : (p, r, s) = (0, 0, 0)%nat \/ (p, r, s) <> (0, 0, 0)%nat).
  { destruct p; destruct r; destruct s; ((left; reflexivity) || (right; discriminate)). }
  destruct C as [C|C].
  - injection C as -> -> ->. apply (small_error D _ _ q). intros. cbn [dquad next]. unfold quad. ring.
  - apply (small_error D _ _ 0). intros X Y Z u v w.
    destruct p as [|[|p]]; destruct r as [|[|[|r]]]; destruct s as [|[|s]]; try (exfalso; apply C; reflexivity); cbn [dquad next]; ring.
Qed.

(** The map (x, y) -> (2 x + y^2, y) of the plane and its inverse. *)
Definition bend : axis -> fn := fun a => match a with AX => quad 2 0 0 1 | AY => quad 0 1 0 0 | AZ => quad 0 0 1 0 end.
Definition dbend : axis -> nat * nat * nat -> fn := fun a => match a with AX => dquad 2 0 0 1 | AY => dquad 0 1 0 0 | AZ => dquad 0 0 1 0 end.
Definition unbend : axis -> fn := fun a => match a with AX => quad (/ 2) 0 0 (- / 2) | AY => quad 0 1 0 0 | AZ => quad 0 0 1 0 end.
Definition dunbend : axis -> nat * nat * nat -> fn := fun a =>
  match a with AX => dquad (/ 2) 0 0 (- / 2) | AY => dquad 0 1 0 0 | AZ => dquad 0 0 1 0 end.
Lemma bend_smooth : forall D k a, smooth_in D k (bend a) (dbend a).
Proof. intros D k []; apply quad_smooth. Qed.
Lemma unbend_smooth : forall D k a, smooth_in D k (unbend a) (dunbend a).
Proof. intros D k []; apply quad_smooth. Qed.

(** The values of the derivatives at a point, laid out by rows. *)
Definition nat3_of (dim r : nat) : nat * nat * nat :=
  let '(a, b, c) := nth r (operators dim) (0, 0, 0)%Z in (Z.to_nat a, Z.to_nat b, Z.to_nat c).
Definition layout (dim : nat) (d : nat -> nat * nat * nat -> fn) (xi : axis -> fn) (X Y Z : R) : mat :=
  fun r b => compose (d b (nat3_of dim r)) xi X Y Z.
Lemma layout_holds : forall dim from rows d xi X Y Z b,
  holds dim from rows (layout dim d xi X Y Z) b (fun m => compose (d b m) xi X Y Z).
Proof.
  intros dim from rows d xi X Y Z b r m _ N. unfold layout.
  replace (nat3_of dim r) with m; [reflexivity|]. unfold nat3_of.
  apply nth_error_nth with (d := (0, 0, 0)%Z) in N. destruct m as [[a b'] c].
  match goal with |- context [nth r ?l ?x] => replace (nth r l x) with (multi_Z (a, b', c)) by (symmetry; exact N) end.
  unfold multi_Z. rewrite !Nat2Z.id. reflexivity.
Qed.

(** The inverse of a triangular matrix (entries 00, 10, 11 and the unit 22). *)
Definition tri_inverse (A : mat) : mat := fun i j =>
  match i, j with
  | 0, 0 => (/ A 0%nat 0%nat)%R | 1, 0 => (- A 1%nat 0%nat * / A 0%nat 0%nat * / A 1%nat 1%nat)%R
  | 1, 1 => (/ A 1%nat 1%nat)%R | 2, 2 => 1%R | _, _ => 0%R
  end%nat.

(** Column 0 the function itself, columns as axes of a map. *)
Definition by_axis (d : axis -> nat * nat * nat -> fn) : nat -> nat * nat * nat -> fn := fun j => d (axis_at j).

Lemma bend_wrong :
  exists out, ConvertDiffsFullMap 2 6 (layout 2 (fun _ => dquad 1 0 0 0) bend 0 0 0) (layout 2 (by_axis dbend) coordinate 0 0 0) = Ok out /\
  out 5%nat 0%nat = 4.
Proof.
  eexists. split; [reflexivity|].
  cbv -[Rplus Rmult IZR]. ring.
Qed.
Lemma not_derivatives : forall out, out 5%nat 0%nat = 4 ->
  ~ holds_derivatives everywhere 2 6 out 0 (compose (quad 1 0 0 0) bend) 0 0 0.
Proof.
  intros out E H. destruct (H 5%nat [AY; AY] ltac:(lia) eq_refl) as [g [P V]]. rewrite E in V.
  assert (Q : partial_in everywhere [AY; AY] (compose (quad 1 0 0 0) bend) (fun _ _ _ => 2)).
  { assert (P1 : along_in everywhere AY (compose (quad 1 0 0 0) bend) (dquad 2 0 0 1 (0, 1, 0)%nat)).
    { apply (along_same _ _ (quad 2 0 0 1)).
      - intros. unfold compose, quad, bend, quad. ring.
      - exact (differential_along _ _ _ (proj2 (quad_smooth everywhere 2 2 0 0 1) (0, 0, 0)%nat ltac:(cbn; lia)) AY). }
    eapply partial_in_next; [exact P1|]. eapply partial_in_next; [|apply partial_in_none].
    eapply along_value; [exact (differential_along _ _ _ (proj2 (quad_smooth everywhere 2 2 0 0 1) (0, 1, 0)%nat ltac:(cbn; lia)) AY)|].
    intros. cbn. ring. }
  assert (O : open_region everywhere) by (intros X Y Z _; exists 1; split; [lra|intros; exact I]).
  pose proof (partial_unique everywhere _ _ _ _ _ O (fun X Y Z _ => eq_refl) P Q 0 0 0 I) as U.
  rewrite U in V. lra.
Qed.

Lemma full_map_wrong : exists (xi : axis -> fn) dxi F dF M DxiDx out,
  coordinates 2 xi /\ maps everywhere everywhere xi /\
  (forall b : nat, smooth_in everywhere 2 (F b) (dF b)) /\ (forall a, smooth_in everywhere 2 (xi a) (dxi a)) /\
  (forall b, holds 2 0 (rows_up_to 2 2) M b (fun m => compose (dF b m) xi 0 0 0)) /\
  (forall m, (m < 2)%nat -> holds 2 1 (rows_up_to 2 2) DxiDx m (fun a => dxi (axis_at m) a 0 0 0)) /\
  ConvertDiffsFullMap 2 (rows_up_to 2 2) M DxiDx = Ok out /\
  ~ holds_derivatives everywhere 2 (rows_up_to 2 2) out 0 (compose (F 0%nat) xi) 0 0 0.
Proof.
  destruct bend_wrong as [out [E V]].
  exists bend, dbend, (fun _ => quad 1 0 0 0), (fun _ => dquad 1 0 0 0),
    (layout 2 (fun _ => dquad 1 0 0 0) bend 0 0 0), (layout 2 (by_axis dbend) coordinate 0 0 0), out.
  split. { right. split; [reflexivity|]. intros. unfold bend, quad. ring. }
  split. { intros X Y Z _. exact I. }
  split. { intros. apply quad_smooth. }
  split. { apply bend_smooth. }
  split. { intros b. apply (layout_holds 2 0 6 (fun _ => dquad 1 0 0 0) bend 0 0 0 b). }
  split. { intros m _. apply (layout_holds 2 1 6 (by_axis dbend) coordinate 0 0 0 m). }
  split; [exact E|]. apply not_derivatives, V.
Qed.

(** The hypotheses of the theorem about the inverse map. *)
Lemma inverse_case : exists DxDxi : mat,
  coordinates 2 bend /\ (forall a, smooth_in everywhere 3 (bend a) (dbend a)) /\ (forall a, smooth_in everywhere 3 (unbend a) (dunbend a)) /\
  (forall j X Y Z, (j < 2)%nat -> compose (unbend (axis_at j)) bend X Y Z = coordinate (axis_at j) X Y Z) /\
  (forall j, (j < 2)%nat -> holds 2 1 (rows_up_to 2 3) DxDxi j (fun a => compose (dunbend (axis_at j) a) bend 1 2 0)) /\
  inverse_of (first_derivatives 2 DxDxi) (tri_inverse (first_derivatives 2 DxDxi)).
Proof.
  exists (layout 2 (by_axis dunbend) bend 1 2 0).
  split. { right. split; [reflexivity|]. intros. unfold bend, quad. ring. }
  split. { apply bend_smooth. }
  split. { apply unbend_smooth. }
  split. { intros j X Y Z Hj. destruct j as [|[|j]]; try lia; unfold compose, unbend, bend, quad, axis_at, coordinate; field. }
  split. { intros m _. apply (layout_holds 2 1 10 (by_axis dunbend) bend 1 2 0 m). }
  intros i j Hi Hj. destruct i as [|[|[|i]]]; try lia; destruct j as [|[|[|j]]]; try lia;
    cbv -[Rplus Rmult IZR Rinv Ropp Rminus]; split; field; repeat split; lra.
Qed.

(** The coordinates a period leads back to. *)
Definition back_to (p : Periodicity) (id : Z) : axis -> fn := fun a X Y Z =>
  match TransCoordBack p (point X Y Z) id with
  | Ok v => v (match a with AX => 0 | AY => 1 | AZ => 2 end)%nat
  | _ => 0
  end.
Lemma back_to_leads : forall p id, well_formed 3 p -> FaceIDIsPeriodic id = true -> leads_back p id (back_to p id).
Proof.
  intros p id W H X Y Z. destruct (coord_roundtrip p id (point X Y Z) W H) as [_ [v [E _]]].
  unfold yields, back_to. destruct (TransCoordBack p (point X Y Z) id) as [w| |] eqn:T; try discriminate E.
  exists w. repeat split.
Qed.
