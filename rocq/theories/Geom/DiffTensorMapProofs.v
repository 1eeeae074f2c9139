(** The conversions as changes of coordinates of functions (C55). *)
From Coq Require Import List ZArith Reals Bool Lia Lra.
From Verif Require Import Base.Prelude Base.PreludeFacts Geom.BoundaryModel Geom.PeriodicModel Geom.PeriodicSpec Geom.PeriodicProofs
  Geom.BaseFnModel Geom.BaseFnSpec Geom.BaseFnProofs Geom.BaseFnTableProofs
  Geom.DiffTensorModel Geom.DiffTensorSpec Geom.DiffTensorAnalysis Geom.DiffTensorChain Geom.DiffTensorProofs
  Geom.DiffTensorLinProofs Geom.DiffTensorNormProofs.
Import ListNotations.
Local Open Scope R_scope.

(** *** the linear map *)
Lemma linear_map : forall dim k (A : mat) c D E (F : nat -> fn) (dF : nat -> nat * nat * nat -> fn) M X Y Z,
  dim23 dim -> (k <= 3)%nat -> maps D E (affine dim A c) -> (forall b, smooth_in E k (F b) (dF b)) ->
  (forall b, holds dim 0 (rows_up_to dim k) M b (fun m => compose (dF b m) (affine dim A c) X Y Z)) ->
  exists out, ConvertDiffsLinMap dim (rows_up_to dim k) M A = Ok out /\
  forall b, holds_derivatives D dim (rows_up_to dim k) out b (compose (F b) (affine dim A c)) X Y Z.
Proof.
  intros dim k A c D E F dF M X Y Z H Hk HM HF HH.
  destruct (lin_map_rows dim k M A H Hk) as [out [EO V]]. exists out. split; auto. intros b.
  eapply (full_derivatives D E dim k (F b) (affine dim A c) (dF b) (daffine dim A c) H X Y Z M (grad_rows dim A) b); auto.
  - intros m Hm. apply grad_holds; auto.
  - apply affine_coordinates; auto.
  - intros a. apply affine_smooth; auto.
Qed.

Lemma lin_map_refuses : forall dim rows M A, dim23 dim -> (forall k, (k <= 3)%nat -> rows <> rows_up_to dim k) ->
  ConvertDiffsLinMap dim rows M A = Abort.
Proof.
  intros dim rows M A H HN. pose proof (HN 0%nat ltac:(lia)) as N0. pose proof (HN 1%nat ltac:(lia)) as N1.
  pose proof (HN 2%nat ltac:(lia)) as N2. pose proof (HN 3%nat ltac:(lia)) as N3.
  dims H; unfold ConvertDiffsLinMap; cbn [Nat.eqb]; cbn in N0, N1, N2, N3;
    repeat match goal with |- context [Nat.eqb rows ?n] => destruct (Nat.eqb_spec rows n); [lia|] end; reflexivity.
Qed.

(** *** the general map *)
Lemma full_map : forall dim k D E (xi : axis -> fn) (dxi : axis -> nat * nat * nat -> fn) (F : nat -> fn)
    (dF : nat -> nat * nat * nat -> fn) M DxiDx X Y Z,
  dim23 dim -> (k <= 3)%nat -> coordinates dim xi -> maps D E xi ->
  (forall b, smooth_in E k (F b) (dF b)) -> (forall a, smooth_in D k (xi a) (dxi a)) ->
  (forall b, holds dim 0 (rows_up_to dim k) M b (fun m => compose (dF b m) xi X Y Z)) ->
  (forall m, (m < dim)%nat -> holds dim 1 (rows_up_to dim k) DxiDx m (fun a => dxi (axis_at m) a X Y Z)) ->
  (k <= 1)%nat \/ (forall r m, (dim < r)%nat -> DxiDx r m = 0) ->
  exists out, ConvertDiffsFullMap dim (rows_up_to dim k) M DxiDx = Ok out /\
  forall b, holds_derivatives D dim (rows_up_to dim k) out b (compose (F b) xi) X Y Z.
Proof.
  intros dim k D E xi dxi F dF M DxiDx X Y Z H Hk HC HM HF Hxi HH HX O.
  destruct (full_map_rows dim k M DxiDx H Hk ltac:(unfold only_first; tauto)) as [out [EO V]]. exists out. split; auto. intros b.
  eapply (full_derivatives D E dim k (F b) xi (dF b) dxi H X Y Z M DxiDx b); eauto.
Qed.

(** *** every row is the derivative along some axes *)
Lemma row_surj : forall dim k r, dim23 dim -> (k <= 3)%nat -> (r < rows_up_to dim k)%nat ->
  exists is, below dim is /\ (length is <= k)%nat /\ r = row_of dim is.
Proof.
  intros dim k r H Hk Hr.
  assert (N : exists m, nth_error (operators dim) r = Some (multi_Z m)).
  { assert (R20 : (r < rows_up_to dim 3)%nat) by (pose proof (rows_mono dim k 3 H Hk ltac:(lia)); lia).
    dims H; cbn in R20; (do 20 (destruct r as [|r]; [try lia; match goal with
       |- exists m, nth_error ?l ?n = _ => let v := eval vm_compute in (nth_error l n) in
         match v with Some (?a, ?b, ?c) => exists (Z.to_nat a, Z.to_nat b, Z.to_nat c); reflexivity end end|])); lia. }
  destruct N as [[[a b] c] N].
  assert (M : exists ds, multi ds = (a, b, c)).
  { exists (repeat AX a ++ repeat AY b ++ repeat AZ c). unfold multi, times. rewrite !filter_app.
    assert (F1 : forall x n, filter (axis_eqb x) (repeat x n) = repeat x n) by (intros x n; induction n; cbn; auto; destruct x; cbn; congruence).
    assert (F0 : forall x y n, axis_eqb x y = false -> filter (axis_eqb x) (repeat y n) = []) by (intros x y n Hxy; induction n; cbn; auto; rewrite Hxy; auto).
    rewrite !F1. rewrite !F0 by reflexivity. cbn [app]. rewrite !app_nil_r, !repeat_length. reflexivity. }
  destruct M as [ds M]. rewrite <- M in N.
  destruct (row_axes dim k r ds H Hk Hr N) as (is & _ & L & B & E). exists is. auto.
Qed.

(** *** periodic transformations *)
Lemma full_row_lin : forall dim M A b is, dim23 dim -> below dim is -> (length is <= 3)%nat ->
  full_row dim M (grad_rows dim A) b is =
  match is with
  | [] => M 0%nat b
  | [i] => sumn dim (fun m => A i m * M (row_of dim [m]) b)
  | [i; j] => rot2 dim A (fun m n => M (row_of dim [m; n]) b) i j
  | [i; j; k] => rot3 dim A (fun m n p => M (row_of dim [m; n; p]) b) i j k
  | _ => 0
  end.
Proof.
  intros dim M A b is H B L. destruct is as [|i [|j [|k [|l is]]]]; cbn [length] in L; try lia; cbn [full_row]; auto.
  - inversion B; subst. unfold full1. rewrite axes_row1 by auto. apply sumn_ext. intros m Hm. rewrite grad_at by auto. reflexivity.
  - inversion B as [|? ? B0 B1]; subst. inversion B1; subst.
    rewrite <- trans_rows2 by (auto; apply row2_large; auto). unfold trans_rows.
    pose proof (row2_large dim i j H B0 ltac:(auto)) as R.
    rewrite set_in by (dims H; exact R).
    destruct (trans2_any dim (fun l => M (first_of dim 2 + l)%nat b) A H) as [v [Ev V]]. rewrite Ev, V by auto.
    unfold rot2. apply sumn_ext. intros m Hm. apply sumn_ext. intros n Hn. f_equal. f_equal.
    pose proof (row2_large dim m n H Hm Hn) as R'. assert (first_of dim 2 = ndiffSizS dim 1) by (dims H; reflexivity). lia.
  - inversion B as [|? ? B0 B1]; subst. inversion B1 as [|? ? B2 B3]; subst. inversion B3; subst.
    rewrite <- trans_rows3 by (auto; apply row3_large; auto). unfold trans_rows.
    pose proof (row3_large dim i j k H B0 B2 ltac:(auto)) as R.
    rewrite set_in by (dims H; exact R).
    destruct (trans3_any dim (fun l => M (first_of dim 3 + l)%nat b) A H) as [v [Ev V]]. rewrite Ev, V by auto.
    unfold rot3. apply sumn_ext. intros m Hm. apply sumn_ext. intros n Hn. apply sumn_ext. intros p Hp. f_equal. f_equal.
    pose proof (row3_large dim m n p H Hm Hn Hp) as R'. assert (first_of dim 3 = ndiffSizS dim 2) by (dims H; reflexivity). lia.
Qed.

Lemma lin_back : forall dim k M Q, dim23 dim -> (k <= 3)%nat -> orthogonal dim Q ->
  exists out, ConvertDiffsLinMap dim (rows_up_to dim k) M Q = Ok out /\
  exists back, ConvertDiffsLinMap dim (rows_up_to dim k) out (tr Q) = Ok back /\
  forall r b, (r < rows_up_to dim k)%nat -> back r b = M r b.
Proof.
  intros dim k M Q H Hk HQ. destruct (lin_map_rows dim k M Q H Hk) as [out [E1 V1]].
  destruct (lin_map_rows dim k out (tr Q) H Hk) as [back [E2 V2]].
  exists out. split; auto. exists back. split; auto. intros r b Hr.
  destruct (row_surj dim k r H Hk Hr) as (is & B & L & ->). rewrite V2 by auto.
  rewrite full_row_lin by (auto; lia).
  assert (V : forall is, below dim is -> (length is <= k)%nat -> out (row_of dim is) b =
     match is with
     | [] => M 0%nat b
     | [i] => sumn dim (fun m => Q i m * M (row_of dim [m]) b)
     | [i; j] => rot2 dim Q (fun m n => M (row_of dim [m; n]) b) i j
     | [i; j; k] => rot3 dim Q (fun m n p => M (row_of dim [m; n; p]) b) i j k
     | _ => 0
     end).
  { intros is' B' L'. rewrite V1 by auto. apply full_row_lin; auto; lia. }
  clear V1 V2. assert (R0 : row_of dim [] = 0%nat) by (dims H; reflexivity).
  destruct is as [|i [|j [|l [|q is]]]]; cbn [length] in L; try lia.
  - rewrite <- R0. rewrite (V []) by (auto; cbn; lia). rewrite R0. reflexivity.
  - inversion B; subst. etransitivity; [apply sumn_ext|apply (orth_cancel_vec dim Q (fun m => M (row_of dim [m]) b) i HQ); auto].
    intros m Hm. rewrite (V [m]) by (try (repeat constructor; auto); cbn; lia). reflexivity.
  - inversion B as [|? ? B0 B1]; subst. inversion B1; subst.
    etransitivity; [|apply (back2 dim Q HQ (fun m n => M (row_of dim [m; n]) b) i j); auto].
    unfold rot2 at 1. unfold rot2 at 1. apply sumn_ext. intros m Hm. apply sumn_ext. intros n Hn.
    rewrite (V [m; n]) by (try (repeat constructor; auto); cbn; lia). reflexivity.
  - inversion B as [|? ? B0 B1]; subst. inversion B1 as [|? ? B2 B3]; subst. inversion B3; subst.
    etransitivity; [|apply (back3 dim Q HQ (fun m n p => M (row_of dim [m; n; p]) b) i j l); auto].
    unfold rot3 at 1. unfold rot3 at 1. apply sumn_ext. intros m Hm. apply sumn_ext. intros n Hn. apply sumn_ext. intros p Hp.
    rewrite (V [m; n; p]) by (try (repeat constructor; auto); cbn; lia). reflexivity.
Qed.
