(** Means of the base functions (C56). *)
From Coq Require Import List ZArith Reals Bool Lia Lra.
From Verif Require Import Base.Prelude Base.PreludeFacts Geom.PeriodicModel Geom.PeriodicSpec Geom.PeriodicProofs
  Geom.BaseFnModel Geom.BaseFnSpec Geom.BaseFnProofs Geom.DiffTensorModel Geom.DiffTensorSpec Geom.DiffTensorProofs
  CFV.RecModel CFV.RecSpec CFV.RecPolyProofs CFV.RecBaseProofs.
Import ListNotations.
Local Open Scope R_scope.

Lemma value_row : forall D dim k M b f X Y Z, dim23 dim -> (k <= 3)%nat ->
  holds_derivatives D dim (rows_up_to dim k) M b f X Y Z -> M 0%nat b = f X Y Z.
Proof.
  intros D dim k M b f X Y Z H Hk HH.
  destruct (HH 0%nat []) as [g [P V]].
  - destruct H as [-> | ->]; destruct k as [|[|[|[|k]]]]; cbn; lia.
  - destruct H as [-> | ->]; reflexivity.
  - inversion P; subst. auto.
Qed.
Lemma rows_0 : forall dim, dim23 dim -> rows_up_to dim 0 = 1%nat.
Proof. intros dim [-> | ->]; reflexivity. Qed.

Lemma moment_fold : forall st c rule m0, supported st -> sound_cell st c -> exists m,
  foldM (fun m '(w, JDet, pPhy) => do vv <- FDiffBaseValue st c 1 pPhy 1; Ok (fun j => m j + vv 0%nat j * JDet * w)) m0 rule = Ok m /\
  forall j, (j < NDOF st)%nat -> m j = m0 j + over_rule rule (fun x => value_at (base_fn st c j) x + moment c j).
Proof.
  intros st c rule. induction rule as [|[[w J] x] rule IH]; intros m0 HS HC.
  - exists m0. split; [reflexivity|]. intros. cbn. ring.
  - destruct (base_values_any st c 0 x HS HC ltac:(lia)) as [D [E H]]. rewrite rows_0 in E by exact (proj1 HS).
    cbn [foldM]. rewrite E. cbn [bind Z.eqb].
    destruct (IH (fun j => m0 j + D 0%nat j * J * w) HS HC) as [m [EM HM]]. exists m. split; [exact EM|].
    intros j Hj. rewrite HM by auto. rewrite (value_row _ _ 0 _ _ _ _ _ _ (proj1 HS) ltac:(lia) (H j Hj)).
    unfold over_rule, sum_over. cbn [fold_right]. unfold value_at. cbv beta iota. ring.
Qed.

Lemma over_plus : forall rule f g, over_rule rule (fun x => f x + g x) = over_rule rule f + over_rule rule g.
Proof. intros rule f g. unfold over_rule. rewrite <- sum_over_plus. f_equal. apply FunctionalExtensionality.functional_extensionality. intros [[w J] x]. ring. Qed.
Lemma over_scal : forall rule f c, over_rule rule (fun x => c * f x) = c * over_rule rule f.
Proof. intros rule f c. unfold over_rule. rewrite <- sum_over_scal. f_equal. apply FunctionalExtensionality.functional_extensionality. intros [[w J] x]. ring. Qed.
Lemma over_const : forall rule c, over_rule rule (fun _ => c) = c * measure rule.
Proof. intros rule c. unfold measure. rewrite <- over_scal. f_equal. apply FunctionalExtensionality.functional_extensionality. intros x. ring. Qed.
Lemma over_ext : forall rule f g, (forall x, f x = g x) -> over_rule rule f = over_rule rule g.
Proof. intros rule f g H. f_equal. apply FunctionalExtensionality.functional_extensionality. auto. Qed.
Lemma over_sumn : forall rule n (f : nat -> vec -> R), over_rule rule (fun x => sumn n (fun l => f l x)) = sumn n (fun l => over_rule rule (f l)).
Proof.
  intros rule n f. induction n as [|n IH]; cbn [sumn]; [rewrite over_const; ring|].
  rewrite (over_plus rule (fun x => sumn n (fun l => f l x)) (f n)). rewrite IH. reflexivity.
Qed.

(** The stored moments make the mean of every base function zero. *)
Lemma moments_zero : forall st c rule, supported st -> sound_cell st c -> measure rule <> 0 ->
  exists m, BaseMoment st c rule (measure rule) = Ok m /\
  forall j, (j < NDOF st)%nat -> mean rule (base_fn st (with_moment c m) j) = 0.
Proof.
  intros st c rule HS HC HM. unfold BaseMoment. destruct (moment_fold st c rule (fun _ => 0) HS HC) as [m [E V]].
  rewrite E. cbn [bind]. eexists. split; [reflexivity|]. intros j Hj. unfold mean.
  assert (B : forall x, value_at (base_fn st (with_moment c (fun j0 => m j0 / measure rule)) j) x =
                        value_at (base_fn st c j) x + moment c j + (- (m j / measure rule))).
  { intros x. unfold value_at, base_fn, own_coordinate, own_length, box, with_moment. cbn [cent alignedHBox majorHBox majorCoord moment]. ring. }
  rewrite (over_ext rule _ _ B). rewrite (over_plus rule (fun x => value_at (base_fn st c j) x + moment c j)).
  rewrite over_const. rewrite (V j Hj). field. auto.
Qed.

(** The mean of a reconstruction is the mean it was made from. *)
Lemma rec_mean : forall st c rule u coef, supported st -> own_moments st c rule -> mean rule (rec_fn st c u coef) = u.
Proof.
  intros st c rule u coef HS [HM H0]. unfold mean.
  assert (B : forall x, value_at (rec_fn st c u coef) x = u + sumn (NDOF st - 1) (fun l => coef l * value_at (base_fn st c (S l)) x)).
  { intros x. rewrite (ndof_rows st HS). reflexivity. }
  rewrite (over_ext rule _ _ B). rewrite (over_plus rule (fun _ => u)). rewrite over_const. rewrite over_sumn.
  rewrite (sumn_ext (NDOF st - 1) _ (fun _ => 0)); [rewrite sumn_zero; field; auto|].
  intros l Hl. rewrite over_scal. specialize (H0 (S l) ltac:(rewrite <- (ndof_rows st HS); lia)). unfold mean in H0.
  assert (Z : over_rule rule (value_at (base_fn st c (S l))) = 0).
  { apply (Rmult_eq_reg_r (/ measure rule)); [|apply Rinv_neq_0_compat; auto]. unfold Rdiv in H0. rewrite H0. ring. }
  change (fun x => value_at (base_fn st c (S l)) x) with (value_at (base_fn st c (S l))). rewrite Z. ring.
Qed.
