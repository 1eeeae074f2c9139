(** Derivatives of a composition along up to three axes (C55). *)
From Coq Require Import List ZArith Reals Bool Lia Lra.
From Verif Require Import Base.Prelude Base.PreludeFacts Geom.PeriodicModel Geom.PeriodicSpec Geom.PeriodicProofs
  Geom.BaseFnModel Geom.BaseFnSpec Geom.BaseFnProofs Geom.DiffTensorModel Geom.DiffTensorSpec Geom.DiffTensorAnalysis.
Import ListNotations.
Local Open Scope R_scope.

Lemma next_comm : forall a b m, next a (next b m) = next b (next a m).
Proof. intros [] [] [[p q] r]; reflexivity. Qed.
Definition zero3 : nat * nat * nat := (0, 0, 0)%nat.
Definition mi (is : list nat) : nat * nat * nat := fold_right (fun i m => next (axis_at i) m) zero3 is.
Lemma multi_next : forall a ds, multi (a :: ds) = next a (multi ds).
Proof. intros a ds. unfold multi, times. destruct a; reflexivity. Qed.
Lemma multi_mi : forall is, multi (map axis_at is) = mi is.
Proof. induction is as [|i is IH]; [reflexivity|]. cbn [map mi fold_right]. rewrite multi_next, IH. reflexivity. Qed.
Lemma mi_swap : forall i j is, mi (i :: j :: is) = mi (j :: i :: is).
Proof. intros. cbn [mi fold_right]. apply next_comm. Qed.
Lemma mi_swap2 : forall i j k is, mi (i :: j :: k :: is) = mi (i :: k :: j :: is).
Proof. intros. cbn [mi fold_right]. f_equal. apply next_comm. Qed.
Lemma mi_cons : forall i is, mi (i :: is) = next (axis_at i) (mi is).
Proof. reflexivity. Qed.
Lemma order_next : forall a m, order_of (next a m) = S (order_of m).
Proof. intros [] [[p q] r]; cbn; lia. Qed.
Lemma order_mi : forall is, order_of (mi is) = length is.
Proof. induction is; [reflexivity|]. cbn [mi fold_right]. rewrite order_next. cbn. f_equal. exact IHis. Qed.

Lemma along_unique_same : forall D a f g g', along_in D a f g -> along_in D a f g' ->
  forall X Y Z, D X Y Z -> g X Y Z = g' X Y Z.
Proof.
  intros D a f g g' H H' X Y Z HD. specialize (H X Y Z HD). specialize (H' X Y Z HD).
  destruct a; eapply uniqueness_limite; eauto.
Qed.

Section Chain.
Variables (D E : region) (dim K : nat) (F : fn) (xi : axis -> fn).
Variables (dF : nat * nat * nat -> fn) (dxi : axis -> nat * nat * nat -> fn).
Hypothesis Hco : coordinates dim xi.
Hypothesis Hmap : maps D E xi.
Hypothesis HF : smooth_in E K F dF.
Hypothesis Hxi : forall b, smooth_in D K (xi b) (dxi b).

Definition x (is : list nat) (m : nat) : fn := dxi (axis_at m) (mi is).
Definition f (ms : list nat) : fn := compose (dF (mi ms)) xi.

Lemma x_along : forall i is m, (length is < K)%nat -> along_in D (axis_at i) (x is m) (x (i :: is) m).
Proof.
  intros i is m H. destruct (Hxi (axis_at m)) as [_ S].
  unfold x. rewrite mi_cons. apply (differential_along D _ _ (S (mi is) ltac:(rewrite order_mi; auto))).
Qed.

Lemma f_along : forall i ms, (i < dim)%nat -> (length ms < K)%nat ->
  along_in D (axis_at i) (f ms) (fun X Y Z => sumn dim (fun m => x [i] m X Y Z * f (m :: ms) X Y Z)).
Proof.
  intros i ms Hi Hl. destruct HF as [_ SF].
  assert (Hx : forall b, along_in D (axis_at i) (xi b) (dxi b (mi [i]))).
  { intros b. destruct (Hxi b) as [S0 S]. apply (along_same D _ (dxi b zero3)); [exact S0|].
    apply (differential_along D _ _ (S zero3 ltac:(cbn; lia))). }
  pose proof (chain3 D E (dF (mi ms)) _ xi (fun b => dxi b (mi [i])) (axis_at i) Hmap
               (SF (mi ms) ltac:(rewrite order_mi; auto)) Hx) as C.
  eapply along_value; [exact C|]. intros X Y Z HD. cbv beta. unfold x, f.
  destruct Hco as [-> |[-> HZ]]; cbn [sumn axis_at].
  - change (mi (0%nat :: ms)) with (next AX (mi ms)). change (mi (1%nat :: ms)) with (next AY (mi ms)).
    change (mi (2%nat :: ms)) with (next AZ (mi ms)). ring.
  - change (mi (0%nat :: ms)) with (next AX (mi ms)). change (mi (1%nat :: ms)) with (next AY (mi ms)).
    assert (Z0 : dxi AZ (mi [i]) X Y Z = 0).
    { refine (along_unique_same D (axis_at i) (xi AZ) _ (fun _ _ _ => 0) (Hx AZ) _ X Y Z HD).
      apply (along_same D _ (fun _ _ z => z)); [intros; symmetry; apply HZ|].
      intros X0 Y0 Z0' _. destruct i as [|[|i]]; [| |lia]; cbn [axis_at]; exact (derivable_pt_lim_const Z0' _). }
    rewrite Z0. ring.
Qed.

Definition S1 (i : nat) : fn := fun X Y Z => sumn dim (fun m => x [i] m X Y Z * f [m] X Y Z).
Definition S2 (i j : nat) : fn := fun X Y Z =>
  sumn dim (fun m => x [i; j] m X Y Z * f [m] X Y Z) +
  sumn dim (fun m => sumn dim (fun n => x [i] m X Y Z * x [j] n X Y Z * f [m; n] X Y Z)).
Definition S3 (i j k : nat) : fn := fun X Y Z =>
  sumn dim (fun m => x [i; j; k] m X Y Z * f [m] X Y Z) +
  sumn dim (fun m => sumn dim (fun n =>
    x [i; j] m X Y Z * x [k] n X Y Z * f [m; n] X Y Z +
    x [i; k] m X Y Z * x [j] n X Y Z * f [m; n] X Y Z +
    x [j; k] m X Y Z * x [i] n X Y Z * f [m; n] X Y Z)) +
  sumn dim (fun m => sumn dim (fun n => sumn dim (fun p =>
    x [i] m X Y Z * x [j] n X Y Z * x [k] p X Y Z * f [m; n; p] X Y Z))).

Lemma x_eq : forall is is' m, mi is = mi is' -> x is m = x is' m.
Proof. intros is is' m H. unfold x. rewrite H. reflexivity. Qed.
Lemma f_eq : forall is is', mi is = mi is' -> f is = f is'.
Proof. intros is is' H. unfold f. rewrite H. reflexivity. Qed.

Lemma S1_along : forall i, (1 <= K)%nat -> (i < dim)%nat -> along_in D (axis_at i) (compose F xi) (S1 i).
Proof.
  intros i HK Hi. apply (along_same D _ (f [])).
  - intros X Y Z. unfold f, compose. apply HF.
  - apply f_along; [auto|cbn; lia].
Qed.

Lemma S2_along : forall i j, (2 <= K)%nat -> (i < dim)%nat -> (j < dim)%nat -> along_in D (axis_at j) (S1 i) (S2 i j).
Proof.
  intros i j HK Hi Hj. unfold S1.
  eapply along_value.
  - apply along_sum. intros m Hm. apply along_mult; [apply x_along; cbn; lia|apply f_along; [auto|cbn; lia]].
  - intros X Y Z HD. cbv beta. unfold S2. rewrite (sumn_plus dim (fun m => x [j; i] m X Y Z * f [m] X Y Z)). f_equal.
    + apply sumn_ext. intros m _. rewrite (x_eq [j; i] [i; j]) by apply mi_swap. reflexivity.
    + apply sumn_ext. intros m _. rewrite <- sumn_scal. apply sumn_ext. intros n _.
      rewrite (f_eq [n; m] [m; n]) by apply mi_swap. ring.
Qed.

Lemma S3_along : forall i j k, (3 <= K)%nat -> (i < dim)%nat -> (j < dim)%nat -> (k < dim)%nat ->
  along_in D (axis_at k) (S2 i j) (S3 i j k).
Proof.
  intros i j k HK Hi Hj Hk. unfold S2.
  eapply along_value.
  - apply along_plus.
    + apply along_sum. intros m Hm. apply along_mult; [apply x_along; cbn; lia|apply f_along; [auto|cbn; lia]].
    + apply along_sum. intros m Hm. apply along_sum. intros n Hn. apply along_mult.
      * apply along_mult; apply x_along; cbn; lia.
      * apply f_along; [auto|cbn; lia].
  - intros X Y Z HD. cbv beta. unfold S3.
    rewrite (sumn_plus dim (fun m => x [k; i; j] m X Y Z * f [m] X Y Z)). rewrite !Rplus_assoc. f_equal.
    { apply sumn_ext. intros m _. rewrite (x_eq [k; i; j] [i; j; k]); [reflexivity|].
      rewrite mi_swap. rewrite mi_swap2. reflexivity. }
    transitivity (sumn dim (fun m => sumn dim (fun n => x [i; j] m X Y Z * x [k] n X Y Z * f [m; n] X Y Z)) +
      (sumn dim (fun m => sumn dim (fun n => x [i; k] m X Y Z * x [j] n X Y Z * f [m; n] X Y Z +
                                            x [i] m X Y Z * x [j; k] n X Y Z * f [m; n] X Y Z)) +
       sumn dim (fun m => sumn dim (fun n => sumn dim (fun p =>
         x [i] m X Y Z * x [j] n X Y Z * x [k] p X Y Z * f [m; n; p] X Y Z))))).
    { f_equal.
      - apply sumn_ext. intros m _. rewrite <- sumn_scal. apply sumn_ext. intros n _.
        rewrite (f_eq [n; m] [m; n]) by apply mi_swap. ring.
      - rewrite <- sumn_plus. apply sumn_ext. intros m _. rewrite <- sumn_plus. apply sumn_ext. intros n _.
        rewrite (x_eq [k; i] [i; k]), (x_eq [k; j] [j; k]) by apply mi_swap. f_equal; [ring|].
        rewrite <- sumn_scal. apply sumn_ext. intros p _.
        rewrite (f_eq [p; m; n] [m; n; p]); [ring|]. rewrite mi_swap, mi_swap2. reflexivity. }
    rewrite <- Rplus_assoc. f_equal.
    rewrite (sumn_ext dim (fun m => sumn dim (fun n => x [i; k] m X Y Z * x [j] n X Y Z * f [m; n] X Y Z +
                                            x [i] m X Y Z * x [j; k] n X Y Z * f [m; n] X Y Z))
               (fun m => sumn dim (fun n => x [i; k] m X Y Z * x [j] n X Y Z * f [m; n] X Y Z) +
                         sumn dim (fun n => x [i] m X Y Z * x [j; k] n X Y Z * f [m; n] X Y Z)))
      by (intros m _; apply sumn_plus).
    rewrite (sumn_plus dim (fun m => sumn dim (fun n => x [i; k] m X Y Z * x [j] n X Y Z * f [m; n] X Y Z))).
    rewrite (sumn_swap dim dim (fun m n => x [i] m X Y Z * x [j; k] n X Y Z * f [m; n] X Y Z)).
    rewrite <- !sumn_plus. apply sumn_ext. intros m _. rewrite <- !sumn_plus. apply sumn_ext. intros n _.
    rewrite (f_eq [n; m] [m; n]) by apply mi_swap. ring.
Qed.

(** The symmetry of the formulas. *)
Lemma S2_sym : forall i j X Y Z, S2 i j X Y Z = S2 j i X Y Z.
Proof.
  intros. unfold S2. f_equal.
  - apply sumn_ext. intros m _. rewrite (x_eq [i; j] [j; i]) by apply mi_swap. reflexivity.
  - rewrite sumn_swap. apply sumn_ext. intros m _. apply sumn_ext. intros n _.
    rewrite (f_eq [n; m] [m; n]) by apply mi_swap. ring.
Qed.
Lemma S3_sym12 : forall i j k X Y Z, S3 i j k X Y Z = S3 j i k X Y Z.
Proof.
  intros. unfold S3. f_equal; [f_equal|].
  - apply sumn_ext. intros m _. rewrite (x_eq [i; j; k] [j; i; k]) by apply mi_swap. reflexivity.
  - apply sumn_ext. intros m _. apply sumn_ext. intros n _. rewrite (x_eq [i; j] [j; i]) by apply mi_swap. ring.
  - rewrite sumn_swap. apply sumn_ext. intros m _. apply sumn_ext. intros n _. apply sumn_ext. intros p _.
    rewrite (f_eq [n; m; p] [m; n; p]) by apply mi_swap. ring.
Qed.
Lemma S3_sym23 : forall i j k X Y Z, S3 i j k X Y Z = S3 i k j X Y Z.
Proof.
  intros. unfold S3. f_equal; [f_equal|].
  - apply sumn_ext. intros m _. rewrite (x_eq [i; j; k] [i; k; j]) by apply mi_swap2. reflexivity.
  - apply sumn_ext. intros m _. apply sumn_ext. intros n _. rewrite (x_eq [j; k] [k; j]) by apply mi_swap. ring.
  - apply sumn_ext. intros m _. rewrite sumn_swap. apply sumn_ext. intros n _. apply sumn_ext. intros p _.
    rewrite (f_eq [m; p; n] [m; n; p]) by apply mi_swap2. ring.
Qed.

(** The value of the derivative along some axes. *)
Definition formula (is : list nat) : fn :=
  match is with
  | [] => f []
  | [i] => S1 i
  | [i; j] => S2 i j
  | [i; j; k] => S3 i j k
  | _ => fun _ _ _ => 0
  end.
Lemma formula_partial : forall is, (length is <= K)%nat -> (length is <= 3)%nat -> Forall (fun i => (i < dim)%nat) is ->
  exists g, partial_in D (map axis_at is) (compose F xi) g /\ forall X Y Z, g X Y Z = formula is X Y Z.
Proof.
  intros is HK H3 HA. destruct is as [|i [|j [|k [|l is]]]]; cbn [length] in *; try lia; cbn [map].
  - eexists. split; [apply partial_in_none|]. intros. cbn [formula]. unfold f, compose. symmetry. apply HF.
  - inversion HA; subst. exists (S1 i). split; auto. eapply partial_in_next; [apply S1_along; auto|apply partial_in_none].
  - inversion HA as [|? ? A0 HA1]; subst. inversion HA1; subst. exists (S2 i j). split; auto.
    eapply partial_in_next; [apply S1_along; auto; lia|]. eapply partial_in_next; [apply S2_along; auto|apply partial_in_none].
  - inversion HA as [|? ? A0 HA1]; subst. inversion HA1 as [|? ? A1 HA2]; subst. inversion HA2; subst.
    exists (S3 i j k). split; auto.
    eapply partial_in_next; [apply S1_along; auto; lia|]. eapply partial_in_next; [apply S2_along; auto; lia|].
    eapply partial_in_next; [apply S3_along; auto|apply partial_in_none].
Qed.
End Chain.
