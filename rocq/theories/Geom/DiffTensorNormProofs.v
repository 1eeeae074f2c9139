(** Inner products, and rotations of derivatives (C55). *)
From Coq Require Import List ZArith Reals Bool Lia Lra.
From Verif Require Import Base.Prelude Base.PreludeFacts Geom.BoundaryModel Geom.PeriodicModel Geom.PeriodicSpec Geom.PeriodicProofs
  Geom.BaseFnModel Geom.BaseFnSpec Geom.BaseFnProofs Geom.BaseFnTableProofs
  Geom.DiffTensorModel Geom.DiffTensorSpec Geom.DiffTensorAnalysis Geom.DiffTensorChain Geom.DiffTensorProofs Geom.DiffTensorLinProofs.
Import ListNotations.
Local Open Scope R_scope.

(** *** the inner product is the full contraction *)
Definition no_of (a : axis) : nat := match a with AX => 0 | AY => 1 | AZ => 2 end%nat.
Definition row_ds (dim : nat) (ds : list axis) : nat := row_of dim (map no_of ds).

Lemma no_at : forall ds, map axis_at (map no_of ds) = ds.
Proof. induction ds as [|[] ds IH]; cbn; congruence. Qed.
Lemma sum_over_ext : forall A (l : list A) f g, (forall x, In x l -> f x = g x) -> sum_over l f = sum_over l g.
Proof.
  intros A l f g. unfold sum_over. induction l as [|x l IH]; intros H; cbn [fold_right]; auto. rewrite H by (left; auto). rewrite IH by (intros; apply H; right; auto). reflexivity.
Qed.
Lemma sequences_axes : forall ax n ds, In ds (sequences ax n) -> length ds = n /\ Forall (fun a => In a ax) ds.
Proof.
  intros ax n. induction n as [|n IH]; intros ds H; cbn in H.
  - destruct H as [<-|[]]. split; auto.
  - apply in_flat_map in H. destruct H as [ds' [H1 H2]]. apply in_map_iff in H2. destruct H2 as [a [<- Ha]].
    destruct (IH _ H1) as [L F]. split; [cbn; auto|constructor; auto].
Qed.
Lemma below_axes : forall dim ds, dim23 dim -> Forall (fun a => In a (axes dim)) ds -> below dim (map no_of ds).
Proof.
  intros dim ds H F. unfold below. apply Forall_map. eapply Forall_impl; [|exact F]. intros a Ha.
  dims H; destruct a; cbn in *; intuition (try lia; try discriminate).
Qed.

Lemma order_value : forall dim rank v val is, dim23 dim -> (rank <= 3)%nat -> holds_order dim rank v val ->
  below dim is -> length is = rank -> val (mi is) = v (row_of dim is - first_of dim rank)%nat.
Proof.
  intros dim rank v val is H Hr Hv B L. destruct (row_of_ok dim is H B ltac:(lia)) as (E & _).
  symmetry. exact (Hv _ _ E ltac:(rewrite order_mi; auto)).
Qed.

Lemma norm_rows : forall dim rank Le Ri, dim23 dim -> (rank <= 3)%nat ->
  NormSymDiffOrderTensorV dim rank 1 Le Ri =
    Ok (sum_over (sequences (axes dim) rank) (fun ds => Le (row_ds dim ds - first_of dim rank)%nat * Ri (row_ds dim ds - first_of dim rank)%nat)).
Proof.
  intros dim rank Le Ri H Hr.
  assert (C : rank = 0%nat \/ rank = 1%nat \/ rank = 2%nat \/ rank = 3%nat) by lia.
  dims H; destruct C as [-> |[-> |[-> | ->]]]; unfold NormSymDiffOrderTensorV; cbn [Nat.eqb]; f_equal;
    cbv -[Rplus Rmult IZR pow]; ring.
Qed.

Lemma norm_contraction : forall dim rank Le Ri L R, dim23 dim -> (rank <= 3)%nat ->
  holds_order dim rank Le L -> holds_order dim rank Ri R ->
  NormSymDiffOrderTensorV dim rank 1 Le Ri =
    Ok (sum_over (sequences (axes dim) rank) (fun ds => L (multi ds) * R (multi ds))).
Proof.
  intros dim rank Le Ri L R H Hr HL HR. rewrite norm_rows by auto. f_equal. apply sum_over_ext. intros ds Hds.
  destruct (sequences_axes _ _ _ Hds) as [Ln F].
  assert (B := below_axes dim ds H F). rewrite <- (no_at ds) at 3 4. rewrite multi_mi.
  rewrite (order_value dim rank Le L), (order_value dim rank Ri R) by (auto; rewrite map_length; auto). reflexivity.
Qed.

(** As iterated sums. *)
Lemma seq1 : forall dim f, dim23 dim -> sum_over (sequences (axes dim) 1) f = sumn dim (fun i => f [axis_at i]).
Proof. intros dim f H. dims H; cbv -[Rplus IZR]; ring. Qed.
Lemma seq2 : forall dim f, dim23 dim -> sum_over (sequences (axes dim) 2) f =
  sumn dim (fun i => sumn dim (fun j => f [axis_at i; axis_at j])).
Proof. intros dim f H. dims H; cbv -[Rplus IZR]; ring. Qed.
Lemma seq3 : forall dim f, dim23 dim -> sum_over (sequences (axes dim) 3) f =
  sumn dim (fun i => sumn dim (fun j => sumn dim (fun k => f [axis_at i; axis_at j; axis_at k]))).
Proof. intros dim f H. dims H; cbv -[Rplus IZR]; ring. Qed.
Lemma no_axis : forall dim i, dim23 dim -> (i < dim)%nat -> no_of (axis_at i) = i.
Proof. intros dim i H Hi. dims H; axis_case i Hi; reflexivity. Qed.

(** *** rotations *)
Section Orth.
Variables (n : nat) (Q : mat).
Hypothesis HQ : orthogonal n Q.

Lemma orth1 : forall u v, sumn n (fun i => sumn n (fun m => Q i m * u m) * sumn n (fun m => Q i m * v m)) = sumn n (fun m => u m * v m).
Proof.
  intros u v.
  transitivity (sumn n (fun m => u m * sumn n (fun i => Q i m * sumn n (fun k => Q i k * v k)))).
  - rewrite (sumn_ext n _ (fun i => sumn n (fun m => Q i m * u m * sumn n (fun k => Q i k * v k)))).
    + rewrite sumn_swap. apply sumn_ext. intros m _. rewrite <- sumn_scal. apply sumn_ext. intros i _. ring.
    + intros i _. rewrite Rmult_comm, <- sumn_scal. apply sumn_ext. intros m _. ring.
  - apply sumn_ext. intros m Hm. f_equal. apply (orth_cancel_vec n Q v m HQ Hm).
Qed.
Definition rot2 (A : mat) (T : nat -> nat -> R) : nat -> nat -> R :=
  fun i j => sumn n (fun m => sumn n (fun k => A i m * A j k * T m k)).
Definition rot3 (A : mat) (T : nat -> nat -> nat -> R) : nat -> nat -> nat -> R :=
  fun i j k => sumn n (fun m => sumn n (fun p => sumn n (fun q => A i m * A j p * A k q * T m p q))).
Lemma rot2_split : forall A T i j, rot2 A T i j = sumn n (fun m => A i m * sumn n (fun k => A j k * T m k)).
Proof. intros. unfold rot2. apply sumn_ext. intros m _. rewrite <- sumn_scal. apply sumn_ext. intros. ring. Qed.
Lemma rot3_split : forall A T i j k, rot3 A T i j k = sumn n (fun m => A i m * rot2 A (T m) j k).
Proof.
  intros. unfold rot3, rot2. apply sumn_ext. intros m _. rewrite <- sumn_scal. apply sumn_ext. intros p _.
  rewrite <- sumn_scal. apply sumn_ext. intros. ring.
Qed.
Lemma orth2 : forall T S, sumn n (fun i => sumn n (fun j => rot2 Q T i j * rot2 Q S i j)) = sumn n (fun i => sumn n (fun j => T i j * S i j)).
Proof.
  intros T S. rewrite sumn_swap.
  transitivity (sumn n (fun j => sumn n (fun m => sumn n (fun k => Q j k * T m k) * sumn n (fun k => Q j k * S m k)))).
  - apply sumn_ext. intros j _.
    transitivity (sumn n (fun i => sumn n (fun m => Q i m * (fun m => sumn n (fun k => Q j k * T m k)) m) *
                                   sumn n (fun m => Q i m * (fun m => sumn n (fun k => Q j k * S m k)) m))).
    + apply sumn_ext. intros i _. rewrite !rot2_split. reflexivity.
    + apply orth1.
  - rewrite sumn_swap. apply sumn_ext. intros m _. apply orth1.
Qed.
Lemma orth3 : forall T S, sumn n (fun i => sumn n (fun j => sumn n (fun k => rot3 Q T i j k * rot3 Q S i j k))) =
  sumn n (fun i => sumn n (fun j => sumn n (fun k => T i j k * S i j k))).
Proof.
  intros T S.
  transitivity (sumn n (fun j => sumn n (fun k => sumn n (fun i => rot3 Q T i j k * rot3 Q S i j k)))).
  { rewrite sumn_swap. apply sumn_ext. intros j _. apply sumn_swap. }
  transitivity (sumn n (fun j => sumn n (fun k => sumn n (fun m => rot2 Q (T m) j k * rot2 Q (S m) j k)))).
  { apply sumn_ext. intros j _. apply sumn_ext. intros k _.
    rewrite <- (orth1 (fun m => rot2 Q (T m) j k) (fun m => rot2 Q (S m) j k)).
    apply sumn_ext. intros i _. rewrite !rot3_split. reflexivity. }
  transitivity (sumn n (fun m => sumn n (fun j => sumn n (fun k => rot2 Q (T m) j k * rot2 Q (S m) j k)))).
  { rewrite (sumn_ext n _ (fun j => sumn n (fun m => sumn n (fun k => rot2 Q (T m) j k * rot2 Q (S m) j k)))).
    - apply sumn_swap.
    - intros j _. apply sumn_swap. }
  apply sumn_ext. intros m _. apply orth2.
Qed.

Lemma back2 : forall T i j, (i < n)%nat -> (j < n)%nat -> rot2 (tr Q) (rot2 Q T) i j = T i j.
Proof.
  intros T i j Hi Hj. rewrite rot2_split.
  transitivity (sumn n (fun m => tr Q i m * sumn n (fun k => Q m k * T k j))).
  - apply sumn_ext. intros m _. f_equal.
    transitivity (sumn n (fun k => tr Q j k * sumn n (fun q => Q k q * sumn n (fun p => Q m p * T p q)))).
    + apply sumn_ext. intros k _. f_equal. unfold rot2. rewrite sumn_swap. apply sumn_ext. intros q _.
      rewrite <- sumn_scal. apply sumn_ext. intros. ring.
    + apply (orth_cancel_vec n Q (fun q => sumn n (fun p => Q m p * T p q)) j HQ Hj).
  - apply (orth_cancel_vec n Q (fun k => T k j) i HQ Hi).
Qed.
Lemma back3 : forall T i j k, (i < n)%nat -> (j < n)%nat -> (k < n)%nat -> rot3 (tr Q) (rot3 Q T) i j k = T i j k.
Proof.
  intros T i j k Hi Hj Hk. rewrite rot3_split.
  transitivity (sumn n (fun m => tr Q i m * sumn n (fun p => Q m p * T p j k))).
  - apply sumn_ext. intros m Hm. f_equal.
    rewrite <- (back2 (fun a b => sumn n (fun p => Q m p * T p a b)) j k Hj Hk).
    unfold rot2 at 1. unfold rot2 at 1. apply sumn_ext. intros a _. apply sumn_ext. intros b _. f_equal.
    rewrite rot3_split. unfold rot2.
    transitivity (sumn n (fun p => sumn n (fun a0 => sumn n (fun b0 => Q m p * (Q a a0 * Q b b0 * T p a0 b0))))).
    + apply sumn_ext. intros p _. rewrite <- sumn_scal. apply sumn_ext. intros a0 _. rewrite <- sumn_scal. reflexivity.
    + rewrite sumn_swap. apply sumn_ext. intros a0 _. rewrite sumn_swap. apply sumn_ext. intros b0 _.
      rewrite <- sumn_scal. apply sumn_ext. intros. ring.
  - apply (orth_cancel_vec n Q (fun p => T p j k) i HQ Hi).
Qed.
End Orth.

(** The transformed rows, along any axes. *)
Lemma row1_first : forall dim i, dim23 dim -> (i < dim)%nat -> (row_of dim [i] - first_of dim 1)%nat = i.
Proof. intros dim i H Hi. rewrite row1 by auto. dims H; cbn; lia. Qed.

Lemma trans1_any : forall dim Le A, dim23 dim -> exists v, TransSymDiffOrderTensorV dim 1 Le A = Ok v /\
  forall i, (i < dim)%nat -> v (row_of dim [i] - first_of dim 1)%nat = sumn dim (fun m => A i m * Le (row_of dim [m] - first_of dim 1)%nat).
Proof.
  intros dim Le A H. exists (mvec dim A Le). split; [dims H; reflexivity|]. intros i Hi. rewrite row1_first by auto.
  unfold mvec. apply sumn_ext. intros m Hm. rewrite row1_first by auto. reflexivity.
Qed.
Lemma trans2_any : forall dim Le A, dim23 dim -> exists v, TransSymDiffOrderTensorV dim 2 Le A = Ok v /\
  forall i j, (i < dim)%nat -> (j < dim)%nat -> v (row_of dim [i; j] - first_of dim 2)%nat =
    rot2 dim A (fun m n => Le (row_of dim [m; n] - first_of dim 2)%nat) i j.
Proof.
  intros dim Le A H.
  assert (E : exists v, TransSymDiffOrderTensorV dim 2 Le A = Ok v) by (dims H; eexists; reflexivity).
  destruct E as [v E]. exists v. split; auto. intros i j Hi Hj.
  destruct (trans2_row dim Le A (row_of dim [i; j]) H (row2_large dim i j H Hi Hj)) as [v' [E' V]].
  rewrite E in E'. injection E' as <-. unfold rot2.
  destruct (axes_row2 dim i j H Hi Hj) as [S0|S0]; rewrite S0 in V; rewrite V; auto.
  rewrite sumn_swap. apply sumn_ext. intros m Hm. apply sumn_ext. intros n Hn.
  assert (R : row_of dim [n; m] = row_of dim [m; n]) by (dims H; axis_case m Hm; axis_case n Hn; reflexivity).
  rewrite R. ring.
Qed.
Lemma row3_perm : forall dim m n p, dim23 dim -> (m < dim)%nat -> (n < dim)%nat -> (p < dim)%nat ->
  row_of dim [n; m; p] = row_of dim [m; n; p] /\ row_of dim [m; p; n] = row_of dim [m; n; p].
Proof. intros dim m n p H Hm Hn Hp. dims H; axis_case m Hm; axis_case n Hn; axis_case p Hp; split; reflexivity. Qed.

Definition sym3 (n : nat) (T : nat -> nat -> nat -> R) : Prop :=
  forall m p q, (m < n)%nat -> (p < n)%nat -> (q < n)%nat -> T p m q = T m p q /\ T m q p = T m p q.
Lemma rot3_12 : forall n A T i j k, sym3 n T -> rot3 n A T j i k = rot3 n A T i j k.
Proof.
  intros n A T i j k H. unfold rot3. rewrite sumn_swap. apply sumn_ext. intros m Hm. apply sumn_ext. intros p Hp.
  apply sumn_ext. intros q Hq. rewrite (proj1 (H m p q Hm Hp Hq)). ring.
Qed.
Lemma rot3_23 : forall n A T i j k, sym3 n T -> rot3 n A T i k j = rot3 n A T i j k.
Proof.
  intros n A T i j k H. unfold rot3. apply sumn_ext. intros m Hm. rewrite sumn_swap. apply sumn_ext. intros p Hp.
  apply sumn_ext. intros q Hq. rewrite (proj2 (H m p q Hm Hp Hq)). ring.
Qed.
Lemma trans3_any : forall dim Le A, dim23 dim -> exists v, TransSymDiffOrderTensorV dim 3 Le A = Ok v /\
  forall i j k, (i < dim)%nat -> (j < dim)%nat -> (k < dim)%nat -> v (row_of dim [i; j; k] - first_of dim 3)%nat =
    rot3 dim A (fun m n p => Le (row_of dim [m; n; p] - first_of dim 3)%nat) i j k.
Proof.
  intros dim Le A H.
  assert (E : exists v, TransSymDiffOrderTensorV dim 3 Le A = Ok v) by (dims H; eexists; reflexivity).
  destruct E as [v E]. exists v. split; auto. intros i j k Hi Hj Hk.
  destruct (trans3_row dim Le A (row_of dim [i; j; k]) H (row3_large dim i j k H Hi Hj Hk)) as [v' [E' V]].
  rewrite E in E'. injection E' as <-.
  set (T := fun m n p => Le (row_of dim [m; n; p] - first_of dim 3)%nat).
  assert (HT : sym3 dim T).
  { intros m p q Hm Hp Hq. unfold T. destruct (row3_perm dim m p q H Hm Hp Hq) as [R1 R2]. rewrite R1, R2. auto. }
  assert (V' : let '(i', j', k') := axes_of_row dim (row_of dim [i; j; k]) in v (row_of dim [i; j; k] - first_of dim 3)%nat = rot3 dim A T i' j' k')
    by exact V. clear V.
  destruct (axes_row3 dim i j k H Hi Hj Hk) as [S0|[S0|[S0|[S0|[S0|S0]]]]]; rewrite S0 in V'; rewrite V'; auto.
  - apply rot3_23; auto.
  - apply rot3_12; auto.
  - rewrite rot3_23, rot3_12; auto.
  - rewrite rot3_12, rot3_23; auto.
  - rewrite rot3_12, rot3_23, rot3_12; auto.
Qed.

Lemma rotation_norm : forall dim rank Q Le Ri, dim23 dim -> (rank <= 3)%nat -> orthogonal dim Q ->
  exists Le' Ri' v, TransSymDiffOrderTensorV dim rank Le Q = Ok Le' /\ TransSymDiffOrderTensorV dim rank Ri Q = Ok Ri' /\
    NormSymDiffOrderTensorV dim rank 1 Le Ri = Ok v /\ NormSymDiffOrderTensorV dim rank 1 Le' Ri' = Ok v.
Proof.
  intros dim rank Q Le Ri H Hr HQ.
  assert (C : rank = 0%nat \/ rank = 1%nat \/ rank = 2%nat \/ rank = 3%nat) by lia.
  destruct C as [-> |[-> |[-> | ->]]].
  - exists Le, Ri. eexists. split; [dims H; reflexivity|]. split; [dims H; reflexivity|]. rewrite norm_rows by auto. split; reflexivity.
  - destruct (trans1_any dim Le Q H) as [a [Ea Va]]. destruct (trans1_any dim Ri Q H) as [b [Eb Vb]].
    exists a, b. eexists. split; auto. split; auto. rewrite !norm_rows by auto. split; [reflexivity|]. f_equal.
    rewrite !seq1 by auto. unfold row_ds. cbn [map].
    transitivity (sumn dim (fun i => sumn dim (fun m => Q i m * Le (row_of dim [m] - first_of dim 1)%nat) *
                                     sumn dim (fun m => Q i m * Ri (row_of dim [m] - first_of dim 1)%nat))).
    + apply sumn_ext. intros i Hi. rewrite (no_axis dim) by auto. rewrite Va, Vb by auto. reflexivity.
    + rewrite (orth1 dim Q HQ). apply sumn_ext. intros i Hi. rewrite (no_axis dim) by auto. reflexivity.
  - destruct (trans2_any dim Le Q H) as [a [Ea Va]]. destruct (trans2_any dim Ri Q H) as [b [Eb Vb]].
    exists a, b. eexists. split; auto. split; auto. rewrite !norm_rows by auto. split; [reflexivity|]. f_equal.
    rewrite !seq2 by auto. unfold row_ds. cbn [map].
    transitivity (sumn dim (fun i => sumn dim (fun j => rot2 dim Q (fun m n => Le (row_of dim [m; n] - first_of dim 2)%nat) i j *
                                                        rot2 dim Q (fun m n => Ri (row_of dim [m; n] - first_of dim 2)%nat) i j))).
    + apply sumn_ext. intros i Hi. apply sumn_ext. intros j Hj. rewrite !(no_axis dim) by auto. rewrite Va, Vb by auto. reflexivity.
    + rewrite (orth2 dim Q HQ). apply sumn_ext. intros i Hi. apply sumn_ext. intros j Hj. rewrite !(no_axis dim) by auto. reflexivity.
  - destruct (trans3_any dim Le Q H) as [a [Ea Va]]. destruct (trans3_any dim Ri Q H) as [b [Eb Vb]].
    exists a, b. eexists. split; auto. split; auto. rewrite !norm_rows by auto. split; [reflexivity|]. f_equal.
    rewrite !seq3 by auto. unfold row_ds. cbn [map].
    transitivity (sumn dim (fun i => sumn dim (fun j => sumn dim (fun k =>
       rot3 dim Q (fun m n p => Le (row_of dim [m; n; p] - first_of dim 3)%nat) i j k *
       rot3 dim Q (fun m n p => Ri (row_of dim [m; n; p] - first_of dim 3)%nat) i j k)))).
    + apply sumn_ext. intros i Hi. apply sumn_ext. intros j Hj. apply sumn_ext. intros k Hk.
      rewrite !(no_axis dim) by auto. rewrite Va, Vb by auto. reflexivity.
    + rewrite (orth3 dim Q HQ). apply sumn_ext. intros i Hi. apply sumn_ext. intros j Hj. apply sumn_ext. intros k Hk.
      rewrite !(no_axis dim) by auto. reflexivity.
Qed.
