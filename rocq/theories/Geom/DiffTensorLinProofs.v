(** The linear change of coordinates, inner products and periodic transformations (C55). *)
From Coq Require Import List ZArith Reals Bool Lia Lra.
From Verif Require Import Base.Prelude Base.PreludeFacts Geom.BoundaryModel Geom.PeriodicModel Geom.PeriodicSpec Geom.PeriodicProofs
  Geom.BaseFnModel Geom.BaseFnSpec Geom.BaseFnProofs Geom.BaseFnTableProofs
  Geom.DiffTensorModel Geom.DiffTensorSpec Geom.DiffTensorAnalysis Geom.DiffTensorChain Geom.DiffTensorProofs.
Import ListNotations.
Local Open Scope R_scope.

Definition grad_rows (dim : nat) (A : mat) : mat := fun r m =>
  if Nat.leb 1 r && Nat.leb r dim then A (r - 1)%nat m else 0.
Lemma grad_only_first : forall dim A, only_first dim (grad_rows dim A).
Proof. intros dim A r m H. unfold grad_rows. destruct (Nat.leb_spec r dim); [lia|]. rewrite andb_false_r. reflexivity. Qed.
Lemma grad_at : forall dim A i m, dim23 dim -> (i < dim)%nat -> grad_rows dim A (row_of dim [i]) m = A i m.
Proof.
  intros dim A i m H Hi. rewrite row1 by auto. unfold grad_rows. destruct (Nat.leb_spec (S i) dim); [|lia].
  cbn. rewrite Nat.sub_0_r. reflexivity.
Qed.

Lemma mm2 : forall n A T i j, mmul n (mmul n A T) (tr A) i j = sumn n (fun a => sumn n (fun b => A i a * A j b * T a b)).
Proof.
  intros. unfold mmul, tr. rewrite sumn_swap. apply sumn_ext. intros b _.
  rewrite Rmult_comm, <- sumn_scal. apply sumn_ext. intros a _. ring.
Qed.
Lemma mm3 : forall n A T i j k,
  MatTransform2 n (tr A) (MatTransform1 n (tr A) (MatTransform0 n (tr A) T)) i j k =
  sumn n (fun a => sumn n (fun b => sumn n (fun c => A i a * A j b * A k c * T a b c))).
Proof.
  intros. unfold MatTransform2, MatTransform1, MatTransform0, mmul, tr.
  transitivity (sumn n (fun c => sumn n (fun a => sumn n (fun b => A i a * A j b * A k c * T a b c)))).
  - apply sumn_ext. intros c _. rewrite sumn_swap. rewrite Rmult_comm, <- sumn_scal. apply sumn_ext. intros b _.
    rewrite (Rmult_comm (sumn n _) (A j b)), <- sumn_scal, <- sumn_scal. apply sumn_ext. intros a _. ring.
  - rewrite sumn_swap. apply sumn_ext. intros a _. rewrite sumn_swap. reflexivity.
Qed.

Lemma set_in : forall a c new m r b, (a <= r < a + c)%nat -> set_rows a c new m r b = new (r - a)%nat b.
Proof. intros. unfold set_rows. destruct (Nat.leb_spec a r), (Nat.ltb_spec r (a + c)); cbn; auto; lia. Qed.
Lemma set_out : forall a c new m r b, (r < a \/ a + c <= r)%nat -> set_rows a c new m r b = m r b.
Proof. intros. unfold set_rows. destruct (Nat.leb_spec a r), (Nat.ltb_spec r (a + c)); cbn; auto; lia. Qed.

Definition first_of (dim rank : nat) : nat := match rank with O => 0 | S k => rows_up_to dim k end%nat.
Definition count_of (dim rank : nat) : nat := (rows_up_to dim rank - first_of dim rank)%nat.

Lemma trans2_row : forall dim Le A r, dim23 dim -> (ndiffSizS dim 1 <= r < ndiffSizS dim 2)%nat ->
  exists v, TransSymDiffOrderTensorV dim 2 Le A = Ok v /\
  let '(i, j, _) := axes_of_row dim r in
  v (r - first_of dim 2)%nat = sumn dim (fun m => sumn dim (fun n => A i m * A j n * Le (row_of dim [m; n] - first_of dim 2)%nat)).
Proof.
  intros dim Le A r H Hr. dims H; (eexists; split; [reflexivity|]).
  - assert (Hr' : (3 <= r < 6)%nat) by exact Hr. clear Hr.
    assert (T : forall i j, mmul 2 (mmul 2 A (filled2 fill_R2_2 Le)) (tr A) i j =
              sumn 2 (fun m => sumn 2 (fun n => A i m * A j n * Le (row_of 2 [m; n] - 3)%nat))).
    { intros i j. rewrite mm2. apply sumn_ext. intros m Hm. apply sumn_ext. intros n Hn. f_equal.
      axis_case m Hm; axis_case n Hn; reflexivity. }
    assert (C : r = 3%nat \/ r = 4%nat \/ r = 5%nat) by lia.
    destruct C as [-> |[-> | ->]]; exact (T _ _).
  - assert (Hr' : (4 <= r < 10)%nat) by exact Hr. clear Hr.
    assert (T : forall i j, mmul 3 (mmul 3 A (filled2 fill_R2_3 Le)) (tr A) i j =
              sumn 3 (fun m => sumn 3 (fun n => A i m * A j n * Le (row_of 3 [m; n] - 4)%nat))).
    { intros i j. rewrite mm2. apply sumn_ext. intros m Hm. apply sumn_ext. intros n Hn. f_equal.
      axis_case m Hm; axis_case n Hn; reflexivity. }
    assert (C : r = 4%nat \/ r = 5%nat \/ r = 6%nat \/ r = 7%nat \/ r = 8%nat \/ r = 9%nat) by lia.
    destruct C as [-> |[-> |[-> |[-> |[-> | ->]]]]]; exact (T _ _).
Qed.

Lemma trans3_row : forall dim Le A r, dim23 dim -> (ndiffSizS dim 2 <= r < ndiffSizS dim 3)%nat ->
  exists v, TransSymDiffOrderTensorV dim 3 Le A = Ok v /\
  let '(i, j, k) := axes_of_row dim r in
  v (r - first_of dim 3)%nat = sumn dim (fun m => sumn dim (fun n => sumn dim (fun p =>
    A i m * A j n * A k p * Le (row_of dim [m; n; p] - first_of dim 3)%nat))).
Proof.
  intros dim Le A r H Hr. dims H; (eexists; split; [reflexivity|]).
  - assert (Hr' : (6 <= r < 10)%nat) by exact Hr. clear Hr.
    assert (T : forall i j k, MatTransform2 2 (tr A) (MatTransform1 2 (tr A) (MatTransform0 2 (tr A) (filled3 fill_R3_2 Le))) i j k =
              sumn 2 (fun m => sumn 2 (fun n => sumn 2 (fun p => A i m * A j n * A k p * Le (row_of 2 [m; n; p] - 6)%nat)))).
    { intros i j k. rewrite mm3. apply sumn_ext. intros m Hm. apply sumn_ext. intros n Hn. apply sumn_ext. intros p Hp. f_equal.
      axis_case m Hm; axis_case n Hn; axis_case p Hp; reflexivity. }
    assert (C : r = 6%nat \/ r = 7%nat \/ r = 8%nat \/ r = 9%nat) by lia.
    destruct C as [-> |[-> |[-> | ->]]]; exact (T _ _ _).
  - assert (Hr' : (10 <= r < 20)%nat) by exact Hr. clear Hr.
    assert (T : forall i j k, MatTransform2 3 (tr A) (MatTransform1 3 (tr A) (MatTransform0 3 (tr A) (filled3 fill_R3_3 Le))) i j k =
              sumn 3 (fun m => sumn 3 (fun n => sumn 3 (fun p => A i m * A j n * A k p * Le (row_of 3 [m; n; p] - 10)%nat)))).
    { intros i j k. rewrite mm3. apply sumn_ext. intros m Hm. apply sumn_ext. intros n Hn. apply sumn_ext. intros p Hp. f_equal.
      axis_case m Hm; axis_case n Hn; axis_case p Hp; reflexivity. }
    assert (C : r = 10%nat \/ r = 11%nat \/ r = 12%nat \/ r = 13%nat \/ r = 14%nat \/ r = 15%nat \/ r = 16%nat \/ r = 17%nat \/ r = 18%nat \/ r = 19%nat) by lia.
    destruct C as [-> |[-> |[-> |[-> |[-> |[-> |[-> |[-> |[-> | ->]]]]]]]]]; exact (T _ _ _).
Qed.

Lemma trans_rows2 : forall dim A M r b, dim23 dim -> (ndiffSizS dim 1 <= r < ndiffSizS dim 2)%nat ->
  trans_rows dim 2 (first_of dim 2) (count_of dim 2) A M r b = full2 dim (grad_rows dim A) M r b.
Proof.
  intros dim A M r b H Hr. unfold trans_rows.
  assert (L1 : (first_of dim 2 <= r < first_of dim 2 + count_of dim 2)%nat) by (dims H; exact Hr).
  rewrite set_in by exact L1.
  destruct (trans2_row dim (fun l => M (first_of dim 2 + l)%nat b) A r H Hr) as [v [E V]]. rewrite E.
  pose proof (axes_small dim r H ltac:(pose proof (siz2 dim H); lia)) as S.
  unfold full2. destruct (axes_of_row dim r) as [[i j] k]. destruct S as (Si & Sj & _). rewrite V.
  rewrite (sumn_ext dim (fun m' => grad_rows dim A (row_of dim [i; j]) m' * M (row_of dim [m']) b) (fun _ => 0)).
  - rewrite sumn_zero, Rplus_0_l. apply sumn_ext. intros m Hm. apply sumn_ext. intros n Hn.
    rewrite !grad_at by auto. f_equal. pose proof (row2_large dim m n H Hm Hn). f_equal.
    assert (first_of dim 2 = ndiffSizS dim 1) by (dims H; reflexivity). lia.
  - intros m Hm. pose proof (row2_large dim i j H Si Sj). pose proof (siz1 dim H).
    rewrite grad_only_first by lia. ring.
Qed.

Lemma trans_rows3 : forall dim A M r b, dim23 dim -> (ndiffSizS dim 2 <= r < ndiffSizS dim 3)%nat ->
  trans_rows dim 3 (first_of dim 3) (count_of dim 3) A M r b = full3 dim (grad_rows dim A) M r b.
Proof.
  intros dim A M r b H Hr. unfold trans_rows.
  assert (L1 : (first_of dim 3 <= r < first_of dim 3 + count_of dim 3)%nat) by (dims H; exact Hr).
  rewrite set_in by exact L1.
  destruct (trans3_row dim (fun l => M (first_of dim 3 + l)%nat b) A r H Hr) as [v [E V]]. rewrite E.
  pose proof (axes_small dim r H ltac:(lia)) as S.
  unfold full3. destruct (axes_of_row dim r) as [[i j] k]. destruct S as (Si & Sj & Sk). rewrite V.
  pose proof (siz1 dim H). pose proof (siz2 dim H).
  rewrite (sumn_ext dim (fun m' => grad_rows dim A (row_of dim [i; j; k]) m' * M (row_of dim [m']) b) (fun _ => 0)).
  - rewrite (sumn_ext dim (fun m' => sumn dim (fun n => _ + _)) (fun _ => 0)).
    + rewrite !sumn_zero, !Rplus_0_l. apply sumn_ext. intros m Hm. apply sumn_ext. intros n Hn. apply sumn_ext. intros p Hp.
      rewrite !grad_at by auto. f_equal. pose proof (row3_large dim m n p H Hm Hn Hp). f_equal.
      assert (first_of dim 3 = ndiffSizS dim 2) by (dims H; reflexivity). lia.
    + intros m Hm. rewrite <- (sumn_zero dim). apply sumn_ext. intros n Hn.
      pose proof (row2_large dim i j H Si Sj). pose proof (row2_large dim i k H Si Sk). pose proof (row2_large dim j k H Sj Sk).
      rewrite !(grad_only_first dim A (row_of dim [_; _])) by lia. ring.
  - intros m Hm. pose proof (row3_large dim i j k H Si Sj Sk).
    rewrite grad_only_first by lia. ring.
Qed.

Lemma trans_rows_out : forall dim rank a c A M r b, (r < a \/ a + c <= r)%nat -> trans_rows dim rank a c A M r b = M r b.
Proof. intros. unfold trans_rows. apply set_out; auto. Qed.

(** The linear map does what the general one does with vanishing higher derivatives. *)
Lemma lin_map_rows : forall dim k M A, dim23 dim -> (k <= 3)%nat ->
  exists out, ConvertDiffsLinMap dim (rows_up_to dim k) M A = Ok out /\
  forall b is, below dim is -> (length is <= k)%nat -> out (row_of dim is) b = full_row dim M (grad_rows dim A) b is.
Proof.
  intros dim k M A H Hk.
  set (t3 := trans_rows dim 3 (first_of dim 3) (count_of dim 3) A).
  set (t2 := trans_rows dim 2 (first_of dim 2) (count_of dim 2) A).
  set (t1 := fun m => set_rows 1 dim (mmul dim A (fun k b => m (1 + k)%nat b)) m).
  assert (Q : ConvertDiffsLinMap dim (rows_up_to dim k) M A =
              Ok (match k with 0 => M | 1 => t1 M | 2 => t1 (t2 M) | _ => t1 (t2 (t3 M)) end%nat)).
  { dims H; do 4 (destruct k as [|k]; [reflexivity|]); lia. }
  eexists. split; [exact Q|]. clear Q. intros b is B L.
  pose proof (siz1 dim H) as Z1. pose proof (siz2 dim H) as Z2.
  assert (F2 : first_of dim 2 = ndiffSizS dim 1 /\ (first_of dim 2 + count_of dim 2 = ndiffSizS dim 2)%nat) by (dims H; split; reflexivity).
  assert (F3 : first_of dim 3 = ndiffSizS dim 2 /\ (first_of dim 3 + count_of dim 3 = ndiffSizS dim 3)%nat) by (dims H; split; reflexivity).
  destruct F2 as [F2 F2']. destruct F3 as [F3 F3'].
  assert (U3 : forall m r, (r < ndiffSizS dim 2)%nat -> t3 m r b = m r b) by (intros; apply trans_rows_out; lia).
  assert (U2 : forall m r, (r < ndiffSizS dim 1 \/ ndiffSizS dim 2 <= r)%nat -> t2 m r b = m r b) by (intros; apply trans_rows_out; lia).
  assert (U1 : forall m r, (r < 1 \/ ndiffSizS dim 1 <= r)%nat -> t1 m r b = m r b) by (intros; apply set_out; lia).
  assert (V1 : forall m i, (i < dim)%nat -> (forall j, (j < dim)%nat -> m (S j) b = M (S j) b) -> t1 m (row_of dim [i]) b = full1 dim (grad_rows dim A) M (row_of dim [i]) b).
  { intros m i Hi Hm. unfold t1. rewrite set_in by (rewrite row1 by auto; lia).
    unfold full1. rewrite axes_row1 by auto. unfold mmul. apply sumn_ext. intros j Hj.
    rewrite grad_at, !row1 by auto. replace (S i - 1)%nat with i by lia. rewrite <- Hm by auto. reflexivity. }
  assert (V0 : row_of dim [] = 0%nat) by (dims H; reflexivity).
  destruct is as [|i [|j [|l [|q is]]]]; cbn [length] in L; try lia; cbn [full_row].
  - rewrite V0. destruct k as [|[|[|k]]]; rewrite ?U1, ?U2, ?U3 by lia; reflexivity.
  - inversion B; subst. destruct k as [|[|[|k]]]; try lia; apply V1; auto; intros j Hj; rewrite ?U2, ?U3 by lia; reflexivity.
  - inversion B as [|? ? B0 B1]; subst. inversion B1; subst. pose proof (row2_large dim i j H B0 ltac:(auto)) as R.
    destruct k as [|[|[|k]]]; try lia; rewrite U1 by lia; unfold t2; rewrite trans_rows2 by auto; [reflexivity|].
    apply full2_first; auto using grad_only_first; [lia|]. intros r' Hr'. apply U3. lia.
  - inversion B as [|? ? B0 B1]; subst. inversion B1 as [|? ? B2 B3]; subst. inversion B3; subst.
    pose proof (row3_large dim i j l H B0 B2 ltac:(auto)) as R.
    destruct k as [|[|[|k]]]; try lia. rewrite U1, U2 by lia. unfold t3. rewrite trans_rows3 by auto. reflexivity.
Qed.

(** *** affine changes of coordinates are smooth *)
Definition aff (c a0 a1 a2 : R) : fn := fun X Y Z => c + a0 * X + a1 * Y + a2 * Z.
Definition daff (c a0 a1 a2 : R) (m : nat * nat * nat) : fn :=
  match m with
  | (0, 0, 0) => aff c a0 a1 a2
  | (1, 0, 0) => fun _ _ _ => a0
  | (0, 1, 0) => fun _ _ _ => a1
  | (0, 0, 1) => fun _ _ _ => a2
  | _ => fun _ _ _ => 0%R
  end%nat.
Lemma const_differential : forall D c, differential_in D (fun _ _ _ => c) (fun _ _ _ _ => 0).
Proof.
  intros D c X Y Z _ e He. exists 1. split; [lra|]. intros u v w _ _ _.
  match goal with |- Rabs ?t <= _ => replace t with 0 by ring end. rewrite Rabs_R0.
  pose proof (Rabs_pos u). pose proof (Rabs_pos v). pose proof (Rabs_pos w).
  apply Rmult_le_pos; lra.
Qed.
Lemma aff_smooth : forall D k c a0 a1 a2, smooth_in D k (aff c a0 a1 a2) (daff c a0 a1 a2).
Proof.
  intros D k c a0 a1 a2. split; [reflexivity|]. intros m _.
  destruct m as [[p q] r].
  destruct p as [|p]; [destruct q as [|q]; [destruct r as [|r]|]|].
  - intros X Y Z _ e He. exists 1. split; [lra|]. intros u v w _ _ _. cbn [daff next]. unfold aff.
    match goal with |- Rabs ?t <= _ => replace t with 0 by ring end. rewrite Rabs_R0.
    pose proof (Rabs_pos u). pose proof (Rabs_pos v). pose proof (Rabs_pos w). apply Rmult_le_pos; lra.
  - destruct r; exact (const_differential D _).
  - destruct q; destruct r; exact (const_differential D _).
  - destruct p; destruct q; destruct r; exact (const_differential D _).
Qed.

(** The derivatives of the affine change of coordinates. *)
Definition daffine (dim : nat) (A : mat) (c : vec) (a : axis) : nat * nat * nat -> fn :=
  match a with
  | AX => daff (c 0%nat) (A 0%nat 0%nat) (A 1%nat 0%nat) (if Nat.eqb dim 2 then 0 else A 2%nat 0%nat)
  | AY => daff (c 1%nat) (A 0%nat 1%nat) (A 1%nat 1%nat) (if Nat.eqb dim 2 then 0 else A 2%nat 1%nat)
  | AZ => if Nat.eqb dim 2 then daff 0 0 0 1 else daff (c 2%nat) (A 0%nat 2%nat) (A 1%nat 2%nat) (A 2%nat 2%nat)
  end.
Lemma smooth_same : forall D k f f' d, (forall X Y Z, f X Y Z = f' X Y Z) -> smooth_in D k f d -> smooth_in D k f' d.
Proof. intros D k f f' d E [H0 H1]. split; auto. intros. rewrite <- E. apply H0. Qed.
Lemma affine_smooth : forall D k dim A c a, dim23 dim -> smooth_in D k (affine dim A c a) (daffine dim A c a).
Proof.
  intros D k dim A c a H. dims H; destruct a; cbn [daffine Nat.eqb];
    (eapply smooth_same; [|apply aff_smooth]); intros X Y Z; unfold aff, affine; cbn [Nat.eqb sumn axis_at coordinate]; ring.
Qed.
Lemma affine_coordinates : forall dim A c, dim23 dim -> coordinates dim (affine dim A c).
Proof. intros dim A c H. dims H; [right; split; auto; reflexivity|left; reflexivity]. Qed.

Lemma daff_high : forall c a0 a1 a2 m X Y Z, (2 <= order_of m)%nat -> daff c a0 a1 a2 m X Y Z = 0.
Proof.
  intros c a0 a1 a2 [[p q] r] X Y Z H. cbn in H.
  destruct p as [|[|p]]; destruct q as [|[|q]]; destruct r as [|[|r]]; cbn in H; try lia; reflexivity.
Qed.
Lemma grad_holds : forall dim k A c m X Y Z, dim23 dim -> (k <= 3)%nat -> (m < dim)%nat ->
  holds dim 1 (rows_up_to dim k) (grad_rows dim A) m (fun a => daffine dim A c (axis_at m) a X Y Z).
Proof.
  intros dim k A c m X Y Z H Hk Hm r a [Hr0 Hr] E.
  destruct (le_lt_dec r dim) as [L|L].
  - unfold grad_rows. destruct (Nat.leb_spec 1 r); [|lia]. destruct (Nat.leb_spec r dim); [|lia]. cbn [andb].
    destruct a as [[p q] s].
    dims H; (destruct r as [|[|[|[|r]]]]; try lia); cbn -[Z.of_nat] in E; injection E as E1 E2 E3;
      [assert (p = 1%nat /\ q = 0%nat /\ s = 0%nat) as (-> & -> & ->) by lia
      |assert (p = 0%nat /\ q = 1%nat /\ s = 0%nat) as (-> & -> & ->) by lia
      |assert (p = 1%nat /\ q = 0%nat /\ s = 0%nat) as (-> & -> & ->) by lia
      |assert (p = 0%nat /\ q = 1%nat /\ s = 0%nat) as (-> & -> & ->) by lia
      |assert (p = 0%nat /\ q = 0%nat /\ s = 1%nat) as (-> & -> & ->) by lia];
      axis_case m Hm; reflexivity.
  - rewrite grad_only_first by auto.
    assert (O : (2 <= order_of a)%nat).
    { destruct a as [[p q] s]. cbn [order_of].
      assert (R20 : (r < 20)%nat) by (pose proof (rows_mono dim k 3 H Hk ltac:(lia)); dims H; cbn in *; lia).
      dims H; (do 20 (destruct r as [|r]; [try lia; cbn -[Z.of_nat] in E; try discriminate; injection E as E1 E2 E3; lia|])); lia. }
    symmetry. dims H; destruct (axis_at m); cbn [daffine Nat.eqb]; apply daff_high; auto.
Qed.
