(** Proofs about derivative tensors and their change of coordinates (C55). *)
From Coq Require Import List ZArith Reals Bool Lia Lra.
From Verif Require Import Base.Prelude Base.PreludeFacts Geom.PeriodicModel Geom.PeriodicSpec Geom.PeriodicProofs
  Geom.BaseFnModel Geom.BaseFnSpec Geom.BaseFnProofs Geom.BaseFnTableProofs
  Geom.DiffTensorModel Geom.DiffTensorSpec Geom.DiffTensorAnalysis Geom.DiffTensorChain.
Import ListNotations.
Local Open Scope R_scope.

Definition dim23 (dim : nat) : Prop := dim = 2%nat \/ dim = 3%nat.
Definition below (dim : nat) (is : list nat) : Prop := Forall (fun i => (i < dim)%nat) is.

Lemma below_cases : forall dim i, dim23 dim -> (i < dim)%nat -> i = 0%nat \/ i = 1%nat \/ (i = 2%nat /\ dim = 3%nat).
Proof. intros dim i [-> | ->] H; lia. Qed.

Ltac dims H := destruct H as [-> | ->].
Ltac axis_case i H := destruct i as [|[|[|i]]]; try lia.

Lemma row1 : forall dim i, dim23 dim -> (i < dim)%nat -> row_of dim [i] = S i.
Proof. intros dim i H Hi. dims H; axis_case i Hi; reflexivity. Qed.

Lemma row_of_ok : forall dim is, dim23 dim -> below dim is -> (length is <= 3)%nat ->
  nth_error (operators dim) (row_of dim is) = Some (multi_Z (mi is)) /\
  (row_of dim is < rows_up_to dim (length is))%nat /\
  (match length is with O => 0 | S k => rows_up_to dim k end <= row_of dim is)%nat.
Proof.
  intros dim is H B L. destruct is as [|i [|j [|k [|l is]]]]; cbn [length] in L; try lia.
  - dims H; vm_compute; repeat split; lia.
  - inversion B; subst. dims H; axis_case i B; vm_compute; repeat split; lia.
  - inversion B as [|? ? B0 B1]; subst. inversion B1; subst. dims H; axis_case i B0; axis_case j B1; vm_compute; repeat split; lia.
  - inversion B as [|? ? B0 B1]; subst. inversion B1 as [|? ? B2 B3]; subst. inversion B3; subst.
    dims H; axis_case i B0; axis_case j B1; axis_case k B2; vm_compute; repeat split; lia.
Qed.

Lemma table_order : forall dim k r a b c, dim23 dim -> (k <= 3)%nat -> (r < rows_up_to dim k)%nat ->
  nth_error (operators dim) r = Some (multi_Z (a, b, c)) -> (a + b + c <= k)%nat /\ (dim = 2%nat -> c = 0%nat).
Proof.
  intros dim k r a b c H Hk Hr E.
  assert (R20 : (r < 20)%nat) by (dims H; do 4 (destruct k as [|k]; [cbn in Hr; lia|]); lia).
  do 20 (destruct r as [|r];
    [dims H; (do 4 (destruct k as [|k]; [cbn in Hr; try lia; cbn -[Z.of_nat] in E; try discriminate; injection E as E1 E2 E3; lia|]); lia)|]).
  lia.
Qed.

Lemma order_multi : forall ds, order_of (multi ds) = length ds.
Proof.
  induction ds as [|a ds IH]; [reflexivity|]. rewrite multi_next, order_next, IH. reflexivity.
Qed.
Lemma axis_at_surj : forall ds, exists is, ds = map axis_at is /\ length is = length ds /\ below 3 is /\
  (times AZ ds = 0%nat -> below 2 is).
Proof.
  induction ds as [|a ds (is & E & L & B & B2)].
  - exists []. repeat split; auto; constructor.
  - exists (match a with AX => 0 | AY => 1 | AZ => 2 end%nat :: is). cbn [map length]. rewrite <- E, L.
    split; [destruct a; reflexivity|]. split; [reflexivity|]. split.
    + constructor; auto. destruct a; lia.
    + unfold times. cbn [filter]. destruct a; cbn [axis_eqb length]; intros H; try lia; (constructor; [lia|apply B2; exact H]).
Qed.
Lemma nodup_ops : forall dim, dim23 dim -> NoDup (operators dim).
Proof. intros dim H. dims H; [apply table2|apply table3]. Qed.

(** The rows of a matrix are the derivatives along axes below [dim]. *)
Lemma row_axes : forall dim k r ds, dim23 dim -> (k <= 3)%nat -> (r < rows_up_to dim k)%nat ->
  nth_error (operators dim) r = Some (multi_Z (multi ds)) ->
  exists is, ds = map axis_at is /\ (length is <= k)%nat /\ below dim is /\ r = row_of dim is.
Proof.
  intros dim k r ds H Hk Hr E. destruct (axis_at_surj ds) as (is & -> & L & B & B2).
  rewrite multi_mi in E. pose proof (order_mi is) as O.
  assert (B' : below dim is /\ (length is <= k)%nat).
  { destruct (mi is) as [[a b] c] eqn:M. destruct (table_order dim k r a b c H Hk Hr E) as [T1 T2].
    cbn in O. split; [|lia]. dims H; auto. apply B2.
    pose proof (multi_mi is) as MM. rewrite M in MM. unfold multi in MM. injection MM as _ _ M3. rewrite M3. auto. }
  destruct B' as [B' L']. exists is. repeat split; auto.
  destruct (row_of_ok dim is H B' ltac:(lia)) as (R & _).
  apply (proj1 (NoDup_nth_error (operators dim)) (nodup_ops dim H)).
  - apply nth_error_Some. rewrite E. discriminate.
  - rewrite E, R. reflexivity.
Qed.

Definition sorted2 (i j : nat) : nat * nat := if Nat.leb i j then (i, j) else (j, i).
Lemma axes_row1 : forall dim i, dim23 dim -> (i < dim)%nat -> axes_of_row dim (row_of dim [i]) = (i, 0, 0)%nat.
Proof. intros dim i H Hi. dims H; axis_case i Hi; reflexivity. Qed.
Lemma axes_row2 : forall dim i j, dim23 dim -> (i < dim)%nat -> (j < dim)%nat ->
  axes_of_row dim (row_of dim [i; j]) = (i, j, 0%nat) \/ axes_of_row dim (row_of dim [i; j]) = (j, i, 0%nat).
Proof. intros dim i j H Hi Hj. dims H; axis_case i Hi; axis_case j Hj; vm_compute; auto. Qed.
Lemma axes_row3 : forall dim i j k, dim23 dim -> (i < dim)%nat -> (j < dim)%nat -> (k < dim)%nat ->
  let s := axes_of_row dim (row_of dim [i; j; k]) in
  s = (i, j, k) \/ s = (i, k, j) \/ s = (j, i, k) \/ s = (j, k, i) \/ s = (k, i, j) \/ s = (k, j, i).
Proof. intros dim i j k H Hi Hj Hk. dims H; axis_case i Hi; axis_case j Hj; axis_case k Hk; vm_compute; auto 10. Qed.

Lemma rows_mono : forall dim j k, dim23 dim -> (j <= k)%nat -> (k <= 3)%nat -> (rows_up_to dim j <= rows_up_to dim k)%nat.
Proof. intros dim j k H H1 H2. dims H; do 4 (destruct k as [|k]; [do 4 (destruct j as [|j]; [cbn; lia|]); lia|]); lia. Qed.

(** *** the formulas of the conversion *)
Section Full.
Variables (D E : region) (dim K : nat) (F : fn) (xi : axis -> fn).
Variables (dF : nat * nat * nat -> fn) (dxi : axis -> nat * nat * nat -> fn).
Hypothesis Hdim : dim23 dim.
Variables (X Y Z : R) (M DxiDx : mat) (b : nat).
Hypothesis HM : holds dim 0 (rows_up_to dim K) M b (fun m => compose (dF m) xi X Y Z).
Hypothesis HX : forall m, (m < dim)%nat -> holds dim 1 (rows_up_to dim K) DxiDx m (fun a => dxi (axis_at m) a X Y Z).
Hypothesis HK : (K <= 3)%nat.

Lemma M_at : forall is, below dim is -> (length is <= K)%nat -> M (row_of dim is) b = compose (dF (mi is)) xi X Y Z.
Proof.
  intros is B L. destruct (row_of_ok dim is Hdim B ltac:(lia)) as (R & L1 & _).
  exact (HM (row_of dim is) (mi is) (conj (Nat.le_0_l _) (Nat.lt_le_trans _ _ _ L1 (rows_mono _ _ _ Hdim L HK))) R).
Qed.
Lemma X_at : forall is m, below dim is -> (1 <= length is <= K)%nat -> (m < dim)%nat ->
  DxiDx (row_of dim is) m = dxi (axis_at m) (mi is) X Y Z.
Proof.
  intros is m B L Hm. destruct (row_of_ok dim is Hdim B ltac:(lia)) as (R & L1 & L2).
  assert (L0 : (1 <= row_of dim is)%nat).
  { destruct (length is) as [|[|[|[|]]]] eqn:EL; try lia; dims Hdim; cbn in L2; lia. }
  exact (HX m Hm (row_of dim is) (mi is) (conj L0 (Nat.lt_le_trans _ _ _ L1 (rows_mono _ _ _ Hdim (proj2 L) HK))) R).
Qed.

Ltac bl := repeat (apply Forall_cons; [assumption|]); apply Forall_nil.

Lemma full1_ok : forall i, (1 <= K)%nat -> (i < dim)%nat ->
  full1 dim DxiDx M (row_of dim [i]) b = S1 dim xi dF dxi i X Y Z.
Proof.
  intros i H Hi. unfold full1. rewrite (axes_row1 dim i Hdim Hi). unfold S1. apply sumn_ext. intros m Hm.
  rewrite X_at, M_at by (try bl; cbn; lia). reflexivity.
Qed.
Lemma full2_sorted : forall i j r, (2 <= K)%nat -> (i < dim)%nat -> (j < dim)%nat -> axes_of_row dim r = (i, j, 0%nat) ->
  full2 dim DxiDx M r b = S2 dim xi dF dxi i j X Y Z.
Proof.
  intros i j r H Hi Hj E0. unfold full2. rewrite E0. unfold S2. f_equal.
  - apply sumn_ext. intros m Hm. rewrite X_at, M_at by (try bl; cbn; lia). reflexivity.
  - apply sumn_ext. intros m Hm. apply sumn_ext. intros n Hn.
    rewrite !X_at, M_at by (try bl; cbn; lia). reflexivity.
Qed.
Lemma full2_ok : forall i j, (2 <= K)%nat -> (i < dim)%nat -> (j < dim)%nat ->
  full2 dim DxiDx M (row_of dim [i; j]) b = S2 dim xi dF dxi i j X Y Z.
Proof.
  intros i j H Hi Hj. destruct (axes_row2 dim i j Hdim Hi Hj) as [E0|E0].
  - apply full2_sorted; auto.
  - rewrite S2_sym. apply full2_sorted; auto.
Qed.
Lemma full3_sorted : forall i j k r, (3 <= K)%nat -> (i < dim)%nat -> (j < dim)%nat -> (k < dim)%nat ->
  axes_of_row dim r = (i, j, k) -> full3 dim DxiDx M r b = S3 dim xi dF dxi i j k X Y Z.
Proof.
  intros i j k r H Hi Hj Hk E0. unfold full3. rewrite E0. unfold S3. f_equal; [f_equal|].
  - apply sumn_ext. intros m Hm. rewrite X_at, M_at by (try bl; cbn; lia). reflexivity.
  - apply sumn_ext. intros m Hm. apply sumn_ext. intros n Hn.
    rewrite !X_at, M_at by (try bl; cbn; lia). reflexivity.
  - apply sumn_ext. intros m Hm. apply sumn_ext. intros n Hn. apply sumn_ext. intros p Hp.
    rewrite !X_at, M_at by (try bl; cbn; lia). reflexivity.
Qed.
Lemma full3_ok : forall i j k, (3 <= K)%nat -> (i < dim)%nat -> (j < dim)%nat -> (k < dim)%nat ->
  full3 dim DxiDx M (row_of dim [i; j; k]) b = S3 dim xi dF dxi i j k X Y Z.
Proof.
  intros i j k H Hi Hj Hk. destruct (axes_row3 dim i j k Hdim Hi Hj Hk) as [E0|[E0|[E0|[E0|[E0|E0]]]]].
  - apply full3_sorted; auto.
  - rewrite S3_sym23. apply full3_sorted; auto.
  - rewrite S3_sym12. apply full3_sorted; auto.
  - rewrite S3_sym12, S3_sym23. apply full3_sorted; auto.
  - rewrite S3_sym23, S3_sym12. apply full3_sorted; auto.
  - rewrite S3_sym12, S3_sym23, S3_sym12. apply full3_sorted; auto.
Qed.

(** The rows of the new matrix, if each order is computed from the old one. *)
Definition full_row (is : list nat) : R :=
  match is with
  | [] => M 0%nat b
  | [_] => full1 dim DxiDx M (row_of dim is) b
  | [_; _] => full2 dim DxiDx M (row_of dim is) b
  | _ => full3 dim DxiDx M (row_of dim is) b
  end.
Lemma full_row_ok : forall is, below dim is -> (length is <= K)%nat -> full_row is = formula dim xi dF dxi is X Y Z.
Proof.
  intros is B L. destruct is as [|i [|j [|k [|l is]]]]; cbn [length] in L; try lia; cbn [full_row formula].
  - pose proof (M_at [] B ltac:(cbn; lia)) as A. replace (row_of dim []) with 0%nat in A by (dims Hdim; reflexivity). exact A.
  - inversion B; subst. apply full1_ok; auto.
  - inversion B as [|? ? B0 B1]; subst. inversion B1; subst. apply full2_ok; auto.
  - inversion B as [|? ? B0 B1]; subst. inversion B1 as [|? ? B2 B3]; subst. inversion B3; subst. apply full3_ok; auto.
Qed.

Lemma full_derivatives : coordinates dim xi -> maps D E xi -> smooth_in E K F dF -> (forall a, smooth_in D K (xi a) (dxi a)) ->
  forall out, (forall is, below dim is -> (length is <= K)%nat -> out (row_of dim is) b = full_row is) ->
  holds_derivatives D dim (rows_up_to dim K) out b (compose F xi) X Y Z.
Proof.
  intros C1 C2 C3 C4 out HO r ds Hr E0.
  destruct (row_axes dim K r ds Hdim HK Hr E0) as (is & -> & L & B & ->).
  destruct (formula_partial D E dim K F xi dF dxi C1 C2 C3 C4 is L ltac:(lia) B) as [g [P V]].
  exists g. split; auto. rewrite V, HO, full_row_ok; auto.
Qed.
End Full.

(** *** the conversion with any map, first order, and with a map whose higher derivatives vanish *)
Definition only_first (dim : nat) (DxiDx : mat) : Prop := forall r m, (dim < r)%nat -> DxiDx r m = 0.

Lemma row2_large : forall dim i j, dim23 dim -> (i < dim)%nat -> (j < dim)%nat ->
  (ndiffSizS dim 1 <= row_of dim [i; j] < ndiffSizS dim 2)%nat.
Proof. intros dim i j H Hi Hj. dims H; axis_case i Hi; axis_case j Hj; vm_compute; lia. Qed.
Lemma row3_large : forall dim i j k, dim23 dim -> (i < dim)%nat -> (j < dim)%nat -> (k < dim)%nat ->
  (ndiffSizS dim 2 <= row_of dim [i; j; k] < ndiffSizS dim 3)%nat.
Proof. intros dim i j k H Hi Hj Hk. dims H; axis_case i Hi; axis_case j Hj; axis_case k Hk; vm_compute; lia. Qed.

Lemma copy_out : forall a c out m r b, (r < a \/ c <= r)%nat -> copy_rows a c out m r b = m r b.
Proof.
  intros. unfold copy_rows. destruct (Nat.leb_spec a r), (Nat.ltb_spec r c); cbn; auto; lia.
Qed.
Lemma copy_in : forall a c out m r b, (a <= r < c)%nat -> copy_rows a c out m r b = out r b.
Proof.
  intros. unfold copy_rows. destruct (Nat.leb_spec a r), (Nat.ltb_spec r c); cbn; auto; lia.
Qed.
Lemma order_of_rows : forall dim k, dim23 dim -> (k <= 3)%nat -> ndiff2order dim (rows_up_to dim k) = Some k.
Proof. intros dim k H Hk. dims H; do 4 (destruct k as [|k]; [reflexivity|]); lia. Qed.
Lemma siz1 : forall dim, dim23 dim -> ndiffSizS dim 1 = S dim.
Proof. intros dim H. dims H; reflexivity. Qed.
Lemma siz2 : forall dim, dim23 dim -> (S dim < ndiffSizS dim 2 < ndiffSizS dim 3)%nat.
Proof. intros dim H. dims H; vm_compute; lia. Qed.

Lemma axes_small : forall dim r, dim23 dim -> (r < ndiffSizS dim 3)%nat -> let '(i, j, k) := axes_of_row dim r in (i < dim /\ j < dim /\ k < dim)%nat.
Proof. intros dim r H Hr. dims H; cbn in Hr; do 20 (destruct r as [|r]; [try lia; vm_compute; lia|]); lia. Qed.

(** With only first derivatives, the new rows of order 2 depend on the old rows of order
    2 only, and those of order 3 on those of order 3. *)
Lemma full2_first : forall dim DxiDx M M' r b, dim23 dim -> only_first dim DxiDx -> (r < ndiffSizS dim 2)%nat ->
  (forall r', (ndiffSizS dim 1 <= r' < ndiffSizS dim 2)%nat -> M r' b = M' r' b) ->
  full2 dim DxiDx M r b = full2 dim DxiDx M' r b.
Proof.
  intros dim DxiDx M M' r b H O Hr HM. pose proof (siz2 dim H). pose proof (axes_small dim r H ltac:(lia)) as A.
  unfold full2. destruct (axes_of_row dim r) as [[i j] k]. destruct A as (Ai & Aj & Ak). pose proof (siz1 dim H).
  f_equal.
  - apply sumn_ext. intros m Hm. pose proof (row2_large dim i j H Ai Aj). rewrite O by lia. ring.
  - apply sumn_ext. intros m Hm. apply sumn_ext. intros n Hn. rewrite HM; auto. apply row2_large; auto.
Qed.
Lemma full3_first : forall dim DxiDx M M' r b, dim23 dim -> only_first dim DxiDx -> (r < ndiffSizS dim 3)%nat ->
  (forall r', (ndiffSizS dim 2 <= r' < ndiffSizS dim 3)%nat -> M r' b = M' r' b) ->
  full3 dim DxiDx M r b = full3 dim DxiDx M' r b.
Proof.
  intros dim DxiDx M M' r b H O Hr HM. pose proof (axes_small dim r H Hr) as A.
  unfold full3. destruct (axes_of_row dim r) as [[i j] k]. destruct A as (Ai & Aj & Ak).
  pose proof (siz1 dim H). pose proof (siz2 dim H).
  f_equal; [f_equal|].
  - apply sumn_ext. intros m Hm. pose proof (row3_large dim i j k H Ai Aj Ak). rewrite O by lia. ring.
  - apply sumn_ext. intros m Hm. apply sumn_ext. intros n Hn.
    pose proof (row2_large dim i j H Ai Aj). pose proof (row2_large dim i k H Ai Ak). pose proof (row2_large dim j k H Aj Ak).
    rewrite !(O (row_of dim [_; _])) by lia. ring.
  - apply sumn_ext. intros m Hm. apply sumn_ext. intros n Hn. apply sumn_ext. intros p Hp.
    rewrite HM; auto. apply row3_large; auto.
Qed.

Lemma full_map_rows : forall dim k M DxiDx, dim23 dim -> (k <= 3)%nat -> only_first dim DxiDx \/ (k <= 1)%nat ->
  exists out, ConvertDiffsFullMap dim (rows_up_to dim k) M DxiDx = Ok out /\
  forall b is, below dim is -> (length is <= k)%nat -> out (row_of dim is) b = full_row dim M DxiDx b is.
Proof.
  intros dim k M DxiDx H Hk O. unfold ConvertDiffsFullMap. rewrite order_of_rows by auto.
  pose proof (siz1 dim H) as Z1. pose proof (siz2 dim H) as Z2.
  set (m1 := copy_rows 1 (ndiffSizS dim 1) (full1 dim DxiDx M) M).
  set (m2 := copy_rows (ndiffSizS dim 1) (ndiffSizS dim 2) (full2 dim DxiDx m1) m1).
  set (m3 := copy_rows (ndiffSizS dim 2) (ndiffSizS dim 3) (full3 dim DxiDx m2) m2).
  assert (R0 : row_of dim [] = 0%nat) by (dims H; reflexivity).
  assert (A0 : forall b, m1 0%nat b = M 0%nat b) by (intros; apply copy_out; lia).
  assert (A1 : forall b i, (i < dim)%nat -> m1 (row_of dim [i]) b = full1 dim DxiDx M (row_of dim [i]) b).
  { intros. apply copy_in. rewrite row1 by auto. lia. }
  assert (A2 : forall b r, (ndiffSizS dim 1 <= r)%nat -> m1 r b = M r b) by (intros; apply copy_out; lia).
  assert (B0 : forall b r, (r < ndiffSizS dim 1)%nat -> m2 r b = m1 r b) by (intros; apply copy_out; lia).
  assert (B2 : forall b r, (ndiffSizS dim 2 <= r)%nat -> m2 r b = m1 r b) by (intros; apply copy_out; lia).
  assert (C0 : forall b r, (r < ndiffSizS dim 2)%nat -> m3 r b = m2 r b) by (intros; apply copy_out; lia).
  assert (P1 : forall b is, below dim is -> (length is <= 1)%nat -> m1 (row_of dim is) b = full_row dim M DxiDx b is).
  { intros b is B L. destruct is as [|i [|]]; cbn [length] in L; try lia; cbn [full_row].
    - rewrite R0. apply A0.
    - inversion B; subst. apply A1. auto. }
  assert (P2 : only_first dim DxiDx -> forall b is, below dim is -> (length is <= 2)%nat -> m2 (row_of dim is) b = full_row dim M DxiDx b is).
  { intros O1 b is B L. destruct (le_lt_dec (length is) 1) as [L1|L1].
    - rewrite B0; [apply P1; auto|].
      destruct (row_of_ok dim is H B ltac:(lia)) as (_ & R & _).
      assert (rows_up_to dim (length is) <= ndiffSizS dim 1)%nat; [|lia].
      destruct (length is) as [|[|]]; try lia; dims H; vm_compute; lia.
    - destruct is as [|i [|j [|]]]; cbn [length] in *; try lia. inversion B as [|? ? Q0 Q1]; subst. inversion Q1; subst.
      cbn [full_row]. unfold m2. rewrite copy_in by (apply row2_large; auto).
      apply full2_first; auto; [apply row2_large; auto|]. intros r' Hr'. apply A2. lia. }
  destruct O as [O|O].
  - destruct k as [|[|[|[|k]]]]; try lia; cbn [Nat.eqb].
    + exists M. split; auto. intros b is B L. destruct is; cbn in L; try lia. cbn [full_row]. rewrite R0. reflexivity.
    + exists m1. split; auto.
    + exists m2. split; auto.
    + exists m3. split; auto. intros b is B L. destruct (le_lt_dec (length is) 2) as [L1|L1].
      * rewrite C0; [apply P2; auto|].
        destruct (row_of_ok dim is H B ltac:(lia)) as (_ & R & _).
        assert (rows_up_to dim (length is) <= ndiffSizS dim 2)%nat; [|lia].
        destruct (length is) as [|[|[|]]]; try lia; dims H; vm_compute; lia.
      * destruct is as [|i [|j [|l [|]]]]; cbn [length] in *; try lia. inversion B as [|? ? Q0 Q1]; subst.
        inversion Q1 as [|? ? Q2 Q3]; subst. inversion Q3; subst.
        cbn [full_row]. unfold m3. rewrite copy_in by (apply row3_large; auto).
        apply full3_first; auto; [apply row3_large; auto|]. intros r' Hr'. rewrite B2 by lia. apply A2. lia.
  - destruct k as [|[|k]]; try lia; cbn [Nat.eqb].
    + exists M. split; auto. intros b is B L. destruct is; cbn in L; try lia. cbn [full_row]. rewrite R0. reflexivity.
    + exists m1. split; auto.
Qed.
