(** The functional of a face (C56). *)
From Coq Require Import List ZArith Reals Bool Lia Lra.
From Verif Require Import Base.Prelude Base.PreludeFacts Geom.PeriodicModel Geom.PeriodicSpec Geom.PeriodicProofs
  Geom.BaseFnModel Geom.BaseFnSpec Geom.BaseFnProofs Geom.DiffTensorModel Geom.DiffTensorSpec Geom.DiffTensorChain Geom.DiffTensorProofs
  Geom.DiffTensorLinProofs Geom.DiffTensorNormProofs Geom.DiffTensorMapProofs
  CFV.RecModel CFV.RecSpec CFV.RecPolyProofs CFV.RecBaseProofs.
Import ListNotations.
Local Open Scope R_scope.

Lemma first_rows : forall dim rank, dim23 dim -> (rank <= 3)%nat ->
  match rank with O => 0%nat | S k => ndiffSizS dim k end = match rank with O => 0%nat | S k => rows_up_to dim k end.
Proof. intros dim rank H L. destruct rank as [|[|[|[|k]]]]; try lia; destruct H as [-> | ->]; reflexivity. Qed.

Lemma norm_order : forall st k rank DI DJ i j va vb, supported st -> (rank <= k)%nat -> (k <= 3)%nat ->
  holds (dim st) 0 (rows_up_to (dim st) k) DI i va -> holds (dim st) 0 (rows_up_to (dim st) k) DJ j vb ->
  NormOrder st rank DI DJ i j = sum_over (sequences (axes (dim st)) rank) (fun ds => va (multi ds) * vb (multi ds)).
Proof.
  intros st k rank DI DJ i j va vb [H _] Hr Hk HI HJ. unfold NormOrder. rewrite first_rows by (auto; lia).
  assert (R : forall r m, nth_error (operators (dim st)) r = Some (multi_Z m) -> order_of m = rank ->
     (r < rows_up_to (dim st) k)%nat /\ (match rank with O => 0%nat | S q => rows_up_to (dim st) q end <= r)%nat).
  { intros r [[a b] c] N O. cbn in O.
    assert (R20 : (r < 20)%nat).
    { assert (L : (r < length (operators (dim st)))%nat) by (apply nth_error_Some; congruence).
      destruct H as [E|E]; rewrite E in L; cbn in L; lia. }
    destruct H as [E|E]; rewrite E in *.
    - do 20 (destruct r as [|r]; [try discriminate N; cbn -[Z.of_nat] in N; injection N as N1 N2 N3;
        destruct rank as [|[|[|[|rank]]]]; try lia; destruct k as [|[|[|[|k]]]]; try lia; cbn; lia|]). lia.
    - do 20 (destruct r as [|r]; [try discriminate N; cbn -[Z.of_nat] in N; injection N as N1 N2 N3;
        destruct rank as [|[|[|[|rank]]]]; try lia; destruct k as [|[|[|[|k]]]]; try lia; cbn; lia|]). lia. }
  rewrite (norm_contraction (dim st) rank _ _ va vb); auto; try lia.
  - intros r m N O. destruct (R r m N O) as [R1 R2]. rewrite <- (HI r m) by (auto; lia). f_equal. lia.
  - intros r m N O. destruct (R r m N O) as [R1 R2]. rewrite <- (HJ r m) by (auto; lia). f_equal. lia.
Qed.

Lemma dir_ext : forall dim A ds va vb, (forall m, va m = vb m) -> directional dim A va ds = directional dim A vb ds.
Proof.
  intros dim A ds. induction ds as [|d ds IH]; intros va vb H; cbn [directional]; auto.
  apply sum_over_ext. intros m _. f_equal. apply IH. auto.
Qed.
Lemma dir_iso : forall dim L ds va, dim23 dim -> Forall (fun a => In a (axes dim)) ds ->
  directional dim (fun i j => if Nat.eqb i j then L else 0) va ds = L ^ length ds * va (multi ds).
Proof.
  intros dim L ds. induction ds as [|d ds IH]; intros va H F; [cbn [directional length pow]; change (multi []) with (0, 0, 0)%nat; ring|].
  inversion F as [|? ? Hd F']; subst. cbn [directional length pow].
  replace (L * L ^ length ds * va (multi (d :: ds))) with (L * (L ^ length ds * va (next d (multi ds)))) by (rewrite multi_next; ring).
  rewrite <- (IH (fun i => va (next d i)) H F').
  destruct H as [-> | ->]; cbn [axes Nat.eqb] in *; unfold sum_over; cbn [fold_right]; destruct d; cbn [number_of Nat.eqb]; try ring.
  cbn in Hd. intuition discriminate.
Qed.

Lemma sum_axes : forall dim f, dim23 dim -> sum_over (axes dim) f = sumn dim (fun i => f (axis_at i)).
Proof. intros dim f [-> | ->]; cbv -[Rplus IZR]; ring. Qed.
Lemma dir_rows : forall dim k M A out b va, dim23 dim -> (k <= 3)%nat ->
  holds dim 0 (rows_up_to dim k) M b va ->
  (forall b is, below dim is -> (length is <= k)%nat -> out (row_of dim is) b = full_row dim M (grad_rows dim A) b is) ->
  forall ds, Forall (fun a => In a (axes dim)) ds -> (length ds <= k)%nat ->
  out (row_ds dim ds) b = directional dim A va ds.
Proof.
  intros dim k M A out b va H Hk HM HO ds F L. pose proof (below_axes dim ds H F) as B. unfold row_ds.
  rewrite HO by (auto; rewrite map_length; auto). rewrite full_row_lin by (auto; rewrite map_length; lia).
  assert (V : forall is, below dim is -> (length is <= k)%nat -> M (row_of dim is) b = va (mi is)).
  { intros is Bi Li. destruct (row_of_ok dim is H Bi ltac:(lia)) as (E & _ & _). apply (HM _ _) in E; auto. split; [lia|].
    destruct (row_of_ok dim is H Bi ltac:(lia)) as (_ & R & _).
    pose proof (rows_mono dim (length is) k H Li Hk). lia. }
  assert (N : forall a, In a (axes dim) -> (no_of a < dim)%nat) by (intros a Ha; destruct H as [-> | ->]; cbn in Ha; destruct a; cbn; intuition (try discriminate; lia)).
  assert (X : forall i, (i < dim)%nat -> number_of (axis_at i) = i) by (intros i Hi; destruct H as [-> | ->]; destruct i as [|[|[|i]]]; cbn; lia).
  destruct ds as [|d [|e [|f [|g ds]]]]; cbn [length] in L; try lia; cbn [map directional].
  - change (0, 0, 0)%nat with (mi []). rewrite <- (V []) by (try constructor; cbn; lia). assert (R0 : row_of dim [] = 0%nat) by (destruct H as [-> | ->]; reflexivity). rewrite R0. reflexivity.
  - rewrite sum_axes by auto. apply sumn_ext. intros m Hm. rewrite X by auto. change no_of with number_of. f_equal.
    rewrite V by (try (repeat constructor; auto); cbn; lia). reflexivity.
  - rewrite sum_axes by auto. unfold rot2. apply sumn_ext. intros m Hm. rewrite sum_axes by auto. rewrite X by auto.
    rewrite <- sumn_scal. apply sumn_ext. intros n Hn. rewrite X by auto. change no_of with number_of.
    rewrite V by (try (repeat constructor; auto); cbn; lia). unfold mi. cbn [map fold_right]. change zero3 with (0, 0, 0)%nat. ring.
  - rewrite sum_axes by auto. unfold rot3. apply sumn_ext. intros m Hm. rewrite sum_axes by auto. rewrite X by auto.
    rewrite <- sumn_scal. apply sumn_ext. intros n Hn. rewrite X by auto. rewrite sum_axes by auto.
    rewrite <- !sumn_scal. apply sumn_ext. intros p Hp. rewrite X by auto. change no_of with number_of.
    rewrite V by (try (repeat constructor; auto); cbn; lia). unfold mi. cbn [map fold_right]. change zero3 with (0, 0, 0)%nat. ring.
Qed.

(** *** the functional *)
Lemma face_scale : forall st f, known_scale st -> exists L,
  match scaleType st with
  | MeanAACBB => Ok (sqrt (sumn (dim st) (fun i => alignedScales f i * alignedScales f i) / INR (dim st)))
  | BaryDiff => Ok (sqrt (sumn (dim st) (fun i => alignedScales f i * alignedScales f i)))
  | UnknownScale => Abort
  end = Ok L /\ L * scaleMultiplier st = face_length st f.
Proof.
  intros st f H. unfold known_scale in H. unfold face_length.
  assert (E : sumn (dim st) (fun i => alignedScales f i ^ 2) = sumn (dim st) (fun i => alignedScales f i * alignedScales f i)) by (apply sumn_ext; intros; ring).
  rewrite E. destruct (scaleType st); [congruence| |]; eexists; split; reflexivity.
Qed.

Lemma functional : forall st f k DI DJ, supported st -> known_scale st -> (k <= 3)%nat -> exists F,
  FFaceFunctional st f (rows_up_to (dim st) k) DI DJ = Ok F /\
  forall i j va vb, holds (dim st) 0 (rows_up_to (dim st) k) DI i va -> holds (dim st) 0 (rows_up_to (dim st) k) DJ j vb ->
    F i j = product st f k va vb.
Proof.
  intros st f k DI DJ HS HK Hk. pose proof (proj1 HS) as H. unfold FFaceFunctional.
  destruct (face_scale st f HK) as [L [EL VL]]. rewrite EL. cbn [bind]. rewrite VL. rewrite order_of_rows by auto.
  unfold product, directions. destruct (useAnisotropicFunctional st) eqn:A; cbn [negb].
  - destruct (lin_map_rows (dim st) k DI (coordTrans f) H Hk) as [oI [EI VI]].
    destruct (lin_map_rows (dim st) k DJ (coordTrans f) H Hk) as [oJ [EJ VJ]].
    rewrite EI, EJ. cbn [bind]. eexists. split; [reflexivity|]. intros i j va vb HI HJ. cbn beta.
    apply sumn_ext. intros rank Hr. unfold NormOrder. rewrite norm_rows by (auto; lia).
    replace (weight f rank ^ 2) with (weight f rank * weight f rank) by ring. rewrite Rmult_comm. f_equal.
    apply sum_over_ext. intros ds Hds. destruct (sequences_axes _ _ _ Hds) as [Ln F].
    assert (FR : match rank with O => 0%nat | S q => ndiffSizS (dim st) q end = first_of (dim st) rank).
    { destruct rank as [|[|[|[|q]]]]; try lia; destruct H as [-> | ->]; reflexivity. }
    assert (LE : (first_of (dim st) rank <= row_ds (dim st) ds)%nat).
    { pose proof (below_axes (dim st) ds H F) as B. unfold row_ds.
      destruct (row_of_ok (dim st) (map no_of ds) H B ltac:(rewrite map_length; lia)) as (_ & _ & R).
      rewrite map_length, Ln in R. destruct rank as [|[|[|[|q]]]]; try lia; destruct H as [E|E]; rewrite E in *; cbn in R |- *; lia. }
    rewrite FR. replace (first_of (dim st) rank + (row_ds (dim st) ds - first_of (dim st) rank))%nat with (row_ds (dim st) ds) by lia.
    rewrite (dir_rows (dim st) k DI (coordTrans f) oI i va) by (auto; lia).
    rewrite (dir_rows (dim st) k DJ (coordTrans f) oJ j vb) by (auto; lia). reflexivity.
  - eexists. split; [reflexivity|]. intros i j va vb HI HJ. cbn beta.
    apply sumn_ext. intros rank Hr. rewrite (norm_order st k rank DI DJ i j va vb) by (auto; lia).
    replace (face_length st f ^ (rank * 2)) with (face_length st f ^ rank * face_length st f ^ rank) by (rewrite Nat.mul_comm; cbn [Nat.mul]; rewrite Nat.add_0_r, pow_add; ring).
    rewrite (sum_over_ext _ (sequences (axes (dim st)) rank) (fun ds => directional (dim st) _ va ds * directional (dim st) _ vb ds)
       (fun ds => (face_length st f ^ rank * face_length st f ^ rank) * (va (multi ds) * vb (multi ds)))).
    + rewrite sum_over_scal. ring.
    + intros ds Hds. destruct (sequences_axes _ _ _ Hds) as [Ln F]. rewrite !dir_iso by auto. rewrite Ln. ring.
Qed.

(** *** products *)
Lemma sum_seq_map : forall A (l : list A) f g, (forall x, f x = g x) -> sum_over l f = sum_over l g.
Proof. intros. apply sum_over_ext. auto. Qed.
Lemma dir_plus : forall dim A ds va vb, directional dim A (fun m => va m + vb m) ds = directional dim A va ds + directional dim A vb ds.
Proof.
  intros dim A ds. induction ds as [|d ds IH]; intros va vb; cbn [directional]; auto.
  rewrite <- sum_over_plus. apply sum_seq_map. intros m. rewrite (IH (fun i => va (next m i)) (fun i => vb (next m i))). ring.
Qed.
Lemma dir_scal : forall dim A ds c va, directional dim A (fun m => c * va m) ds = c * directional dim A va ds.
Proof.
  intros dim A ds. induction ds as [|d ds IH]; intros c va; cbn [directional]; auto.
  rewrite <- sum_over_scal. apply sum_seq_map. intros m. rewrite (IH c (fun i => va (next m i))). ring.
Qed.
(** Only the values at orders up to the number of directions matter. *)
Lemma dir_zero : forall dim A ds va n, (forall m, order_of m = (n + length ds)%nat -> va m = 0) ->
  forall i, order_of i = n -> directional dim A (fun j => va (addm i j)) ds = 0.
Proof.
  intros dim A ds. induction ds as [|d ds IH]; intros va n H i Hi; cbn [directional].
  - apply H. destruct i as [[a b] c]. cbn in *. lia.
  - apply sum_over_zero. intros m _.
    rewrite (dir_ext dim A ds (fun j => va (addm i (next m j))) (fun j => va (addm (next m i) j))).
    + rewrite (IH va (S n)); [ring| |]. * intros q Hq. apply H. cbn [length]. lia. * destruct i as [[a b] c]; destruct m; cbn in *; lia.
    + intros [[x y] z]. f_equal. destruct i as [[a b] c]; destruct m; cbn; repeat f_equal; lia.
Qed.
Lemma dir_vanish : forall dim A ds va, (forall m, order_of m = length ds -> va m = 0) -> directional dim A va ds = 0.
Proof.
  intros dim A ds va H. rewrite <- (dir_zero dim A ds va 0 H (0, 0, 0)%nat eq_refl). apply dir_ext. intros [[a b] c]. reflexivity.
Qed.
Lemma dir_agree : forall dim A ds va vb, (forall m, order_of m = length ds -> va m = vb m) -> directional dim A va ds = directional dim A vb ds.
Proof.
  intros dim A ds va vb H. assert (D : directional dim A (fun m => va m + -1 * vb m) ds = 0).
  { apply dir_vanish. intros m Hm. rewrite H by auto. ring. }
  rewrite (dir_plus dim A ds va (fun m => -1 * vb m)), dir_scal in D. lra.
Qed.

Section Product.
Variables (st : settings) (f : face) (k : nat).

Lemma product_sym : forall va vb, product st f k va vb = product st f k vb va.
Proof.
  intros. unfold product. apply sumn_ext. intros r _. f_equal. apply sum_seq_map. intros. ring.
Qed.
Lemma product_agree_r : forall va vb vb', (forall m, (order_of m <= k)%nat -> vb m = vb' m) -> product st f k va vb = product st f k va vb'.
Proof.
  intros va vb vb' H. unfold product. apply sumn_ext. intros r Hr. f_equal. apply sum_over_ext. intros ds Hds.
  destruct (sequences_axes _ _ _ Hds) as [L _]. f_equal. apply dir_agree. intros. apply H. lia.
Qed.
Lemma product_plus_r : forall va vb vc, product st f k va (fun m => vb m + vc m) = product st f k va vb + product st f k va vc.
Proof.
  intros. unfold product. rewrite <- sumn_plus. apply sumn_ext. intros r _.
  rewrite <- Rmult_plus_distr_l. f_equal. rewrite <- sum_over_plus. apply sum_seq_map. intros ds. rewrite dir_plus. ring.
Qed.
Lemma product_scal_r : forall va vb c, product st f k va (fun m => c * vb m) = c * product st f k va vb.
Proof.
  intros. unfold product. rewrite <- sumn_scal. apply sumn_ext. intros r _.
  rewrite (sum_seq_map _ _ (fun ds => directional _ _ va ds * directional _ _ (fun m => c * vb m) ds)
     (fun ds => c * (directional (dim st) (directions st f) va ds * directional (dim st) (directions st f) vb ds))).
  - rewrite sum_over_scal. ring.
  - intros ds. rewrite dir_scal. ring.
Qed.
Lemma product_sumn_r : forall n va (vb : nat -> nat * nat * nat -> R) c,
  product st f k va (fun m => sumn n (fun l => c l * vb l m)) = sumn n (fun l => c l * product st f k va (vb l)).
Proof.
  intros n va vb c. induction n as [|n IH]; cbn [sumn].
  - rewrite (product_agree_r va _ (fun m => 0 * 0)); [|intros; ring]. rewrite (product_scal_r va (fun _ => 0) 0). ring.
  - rewrite (product_plus_r va (fun m => sumn n (fun l => c l * vb l m)) (fun m => c n * vb n m)).
    rewrite IH, product_scal_r. reflexivity.
Qed.
Lemma product_nonneg : forall va, 0 <= product st f k va va.
Proof.
  intros va. unfold product.
  assert (S : forall n g, (forall r, 0 <= g r) -> 0 <= sumn n g) by (induction n; intros g Hg; cbn [sumn]; [lra|]; specialize (IHn g Hg); specialize (Hg n); lra).
  assert (O : forall A (l : list A) g, (forall x, 0 <= g x) -> 0 <= sum_over l g).
  { intros A l g Hg. unfold sum_over. induction l as [|x l IH]; cbn [fold_right]; [lra|]. specialize (Hg x). lra. }
  apply S. intros r. apply Rmult_le_pos; [nra|]. apply O. intros ds. nra.
Qed.
End Product.

Lemma product_0 : forall st f va vb, product st f 0 va vb = weight f 0%nat ^ 2 * (va (0, 0, 0)%nat * vb (0, 0, 0)%nat).
Proof. intros. unfold product. cbn [sumn]. unfold sum_over. cbn [sequences fold_right directional]. ring. Qed.
Lemma sumn_first : forall n g, (forall r, (1 <= r <= n)%nat -> g r = 0) -> sumn (S n) g = g 0%nat.
Proof. induction n as [|n IH]; intros g H; [cbn; ring|]. change (sumn (S (S n)) g) with (sumn (S n) g + g (S n)). rewrite IH by (intros; apply H; lia). rewrite (H (S n)) by lia. ring. Qed.
(** Without derivatives on one side, or with weights for values only. *)
Lemma product_value : forall st f k va vb, (forall m, (1 <= order_of m)%nat -> vb m = 0) -> product st f k va vb = product st f 0 va vb.
Proof.
  intros st f k va vb H. unfold product. rewrite sumn_first.
  - cbn [sumn]. ring.
  - intros r Hr. rewrite sum_over_zero; [ring|]. intros ds Hds. destruct (sequences_axes _ _ _ Hds) as [L _].
    rewrite (dir_vanish _ _ ds vb); [ring|]. intros m Hm. apply H. lia.
Qed.
Lemma product_weights : forall st f k va vb, (forall r, (1 <= r <= k)%nat -> weight f r = 0) -> product st f k va vb = product st f 0 va vb.
Proof.
  intros st f k va vb H. unfold product. rewrite sumn_first.
  - cbn [sumn]. ring.
  - intros r Hr. rewrite H by auto. ring.
Qed.
