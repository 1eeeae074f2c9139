(** Derivatives across periods and of inverse maps (C55). *)
From Coq Require Import List ZArith Reals Bool Lia Lra.
From Verif Require Import Base.Prelude Base.PreludeFacts Geom.BoundaryModel Geom.PeriodicModel Geom.PeriodicSpec Geom.PeriodicProofs
  Geom.BaseFnModel Geom.BaseFnSpec Geom.BaseFnProofs Geom.BaseFnTableProofs
  Geom.DiffTensorModel Geom.DiffTensorSpec Geom.DiffTensorAnalysis Geom.DiffTensorChain Geom.DiffTensorProofs
  Geom.DiffTensorLinProofs Geom.DiffTensorNormProofs Geom.DiffTensorMapProofs.
Import ListNotations.
Local Open Scope R_scope.

Lemma partial_in_same : forall D ds f f' g, (forall X Y Z, f X Y Z = f' X Y Z) -> partial_in D ds f g ->
  exists g', partial_in D ds f' g' /\ forall X Y Z, g' X Y Z = g X Y Z.
Proof.
  intros D ds f f' g H P. destruct P as [f|a ds f f1 g A P].
  - exists f'. split; [apply partial_in_none|auto].
  - exists g. split; auto. apply (partial_in_next D a ds f' f1); auto. eapply along_same; eauto.
Qed.

Lemma periodic_derivatives : forall dim k p id xi D E (F : nat -> fn) (dF : nat -> nat * nat * nat -> fn) M X Y Z,
  dim23 dim -> (k <= 3)%nat -> well_formed 3 p -> (dim = 2%nat -> planar p) -> FaceIDIsPeriodic id = true ->
  leads_back p id xi -> maps D E xi -> (forall b, smooth_in E k (F b) (dF b)) ->
  (forall b, holds dim 0 (rows_up_to dim k) M b (fun m => compose (dF b m) xi X Y Z)) ->
  exists out, TransDiValueInplace dim (rows_up_to dim k) p M id = Ok out /\
  forall b, holds_derivatives D dim (rows_up_to dim k) out b (compose (F b) xi) X Y Z.
Proof.
  intros dim k p id xi D E F dF M X Y Z H Hk W HP Hid HL HM HF HH.
  destruct (slots 3 p id W Hid) as (i & Q & o & t & E1 & EQ & Eo & Et & O).
  assert (IQ : forall (T : Type) (l : list T) z x, vat l z = Ok x -> In x l).
  { intros T l z x0 Hz. unfold vat in Hz. destruct (z <? 0)%Z; [discriminate|].
    destruct (nth_error l (Z.to_nat z)) eqn:N; [|discriminate]. injection Hz as <-. eapply nth_error_In; eauto. }
  set (c := fun m => o m - sumn 3 (fun k => Q k m * (t k + o k))).
  assert (Exi : forall a X Y Z, xi a X Y Z = affine dim Q c a X Y Z).
  { intros a X0 Y0 Z0. destruct (HL X0 Y0 Z0) as [v [Ev (V0 & V1 & V2)]].
    unfold TransCoordBack in Ev. rewrite E1 in Ev. cbn [bind] in Ev. rewrite EQ, Eo, Et in Ev. cbn [bind] in Ev. injection Ev as <-.
    unfold vadd, mvec, vsub, tr, point in V0, V1, V2. cbn [sumn axis_at coordinate] in V0, V1, V2.
    dims H.
    - specialize (HP eq_refl). destruct HP as [PQ Pt].
      pose proof (PQ Q (IQ _ _ _ _ EQ)) as PQ'. pose proof (Pt t (IQ _ _ _ _ Et)) as Pt'.
      pose proof (PQ' 0%nat ltac:(lia)) as [q02 q20]. pose proof (PQ' 1%nat ltac:(lia)) as [q12 q21]. pose proof (PQ' 2%nat ltac:(lia)) as [q22 _].
      unfold kron in *. cbn [Nat.eqb] in *.
      destruct a; [rewrite V0|rewrite V1|rewrite V2]; unfold affine, c; cbn [Nat.eqb sumn axis_at coordinate];
        rewrite ?q02, ?q12, ?q22, ?q20, ?q21, ?Pt'; ring.
    - destruct a; [rewrite V0|rewrite V1|rewrite V2]; unfold affine, c; cbn [Nat.eqb sumn axis_at coordinate]; ring. }
  assert (Ec : forall f X Y Z, compose f (affine dim Q c) X Y Z = compose f xi X Y Z).
  { intros f0 X0 Y0 Z0. unfold compose. rewrite <- !Exi. reflexivity. }
  destruct (linear_map dim k Q c D E F dF M X Y Z H Hk) as [out [EO V]]; auto.
  - intros X0 Y0 Z0 HD. rewrite <- !Exi. apply HM; auto.
  - intros b r m Hr N. rewrite Ec. apply HH; auto.
  - exists out. unfold TransDiValueInplace. rewrite E1. cbn [bind]. rewrite EQ. cbn [bind]. split; auto.
    intros b r ds Hr N. destruct (V b r ds Hr N) as [g [P Eg]].
    destruct (partial_in_same D ds _ (compose (F b) xi) g (fun X Y Z => Ec (F b) X Y Z) P) as [g' [P' Eg']].
    exists g'. split; auto. rewrite Eg'. auto.
Qed.

Lemma orthogonal_block : forall Q, orthogonal 3 Q -> (forall i, (i < 3)%nat -> Q i 2%nat = kron i 2 /\ Q 2%nat i = kron 2 i) -> orthogonal 2 Q.
Proof.
  intros Q O P i j Hi Hj. destruct (O i j ltac:(lia) ltac:(lia)) as [O1 O2]. cbn [sumn] in *.
  pose proof (P i ltac:(lia)) as [pi pi']. pose proof (P j ltac:(lia)) as [pj pj'].
  rewrite pi, pj in O2. rewrite pi', pj' in O1. unfold kron in *.
  destruct i as [|[|i]]; try lia; destruct j as [|[|j]]; try lia; cbn [Nat.eqb] in *; lra.
Qed.

Lemma periodic_roundtrip : forall dim k p id M, dim23 dim -> (k <= 3)%nat -> well_formed 3 p -> (dim = 2%nat -> planar p) ->
  FaceIDIsPeriodic id = true ->
  exists out, TransDiValueInplace dim (rows_up_to dim k) p M id = Ok out /\
  exists back, TransDiValueBackInplace dim (rows_up_to dim k) p out id = Ok back /\
  forall r b, (r < rows_up_to dim k)%nat -> back r b = M r b.
Proof.
  intros dim k p id M H Hk W HP Hid.
  destruct (slots 3 p id W Hid) as (i & Q & o & t & E1 & EQ & Eo & Et & O).
  assert (O' : orthogonal dim Q).
  { dims H; auto. apply orthogonal_block; auto. apply (proj1 (HP eq_refl)).
    unfold vat in EQ. destruct (i <? 0)%Z; [discriminate|]. destruct (nth_error (rotation p) (Z.to_nat i)) eqn:N; [|discriminate].
    injection EQ as <-. eapply nth_error_In; eauto. }
  destruct (lin_back dim k M Q H Hk O') as [out [L1 [back [L2 V]]]].
  unfold TransDiValueInplace, TransDiValueBackInplace. rewrite E1. cbn [bind]. rewrite EQ. cbn [bind].
  exists out. split; auto. exists back. auto.
Qed.

Lemma periodic_refuses : forall dim rows p M id, FaceIDIsPeriodic id = false ->
  TransDiValueInplace dim rows p M id = Abort /\ TransDiValueBackInplace dim rows p M id = Abort.
Proof.
  intros. unfold TransDiValueInplace, TransDiValueBackInplace. rewrite period_index_fail by auto. split; reflexivity.
Qed.

(** *** the derivatives of a coordinate *)
Definition dcoord (a : axis) : nat * nat * nat -> fn :=
  match a with AX => daff 0 1 0 0 | AY => daff 0 0 1 0 | AZ => daff 0 0 0 1 end.
Lemma coord_smooth : forall D k a, smooth_in D k (coordinate a) (dcoord a).
Proof.
  intros D k a. destruct a; (eapply smooth_same; [|apply aff_smooth]); intros X Y Z; unfold aff, coordinate; ring.
Qed.

Definition add_all (ds : list axis) (m : nat * nat * nat) : nat * nat * nat := fold_left (fun m a => next a m) ds m.
Lemma smooth_partial : forall D k f d, smooth_in D k f d -> forall ds m, (order_of m + length ds <= k)%nat ->
  partial_in D ds (d m) (d (add_all ds m)).
Proof.
  intros D k f d [_ S] ds. induction ds as [|a ds IH]; intros m L; cbn [add_all fold_left length] in *.
  - apply partial_in_none.
  - eapply partial_in_next; [apply (differential_along D _ _ (S m ltac:(lia)))|]. apply IH. rewrite order_next. lia.
Qed.
Lemma add_all_next : forall ds a m, add_all ds (next a m) = next a (add_all ds m).
Proof. induction ds as [|b ds IH]; intros a m; [reflexivity|]. unfold add_all in *. cbn [fold_left]. rewrite next_comm. apply IH. Qed.
Lemma add_all_mi : forall is, add_all (map axis_at is) zero3 = mi is.
Proof.
  induction is as [|i is IH]; [reflexivity|]. cbn [map]. change (add_all (axis_at i :: map axis_at is) zero3) with (add_all (map axis_at is) (next (axis_at i) zero3)).
  rewrite add_all_next, IH. reflexivity.
Qed.

(** *** the inverse map *)
Section Inverse.
Variables (dim : nat) (A inv : mat).
Hypothesis Hdim : dim23 dim.
Hypothesis Hinv : inverse_of A inv.
Hypothesis Hblock : dim = 2%nat -> forall m, (m < 2)%nat -> A m 2%nat = 0.

Lemma solve : forall u w, (forall j, (j < dim)%nat -> sumn dim (fun m => u m * A m j) = w j) ->
  (forall j, (dim <= j < 3)%nat -> w j = 0) ->
  forall l, (l < dim)%nat -> sumn 3 (fun j => w j * inv j l) = u l.
Proof.
  intros u w Hw W0 l Hl.
  assert (Hw' : forall j, (j < 3)%nat -> w j = sumn dim (fun m => u m * A m j)).
  { intros j Hj. destruct (le_lt_dec dim j) as [L|L]; [|symmetry; auto]. rewrite W0 by lia.
    destruct Hdim as [E| E]; [|lia]. assert (j = 2%nat) by lia. subst. rewrite (sumn_ext 2 _ (fun _ => 0)).
    - rewrite sumn_zero. reflexivity.
    - intros m Hm. rewrite Hblock by auto. ring. }
  transitivity (sumn 3 (fun j => sumn dim (fun m => u m * (A m j * inv j l)))).
  { apply sumn_ext. intros j Hj. rewrite Hw' by auto. rewrite Rmult_comm, <- sumn_scal. apply sumn_ext. intros. ring. }
  rewrite sumn_swap.
  transitivity (sumn dim (fun m => kron l m * u m)).
  - apply sumn_ext. intros m Hm. rewrite sumn_scal.
    assert (M3 : (m < 3)%nat) by (destruct Hdim; lia). assert (L3 : (l < 3)%nat) by (destruct Hdim; lia).
    rewrite (proj1 (Hinv m l M3 L3)). unfold kron. rewrite Nat.eqb_sym. ring.
  - apply sumn_kron; auto.
Qed.
End Inverse.

Lemma dcoord_first : forall i j X Y Z, (i < 3)%nat -> (j < 3)%nat -> dcoord (axis_at j) (mi [i]) X Y Z = kron i j.
Proof. intros i j X Y Z Hi Hj. destruct i as [|[|[|i]]]; try lia; destruct j as [|[|[|j]]]; try lia; reflexivity. Qed.
Lemma dcoord_high : forall a is X Y Z, (2 <= length is)%nat -> dcoord a (mi is) X Y Z = 0.
Proof. intros a is X Y Z L. destruct a; apply daff_high; rewrite order_mi; auto. Qed.

Lemma inverse_map : forall inverse dim k D E (xi x : axis -> fn) (dxi dx : axis -> nat * nat * nat -> fn) DxDxi old X Y Z,
  dim23 dim -> (k <= 3)%nat -> open_region D -> D X Y Z -> coordinates dim xi -> maps D E xi ->
  (forall a, smooth_in D k (xi a) (dxi a)) -> (forall a, smooth_in E k (x a) (dx a)) ->
  (forall j X Y Z, (j < dim)%nat -> D X Y Z -> compose (x (axis_at j)) xi X Y Z = coordinate (axis_at j) X Y Z) ->
  (forall j, (j < dim)%nat -> holds dim 1 (rows_up_to dim k) DxDxi j (fun a => compose (dx (axis_at j) a) xi X Y Z)) ->
  inverse_of (first_derivatives dim DxDxi) (inverse (first_derivatives dim DxDxi)) ->
  exists out, DxDxi2DxiDx inverse dim k DxDxi old = Ok out /\
    (forall l, (l < dim)%nat -> holds dim 1 (rows_up_to dim k) out l (fun a => dxi (axis_at l) a X Y Z)) /\
    (forall l, out 0%nat l = old 0%nat l).
Proof.
  intros inverse dim k D E xi x0 dxi dx DxDxi old X Y Z H Hk HO HD HC HM Hxi Hx Hid HX Hinv.
  set (A := first_derivatives dim DxDxi) in *. set (inv := inverse A) in *.
  assert (Hblock : dim = 2%nat -> forall m, (m < 2)%nat -> A m 2%nat = 0).
  { intros -> m Hm. unfold A, first_derivatives. cbn [Nat.eqb]. destruct m as [|[|m]]; try lia; reflexivity. }
  (* the derivatives of the composition *)
  assert (FD : forall is j, below dim is -> (length is <= k)%nat -> (j < dim)%nat ->
             formula dim xi (dx (axis_at j)) dxi is X Y Z = dcoord (axis_at j) (mi is) X Y Z).
  { intros is j B L Hj.
    destruct (formula_partial D E dim k (x0 (axis_at j)) xi (dx (axis_at j)) dxi HC HM (Hx _) Hxi is L ltac:(lia) B) as [g [P V]].
    rewrite <- V. rewrite <- add_all_mi.
    refine (partial_unique D (map axis_at is) _ (dcoord (axis_at j) zero3) g _ HO _ P _ X Y Z HD).
    - intros X0 Y0 Z0 HD0. rewrite Hid by auto. symmetry. apply (coord_smooth D k (axis_at j)).
    - apply (smooth_partial D k _ _ (coord_smooth D k (axis_at j))). rewrite map_length. cbn. auto. }
  assert (DX : forall is j, below dim is -> (1 <= length is <= k)%nat -> (j < dim)%nat ->
             DxDxi (row_of dim is) j = f xi (dx (axis_at j)) is X Y Z).
  { intros is j B L Hj. destruct (row_of_ok dim is H B ltac:(lia)) as (R & L1 & L2).
    assert (L0 : (1 <= row_of dim is)%nat).
    { destruct (length is) as [|[|[|[|]]]] eqn:EL; try lia; dims H; cbn in L2; lia. }
    exact (HX j Hj (row_of dim is) (mi is) (conj L0 (Nat.lt_le_trans _ _ _ L1 (rows_mono _ _ _ H (proj2 L) Hk))) R). }
  assert (AX : forall m j, (1 <= k)%nat -> (m < dim)%nat -> (j < dim)%nat -> A m j = f xi (dx (axis_at j)) [m] X Y Z).
  { intros m j K1 Hm Hj. rewrite <- DX by (try (repeat constructor; auto); cbn; lia). rewrite row1 by auto.
    unfold A, first_derivatives. dims H; cbn [Nat.eqb].
    - destruct (Nat.ltb_spec m 2); [|lia]. destruct (Nat.ltb_spec j 2); [|lia]. reflexivity.
    - reflexivity. }
  pose proof (solve dim A inv H Hinv Hblock) as SV.
  pose proof (siz1 dim H) as Z1. pose proof (siz2 dim H) as Z2.
  set (n1 := if Nat.eqb dim 2 then 2%nat else 3%nat).
  assert (N1 : n1 = dim) by (dims H; reflexivity).
  set (m1 := set_rows 1 n1 inv old).
  set (m2 := copy_rows (ndiffSizS dim 1) (ndiffSizS dim 2) (mmul 3 (rhs2 dim DxDxi m1) inv) m1).
  set (m3 := copy_rows (ndiffSizS dim 2) (ndiffSizS dim 3) (mmul 3 (rhs3 dim DxDxi m2) inv) m2).
  assert (P1 : forall i l, (1 <= k)%nat -> (i < dim)%nat -> (l < dim)%nat -> m1 (row_of dim [i]) l = x dxi [i] l X Y Z).
  { intros i l K1 Hi Hl. unfold m1. rewrite set_in by (rewrite row1 by auto; lia). rewrite row1 by auto. replace (S i - 1)%nat with i by lia.
    rewrite <- (SV (fun m => x dxi [i] m X Y Z) (kron i)); auto.
    - symmetry. rewrite sumn_kron by (destruct H; lia). reflexivity.
    - intros j Hj. rewrite <- (dcoord_first i j X Y Z) by (destruct H; lia).
      rewrite <- (FD [i] j) by (try (repeat constructor; auto); cbn; lia). cbn [formula]. unfold S1.
      apply sumn_ext. intros m Hm. rewrite AX by auto. reflexivity.
    - intros j Hj. unfold kron. destruct (Nat.eqb_spec i j); [lia|reflexivity]. }
  assert (E2 : forall i j l, (2 <= k)%nat -> (i < dim)%nat -> (j < dim)%nat -> (l < dim)%nat ->
             mmul 3 (rhs2 dim DxDxi m1) inv (row_of dim [i; j]) l = x dxi [i; j] l X Y Z).
  { assert (Es : forall i j r l, (2 <= k)%nat -> (i < dim)%nat -> (j < dim)%nat -> (l < dim)%nat -> axes_of_row dim r = (i, j, 0%nat) ->
              mmul 3 (rhs2 dim DxDxi m1) inv r l = x dxi [i; j] l X Y Z).
    { intros i j r l K2 Hi Hj Hl Er. unfold mmul. apply (SV (fun m => x dxi [i; j] m X Y Z) (fun q => rhs2 dim DxDxi m1 r q)); auto.
      - intros q Hq. unfold rhs2. rewrite Er. destruct (Nat.ltb_spec q dim); [|lia].
        pose proof (FD [i; j] q ltac:(repeat constructor; auto) ltac:(cbn; lia) Hq) as F2.
        rewrite dcoord_high in F2 by (cbn; lia). cbn [formula] in F2. unfold S2 in F2.
        rewrite (sumn_ext dim _ (fun m => x dxi [i; j] m X Y Z * f xi (dx (axis_at q)) [m] X Y Z)) by (intros m Hm; rewrite AX by (auto; lia); reflexivity).
        rewrite (sumn_ext dim (fun m => sumn dim (fun n => DxDxi _ q * _ * _)) (fun m => sumn dim (fun n => x dxi [i] m X Y Z * x dxi [j] n X Y Z * f xi (dx (axis_at q)) [m; n] X Y Z))).
        + lra.
        + intros m Hm. apply sumn_ext. intros n Hn. rewrite !P1 by (auto; lia).
          rewrite DX by (try (repeat constructor; auto); cbn; lia). ring.
      - intros q Hq. unfold rhs2. rewrite Er. destruct (Nat.ltb_spec q dim); [lia|reflexivity]. }
    intros i j l K2 Hi Hj Hl. destruct (axes_row2 dim i j H Hi Hj) as [Er|Er]; [apply Es; auto|].
    rewrite (x_eq dxi [i; j] [j; i]) by apply mi_swap. apply Es; auto. }
  assert (Q1 : forall i l, (1 <= k)%nat -> (i < dim)%nat -> (l < dim)%nat -> m2 (row_of dim [i]) l = x dxi [i] l X Y Z).
  { intros i l K1 Hi Hl. unfold m2. rewrite copy_out by (rewrite row1 by auto; lia). apply P1; auto. }
  assert (Q2 : forall i j l, (2 <= k)%nat -> (i < dim)%nat -> (j < dim)%nat -> (l < dim)%nat -> m2 (row_of dim [i; j]) l = x dxi [i; j] l X Y Z).
  { intros i j l K2 Hi Hj Hl. unfold m2. rewrite copy_in by (apply row2_large; auto). apply E2; auto. }
  assert (E3 : forall i j p l, (3 <= k)%nat -> (i < dim)%nat -> (j < dim)%nat -> (p < dim)%nat -> (l < dim)%nat ->
             mmul 3 (rhs3 dim DxDxi m2) inv (row_of dim [i; j; p]) l = x dxi [i; j; p] l X Y Z).
  { assert (Es : forall i j p r l, (3 <= k)%nat -> (i < dim)%nat -> (j < dim)%nat -> (p < dim)%nat -> (l < dim)%nat -> axes_of_row dim r = (i, j, p) ->
              mmul 3 (rhs3 dim DxDxi m2) inv r l = x dxi [i; j; p] l X Y Z).
    { intros i j p r l K3 Hi Hj Hp Hl Er. unfold mmul. apply (SV (fun m => x dxi [i; j; p] m X Y Z) (fun q => rhs3 dim DxDxi m2 r q)); auto.
      - intros q Hq. unfold rhs3. rewrite Er. destruct (Nat.ltb_spec q dim); [|lia].
        pose proof (FD [i; j; p] q ltac:(repeat constructor; auto) ltac:(cbn; lia) Hq) as F3.
        rewrite dcoord_high in F3 by (cbn; lia). cbn [formula] in F3. unfold S3 in F3.
        rewrite (sumn_ext dim _ (fun m => x dxi [i; j; p] m X Y Z * f xi (dx (axis_at q)) [m] X Y Z)) by (intros m Hm; rewrite AX by (auto; lia); reflexivity).
        rewrite (sumn_ext dim (fun m => sumn dim (fun n => DxDxi _ q * _ * _ + _ + _))
          (fun m => sumn dim (fun n =>
            x dxi [i; j] m X Y Z * x dxi [p] n X Y Z * f xi (dx (axis_at q)) [m; n] X Y Z +
            x dxi [i; p] m X Y Z * x dxi [j] n X Y Z * f xi (dx (axis_at q)) [m; n] X Y Z +
            x dxi [j; p] m X Y Z * x dxi [i] n X Y Z * f xi (dx (axis_at q)) [m; n] X Y Z))).
        + rewrite (sumn_ext dim (fun m => sumn dim (fun n => sumn dim (fun p0 => DxDxi _ q * _ * _ * _)))
            (fun m => sumn dim (fun n => sumn dim (fun p0 =>
              x dxi [i] m X Y Z * x dxi [j] n X Y Z * x dxi [p] p0 X Y Z * f xi (dx (axis_at q)) [m; n; p0] X Y Z)))).
          * lra.
          * intros m Hm. apply sumn_ext. intros n Hn. apply sumn_ext. intros p0 Hp0. rewrite !Q1 by (auto; lia).
            rewrite DX by (try (repeat constructor; auto); cbn; lia). ring.
        + intros m Hm. apply sumn_ext. intros n Hn. rewrite !Q1, !Q2 by (auto; lia).
          rewrite DX by (try (repeat constructor; auto); cbn; lia). ring.
      - intros q Hq. unfold rhs3. rewrite Er. destruct (Nat.ltb_spec q dim); [lia|reflexivity]. }
    intros i j p l K3 Hi Hj Hp Hl.
    destruct (axes_row3 dim i j p H Hi Hj Hp) as [Er|[Er|[Er|[Er|[Er|Er]]]]].
    - apply Es; auto.
    - rewrite (x_eq dxi [i; j; p] [i; p; j]) by apply mi_swap2. apply Es; auto.
    - rewrite (x_eq dxi [i; j; p] [j; i; p]) by apply mi_swap. apply Es; auto.
    - rewrite (x_eq dxi [i; j; p] [j; p; i]) by (rewrite mi_swap; apply mi_swap2). apply Es; auto.
    - rewrite (x_eq dxi [i; j; p] [p; i; j]) by (rewrite mi_swap2; apply mi_swap). apply Es; auto.
    - rewrite (x_eq dxi [i; j; p] [p; j; i]) by (rewrite mi_swap, mi_swap2; apply mi_swap). apply Es; auto. }
  assert (QE : DxDxi2DxiDx inverse dim k DxDxi old = Ok (match k with 0 => old | 1 => m1 | 2 => m2 | _ => m3 end%nat)).
  { do 4 (destruct k as [|k]; [reflexivity|]). lia. }
  clear N1. eexists. split; [exact QE|]. split.
  - intros l Hl r a [Hr0 Hr] N.
    destruct (row_surj dim k r H Hk Hr) as (is & B & L & ->).
    destruct (row_of_ok dim is H B ltac:(lia)) as (R & _). rewrite R in N. injection N as N. apply multi_Z_inj in N. subst a.
    change (dxi (axis_at l) (mi is) X Y Z) with (x dxi is l X Y Z).
    destruct is as [|i [|j [|p [|q is]]]]; cbn [length] in L; try lia.
    + exfalso. assert (row_of dim [] = 0%nat) by (dims H; reflexivity). lia.
    + inversion B; subst. destruct k as [|[|[|k]]]; try lia; [apply P1|apply Q1|]; auto; try lia.
      unfold m3. rewrite copy_out by (rewrite row1 by auto; lia). apply Q1; auto; lia.
    + inversion B as [|? ? B0 B1]; subst. inversion B1; subst. destruct k as [|[|[|k]]]; try lia; [apply Q2; auto|].
      unfold m3. rewrite copy_out by (pose proof (row2_large dim i j H ltac:(auto) ltac:(auto)); lia). apply Q2; auto; lia.
    + inversion B as [|? ? B0 B1]; subst. inversion B1 as [|? ? B2 B3]; subst. inversion B3; subst.
      destruct k as [|[|[|k]]]; try lia. unfold m3. rewrite copy_in by (apply row3_large; auto). apply E3; auto; lia.
  - intros l. assert (O1 : m1 0%nat l = old 0%nat l) by (apply set_out; lia).
    assert (O2 : m2 0%nat l = old 0%nat l) by (unfold m2; rewrite copy_out by lia; exact O1).
    destruct k as [|[|[|k]]]; auto. unfold m3. rewrite copy_out by lia. exact O2.
Qed.
