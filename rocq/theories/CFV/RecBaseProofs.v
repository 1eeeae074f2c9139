(** The base functions of a cell and their derivatives (C56). *)
From Coq Require Import List ZArith Reals Bool Lia Lra.
From Verif Require Import Base.Prelude Base.PreludeFacts Geom.PeriodicModel Geom.PeriodicSpec Geom.PeriodicProofs
  Geom.BaseFnModel Geom.BaseFnSpec Geom.BaseFnProofs Geom.DiffTensorModel Geom.DiffTensorSpec Geom.DiffTensorAnalysis
  Geom.DiffTensorChain Geom.DiffTensorProofs
  Geom.DiffTensorLinProofs Geom.DiffTensorMapProofs Geom.DiffTensorInvProofs CFV.RecModel CFV.RecSpec CFV.RecPolyProofs.
Import ListNotations.
Local Open Scope R_scope.

Lemma everywhere_open : open_region everywhere.
Proof. intros X Y Z _. exists 1. split; [lra|]. intros. exact I. Qed.

Lemma partial_everywhere : forall ds f g, partial ds f g -> partial_in everywhere ds f g.
Proof. intros ds f g H. induction H; [apply partial_in_none|]. eapply partial_in_next; [|eassumption]. intros X Y Z _. apply H. Qed.

Lemma ndof_rows : forall st, supported st -> NDOF st = rows_up_to (dim st) (maxOrder st).
Proof.
  intros st [H L]. unfold NDOF. destruct (maxOrder st) as [|[|[|[|k]]]]; try lia; destruct H as [-> | ->]; reflexivity.
Qed.
Lemma rows_bound : forall dim k, dim23 dim -> (k <= 3)%nat -> (rows_up_to dim k <= rows_up_to dim 3)%nat.
Proof. intros. apply rows_mono; auto. Qed.

Lemma exps_op : forall st r, exponents st r = op (operators (dim st)) (Z.of_nat r).
Proof. intros st r. unfold exponents, op, nat3. rewrite Nat2Z.id. destruct (nth r _ _) as [[a b] c]. reflexivity. Qed.

Definition third (st : settings) (s : vec) : R := if Nat.eqb (dim st) 2 then 1 else s 2%nat.

(** *** the fill *)
Lemma fill_ok : forall st k x s, supported st -> (k <= 3)%nat -> (forall a, (a < dim st)%nat -> s a <> 0) ->
  exists D, PolynomialFill st (rows_up_to (dim st) k) x s = Ok D /\
  forall r j, (r < rows_up_to (dim st) k)%nat -> (j < NDOF st)%nat ->
    D r j = H3 (s 0%nat) (s 1%nat) (third st s) (exponents st j) (exponents st r) (x 0%nat) (x 1%nat) (x 2%nat).
Proof.
  intros st k x s HS Hk Hs. pose proof (ndof_rows st HS) as EN. destruct HS as [H L].
  pose proof (rows_bound (dim st) k H Hk) as B1. pose proof (rows_bound (dim st) (maxOrder st) H L) as B2.
  unfold PolynomialFill, third. rewrite EN. destruct H as [E|E].
  - rewrite E in *. cbn [Nat.eqb].
    destruct (fill2_good (x 0%nat) (x 1%nat) (x 2%nat) (s 0%nat) (s 1%nat) 1 (Hs 0%nat ltac:(lia)) (Hs 1%nat ltac:(lia)) ltac:(lra)
               (x 2%nat) (Z.of_nat (rows_up_to 2 k)) (Z.of_nat (rows_up_to 2 (maxOrder st))) eq_refl eq_refl
               ltac:(cbn in B1 |- *; lia) ltac:(cbn in B2 |- *; lia)) as [T [ET G]].
    rewrite ET. cbn [bind]. eexists. split; [reflexivity|]. intros r j Hr Hj. cbn beta.
    rewrite (G (Z.of_nat r) (Z.of_nat j)) by lia. unfold V. rewrite !exps_op. rewrite E. reflexivity.
  - rewrite E in *. cbn [Nat.eqb].
    destruct (fill3_good (x 0%nat) (x 1%nat) (x 2%nat) (s 0%nat) (s 1%nat) (s 2%nat) (Hs 0%nat ltac:(lia)) (Hs 1%nat ltac:(lia)) (Hs 2%nat ltac:(lia))
               (Z.of_nat (rows_up_to 3 k)) (Z.of_nat (rows_up_to 3 (maxOrder st)))
               ltac:(cbn in B1 |- *; lia) ltac:(cbn in B2 |- *; lia)) as [T [ET G]].
    rewrite ET. cbn [bind]. eexists. split; [reflexivity|]. intros r j Hr Hj. cbn beta.
    rewrite (G (Z.of_nat r) (Z.of_nat j)) by lia. unfold V. rewrite !exps_op. rewrite E. reflexivity.
Qed.

Lemma row_exponents : forall st k r ds, supported st -> (k <= 3)%nat -> (r < rows_up_to (dim st) k)%nat ->
  nth_error (operators (dim st)) r = Some (multi_Z (multi ds)) -> exponents st r = multi ds.
Proof.
  intros st k r ds HS Hk Hr N. unfold exponents. destruct (multi ds) as [[a b] c].
  match goal with |- context [nth r ?l ?x] => replace (nth r l x) with (multi_Z (a, b, c)) by (symmetry; apply nth_error_nth; exact N) end.
  cbn. rewrite !Nat2Z.id. reflexivity.
Qed.

(** *** one column through an affine map *)
Lemma linear_map_col : forall dim k (A : mat) c D E (F : nat -> fn) (dF : nat -> nat * nat * nat -> fn) M X Y Z (P : nat -> Prop),
  dim23 dim -> (k <= 3)%nat -> maps D E (affine dim A c) -> (forall b, P b -> smooth_in E k (F b) (dF b)) ->
  (forall b, P b -> holds dim 0 (rows_up_to dim k) M b (fun m => compose (dF b m) (affine dim A c) X Y Z)) ->
  exists out, ConvertDiffsLinMap dim (rows_up_to dim k) M A = Ok out /\
  forall b, P b -> holds_derivatives D dim (rows_up_to dim k) out b (compose (F b) (affine dim A c)) X Y Z.
Proof.
  intros dim k A c D E F dF M X Y Z P H Hk HM HF HH.
  destruct (lin_map_rows dim k M A H Hk) as [out [EO V]]. exists out. split; auto. intros b Pb.
  eapply (full_derivatives D E dim k (F b) (affine dim A c) (dF b) (daffine dim A c) H X Y Z M (grad_rows dim A) b); auto.
  - intros m Hm. apply grad_holds; auto.
  - apply affine_coordinates; auto.
  - intros a. apply affine_smooth; auto.
Qed.

(** Values by multi-index are derivatives, and the other way round. *)
Lemma multi_add_all : forall ds, add_all ds (0, 0, 0)%nat = multi ds.
Proof.
  intros ds. rewrite <- (DiffTensorNormProofs.no_at ds). rewrite multi_mi. apply add_all_mi.
Qed.
Lemma smooth_value : forall k f d ds g X Y Z, smooth_in everywhere k f d -> (length ds <= k)%nat ->
  partial_in everywhere ds f g -> g X Y Z = d (multi ds) X Y Z.
Proof.
  intros k f d ds g X Y Z HS L P.
  pose proof (smooth_partial everywhere k f d HS ds (0, 0, 0)%nat ltac:(cbn; lia)) as Q. rewrite multi_add_all in Q.
  destruct HS as [E0 _].
  exact (partial_unique everywhere ds f (d (0, 0, 0)%nat) g _ everywhere_open (fun X Y Z _ => eq_sym (E0 X Y Z)) P Q X Y Z I).
Qed.
Lemma row_length : forall dim k r ds, dim23 dim -> (k <= 3)%nat -> (r < rows_up_to dim k)%nat ->
  nth_error (operators dim) r = Some (multi_Z (multi ds)) -> (length ds <= k)%nat.
Proof.
  intros dim k r ds H Hk Hr N. destruct (row_axes dim k r ds H Hk Hr N) as (is & E & L & _). rewrite E, map_length. auto.
Qed.
Lemma derivatives_hold : forall dim k M b f d X Y Z, dim23 dim -> (k <= 3)%nat -> smooth_in everywhere k f d ->
  holds_derivatives everywhere dim (rows_up_to dim k) M b f X Y Z -> holds dim 0 (rows_up_to dim k) M b (fun m => d m X Y Z).
Proof.
  intros dim k M b f d X Y Z H Hk HS HH r m [_ Hr] N.
  destruct (row_surj dim k r H Hk Hr) as (is & B & L & ->).
  destruct (row_of_ok dim is H B ltac:(lia)) as (E & _). rewrite <- multi_mi in E.
  assert (Em : m = multi (map axis_at is)) by (apply multi_Z_inj; congruence).
  destruct (HH _ _ Hr E) as [g [P V]]. rewrite V, Em. apply (smooth_value k f d); auto. rewrite map_length. auto.
Qed.
Lemma hold_derivatives : forall dim k M b f d X Y Z, dim23 dim -> (k <= 3)%nat -> smooth_in everywhere k f d ->
  holds dim 0 (rows_up_to dim k) M b (fun m => d m X Y Z) -> holds_derivatives everywhere dim (rows_up_to dim k) M b f X Y Z.
Proof.
  intros dim k M b f d X Y Z H Hk HS HH r ds Hr N. pose proof (row_length dim k r ds H Hk Hr N) as L.
  pose proof (smooth_partial everywhere k f d HS ds (0, 0, 0)%nat ltac:(cbn; lia)) as Q. rewrite multi_add_all in Q.
  destruct HS as [E0 _].
  destruct (partial_in_same everywhere ds (d (0, 0, 0)%nat) f _ E0 Q) as [g [P V]].
  exists g. split; auto. rewrite V. apply (HH r (multi ds)); auto. lia.
Qed.

(** *** shifting the argument *)
Definition shift (c : vec) (f : fn) : fn := fun X Y Z => f (X - c 0%nat) (Y - c 1%nat) (Z - c 2%nat).
Lemma shift_derivable : forall f c x a, derivable_pt_lim f (x - c) a -> derivable_pt_lim (fun t => f (t - c)) x a.
Proof.
  intros f c x a H e He. destruct (H e He) as [d K]. exists d. intros h Hh Hl.
  replace (x + h - c) with (x - c + h) by ring. apply K; auto.
Qed.
Lemma shift_partial : forall c ds f g, partial_in everywhere ds f g -> partial_in everywhere ds (shift c f) (shift c g).
Proof.
  intros c ds f g H. induction H as [f|a ds f f' g A P IH]; [apply partial_in_none|].
  eapply partial_in_next; [|exact IH]. intros X Y Z _. specialize (A (X - c 0%nat) (Y - c 1%nat) (Z - c 2%nat) I).
  unfold shift. destruct a.
  - apply (shift_derivable (fun t => f t (Y - c 1%nat) (Z - c 2%nat))); auto.
  - apply (shift_derivable (fun t => f (X - c 0%nat) t (Z - c 2%nat))); auto.
  - apply (shift_derivable (fun t => f (X - c 0%nat) (Y - c 1%nat) t)); auto.
Qed.

(** *** subtracting a constant *)
Lemma minus_const : forall dim k M b f m X Y Z, dim23 dim -> (k <= 3)%nat ->
  holds_derivatives everywhere dim (rows_up_to dim k) M b f X Y Z ->
  forall M', (forall r, M' r b = if Nat.eqb r 0 then M r b - m else M r b) ->
  holds_derivatives everywhere dim (rows_up_to dim k) M' b (fun X Y Z => f X Y Z - m) X Y Z.
Proof.
  intros dim k M b f m X Y Z H Hk HH M' HM r ds Hr N. destruct (HH r ds Hr N) as [g [P V]].
  rewrite HM. destruct (row_axes dim k r ds H Hk Hr N) as (is & E & L & B & ER).
  destruct ds as [|a ds].
  - destruct is; [|discriminate]. inversion P; subst.
    assert (R0 : row_of dim [] = 0%nat) by (destruct H as [-> | ->]; reflexivity).
    rewrite R0. cbn [Nat.eqb]. eexists. split; [apply partial_in_none|]. cbn beta. rewrite <- V. rewrite R0. reflexivity.
  - assert (R0 : r <> 0%nat).
    { intros ->. assert (Z0 : Some (multi_Z (multi (a :: ds))) = Some (multi_Z (0, 0, 0)%nat)) by (rewrite <- N; destruct H as [-> | ->]; reflexivity).
      assert (Z1 := f_equal (fun o => match o with Some x => x | None => multi_Z (0, 0, 0)%nat end) Z0). cbv beta iota in Z1.
      apply multi_Z_inj in Z1. clear Z0. rename Z1 into Z0.
      pose proof (order_multi (a :: ds)) as O. rewrite Z0 in O. discriminate. }
    apply Nat.eqb_neq in R0. rewrite R0. inversion P as [|? ? ? f1 ? A P']; subst. exists g. split; auto.
    eapply partial_in_next; [|exact P']. eapply along_value; [apply (along_plus everywhere a f (fun _ _ _ => - m)); [exact A|apply along_const]|].
    intros. cbn beta. ring.
Qed.
Lemma holds_same_fn : forall D dim rows M b f f' X Y Z, (forall X Y Z, f X Y Z = f' X Y Z) ->
  holds_derivatives D dim rows M b f X Y Z -> holds_derivatives D dim rows M b f' X Y Z.
Proof.
  intros D dim rows M b f f' X Y Z E H r ds Hr N. destruct (H r ds Hr N) as [g [P V]].
  destruct (partial_in_same D ds f f' g E P) as [g' [P' V']]. exists g'. split; auto. rewrite V'. auto.
Qed.

(** *** the base functions *)
Lemma simple_scale : forall st c a, supported st -> (a < dim st)%nat -> simpleScale st (box st c) a = own_length st c a.
Proof.
  intros st c a [H _] Ha. unfold simpleScale, own_length. destruct (anisotropicLengths st); auto.
  destruct H as [E|E]; rewrite E in *; cbn [Nat.eqb]; auto. destruct (Nat.ltb_spec a 2); auto; lia.
Qed.

Lemma exps_planar : forall st j, supported st -> dim st = 2%nat -> (j < NDOF st)%nat -> snd (exponents st j) = 0%nat.
Proof.
  intros st j HS E Hj. rewrite (ndof_rows st HS) in Hj. destruct HS as [_ L]. unfold exponents.
  assert (j < 10)%nat. { pose proof (rows_bound 2 (maxOrder st) (or_introl eq_refl) L) as B. rewrite E in Hj. change (rows_up_to 2 3) with 10%nat in B. lia. }
  rewrite E. do 10 (destruct j as [|j]; [reflexivity|]). lia.
Qed.

Definition scaled (st : settings) (c : cell) (j : nat) : fn :=
  monomial (own_length st c 0) (own_length st c 1) (third st (own_length st c)) (exponents st j).
Lemma base_scaled : forall st c j X Y Z, supported st -> (j < NDOF st)%nat ->
  base_fn st c j X Y Z = scaled st c j (own_coordinate st c 0 X Y Z) (own_coordinate st c 1 X Y Z) (own_coordinate st c 2 X Y Z) - moment c j.
Proof.
  intros st c j X Y Z HS Hj. unfold base_fn, scaled, monomial, mono, third. f_equal.
  pose proof (exps_planar st j HS) as P. destruct (exponents st j) as [[p q] r]. cbn [snd] in P.
  destruct (Nat.eqb_spec (dim st) 2); auto. rewrite P by auto. reflexivity.
Qed.
Lemma third_nz : forall st c, sound_cell st c -> supported st -> third st (own_length st c) <> 0.
Proof. intros st c [H _] [D _]. unfold third. destruct (Nat.eqb_spec (dim st) 2); [lra|]. apply H. lia. Qed.
Lemma length_nz : forall st c a, sound_cell st c -> supported st -> (a < 2)%nat -> own_length st c a <> 0.
Proof. intros st c a [H _] [D _] L. apply H. lia. Qed.

Lemma scaled_poly : forall st c j, supported st -> (j < NDOF st)%nat -> polynomial (dim st) (maxOrder st) (scaled st c j).
Proof.
  intros st c j HS Hj.
  assert (O : (order_of (exponents st j) <= maxOrder st)%nat).
  { rewrite (ndof_rows st HS) in Hj. destruct HS as [H L]. destruct (row_surj (dim st) (maxOrder st) j H L Hj) as (is & B & Ls & E).
    destruct (row_of_ok (dim st) is H B ltac:(lia)) as (N & _). unfold exponents.
    match goal with |- context [nth ?r ?l ?x] => replace (nth r l x) with (multi_Z (mi is)) by (symmetry; apply nth_error_nth; rewrite E; exact N) end.
    pose proof (order_mi is) as OM. destruct (mi is) as [[p q] r]. cbn in *. rewrite !Nat2Z.id. lia. }
  unfold scaled, monomial. pose proof (exps_planar st j HS) as P. destruct (exponents st j) as [[p q] r] eqn:E. cbn [snd order_of] in *.
  apply (poly_le (dim st) (p + q + r)); auto.
  assert (X1 : forall a l, In a (axes (dim st)) -> polynomial (dim st) 1 (fun X Y Z => coordinate a X Y Z / l)).
  { intros a l Ha. apply (poly_same _ _ (fun X Y Z => / l * coordinate a X Y Z)); [intros; unfold Rdiv; ring|]. apply poly_scal, poly_coord; auto. }
  apply (poly_mult (dim st) (p + q) r (fun X Y Z => (X / own_length st c 0) ^ p * (Y / own_length st c 1) ^ q)).
  - apply (poly_mult (dim st) p q (fun X Y Z => (X / own_length st c 0) ^ p)).
    + apply (poly_pow (dim st) (fun X Y Z => coordinate AX X Y Z / _)). apply X1. unfold axes. destruct (Nat.eqb _ _); cbn; auto.
    + apply (poly_pow (dim st) (fun X Y Z => coordinate AY X Y Z / _)). apply X1. unfold axes. destruct (Nat.eqb _ _); cbn; auto.
  - destruct HS as [[H|H] _].
    + rewrite P by auto. cbn [pow]. apply poly_const.
    + apply (poly_pow (dim st) (fun X Y Z => coordinate AZ X Y Z / _)). apply X1. rewrite H. cbn; auto.
Qed.

Lemma base_values_any : forall st c k p, supported st -> sound_cell st c -> (k <= 3)%nat -> exists D,
  (forall flag, FDiffBaseValue st c (rows_up_to (dim st) k) p flag =
     Ok (if (flag =? 0)%Z then fun r j => if Nat.eqb r 0 then D r j - moment c j else D r j else D)) /\
  forall j, (j < NDOF st)%nat -> holds_derivatives everywhere (dim st) (rows_up_to (dim st) k) D j
    (fun X Y Z => base_fn st c j X Y Z + moment c j) (p 0%nat) (p 1%nat) (p 2%nat).
Proof.
  intros st c k p HS HC Hk. unfold FDiffBaseValue.
  assert (EB : forall a, (a < dim st)%nat -> simpleScale st (box st c) a = own_length st c a) by (intros; apply simple_scale; auto).
  assert (S0 : simpleScale st (box st c) 0%nat = own_length st c 0) by (apply EB; destruct HS; lia).
  assert (S1 : simpleScale st (box st c) 1%nat = own_length st c 1) by (apply EB; destruct HS; lia).
  assert (S2 : third st (simpleScale st (box st c)) = third st (own_length st c)).
  { unfold third. destruct (Nat.eqb_spec (dim st) 2); auto. apply EB. destruct HS; lia. }
  assert (NZ : forall a, (a < dim st)%nat -> simpleScale st (box st c) a <> 0) by (intros a Ha; rewrite EB by auto; apply HC; auto).
  assert (N0 := length_nz st c 0 HC HS ltac:(lia)). assert (N1 := length_nz st c 1 HC HS ltac:(lia)). assert (N2 := third_nz st c HC HS).
  (* the derivatives in own coordinates *)
  assert (DM : forall ds j, exists g, partial_in everywhere ds (scaled st c j) g /\
     forall X Y Z, g X Y Z = H3 (own_length st c 0) (own_length st c 1) (third st (own_length st c)) (exponents st j) (multi ds)
       (X / own_length st c 0) (Y / own_length st c 1) (Z / third st (own_length st c))).
  { intros ds j. destruct (monomial_partial _ _ _ N0 N1 N2 ds (exponents st j)) as [g [P V]]. exists g. split; auto. apply partial_everywhere. exact P. }
  assert (H3z : forall e m x y z z', (dim st = 2%nat -> snd e = 0%nat) -> (dim st = 2%nat \/ z = z') ->
     H3 (own_length st c 0) (own_length st c 1) (third st (own_length st c)) e m x y z = H3 (own_length st c 0) (own_length st c 1) (third st (own_length st c)) e m x y z').
  { intros [[e0 e1] e2] [[m0 m1] m2] x y z z' He Hz. unfold H3, G. destruct Hz as [Hd| ->]; auto. cbn [snd] in He. rewrite (He Hd). cbn [Nat.sub pow]. reflexivity. }
  destruct (localOrientation st) eqn:LO.
  - (* own axes *)
    cbn [negb]. set (xm := mvec 3 (tr (majorCoord c)) (vsub p (cent c))).
    assert (EBX : majorHBox c = box st c) by (unfold box; rewrite LO; reflexivity). rewrite EBX.
    destruct (fill_ok st k (fun i => xm i / simpleScale st (box st c) i) (simpleScale st (box st c)) HS Hk NZ) as [D0 [ED HD]].
    rewrite ED. cbn [bind].
    set (cc := fun m => - sumn 3 (fun i => majorCoord c i m * cent c i)).
    destruct HC as [HL HO]. destruct (HO LO) as [O P2].
    assert (EX : forall a X Y Z, (a < dim st)%nat -> affine (dim st) (majorCoord c) cc (axis_at a) X Y Z = own_coordinate st c a X Y Z).
    { intros a X Y Z Ha. unfold own_coordinate. rewrite LO. unfold affine, cc, vsub, point.
      destruct HS as [[E|E] _]; rewrite E in *.
      - pose proof (P2 eq_refl) as PP. destruct a as [|[|a]]; try lia; cbn [axis_at Nat.eqb sumn coordinate].
        + rewrite (proj2 (PP 0%nat ltac:(lia))). ring.
        + rewrite (proj2 (PP 1%nat ltac:(lia))). ring.
      - destruct a as [|[|[|a]]]; try lia; cbn [axis_at Nat.eqb sumn coordinate]; ring. }
    assert (XM : forall a, (a < 3)%nat -> xm a = own_coordinate st c a (p 0%nat) (p 1%nat) (p 2%nat)).
    { intros a Ha. unfold xm, own_coordinate, mvec, tr, vsub, point. rewrite LO. cbn [sumn axis_at coordinate]. reflexivity. }
    assert (SF : exists dF, forall j, (j < NDOF st)%nat -> smooth_in everywhere k (scaled st c j) (dF j)).
    { exists (fun j => match exponents st j with (a, b, e) => dpeval [(/ own_length st c 0 ^ a * / own_length st c 1 ^ b * / third st (own_length st c) ^ e, (a, b, e))] end).
      intros j Hj. unfold scaled. destruct (exponents st j) as [[a b] e].
      eapply smooth_same; [|apply peval_smooth]. intros X Y Z. unfold peval, monomial. cbn [sum_over fold_right fst snd mono].
      unfold Rdiv. rewrite !Rpow_mult_distr. rewrite !pow_inv. ring. }
    destruct SF as [dF SF].
    destruct (linear_map_col (dim st) k (majorCoord c) cc everywhere everywhere (scaled st c) dF D0
                (p 0%nat) (p 1%nat) (p 2%nat) (fun j => (j < NDOF st)%nat) (proj1 HS) Hk (fun _ _ _ _ => I) SF) as [out [EO HO2]].
    { intros j Hj r m [_ Hr] N. rewrite HD by auto. rewrite S0, S1, S2.
      destruct (row_surj (dim st) k r (proj1 HS) Hk Hr) as (is & B & L & ER).
      destruct (row_of_ok (dim st) is (proj1 HS) B ltac:(lia)) as (E & _). rewrite <- multi_mi in E.
      assert (Em : m = multi (map axis_at is)) by (apply multi_Z_inj; rewrite ER in N; congruence).
      assert (EE : exponents st r = multi (map axis_at is)) by (apply (row_exponents st k r); auto; rewrite N, Em; reflexivity).
      rewrite EE. destruct (DM (map axis_at is) j) as [g [Pg Vg]].
      unfold compose. rewrite Em.
      rewrite <- (smooth_value k (scaled st c j) (dF j) (map axis_at is) g _ _ _ (SF j Hj) ltac:(rewrite map_length; auto) Pg).
      rewrite Vg. change AX with (axis_at 0). change AY with (axis_at 1). rewrite !(EX 0%nat), !(EX 1%nat) by (destruct HS; lia).
      rewrite <- !XM by lia.
      apply H3z; [intros E2; apply exps_planar; auto|]. destruct HS as [[E2|E2] _]; [left; auto|right].
      change AZ with (axis_at 2). rewrite (EX 2%nat) by lia. rewrite <- XM by lia. unfold third. rewrite E2. cbn [Nat.eqb].
      rewrite EB by lia. reflexivity. }
    exists out. split.
    + intros flag. rewrite EO. reflexivity.
    + intros j Hj. eapply holds_same_fn; [|apply HO2; auto]. intros X Y Z. rewrite base_scaled by auto. unfold compose.
      change AX with (axis_at 0). change AY with (axis_at 1). rewrite !(EX 0%nat), !(EX 1%nat) by (destruct HS; lia).
      assert (SZ : forall x y z z', (dim st = 2%nat \/ z = z') -> scaled st c j x y z = scaled st c j x y z').
      { intros x y z z' Hz. unfold scaled, monomial. pose proof (exps_planar st j HS) as PP. destruct (exponents st j) as [[e0 e1] e2].
        cbn [snd] in PP. destruct Hz as [Hz| ->]; auto. rewrite PP by auto. reflexivity. }
      rewrite (SZ _ _ (affine (dim st) (majorCoord c) cc AZ X Y Z) (own_coordinate st c 2 X Y Z)); [ring|].
      destruct HS as [[E2|E2] _]; [left; auto|right]. change AZ with (axis_at 2). apply EX. lia.
  - cbn [negb]. set (xc := vsub p (cent c)).
    assert (EBX : alignedHBox c = box st c) by (unfold box; rewrite LO; reflexivity). rewrite EBX.
    destruct (fill_ok st k (fun i => xc i / simpleScale st (box st c) i) (simpleScale st (box st c)) HS Hk NZ) as [D0 [ED HD]].
    rewrite ED. cbn [bind]. exists D0. split; [reflexivity|].
    intros j Hj r ds Hr N. destruct (DM ds j) as [g [Pg Vg]].
    pose proof (shift_partial (cent c) ds _ _ Pg) as Q.
    assert (EF : forall X Y Z, shift (cent c) (scaled st c j) X Y Z = base_fn st c j X Y Z + moment c j).
    { intros X Y Z. rewrite base_scaled by auto. unfold shift, own_coordinate. rewrite LO. unfold vsub, point. cbn [axis_at coordinate]. ring. }
    destruct (partial_in_same everywhere ds _ _ _ EF Q) as [g' [P' V']]. exists g'. split; auto. rewrite V'. unfold shift. rewrite Vg.
    rewrite HD by auto. rewrite (row_exponents st k r ds) by auto. rewrite S0, S1, S2.
    apply H3z; [intros E2; apply exps_planar; auto|]. destruct HS as [[E2|E2] _]; [left; auto|right].
    unfold third. rewrite E2. cbn [Nat.eqb]. rewrite EB by lia. reflexivity.
Qed.

Lemma base_values : forall st c k p, supported st -> sound_cell st c -> (k <= 3)%nat -> exists D,
  FDiffBaseValue st c (rows_up_to (dim st) k) p 0 = Ok D /\
  forall j, (j < NDOF st)%nat ->
    holds_derivatives everywhere (dim st) (rows_up_to (dim st) k) D j (base_fn st c j) (p 0%nat) (p 1%nat) (p 2%nat).
Proof.
  intros st c k p HS HC Hk. destruct (base_values_any st c k p HS HC Hk) as [D [E H]]. eexists. split; [apply E|].
  cbn [Z.eqb]. intros j Hj. eapply holds_same_fn; [|eapply (minus_const (dim st) k D j _ (moment c j)); [exact (proj1 HS)|exact Hk|apply H; auto|reflexivity]].
  intros. cbn beta. ring.
Qed.
