(** The block LU factorization in the numbering of the caller. *)
From Coq Require Import List ZArith Lia Bool Permutation.
From Verif Require Import Base.Prelude Base.PreludeFacts
  Solver.DirectModel Solver.DirectSpec Solver.DirectProofs Solver.DirectMore Solver.LUModel Solver.LUSpec Solver.LUProofs Solver.LUElim Solver.LUSolve.
Import ListNotations.
Local Open Scope Z_scope.

Section Main.
Context {T V : Type} (O : ops T V) (LW : laws O).
Context (n : Z) (o2n n2o : list Z) (s : symlu) (HO : ordering_ok n o2n n2o) (HS : shape n n2o s).
Notation ord := (ord n2o).
Notation rp := (rep n ord (slots s)).
Notation rv := (repv O n n2o).
Notation lo := (lo s). Notation up := (up s).
Definition old_slots i := i :: row (lowOld s) i ++ row (uppOld s) i.
Lemma old_slots_ord i : 0 <= i < n -> old_slots (ord i) = map ord (slots s i).
Proof.
  intro Hi. unfold old_slots, slots. cbn [map]. rewrite map_app. f_equal. f_equal; [apply (h_lowOld _ _ _ HS)|apply (h_uppOld _ _ _ HS)]; auto.
Qed.
Lemma slots_rng i j : 0 <= i < n -> In j (slots s i) -> 0 <= j < n.
Proof.
  intros Hi [->|I]; auto. apply in_app_iff in I. destruct I as [I|I]; [apply (lo_lt n n2o s HS) in I|apply (up_lt n n2o s HS) in I]; auto; lia.
Qed.
Lemma in_old_slots i j : 0 <= i < n -> 0 <= j < n -> (In (ord j) (old_slots (ord i)) <-> In j (slots s i)).
Proof.
  intros Hi Hj. rewrite old_slots_ord by auto. split; [|apply in_map]. intro I. apply in_map_iff in I. destruct I as (k & E & Ik).
  apply (ord_inj n o2n n2o HO) in E; auto; [now subst|]. now apply (slots_rng i).
Qed.
Lemma stored_rep A M : stored O s A M -> rp A (fun i j => M (ord i) (ord j)).
Proof.
  intros (L & R). rewrite (h_num _ _ _ HS) in *. split; auto. intros i Hi. rewrite R by (now apply (ord_rng n o2n n2o HO)).
  fold (old_slots (ord i)). rewrite old_slots_ord by auto. now rewrite map_map.
Qed.

(** ** The product *)
Lemma mul_row A N x X y Y i : rp A N -> rv x X -> rv y Y -> 0 <= i < n ->
  exists y', lu_mul_row T V (act O) (vadd O) s A x y (ord i) = Ok y' /\ rv y' (updV Y i (vsum O (fun j => act O (N i j) (X j)) (slots s i))).
Proof.
  intros R RX RY Hi. unfold lu_mul_row. rewrite (get n o2n n2o s HO A N i 0 i R Hi (at_diag s i)). cbn [bind].
  rewrite (repv_get O n o2n n2o HO x X i RX Hi). cbn [bind].
  destruct (repv_set O n o2n n2o HO y Y i (act O (N i i) (X i)) RY Hi) as (y1 & -> & R1). cbn [bind].
  rewrite (vget_lowOld n o2n n2o s HO HS) by auto. cbn [bind]. rewrite zlen_map.
  match goal with |- context [foldM ?f y1 _] => destruct (add_loop O LW n o2n n2o HO f y1 _ x X i (N i) (lo i) R1 RX Hi) as (y2 & E2 & R2) end.
  { intros j Ij. apply (lo_lt n n2o s HS) in Ij; auto. lia. }
  { intros y0 p j Ej. rewrite (get n o2n n2o s HO A N i _ j R Hi (at_lo s i p j Ej)). cbn [bind].
    assert (Ev : vget (map ord (lo i)) (Z.of_nat p) = Ok (ord j)) by (apply vget_of_nat; now rewrite nth_error_map, Ej).
    rewrite Ev. reflexivity. }
  rewrite E2. cbn [bind]. rewrite (vget_uppOld n o2n n2o s HO HS) by auto. cbn [bind].
  rewrite (upper_off_ok n o2n n2o s HO HS) by auto. cbn [bind]. rewrite zlen_map.
  match goal with |- context [foldM ?f y2 _] => destruct (add_loop O LW n o2n n2o HO f y2 _ x X i (N i) (up i) R2 RX Hi) as (y3 & E3 & R3) end.
  { intros j Ij. apply (up_lt n n2o s HS) in Ij; auto. lia. }
  { intros y0 p j Ej. rewrite (get n o2n n2o s HO A N i _ j R Hi (at_up s i p j Ej)). cbn [bind].
    assert (Ev : vget (map ord (up i)) (Z.of_nat p) = Ok (ord j)) by (apply vget_of_nat; now rewrite nth_error_map, Ej).
    rewrite Ev. reflexivity. }
  exists y3. split; auto. apply (repv_ext O n n2o _ _ _ R3). intros a Ha. destruct (Z.eq_dec a i) as [->|]; [|now rewrite !updV_other].
  rewrite !updV_same. unfold slots, vsum. rewrite sum_cons, sum_app by apply LW. symmetry. apply LW.
Qed.
Lemma mul_ok A M x y : stored O s A M -> vanishes O s M -> zlen x = n -> zlen y = n ->
  exists y', lu_mul T V (act O) (vadd O) s {| ldu := A; isDecomposed := false |} x y = Ok y' /\ zlen y' = n /\
    forall i, 0 <= i < n -> nth (Z.to_nat i) y' (v0 O) = product O n M x i.
Proof.
  intros HA HV Lx Ly. unfold lu_mul. cbn [isDecomposed negb assert_ bind ldu]. pose proof (stored_rep A M HA) as R. unfold vanishes in HV. rewrite (h_num _ _ _ HS) in *.
  pose proof (n_nonneg n n2o s HS) as Hn. pose proof (repv_refl O n n2o x Lx) as RX.
  destruct (foldM_range (fun m y' => zlen y' = n /\ forall i, 0 <= i < m -> nth (Z.to_nat i) y' (v0 O) = product O n M x i) (lu_mul_row T V (act O) (vadd O) s A x) n y) as (y' & E & H); auto.
  - split; auto. intros i Hi. lia.
  - clear y Ly. intros i y Hi (Ly & Hy). destruct (old_new n o2n n2o HO i Hi) as (a & Ha & Ea). rewrite <- Ea.
    destruct (mul_row A _ x _ y _ a R RX (repv_refl O n n2o y Ly) Ha) as (y' & E & (L' & R')). exists y'. split; auto. split; auto.
    intros j Hj. destruct (old_new n o2n n2o HO j ltac:(rewrite Ea in Hj; lia)) as (b & Hb & Eb). rewrite <- Eb. rewrite R' by auto.
    destruct (Z.eq_dec b a) as [->|D].
    + rewrite updV_same. rewrite (product_new O LW n o2n n2o HO M x _ a RX). symmetry. apply (vsum_support O LW).
      * now apply (slots_nd n n2o s HS).
      * intros k Ik. now apply (slots_rng a).
      * intros k Hk Nk. rewrite HV; [apply (act0 O LW)| | |]; [now apply (ord_rng n o2n n2o HO)|now apply (ord_rng n o2n n2o HO)|].
        change (~ In (ord k) (old_slots (ord a))). now rewrite in_old_slots.
    + rewrite updV_other by auto. rewrite Eb. apply Hy. assert (j <> i) by (intros ->; apply D; apply (ord_inj n o2n n2o HO); auto; congruence). lia.
  - exists y'. split; auto.
Qed.

(** ** The solution is unique *)
Section Unique.
Context (invert : T -> res T) (HI : inverts O invert).
Variables (M W : Z -> Z -> T) (D : Z -> T).
Hypothesis HF : factors O invert n s M W D.
Notation Lm := (Lm O s W). Notation Um := (Um O s W D). Notation LU := (LU O n s W D).
Lemma v_eq_sub a b c : vadd O a b = c -> b = vsub O c a.
Proof.
  intros <-. apply (g_cancel V (v0 O) (vadd O) (vopp O)) with (c := a); try apply LW. rewrite (v_subK O LW). apply LW.
Qed.
Lemma L_unsolve Y B i : 0 <= i < n -> vsum O (fun k => act O (Lm i k) (Y k)) (range n) = B ->
  Y i = vsub O B (vsum O (fun j => act O (W i j) (Y j)) (lo i)).
Proof.
  intros Hi E. rewrite (vsum_support O LW _ (lo i ++ [i])) in E.
  - rewrite (vsum_snoc O LW), Lm_diag, (act1 O LW) in E. apply v_eq_sub. rewrite <- E. f_equal. apply sum_ext. intros k Ik. now rewrite (Lm_low O n n2o s HS).
  - apply NoDup_app_; [now apply sasc_NoDup, (lo_sasc n n2o s HS)|constructor; [auto|constructor]|]. intros x Ix [<-|[]]. apply (lo_lt n n2o s HS) in Ix; [lia|auto].
  - intros k Ik. apply in_app_iff in Ik. destruct Ik as [Ik|[<-|[]]]; auto. apply (lo_lt n n2o s HS) in Ik; auto. lia.
  - intros k Hk Nk. rewrite in_app_iff in Nk. rewrite Lm_zero; [apply (act0 O LW)| |]; [intros ->; apply Nk; right; now left|tauto].
Qed.
Lemma U_unsolve X Y i : 0 <= i < n -> vsum O (fun k => act O (Um i k) (X k)) (range n) = Y ->
  X i = act O (W i i) (vsub O Y (vsum O (fun j => act O (W i j) (X j)) (up i))).
Proof.
  intros Hi E. rewrite (vsum_support O LW _ (up i ++ [i])) in E.
  - rewrite (vsum_snoc O LW), Um_diag in E. destruct (f_diag _ _ _ _ _ _ _ HF i Hi) as (_ & HD). destruct (HI _ _ HD) as (_ & HD').
    replace (vsub O Y (vsum O (fun j => act O (W i j) (X j)) (up i))) with (act O (D i) (X i)); [now rewrite <- (actM O LW), HD', (act1 O LW)|].
    apply v_eq_sub. rewrite <- E. f_equal. apply sum_ext. intros k Ik. now rewrite (Um_upp O n n2o s HS).
  - apply NoDup_app_; [now apply sasc_NoDup, (up_sasc n n2o s HS)|constructor; [auto|constructor]|]. intros x Ix [<-|[]]. apply (up_lt n n2o s HS) in Ix; [lia|auto].
  - intros k Ik. apply in_app_iff in Ik. destruct Ik as [Ik|[<-|[]]]; auto. apply (up_lt n n2o s HS) in Ik; auto. lia.
  - intros k Hk Nk. rewrite in_app_iff in Nk. rewrite Um_zero; [apply (act0 O LW)| |]; [intros ->; apply Nk; right; now left|tauto].
Qed.
Lemma LU_unique X Z : (forall i, 0 <= i < n -> vsum O (fun j => act O (LU i j) (X j)) (range n) = vsum O (fun j => act O (LU i j) (Z j)) (range n)) ->
  forall i, 0 <= i < n -> X i = Z i.
Proof.
  intro H.
  set (U := fun (x : BinNums.Z -> V) k => vsum O (fun j => act O (Um k j) (x j)) (range n)).
  assert (HU : forall i, (0 <= i < n)%Z -> U X i = U Z i).
  { assert (G : forall m, (0 <= m)%Z -> forall i, (0 <= i < m)%Z -> (i < n)%Z -> U X i = U Z i).
    { intros m Hm. pattern m. apply natlike_ind; auto; [intros; lia|]. intros k Hk IH i Hi Hin.
      assert (E : forall x, U x i = vsub O (vsum O (fun j => act O (LU i j) (x j)) (range n)) (vsum O (fun j => act O (W i j) (U x j)) (lo i))).
      { intro x. apply L_unsolve; [lia|]. unfold LUSolve.LU. rewrite (product_assoc O LW). reflexivity. }
      rewrite (E X), (E Z). f_equal; [apply H; lia|]. apply sum_ext. intros j Ij. apply (lo_lt n n2o s HS) in Ij; [|lia]. f_equal. apply IH; lia. }
    intros i Hi. apply (G n); lia. }
  assert (G : forall m, (0 <= m)%Z -> forall i, (n - m <= i < n)%Z -> (0 <= i)%Z -> X i = Z i).
  { intros m Hm. pattern m. apply natlike_ind; auto; [intros; lia|]. intros k Hk IH i Hi Hi0.
    rewrite (U_unsolve X (U X i) i) by (auto; lia). rewrite (U_unsolve Z (U Z i) i) by (auto; lia). rewrite HU by lia. do 2 f_equal.
    apply sum_ext. intros j Ij. apply (up_lt n n2o s HS) in Ij; [|lia]. f_equal. apply IH; lia. }
  intros i Hi. apply (G n); lia.
Qed.
End Unique.

(** ** The solver *)
Lemma solve_ok invert A M F : inverts O invert -> (forall d, invert d <> UB) -> stored O s A M ->
  lu_decompose T (tsub O) (tmul O) invert s {| ldu := A; isDecomposed := false |} = Ok F ->
  exists P : Z -> Z -> T,
    (forall i j, 0 <= i < n -> In j (old_slots i) -> P i j = M i j) /\
    ((forall k i j, 0 <= i < n -> 0 <= j < i -> In k (lo i) -> In k (lo j) -> In j (lo i)) -> vanishes O s M ->
       forall i j, 0 <= i < n -> 0 <= j < n -> P i j = M i j) /\
    forall b y, zlen b = n -> zlen y = n ->
      exists x, lu_solve T V (act O) (vsub O) s F b y = Ok x /\ zlen x = n /\
        (forall i, 0 <= i < n -> product O n P x i = nth (Z.to_nat i) b (v0 O)) /\
        (forall z, zlen z = n -> (forall i, 0 <= i < n -> product O n P z i = nth (Z.to_nat i) b (v0 O)) -> z = x).
Proof.
  intros HI HU HA HD. pose proof (stored_rep A M HA) as R.
  pose proof (decompose_ok O LW invert n o2n n2o s HO HS A _ R HU) as Ho. rewrite HD in Ho. destruct Ho as (Fd & W & D & RW & HF).
  destruct F as (A' & dec). cbn [isDecomposed ldu] in *. subst dec.
  assert (Hw : forall a, 0 <= a < n -> place o2n (ord a) = a) by (intros a Ha; apply (o_old _ _ _ HO); auto).
  assert (On : forall a, 0 <= a < n -> forall j, In j (old_slots (ord a)) -> exists b, j = ord b /\ 0 <= b < n /\ In b (slots s a)).
  { intros a Ha j Ij. rewrite old_slots_ord in Ij by auto. apply in_map_iff in Ij. destruct Ij as (b & <- & Ib). exists b. split; auto. split; auto. now apply (slots_rng a). }
  exists (fun i j => LU O n s W D (place o2n i) (place o2n j)). split; [|split].
  - intros i j Hi Ij. destruct (old_new n o2n n2o HO i Hi) as (a & Ha & <-). destruct (On a Ha j Ij) as (b & -> & Hb & Ib). rewrite !Hw by auto.
    rewrite (LU_on O LW invert HI n n2o s HS _ W D HF); auto.
  - intros HC HV i j Hi Hj. destruct (old_new n o2n n2o HO i Hi) as (a & Ha & <-). destruct (old_new n o2n n2o HO j Hj) as (b & Hb & <-). rewrite !Hw by auto.
    destruct (in_dec Z.eq_dec b (slots s a)) as [I|I]; [now rewrite (LU_on O LW invert HI n n2o s HS _ W D HF)|].
    rewrite (LU_off O LW n n2o s HS W D a b Ha Hb I). unfold vanishes in HV. rewrite (h_num _ _ _ HS) in HV. rewrite HV; auto.
    + destruct (cm s a b) as [|k l] eqn:Ec; [reflexivity|]. exfalso. assert (Ik : In k (cm s a b)) by (rewrite Ec; now left). apply cm_In in Ik.
      destruct Ik as (I1 & I2). destruct (Z.lt_trichotomy a b) as [L|[L|L]].
      * apply I. right. apply in_app_iff. right. apply (lo_up n n2o s HS); auto. apply (HC k b a); auto. lia.
      * apply I. now left.
      * apply I. right. apply in_app_iff. left. apply (HC k a b); auto. lia.
    + change (~ In (ord b) (old_slots (ord a))). now rewrite in_old_slots.
  - intros b y Lb Ly. destruct (LU_solves O LW invert HI n o2n n2o s HO HS _ W D HF A' b y RW Lb Ly) as (x & X & E & (Lx & RX) & HX).
    exists x. split; auto. split; auto.
    assert (Pr : forall z i, 0 <= i < n -> zlen z = n -> product O n (fun i j => LU O n s W D (place o2n i) (place o2n j)) z (ord i) =
      vsum O (fun j => act O (LU O n s W D i j) (nth (Z.to_nat (ord j)) z (v0 O))) (range n)).
    { intros z i Hi Lz. rewrite (product_new O LW n o2n n2o HO _ z _ i (repv_refl O n n2o z Lz)). apply sum_ext. intros j Ij. apply range_In in Ij. now rewrite !Hw. }
    split.
    + intros i Hi. destruct (old_new n o2n n2o HO i Hi) as (a & Ha & <-). rewrite Pr by auto. rewrite <- HX by auto.
      apply sum_ext. intros j Ij. apply range_In in Ij. now rewrite RX.
    + intros z Lz Hz. apply nth_ext with (d := v0 O) (d' := v0 O); [unfold zlen in *; lia|]. intros p Hp.
      destruct (old_new n o2n n2o HO (Z.of_nat p)) as (a & Ha & Ea); [unfold zlen in *; lia|].
      replace p with (Z.to_nat (ord a)) by lia. rewrite RX by auto.
      apply (LU_unique invert HI _ W D HF (fun a => nth (Z.to_nat (ord a)) z (v0 O)) X); auto. intros i Hi.
      rewrite HX by auto. rewrite <- Hz by (now apply (ord_rng n o2n n2o HO)). now rewrite Pr.
Qed.
End Main.
