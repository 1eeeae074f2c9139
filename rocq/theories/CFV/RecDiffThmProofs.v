(** The linear problems of variational reconstruction: differences, relaxation, symmetry. *)
From Coq Require Import List ZArith Reals Bool Lia Lra FunctionalExtensionality.
From Verif Require Import Base.Prelude Base.PreludeFacts Geom.AdjModel Geom.BoundaryModel Geom.PeriodicModel Geom.PeriodicSpec Geom.PeriodicProofs
  Geom.BaseFnModel Geom.BaseFnSpec Geom.DiffTensorModel Geom.DiffTensorSpec Geom.DiffTensorProofs Geom.DiffTensorNormProofs
  CFV.RecModel CFV.RecDiffModel CFV.RecSpec CFV.RecDiffSpec CFV.RecPolyProofs CFV.RecBaseProofs CFV.RecMeanProofs CFV.RecFunProofs CFV.RecCoefProofs CFV.RecIterProofs CFV.RecFixProofs CFV.RecExactProofs CFV.RecEnergyProofs CFV.RecDiffProofs.
Import ListNotations.
Local Open Scope R_scope.

Lemma zlen_moved : forall s a b, zlen a = zlen b -> zlen (moved s a b) = zlen a.
Proof. intros s a b H. unfold zlen, moved in *. rewrite map_length, combine_length. lia. Qed.
Lemma get_moved : forall s a b i, zlen a = zlen b -> (0 <= i < zlen a)%Z -> get zero_mat (moved s a b) i = fun l v => get zero_mat a i l v + s * get zero_mat b i l v.
Proof.
  intros s a b i H Hi. unfold zlen, get, moved in *. assert (L : (Z.to_nat i < length a)%nat) by lia. assert (L2 : length a = length b) by lia. clear H Hi. revert b L L2. generalize (Z.to_nat i) as m.
  induction a as [|x a IH]; intros m [|y b] L L2; cbn in *; try lia. destruct m as [|m]; [reflexivity|]. apply IH; lia.
Qed.
Lemma same_iff : forall st N a b, supported st -> (N <= zlen a)%Z -> (N <= zlen b)%Z ->
  same_coefficients st N a b <-> forall i l v, (0 <= i < N)%Z -> (l < NDOF st - 1)%nat -> get zero_mat a i l v = get zero_mat b i l v.
Proof.
  intros st N a b HS La Lb. unfold same_coefficients. rewrite <- (ndof_rows st HS). split.
  - intros H i l v Hi Hl. destruct (H i Hi) as (x & y & Ex & Ey & V). rewrite (vget_get _ zero_mat _ _ _ Ex), (vget_get _ zero_mat _ _ _ Ey). auto.
  - intros H i Hi. exists (get zero_mat a i), (get zero_mat b i). split; [apply get_vget; lia|]. split; [apply get_vget; lia|]. auto.
Qed.

Section Along.
Variables (st : settings) (cells : list cell) (faces : list face) (inverse : mat -> mat) (nCell : Z) (u : list vec).
Variable FB : vec -> vec -> Z -> Z -> nat -> vec.
Variable FBD : vec -> vec -> vec -> Z -> Z -> nat -> vec.
Variables FT FTB : vec -> Z -> vec.
Variables uRec d : list mat.
Variable s : R.
Hypothesis HS : supported st.
Hypothesis KS : known_scale st.
Hypothesis HP : sound_periods st.
Hypothesis HM : sound_mesh st nCell cells faces.
Hypothesis LU : zlen u = zlen cells.
Hypothesis LR : zlen uRec = zlen cells.
Hypothesis LD : zlen d = zlen cells.
Hypothesis HT : linear_change FT.
Hypothesis HTB : linear_change FTB.
Hypothesis HA : along s FB FBD.
Notation n := (NDOF st - 1)%nat.
Notation cell_of := (the_cell cells).
Notation face_at := (the_face faces).
Notation rhs := (face_rhs st cells faces u FB FT FTB).
Notation rhs0 := (face_rhs st cells faces (u0 u) (FB0 st cells faces u FBD uRec) FT FTB).

Lemma turn_moved : forall f back (x y : vec) v, turn_vec st FT FTB f back (fun k => x k + s * y k) v = turn_vec st FT FTB f back x v + s * turn_vec st FT FTB f back y v.
Proof.
  intros f back x y v. unfold turn_vec. destruct (which_turn st f back); [reflexivity| |].
  - rewrite <- (Rmult_1_l (FT x (zone f) v)), <- HT. apply (f_equal (fun a => FT a (zone f) v)). apply functional_extensionality. intros. ring.
  - rewrite <- (Rmult_1_l (FTB x (zone f) v)), <- HTB. apply (f_equal (fun a => FTB a (zone f) v)). apply functional_extensionality. intros. ring.
Qed.
Lemma at_boundary_value : forall i k g w J x v, own_face cells nCell i k -> nth_error (points (face_at k)) g = Some (w, J, x) ->
  at_boundary st cells faces u uRec i k g v =
  sumn n (fun q => own_d st (cell_of i) (face_at k) (isback (face_at k) i) x q zero3 * get zero_mat uRec i q v) + get zero_vec u i v.
Proof.
  intros i k g w J x v HF N. destruct (own_face_ok st cells faces nCell HM i k HF) as [Ef Jf]. pose proof HM as ((B0 & B1) & _ & _). destruct HF as [Hi _].
  unfold at_boundary. rewrite N.
  destruct (own_values st cells (face_at k) i (cell_of i) 0 x HS HP (joins_side cells _ _ Jf)) as [D [ED HD]].
  1:{ apply get_vget; lia. } 1:{ apply (the_cell_sound st cells faces nCell HM); lia. } 1:{ lia. }
  rewrite rows_0 in ED, HD by (apply HS). rewrite ED. f_equal. unfold mmul. apply sumn_ext. intros q Hq. f_equal.
  apply (HD q Hq 0%nat zero3); [lia|]. destruct (proj1 HS) as [E|E]; rewrite E; reflexivity.
Qed.
Lemma rhs_moved : forall i k l v, own_face cells nCell i k ->
  rhs i k (moved s uRec d) (get zero_mat (moved s uRec d) i) l v = rhs i k uRec (get zero_mat uRec i) l v + s * rhs0 i k d (get zero_mat d i) l v.
Proof.
  intros i k l v HF. destruct (own_face_ok st cells faces nCell HM i k HF) as [Ef Jf]. pose proof HM as ((B0 & B1) & _ & _). pose proof HF as [Hi _].
  unfold face_rhs. cbv zeta. rewrite !get_u0. destruct (FaceIDIsExternalBC (zone (face_at k))) eqn:EX.
  - rewrite <- on_scal, <- on_plus. apply over_ext_numbered. intros g w J x N. rewrite <- product_scal_r, <- product_plus_r. apply product_agree_r. intros _ _.
    unfold bound_value. rewrite get_moved by lia. rewrite get_u0.
    set (BL := fun v => sumn n (fun q => own_d st (cell_of i) (face_at k) (isback (face_at k) i) x q zero3 * get zero_mat uRec i q v) + get zero_vec u i v).
    set (dBL := fun v => sumn n (fun q => own_d st (cell_of i) (face_at k) (isback (face_at k) i) x q zero3 * get zero_mat d i q v)).
    assert (E1 : (fun v => sumn n (fun q => own_d st (cell_of i) (face_at k) (isback (face_at k) i) x q zero3 * (get zero_mat uRec i q v + s * get zero_mat d i q v)) + get zero_vec u i v) = fun v => BL v + s * dBL v).
    { apply functional_extensionality. intros w'. unfold BL, dBL. rewrite <- sumn_scal.
      rewrite (sumn_ext n _ (fun q => own_d st (cell_of i) (face_at k) (isback (face_at k) i) x q zero3 * get zero_mat uRec i q w' + s * (own_d st (cell_of i) (face_at k) (isback (face_at k) i) x q zero3 * get zero_mat d i q w'))) by (intros; ring).
      rewrite sumn_plus. ring. }
    rewrite E1. rewrite (HA BL dBL). unfold FB0.
    assert (E2 : at_boundary st cells faces u uRec i k g = BL) by (apply functional_extensionality; intros w'; apply (at_boundary_value i k g w J x w' HF N)).
    rewrite E2. match goal with |- context [FBD BL ?X] => assert (E3 : X = dBL) by (apply functional_extensionality; intros w'; unfold dBL, zero_vec; ring); rewrite E3 end.
    unfold zero_vec. ring.
  - destruct (joins_inner cells _ _ Jf EX) as (HO & Hne & HF2). rewrite get_moved by lia. rewrite (turn_zero st FT FTB HT HTB). change (zero_vec v) with 0.
    match goal with |- sumn n ?F + _ = sumn n ?G + _ + _ * (sumn n ?H + _) => assert (ES : sumn n F = sumn n G + s * sumn n H) end.
    { rewrite <- sumn_scal, <- sumn_plus. apply sumn_ext. intros q Hq. unfold turn_rows. rewrite turn_moved. ring. }
    rewrite ES. ring.
Qed.
Lemma residual_moved : forall i K l v, (0 <= i < nCell)%Z ->
  residual st cells faces u FB FT FTB i K (moved s uRec d) l v = residual st cells faces u FB FT FTB i K uRec l v + s * residual st cells faces (u0 u) (FB0 st cells faces u FBD uRec) FT FTB i K d l v.
Proof.
  intros i K l v Hi. pose proof HM as ((B0 & B1) & _ & _). unfold residual.
  assert (ET : forall p q, total st cells faces u FB FT FTB i (moved s uRec d) (get zero_mat (moved s uRec d) i) p q =
    total st cells faces u FB FT FTB i uRec (get zero_mat uRec i) p q + s * total st cells faces (u0 u) (FB0 st cells faces u FBD uRec) FT FTB i d (get zero_mat d i) p q).
  { intros p q. unfold total. rewrite <- sum_over_scal, <- sum_over_plus. apply sum_over_ext. intros k Hk. apply rhs_moved. split; auto. }
  unfold mmul. rewrite (sumn_ext n (fun k => AInv K l k * total st cells faces u FB FT FTB i (moved s uRec d) (get zero_mat (moved s uRec d) i) k v)
    (fun k => AInv K l k * total st cells faces u FB FT FTB i uRec (get zero_mat uRec i) k v + s * (AInv K l k * total st cells faces (u0 u) (FB0 st cells faces u FBD uRec) FT FTB i d (get zero_mat d i) k v))) by (intros; rewrite ET; ring).
  rewrite sumn_plus, sumn_scal, get_moved by lia. ring.
Qed.
End Along.

Lemma record_len : forall st FB FT FTB nCell cells faces inverse Ks u uRec New N, supported st -> known_scale st -> sound_periods st -> sound_mesh st nCell cells faces ->
  are_coeffs st cells faces inverse nCell Ks -> zlen u = zlen cells -> zlen uRec = zlen cells -> zlen New = zlen cells ->
  DoReconstructionIter st FB FT FTB nCell cells faces Ks u true true false uRec New = Ok (uRec, N) -> zlen N = zlen cells.
Proof.
  intros st FB FT FTB nCell cells faces inverse Ks u uRec New N HS KS HP HM HK LU LR LN E.
  destruct (loop_new st cells faces inverse nCell u FB FT FTB HS KS HP HM LU Ks true uRec (upto nCell) New HK) as (N' & E' & L' & _); auto.
  { intros j Hj. apply in_upto in Hj. auto. } { apply nodup_upto. }
  unfold DoReconstructionIter in E. cbn [assert_ bind] in E. rewrite E' in E. cbn [bind] in E. injection E as <-. auto.
Qed.

Lemma difference_along : forall st inverse nCell cells faces Ks u uRec d FB FBD FT FTB s New,
  supported st -> known_scale st -> sound_periods st -> sound_mesh st nCell cells faces ->
  ConstructRecCoeff st inverse nCell cells faces = Ok Ks ->
  zlen u = zlen cells -> zlen uRec = zlen cells -> zlen d = zlen cells -> zlen New = zlen cells ->
  linear_change FT -> linear_change FTB -> along s FB FBD ->
  exists N Nd N',
    DoReconstructionIter st FB FT FTB nCell cells faces Ks u true true false uRec New = Ok (uRec, N) /\
    DoReconstructionIterDiff st FBD FT FTB nCell cells faces Ks u uRec d New = Ok Nd /\
    DoReconstructionIter st FB FT FTB nCell cells faces Ks u true true false (moved s uRec d) New = Ok (moved s uRec d, N') /\
    same_coefficients st nCell N' (moved s N Nd).
Proof.
  intros st inverse nCell cells faces Ks u uRec d FB FBD FT FTB s New HS KS HP HM EC LU LR LD LN HT HTB HA.
  pose proof (the_coeffs st inverse nCell cells faces Ks HS KS HP HM EC) as HK. pose proof HM as ((B0 & B1) & _ & _).
  assert (LMv : zlen (moved s uRec d) = zlen cells) by (rewrite zlen_moved; lia).
  destruct (record_ok st cells faces inverse nCell u FB FT FTB HS KS HP HM LU Ks uRec New HK LR LN) as [N [EN GN]].
  destruct (record_ok st cells faces inverse nCell u FB FT FTB HS KS HP HM LU Ks (moved s uRec d) New HK LMv LN) as [N' [EN' GN']].
  destruct (diff_ok st cells faces inverse nCell u FBD FT FTB uRec HS KS HP HM LU LR HT HTB Ks d New HK LD LN) as (Nd & ED & LNd & GD).
  exists N, Nd, N'. split; [exact EN|]. split; [exact ED|]. split; [exact EN'|].
  pose proof (record_len st FB FT FTB nCell cells faces inverse Ks u uRec New N HS KS HP HM HK LU LR LN EN) as L1.
  pose proof (record_len st FB FT FTB nCell cells faces inverse Ks u (moved s uRec d) New N' HS KS HP HM HK LU LMv LN EN') as L2.
  apply same_iff; auto; [lia|rewrite zlen_moved; lia|]. intros i l v Hi Hl. rewrite get_moved by lia. rewrite GN', GN, GD by auto.
  apply (residual_moved st cells faces nCell u FB FBD FT FTB uRec d s); auto.
Qed.

(** The step: a solution of the linear problem. *)
Lemma solved_step : forall st inverse nCell cells faces Ks u uRec d FB FBD FT FTB New N Nd,
  supported st -> known_scale st -> sound_periods st -> sound_mesh st nCell cells faces ->
  ConstructRecCoeff st inverse nCell cells faces = Ok Ks ->
  zlen u = zlen cells -> zlen uRec = zlen cells -> zlen d = zlen cells -> zlen New = zlen cells ->
  linear_change FT -> linear_change FTB -> along (-1) FB FBD ->
  (SORInstead st = true -> prescribed_or_none FB nCell cells faces) ->
  DoReconstructionIter st FB FT FTB nCell cells faces Ks u true true false uRec New = Ok (uRec, N) ->
  DoReconstructionIterDiff st FBD FT FTB nCell cells faces Ks u uRec d New = Ok Nd ->
  same_coefficients st nCell Nd N ->
  fixed_point st nCell (moved (-1) uRec d) (fun into record => DoReconstructionIter st FB FT FTB nCell cells faces Ks u into record false (moved (-1) uRec d) New).
Proof.
  intros st inverse nCell cells faces Ks u uRec d FB FBD FT FTB New N Nd HS KS HP HM EC LU LR LD LN HT HTB HA HW EN ED SC.
  pose proof (the_coeffs st inverse nCell cells faces Ks HS KS HP HM EC) as HK. pose proof HM as ((B0 & B1) & _ & _).
  assert (LMv : zlen (moved (-1) uRec d) = zlen cells) by (rewrite zlen_moved; lia).
  destruct (record_ok st cells faces inverse nCell u FB FT FTB HS KS HP HM LU Ks uRec New HK LR LN) as [N1 [EN1 GN]]. rewrite EN in EN1. injection EN1 as <-.
  destruct (diff_ok st cells faces inverse nCell u FBD FT FTB uRec HS KS HP HM LU LR HT HTB Ks d New HK LD LN) as (Nd1 & ED1 & LNd & GD). rewrite ED in ED1. injection ED1 as <-.
  pose proof (record_len st FB FT FTB nCell cells faces inverse Ks u uRec New N HS KS HP HM HK LU LR LN EN) as L1.
  pose proof (proj1 (same_iff st nCell Nd N HS ltac:(lia) ltac:(lia)) SC) as SC'. clear SC.
  destruct (solution_fixed st inverse nCell cells faces Ks u (moved (-1) uRec d) FB FT FTB HS KS HP HM LU LMv HK HW) with (New := New) as [A B]; auto; [|split; auto].
  intros i Hi l v Hl. pose proof (residual_moved st cells faces nCell u FB FBD FT FTB uRec d (-1) HS HP HM LR LD HT HTB HA i (K_of Ks i) l v Hi) as R.
  rewrite <- GD, <- GN in R by auto. rewrite (SC' i l v Hi Hl) in R. unfold residual in R. lra.
Qed.

(** Relaxation. *)
Lemma quiet_own : forall st FBD nCell cells faces, sound_mesh st nCell cells faces -> quiet_or_none FBD nCell cells faces ->
  (forall a b c ui i k g, FBD a b ui i k g = FBD a c ui i k g) \/ forall i, (0 <= i < nCell)%Z -> own_inside cells faces nCell i.
Proof. intros st FBD nCell cells faces HM [Q|Q]; [left; exact Q|right]. intros i Hi k HF. apply (Q i k). apply (own_face_of st cells faces nCell HM i k HF). Qed.
Lemma relaxation_fixed : forall st inverse nCell cells faces Ks u uRec inc x FBD FT FTB (reverse : bool) New,
  supported st -> known_scale st -> sound_periods st -> sound_mesh st nCell cells faces ->
  ConstructRecCoeff st inverse nCell cells faces = Ok Ks ->
  zlen u = zlen cells -> zlen uRec = zlen cells -> zlen inc = zlen cells -> zlen x = zlen cells -> zlen New = zlen cells ->
  linear_change FT -> linear_change FTB -> quiet_or_none FBD nCell cells faces ->
  exists x' Nd,
    DoReconstructionIterSOR st FBD FT FTB nCell cells faces Ks u reverse uRec inc x = Ok x' /\
    DoReconstructionIterDiff st FBD FT FTB nCell cells faces Ks u uRec x New = Ok Nd /\
    (same_coefficients st nCell x' x <->
     forall i c a b l v, vget cells i = Ok c -> (i < nCell)%Z -> vget Nd i = Ok a -> vget inc i = Ok b ->
       (l < rows_up_to (dim st) (maxOrder st) - 1)%nat -> relax c * a l v = b l v).
Proof.
  intros st inverse nCell cells faces Ks u uRec inc x FBD FT FTB reverse New HS KS HP HM EC LU LR LI LX LN HT HTB HQ.
  pose proof (the_coeffs st inverse nCell cells faces Ks HS KS HP HM EC) as HK. pose proof HM as ((B0 & B1) & _ & _).
  pose proof (sor_ok st cells faces inverse nCell u FBD FT FTB uRec HS KS HP HM LU LR HT HTB (quiet_own st FBD nCell cells faces HM HQ) Ks inc reverse x HK LX LI) as ES.
  destruct (diff_ok st cells faces inverse nCell u FBD FT FTB uRec HS KS HP HM LU LR HT HTB Ks x New HK LX LN) as (Nd & ED & LNd & GD).
  set (next := sor_next st cells faces u FBD FT FTB uRec Ks inc) in *.
  exists (through next (scan nCell reverse) x), Nd. split; [exact ES|]. split; [exact ED|].
  assert (NX : forall i r r', (0 <= i < nCell)%Z -> zlen r = zlen cells -> near (NDOF st - 1) r r' -> forall l v, (l < NDOF st - 1)%nat -> next i r' l v = next i r l v).
  { intros i r r' Hi L [L' A] l v Hl. unfold next, sor_next. rewrite (A i l v) by (auto; lia).
    rewrite (total_agree st cells faces nCell (u0 u) (FB0 st cells faces u FBD uRec) FT FTB HM i r r' (get zero_mat r i) (get zero_mat r' i)); auto.
    - split; [congruence|]. intros; apply A; auto. lia.
    - intros; apply A; auto. lia. }
  rewrite same_iff; [|auto|rewrite through_zlen; lia|lia].
  assert (ST : (forall i l v, (0 <= i < nCell)%Z -> (l < NDOF st - 1)%nat -> get zero_mat (through next (scan nCell reverse) x) i l v = get zero_mat x i l v) <-> forall i, (0 <= i < nCell)%Z -> stays (NDOF st - 1) next x i).
  { split.
    - intros H i Hi. apply (stays_through nCell (zlen cells) (NDOF st - 1) next B1 NX (scan nCell reverse) x LX (nodup_scan nCell reverse)).
      + intros j Hj. apply in_scan in Hj. auto.
      + split; [apply through_zlen|]. intros j l v Hj Hl. destruct (Z_lt_dec j nCell) as [Lt|Ge]; [apply H; auto; lia|].
        rewrite through_other; [reflexivity|lia| |]; [intros p Hp; apply in_scan in Hp; lia|]. intros X. apply in_scan in X. lia.
      + apply in_scan. auto.
    - intros H i l v Hi Hl. apply (through_stays nCell (zlen cells) (NDOF st - 1) next B1 NX (scan nCell reverse) x LX); auto; [| |lia]; intros j Hj; apply in_scan in Hj; auto. }
  rewrite ST.
  assert (EQ : forall i l v, (0 <= i < nCell)%Z -> next i x l v - get zero_mat x i l v = get zero_mat inc i l v - relax (the_cell cells i) * get zero_mat Nd i l v).
  { intros i l v Hi. rewrite GD by auto. unfold next, sor_next, residual. ring. }
  rewrite <- (ndof_rows st HS). split.
  - intros H i c a b l v Ec Hi Ea Eb Hl. assert (Hi' : (0 <= i < nCell)%Z) by (apply vget_Ok in Ec; lia).
    specialize (H i Hi' l v Hl). specialize (EQ i l v Hi'). rewrite H in EQ.
    rewrite (vget_get _ zero_mat _ _ _ Ea), (vget_get _ zero_mat _ _ _ Eb) in EQ. unfold the_cell in EQ. rewrite (vget_get _ none _ _ _ Ec) in EQ. lra.
  - intros H i Hi l v Hl. specialize (EQ i l v Hi).
    rewrite <- (H i (the_cell cells i) (get zero_mat Nd i) (get zero_mat inc i) l v) in EQ; auto; try (apply get_vget; lia); [lra|lia].
Qed.

(** *** the product with A is symmetric *)
Section Symmetric.
Variables (st : settings) (cells : list cell) (faces : list face) (inverse : mat -> mat) (u : list vec).
Variable FBD : vec -> vec -> vec -> Z -> Z -> nat -> vec.
Variables FT FTB : vec -> Z -> vec.
Variable uRec : list mat.
Variable Ks : list coeff.
Hypothesis HS : supported st.
Hypothesis KS : known_scale st.
Hypothesis NP : isPeriodic st = false.
Hypothesis HM : sound_mesh st (zlen cells) cells faces.
Hypothesis HW : whole_mesh cells faces.
Hypothesis HR : positive_rules faces.
Hypothesis EC : ConstructRecCoeff st inverse (zlen cells) cells faces = Ok Ks.
Hypothesis HI : forall K, In K Ks -> inverted st K /\ inverted_right st K.
Hypothesis LU : zlen u = zlen cells.
Hypothesis LR : zlen uRec = zlen cells.
Hypothesis HT : linear_change FT.
Hypothesis HTB : linear_change FTB.
Hypothesis HB : forall a b ui i k g v, FBD a b ui i k g v = 0.
Notation n := (NDOF st - 1)%nat.
Definition nowall (_ : Z) (_ : nat) : vec := zero_vec.
Notation gr := (grad st cells faces (u0 u) nowall).
Definition parts (y : list mat) (v : nat) (i : Z) (l : nat) : R := get zero_mat y i l v.

Lemma given0 : given (FB0 st cells faces u FBD uRec) nowall.
Proof. intros a ui i k g v. unfold FB0. rewrite HB. reflexivity. Qed.
Lemma jmp0 : forall x k g v p m, jmp st cells faces (u0 u) nowall x k g v p m = jlin st cells faces (parts x v) k p m.
Proof.
  intros x k g v p m. unfold jmp, jlin, recD, uval, wval, nowall. rewrite !get_u0. unfold zero_vec. destruct (ext faces k), (Nat.eqb (order_of m) 0); unfold parts; ring.
Qed.
Lemma cross0_sym : forall x y v, cross st cells faces (u0 u) nowall x v (parts y v) = cross st cells faces (u0 u) nowall y v (parts x v).
Proof.
  intros x y v. unfold cross. apply sum_seq_map. intros k. apply on_ext. intros g p. unfold prod.
  rewrite (product_agree_r st _ _ (jmp st cells faces (u0 u) nowall y k g v p) _ (jmp st cells faces (u0 u) nowall x k g v p)) by (intros; symmetry; apply jmp0).
  rewrite (product_agree_r st _ _ (jmp st cells faces (u0 u) nowall x k g v p) _ (jmp st cells faces (u0 u) nowall y k g v p)) by (intros; symmetry; apply jmp0).
  apply product_sym.
Qed.
Lemma cross0_pos : forall x v, 0 <= cross st cells faces (u0 u) nowall x v (parts x v).
Proof.
  intros x v. assert (E : cross st cells faces (u0 u) nowall x v (parts x v) = quad st cells faces (parts x v)).
  { unfold cross, quad. apply sum_seq_map. intros k. apply on_ext. intros g p. unfold prod. apply product_ext; intros; [apply jmp0|reflexivity]. }
  rewrite E. apply quad_nonneg; auto.
Qed.
Lemma A_residual : forall x i l v, (0 <= i < zlen cells)%Z -> (l < n)%nat ->
  mmul n (matA (K_of Ks i)) (residual st cells faces (u0 u) (FB0 st cells faces u FBD uRec) FT FTB i (K_of Ks i) x) l v = gr x v i l.
Proof.
  intros x i l v Hi Hl. assert (HP : sound_periods st) by (intros X; congruence). pose proof (the_coeffs st inverse (zlen cells) cells faces Ks HS KS HP HM EC) as HK.
  rewrite (grad_eq st cells faces (u0 u) (FB0 st cells faces u FBD uRec) FT FTB nowall HS NP HW given0 x v i l Hi).
  destruct (coeffs_at st cells faces inverse (zlen cells) Ks i HK Hi) as [_ [HA _]].
  unfold residual, mmul at 1. rewrite (sumn_ext n _ (fun q => matA (K_of Ks i) l q * get zero_mat x i q v +
    (-1) * (matA (K_of Ks i) l q * sumn n (fun p => AInv (K_of Ks i) q p * total st cells faces (u0 u) (FB0 st cells faces u FBD uRec) FT FTB i x (get zero_mat x i) p v)))) by (intros; unfold mmul; ring).
  rewrite sumn_plus, sumn_scal, matvec; auto.
  - rewrite (sumn_ext n _ (fun q => A_of st cells faces i l q * get zero_mat x i q v)) by (intros; rewrite HA by (split; auto); reflexivity). ring.
  - intros a b Ha Hb. assert (IN : In (K_of Ks i) Ks) by (apply (K_in st cells faces inverse u Ks HK i Hi)). destruct (HI _ IN) as [_ IR].
    unfold inverted_right in IR. rewrite <- (ndof_rows st HS) in IR. apply IR; auto.
Qed.
Lemma dot_cells : forall x y v, zlen x = zlen cells -> zlen y = zlen cells -> dot st x y v = sum_over (upto (zlen cells)) (fun i => sumn n (fun l => get zero_mat x i l v * get zero_mat y i l v)).
Proof.
  intros x y v Lx Ly. unfold dot. rewrite <- (ndof_rows st HS). unfold zlen, upto, get in *.
  rewrite <- Lx, Nat2Z.id. assert (L : length x = length y) by lia. clear Lx Ly.
  assert (G : forall m, sum_over (combine x y) (fun '(a, b) => sumn n (fun l => a l v * b l v)) =
    sum_over (map Z.of_nat (seq m (length x))) (fun i => sumn n (fun l => nth (Z.to_nat i - m) x zero_mat l v * nth (Z.to_nat i - m) y zero_mat l v))).
  { revert y L. induction x as [|a x IH]; intros [|b y] L m; cbn in L; try lia; auto. cbn [combine length seq map]. rewrite !sum_cons. f_equal.
    - rewrite Nat2Z.id, Nat.sub_diag. reflexivity.
    - rewrite (IH y ltac:(lia) (S m)). apply sum_over_ext. intros i Hi. apply in_map_iff in Hi. destruct Hi as [p [<- Hp]]. apply in_seq in Hp. rewrite Nat2Z.id.
      replace (p - m)%nat with (S (p - S m)) by lia. reflexivity. }
  rewrite (G 0%nat). apply sum_seq_map. intros i. rewrite Nat.sub_0_r. reflexivity.
Qed.
Lemma operator_ok : forall x New, zlen x = zlen cells -> zlen New = zlen cells -> exists Nd Ax,
  DoReconstructionIterDiff st FBD FT FTB (zlen cells) cells faces Ks u uRec x New = Ok Nd /\ MatrixAMult st Ks Nd = Ok Ax /\ zlen Ax = zlen cells /\
  forall i l v, (0 <= i < zlen cells)%Z -> (l < n)%nat -> get zero_mat Ax i l v = gr x v i l.
Proof.
  intros x New LX LN. assert (HP : sound_periods st) by (intros X; congruence). pose proof (the_coeffs st inverse (zlen cells) cells faces Ks HS KS HP HM EC) as HK.
  destruct (diff_ok st cells faces inverse (zlen cells) u FBD FT FTB uRec HS KS HP HM LU LR HT HTB Ks x New HK LX LN) as (Nd & ED & LNd & GD).
  assert (LK : zlen Ks = zlen cells) by apply HK.
  exists Nd, (map (fun '(K, x) => mmul n (matA K) x) (combine Ks Nd)). split; [exact ED|]. split.
  - unfold MatrixAMult. replace (zlen Ks =? zlen Nd)%Z with true by (symmetry; apply Z.eqb_eq; congruence). reflexivity.
  - split; [unfold zlen in *; rewrite map_length, combine_length; lia|]. intros i l v Hi Hl. rewrite <- A_residual by auto. rewrite <- GD by auto.
    apply (f_equal (fun g : mat => g l v)). unfold K_of, get, zlen in *. assert (L : (Z.to_nat i < length Ks)%nat) by lia. assert (L2 : length Ks = length Nd) by lia.
    clear - L L2. revert Nd L2 L. generalize (Z.to_nat i) as m. induction Ks as [|K Ks' IH]; intros m [|y Nd] L2 L; cbn in *; try lia. destruct m; auto. apply IH; lia.
Qed.
Lemma operator_symmetric : forall x y New Nx Ny Ax Ay v, zlen x = zlen cells -> zlen y = zlen cells -> zlen New = zlen cells ->
  DoReconstructionIterDiff st FBD FT FTB (zlen cells) cells faces Ks u uRec x New = Ok Nx -> MatrixAMult st Ks Nx = Ok Ax ->
  DoReconstructionIterDiff st FBD FT FTB (zlen cells) cells faces Ks u uRec y New = Ok Ny -> MatrixAMult st Ks Ny = Ok Ay ->
  dot st y Ax v = dot st x Ay v /\ 0 <= dot st x Ax v.
Proof.
  intros x y New Nx Ny Ax Ay v LX LY LN E1 E2 E3 E4.
  destruct (operator_ok x New LX LN) as (Nx' & Ax' & E1' & E2' & LAx & GX). rewrite E1 in E1'. injection E1' as <-. rewrite E2 in E2'. injection E2' as <-.
  destruct (operator_ok y New LY LN) as (Ny' & Ay' & E3' & E4' & LAy & GY). rewrite E3 in E3'. injection E3' as <-. rewrite E4 in E4'. injection E4' as <-.
  assert (D : forall a b Ab, zlen a = zlen cells -> zlen Ab = zlen cells -> (forall i l v, (0 <= i < zlen cells)%Z -> (l < n)%nat -> get zero_mat Ab i l v = gr b v i l) ->
    dot st a Ab v = cross st cells faces (u0 u) nowall b v (parts a v)).
  { intros a b Ab La Lb G. rewrite dot_cells by auto. rewrite (cross_grad st cells faces (u0 u) nowall HW). apply sum_over_ext. intros i Hi. apply in_upto in Hi.
    apply sumn_ext. intros l Hl. rewrite G by auto. reflexivity. }
  rewrite (D y x Ax), (D x y Ay), (D x x Ax) by auto. split; [apply cross0_sym|apply cross0_pos].
Qed.
End Symmetric.
