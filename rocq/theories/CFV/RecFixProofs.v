(** Reconstructions that are the same on both sides of the faces are left alone. *)
From Coq Require Import List ZArith Reals Bool Lia Lra FunctionalExtensionality.
From Verif Require Import Base.Prelude Base.PreludeFacts Geom.AdjModel Geom.BoundaryModel Geom.BoundaryProofs Geom.PeriodicModel Geom.PeriodicSpec Geom.PeriodicProofs
  Geom.BaseFnModel Geom.BaseFnSpec Geom.DiffTensorModel Geom.DiffTensorSpec Geom.DiffTensorProofs Geom.DiffTensorNormProofs
  CFV.RecModel CFV.RecSpec CFV.RecPolyProofs CFV.RecBaseProofs CFV.RecMeanProofs CFV.RecFunProofs CFV.RecCoefProofs CFV.RecIterProofs.
Import ListNotations.
Local Open Scope R_scope.

Lemma brought_turn : forall st FT FB f i w, brought st FT FB f i w = turn_vec st FT FB f (isback f i) w.
Proof.
  intros st FT FB f i w. unfold brought, turn_vec, which_turn, isback. destruct (isPeriodic st); cbn [negb andb]; auto.
  destruct (periodic_split (zone f)) as (_ & U & X & _). destruct (FaceIDIsPeriodic (zone f));
  destruct (FaceIDIsPeriodicMain (zone f)), (FaceIDIsPeriodicDonor (zone f)); try discriminate; destruct (f2c0 f =? i)%Z; reflexivity.
Qed.
Lemma seen_across : forall st f i x, sound_periods st -> yields (seen_from st f i (across st f (isback f i) x)) (fun x' => same_vec 3 x' x).
Proof.
  intros st f i x HP. unfold seen_from, across, which_turn, isback. destruct (isPeriodic st) eqn:E; cbn [negb].
  2:{ exists x. split; auto. apply same_vec_refl. }
  destruct (HP E) as [W _]. unfold GetOtherCellPointFromCell.
  destruct (periodic_split (zone f)) as (_ & U & X & _). destruct (FaceIDIsPeriodic (zone f)) eqn:P; cbn [negb].
  - destruct (coord_slots _ _ W P) as (Q & o & t & O & F & B).
    destruct (FaceIDIsPeriodicMain (zone f)), (FaceIDIsPeriodicDonor (zone f)); try discriminate; destruct (f2c0 f =? i)%Z; cbn [negb andb orb Z.eqb Pos.eqb];
      rewrite ?F, ?B; rewrite ?F, ?B; eexists; (split; [reflexivity|]); first [apply fwd_bwd; exact O|apply bwd_fwd; exact O].
  - destruct (FaceIDIsPeriodicMain (zone f)); [discriminate|]. destruct (FaceIDIsPeriodicDonor (zone f)); [discriminate|].
    rewrite !andb_false_r. cbn [orb]. exists x. split; auto. apply same_vec_refl.
Qed.
Lemma combine_at : forall A (l : list A) m e k, In (e, k) (combine (seq m (length l)) l) -> nth_error l (e - m) = Some k /\ (m <= e)%nat.
Proof.
  intros A l. induction l as [|x l IH]; intros m e k H; cbn [length seq combine] in H; [destruct H|].
  destruct H as [E|H]; [injection E as <- <-; rewrite Nat.sub_diag; auto|]. destruct (IH (S m) e k H) as [N L].
  replace (e - m)%nat with (S (e - S m)) by lia. split; auto. lia.
Qed.
Lemma over_numbered_plain : forall rule g, over_numbered rule (fun _ x => g x) = over_rule rule g.
Proof.
  intros rule g. unfold over_numbered, over_rule. generalize 0%nat as m. induction rule as [|[[w J] x] rule IH]; intros m; cbn [length seq combine]; auto.
  rewrite !sum_cons. rewrite IH. reflexivity.
Qed.
Lemma over_ext_numbered : forall rule g h, (forall iG w J x, nth_error rule iG = Some (w, J, x) -> g iG x = h iG x) -> over_numbered rule g = over_numbered rule h.
Proof.
  intros rule g h H. unfold over_numbered. apply sum_over_ext. intros [iG [[w J] x]] HI. destruct (combine_at _ _ _ _ _ HI) as [N _]. rewrite Nat.sub_0_r in N.
  rewrite (H iG w J x N). reflexivity.
Qed.
Lemma linear_sum : forall F z v, linear_change F -> forall n a (x : nat -> vec) (y : vec),
  F (fun k => y k + sumn n (fun q => a q * x q k)) z v = F y z v + sumn n (fun q => a q * F (x q) z v).
Proof.
  intros F z v HL n a x y. induction n as [|n IH]; cbn [sumn].
  - rewrite Rplus_0_r. apply (f_equal (fun g => F g z v)). apply functional_extensionality. intros. ring.
  - assert (E : (fun k => y k + (sumn n (fun q => a q * x q k) + a n * x n k)) = (fun k => 1 * (y k + sumn n (fun q => a q * x q k)) + a n * x n k))
      by (apply functional_extensionality; intros; ring).
    rewrite E, (HL 1 (a n) (fun k => y k + sumn n (fun q => a q * x q k)) (x n)), IH. ring.
Qed.

Section Fix.
Variables (st : settings) (cells : list cell) (faces : list face) (inverse : mat -> mat) (nCell : Z) (u : list vec).
Variable FBoundary : vec -> vec -> Z -> Z -> nat -> vec.
Variables FTransPeriodic FTransPeriodicBack : vec -> Z -> vec.
Hypothesis HS : supported st.
Hypothesis KS : known_scale st.
Hypothesis HP : sound_periods st.
Hypothesis HM : sound_mesh st nCell cells faces.
Hypothesis LU : zlen u = zlen cells.
Hypothesis HT : linear_change FTransPeriodic.
Hypothesis HTB : linear_change FTransPeriodicBack.
Variable uRec : list mat.
Hypothesis LR : zlen uRec = zlen cells.
Hypothesis MI : matching_inside st FTransPeriodic FTransPeriodicBack nCell cells faces u uRec.
Hypothesis MO : matching_outside st FBoundary nCell cells faces u uRec.

Notation n := (NDOF st - 1)%nat.
Notation the_cell := (RecIterProofs.the_cell cells).
Notation the_face := (RecIterProofs.the_face faces).
Notation rhs := (face_rhs st cells faces u FBoundary FTransPeriodic FTransPeriodicBack).
Notation own_face := (RecIterProofs.own_face cells nCell).

Lemma own_face_of : forall i k, own_face i k -> face_of nCell cells faces i k (the_face k).
Proof.
  intros i k HF. destruct (own_face_ok st cells faces nCell HM i k HF) as [Ef _]. destruct HF as [Hi Hk]. destruct HM as ((B0 & B1) & _).
  split; auto. exists (the_cell i). split; [apply get_vget; lia|auto].
Qed.
Lemma recon : forall i v x, (0 <= i < zlen cells)%Z -> reconstruction st cells u uRec i v x =
  get zero_vec u i v + sumn n (fun q => get zero_mat uRec i q v * value_at (base_fn st (the_cell i) (S q)) x).
Proof.
  intros i v x Hi. unfold reconstruction. rewrite (get_vget _ none cells), (get_vget _ zero_vec u), (get_vget _ zero_mat uRec) by lia.
  unfold value_at, rec_fn. rewrite <- ndof_rows by auto. reflexivity.
Qed.
Lemma turn_sum : forall f back m (a : nat -> R) (x : nat -> vec) (y : vec) v,
  turn_vec st FTransPeriodic FTransPeriodicBack f back (fun k => y k + sumn m (fun q => a q * x q k)) v =
  turn_vec st FTransPeriodic FTransPeriodicBack f back y v + sumn m (fun q => a q * turn_vec st FTransPeriodic FTransPeriodicBack f back (x q) v).
Proof. intros. unfold turn_vec. destruct (which_turn st f back); [reflexivity|apply linear_sum; auto|apply linear_sum; auto]. Qed.

(** The jump of the derivatives across an inner face. *)
Lemma no_jump : forall i k x v m, own_face i k -> FaceIDIsExternalBC (zone (the_face k)) = false ->
  let f := the_face k in let back := isback f i in let j := other f i in
  sumn n (fun q => get zero_mat uRec i q v * own_d st (the_cell i) f back x q m) =
  sumn n (fun q => turn_rows st FTransPeriodic FTransPeriodicBack f back (get zero_mat uRec j) q v * other_d st (the_cell j) f back x q m) +
  (if Nat.eqb (order_of m) 0 then turn_vec st FTransPeriodic FTransPeriodicBack f back (get zero_vec u j) v - get zero_vec u i v else 0).
Proof.
  intros i k x v m HF EX f back j. destruct (own_face_ok st cells faces nCell HM i k HF) as [Ef Jf]. fold f in Jf.
  destruct (joins_inner cells f i Jf EX) as (HO & Hne & _). fold j in HO. destruct HM as ((B0 & B1) & _).
  unfold own_d, other_d, value_at. rewrite <- !dpeval_sum, <- (dpeval_const _ _ (in_frame st f back x 0%nat) (in_frame st f back x 1%nat) (in_frame st f back x 2%nat)), <- dpeval_app.
  apply dpeval_unique. intros X Y Z. rewrite peval_app, !peval_dpeval, !dpeval_sum, dpeval_const. cbn [order_of zero3 Nat.add Nat.eqb].
  rewrite (sumn_ext n _ (fun q => get zero_mat uRec i q v * base_fn st (the_cell i) (S q) X Y Z)) by (intros; rewrite <- peval_dpeval, bpoly_eval; reflexivity).
  set (y := across st f back (point X Y Z)).
  match goal with |- _ = sumn n ?G + _ => rewrite (sumn_ext n G (fun q => value_at (base_fn st (the_cell j) (S q)) y * turn_rows st FTransPeriodic FTransPeriodicBack f back (get zero_mat uRec j) q v)) end.
  2:{ intros q _. rewrite <- peval_dpeval, pcomp_eval, !xpoly_eval, bpoly_eval by auto. unfold value_at, y. cbn [number_of]. ring. }
  destruct (seen_across st f i (point X Y Z) HP) as [x' [E SV]]. fold back in E. fold y in E.
  destruct (MI i k f (own_face_of i k HF) EX y v) as [x'' [E' R]]. rewrite E in E'. injection E' as <-.
  rewrite recon in R by (destruct HF; lia). change (neighbour f i) with j in R. rewrite brought_turn in R. fold back in R.
  rewrite (functional_extensionality (fun w => reconstruction st cells u uRec j w y)
     (fun w => get zero_vec u j w + sumn n (fun q => value_at (base_fn st (the_cell j) (S q)) y * get zero_mat uRec j q w))) in R.
  2:{ intros w. rewrite recon by auto. f_equal. apply sumn_ext. intros. ring. }
  rewrite turn_sum in R.
  rewrite (sumn_ext n _ (fun q => get zero_mat uRec i q v * base_fn st (the_cell i) (S q) X Y Z)) in R.
  2:{ intros q _. f_equal. unfold value_at. rewrite !SV by lia. reflexivity. }
  unfold turn_rows. lra.
Qed.

Lemma rhs_exact : forall i k l v, own_face i k -> (l < n)%nat ->
  rhs i k uRec (get zero_mat uRec i) l v = sumn n (fun q => face_A st (the_cell i) (the_face k) (isback (the_face k) i) l q * get zero_mat uRec i q v).
Proof.
  intros i k l v HF Hl. pose proof (own_face_ok st cells faces nCell HM i k HF) as [Ef Jf].
  set (f := the_face k). set (back := isback f i). fold f in Jf.
  assert (EA : sumn n (fun q => face_A st (the_cell i) f back l q * get zero_mat uRec i q v) =
    over_rule (points f) (fun x => product st f (maxOrder st) (own_d st (the_cell i) f back x l) (fun m => sumn n (fun q => get zero_mat uRec i q v * own_d st (the_cell i) f back x q m)))).
  { unfold face_A. rewrite (sumn_ext n _ (fun q => over_rule (points f) (fun x => get zero_mat uRec i q v * product st f (maxOrder st) (own_d st (the_cell i) f back x l) (own_d st (the_cell i) f back x q)))).
    - rewrite <- over_sumn. apply over_ext. intros x. symmetry. apply (product_sumn_r st f (maxOrder st) n (own_d st (the_cell i) f back x l) (fun q => own_d st (the_cell i) f back x q)).
    - intros q _. rewrite over_scal. ring. }
  rewrite EA. clear EA. unfold face_rhs. fold f. fold back. cbv zeta. destruct (FaceIDIsExternalBC (zone f)) eqn:EX.
  - destruct (MO i k f (own_face_of i k HF) EX) as [W0 PB].
    rewrite (over_ext (points f) _ (fun x => product st f 0 (own_d st (the_cell i) f back x l) (fun m => sumn n (fun q => get zero_mat uRec i q v * own_d st (the_cell i) f back x q m))))
      by (intros x; apply product_weights; auto).
    rewrite <- over_numbered_plain. apply over_ext_numbered. intros iG w J x N. rewrite !product_0.
    destruct (Req_dec (weight f 0%nat) 0) as [Z0|NZ]; [rewrite Z0; ring|]. f_equal. f_equal.
    assert (HI : (0 <= i < zlen cells)%Z) by (destruct HF; destruct HM as ((B0 & B1) & _); lia).
    assert (EB : back = true).
    { unfold back, isback. unfold joins in Jf. rewrite EX in Jf. destruct Jf as [-> _]. apply Z.eqb_refl. }
    assert (NP : in_frame st f back x = x).
    { rewrite EB. unfold in_frame, GetFacePointFromCell. destruct (isPeriodic st); auto. destruct (FaceIDIsPeriodic (zone f)); reflexivity. }
    assert (OD : forall q, own_d st (the_cell i) f back x q zero3 = value_at (base_fn st (the_cell i) (S q)) x).
    { intros q. unfold own_d. rewrite NP. unfold value_at. rewrite <- peval_dpeval. apply bpoly_eval. }
    unfold bound_value. fold f. fold back.
    rewrite (functional_extensionality (fun v0 => sumn n (fun q => own_d st (the_cell i) f back x q zero3 * get zero_mat uRec i q v0) + get zero_vec u i v0)
              (fun v0 => reconstruction st cells u uRec i v0 x)).
    + rewrite (PB iG w J x (get zero_vec u i) v N) by (auto; apply get_vget; lia).
      rewrite recon by auto. change (0, 0, 0)%nat with zero3. rewrite (sumn_ext n (fun q => get zero_mat uRec i q v * own_d st (the_cell i) f back x q zero3) (fun q => get zero_mat uRec i q v * value_at (base_fn st (the_cell i) (S q)) x)) by (intros; rewrite OD; reflexivity). ring.
    + intros v0. rewrite recon by auto. rewrite Rplus_comm. f_equal. apply sumn_ext. intros q _. rewrite OD. ring.
  - set (j := other f i). unfold face_B, face_b.
    rewrite (sumn_ext n _ (fun q => over_rule (points f) (fun x => turn_rows st FTransPeriodic FTransPeriodicBack f back (get zero_mat uRec j) q v * product st f (maxOrder st) (own_d st (the_cell i) f back x l) (other_d st (the_cell j) f back x q)))).
    2:{ intros q _. rewrite over_scal. ring. }
    rewrite <- over_sumn. rewrite Rmult_comm, <- over_scal, <- over_plus. apply over_ext. intros x.
    rewrite <- (product_scal_r st f 0).
    rewrite (product_agree_r st f 0 _ _ (fun m => if Nat.eqb (order_of m) 0 then turn_vec st FTransPeriodic FTransPeriodicBack f back (get zero_vec u j) v - get zero_vec u i v else 0)).
    2:{ intros m Hm. destruct (Nat.eqb_spec (order_of m) 0); [ring|lia]. }
    rewrite <- (product_value st f (maxOrder st)).
    2:{ intros m Hm. destruct (Nat.eqb_spec (order_of m) 0); [lia|reflexivity]. }
    rewrite <- (product_sumn_r st f (maxOrder st) n (own_d st (the_cell i) f back x l) (fun q => other_d st (the_cell j) f back x q)), <- product_plus_r.
    apply product_agree_r. intros m _. symmetry. apply (no_jump i k x v m HF EX).
Qed.

Lemma matching_solves : forall Ks, are_coeffs st cells faces inverse nCell Ks -> (forall K, In K Ks -> inverted st K) ->
  solves st cells faces nCell u FBoundary FTransPeriodic FTransPeriodicBack Ks uRec.
Proof.
  intros Ks HK HI i Hi l v Hl. destruct (coeffs_at st cells faces inverse nCell Ks i HK Hi) as [EK (HA & _)].
  assert (IK : inverted st (K_of Ks i)) by (apply HI; apply vget_Ok in EK; eapply nth_error_In; apply EK).
  unfold inverted in IK. rewrite <- ndof_rows in IK by auto.
  rewrite (mmul_ext n (AInv (K_of Ks i)) (AInv (K_of Ks i)) _ (mmul n (matA (K_of Ks i)) (get zero_mat uRec i)) l v); auto.
  - rewrite <- mmul_assoc. rewrite (mmul_ext n _ kron _ (get zero_mat uRec i) l v); auto. apply mmul_kron_l. auto.
  - intros p Hp. unfold total. rewrite (sum_over_ext _ _ _ (fun k => sumn n (fun q => face_A st (the_cell i) (the_face k) (isback (the_face k) i) p q * get zero_mat uRec i q v))).
    2:{ intros k Hk. apply rhs_exact; auto. split; auto. }
    unfold mmul. rewrite (sumn_ext n _ (fun q => A_of st cells faces i p q * get zero_mat uRec i q v)) by (intros q Hq; rewrite HA by (split; auto); reflexivity).
    unfold A_of. generalize (cell2face (the_cell i)) as ks. induction ks as [|k ks IH].
    + unfold sum_over. cbn [fold_right]. rewrite (sumn_ext n _ (fun _ => 0)) by (intros; ring). rewrite sumn_zero. reflexivity.
    + rewrite sum_cons, IH, <- sumn_plus. apply sumn_ext. intros q _. rewrite sum_cons. ring.
Qed.
End Fix.
