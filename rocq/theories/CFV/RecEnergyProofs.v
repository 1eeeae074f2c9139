(** The reconstruction minimises the jumps. *)
From Coq Require Import List ZArith Reals Bool Lia Lra FunctionalExtensionality Permutation.
From Verif Require Import Base.Prelude Base.PreludeFacts Geom.AdjModel Geom.BoundaryModel Geom.BoundaryProofs Geom.PeriodicModel Geom.PeriodicSpec Geom.PeriodicProofs
  Geom.BaseFnModel Geom.BaseFnSpec Geom.BaseFnProofs Geom.BaseFnTableProofs Geom.DiffTensorMapProofs Geom.DiffTensorModel Geom.DiffTensorSpec Geom.DiffTensorProofs Geom.DiffTensorLinProofs Geom.DiffTensorNormProofs Geom.DiffTensorInvProofs
  CFV.RecModel CFV.RecSpec CFV.RecPolyProofs CFV.RecBaseProofs CFV.RecMeanProofs CFV.RecFunProofs CFV.RecCoefProofs CFV.RecIterProofs CFV.RecFixProofs CFV.RecExactProofs.
Import ListNotations.
Local Open Scope R_scope.

(** *** sums *)
Lemma sum_over_perm : forall A (l l' : list A) f, Permutation l l' -> sum_over l f = sum_over l' f.
Proof. intros A l l' f P. unfold sum_over. induction P; cbn [fold_right]; lra. Qed.
Lemma sum_over_swap : forall A B (l : list A) (m : list B) f, sum_over l (fun a => sum_over m (f a)) = sum_over m (fun b => sum_over l (fun a => f a b)).
Proof.
  intros A B l m f. induction l as [|a l IH]; [symmetry; apply (sum_over_zero B m); intros; reflexivity|].
  rewrite sum_cons, IH, <- sum_over_plus. apply sum_seq_map. intros b. rewrite sum_cons. reflexivity.
Qed.
Lemma sum_filter : forall A (p : A -> bool) l f, sum_over (filter p l) f = sum_over l (fun a => if p a then f a else 0).
Proof. intros A p l f. induction l as [|a l IH]; [reflexivity|]. cbn [filter]. rewrite sum_cons, <- IH. destruct (p a); [apply sum_cons|ring]. Qed.
Lemma sum_one : forall (l : list Z) j g, NoDup l -> In j l -> sum_over l (fun i => if (j =? i)%Z then g i else 0) = g j.
Proof.
  intros l j g. induction l as [|i l IH]; intros ND H; [destruct H|]. inversion ND as [|? ? N ND']; subst. rewrite sum_cons. destruct H as [->|H].
  - rewrite Z.eqb_refl, sum_over_zero; [ring|]. intros x Hx. destruct (Z.eqb_spec j x) as [->|]; [contradiction|reflexivity].
  - rewrite IH by auto. destruct (Z.eqb_spec j i) as [->|]; [contradiction|ring].
Qed.
Lemma sum_listed : forall (l U : list Z) g, NoDup l -> NoDup U -> (forall k, In k l -> In k U) ->
  sum_over l g = sum_over U (fun k => if in_dec Z.eq_dec k l then g k else 0).
Proof.
  intros l U g N1 N2 H. rewrite (sum_over_ext _ U _ (fun k => if (fun k => if in_dec Z.eq_dec k l then true else false) k then g k else 0)).
  - rewrite <- sum_filter. apply sum_over_perm. apply NoDup_Permutation; auto; [apply NoDup_filter; auto|].
    intros k. rewrite filter_In. destruct (in_dec Z.eq_dec k l); split; intros HH; intuition (auto; try discriminate).
  - intros k _. destruct (in_dec Z.eq_dec k l); reflexivity.
Qed.
Lemma sumn_swap_over : forall A n (l : list A) f, sumn n (fun q => sum_over l (f q)) = sum_over l (fun a => sumn n (fun q => f q a)).
Proof.
  intros A n l f. induction l as [|a l IH]; [unfold sum_over; cbn; apply sumn_zero|]. rewrite sum_cons, <- IH, <- sumn_plus. apply sumn_ext. intros. apply sum_cons.
Qed.

(** *** products and sums over numbered points *)
Lemma on_plus : forall rule f g, over_numbered rule (fun iG x => f iG x + g iG x) = over_numbered rule f + over_numbered rule g.
Proof. intros. unfold over_numbered. rewrite <- sum_over_plus. apply sum_seq_map. intros [iG [[w J] x]]. ring. Qed.
Lemma on_scal : forall rule f c, over_numbered rule (fun iG x => c * f iG x) = c * over_numbered rule f.
Proof. intros. unfold over_numbered. rewrite <- sum_over_scal. apply sum_seq_map. intros [iG [[w J] x]]. ring. Qed.
Lemma on_ext : forall rule f g, (forall iG x, f iG x = g iG x) -> over_numbered rule f = over_numbered rule g.
Proof. intros rule f g H. unfold over_numbered. apply sum_seq_map. intros [iG [[w J] x]]. rewrite H. reflexivity. Qed.
Lemma on_sumn : forall rule n (f : nat -> nat -> vec -> R), over_numbered rule (fun iG x => sumn n (fun l => f l iG x)) = sumn n (fun l => over_numbered rule (f l)).
Proof.
  intros rule n f. induction n as [|n IH]; cbn [sumn].
  - unfold over_numbered. apply sum_over_zero. intros [iG [[w J] x]] _. ring.
  - rewrite on_plus, IH. reflexivity.
Qed.
Lemma on_nonneg : forall rule f, (forall w J x, In (w, J, x) rule -> 0 <= J * w) -> (forall iG x, 0 <= f iG x) -> 0 <= over_numbered rule f.
Proof.
  intros rule f H Hf. unfold over_numbered. generalize 0%nat as m. induction rule as [|[[w J] x] rule IH]; intros m; cbn [length seq combine]; [unfold sum_over; cbn; lra|].
  rewrite sum_cons. specialize (IH (fun w J x Hx => H w J x (or_intror Hx)) (S m)). pose proof (H w J x (or_introl eq_refl)). pose proof (Hf m x). nra.
Qed.
Lemma product_plus_l : forall st f k va vb vc, product st f k (fun m => va m + vb m) vc = product st f k va vc + product st f k vb vc.
Proof. intros. rewrite product_sym, product_plus_r. f_equal; apply product_sym. Qed.
Lemma product_ext : forall st f k va va' vb vb', (forall m, (order_of m <= k)%nat -> va m = va' m) -> (forall m, (order_of m <= k)%nat -> vb m = vb' m) ->
  product st f k va vb = product st f k va' vb'.
Proof. intros st f k va va' vb vb' H H'. rewrite (product_agree_r st f k va vb vb') by auto. rewrite (product_sym st f k va), (product_sym st f k va'). apply product_agree_r. auto. Qed.
Lemma product_square : forall st f k a b, product st f k (fun m => a m + b m) (fun m => a m + b m) = product st f k a a + 2 * product st f k a b + product st f k b b.
Proof. intros. rewrite product_plus_l, !product_plus_r. rewrite (product_sym st f k b a). ring. Qed.

Lemma product_const : forall st f k va b, product st f 0 va (fun _ => b) = product st f k va (fun m => if Nat.eqb (order_of m) 0 then b else 0).
Proof.
  intros st f k va b. rewrite (product_value st f k va (fun m => if Nat.eqb (order_of m) 0 then b else 0)) by (intros m Hm; destruct (order_of m); [lia|reflexivity]).
  rewrite !product_0. reflexivity.
Qed.

(** A parabola that is nowhere below its value at 0. *)
Lemma flat : forall a q, 0 <= q -> (forall t, 0 <= 2 * t * a + t * t * q) -> a = 0.
Proof.
  intros a q Hq H. specialize (H (- a / (q + 1))). assert (q + 1 <> 0) by lra.
  assert (E : 2 * (- a / (q + 1)) * a + - a / (q + 1) * (- a / (q + 1)) * q = - (a * a * (q + 2)) / ((q + 1) * (q + 1))) by (field; lra).
  rewrite E in H. destruct (Req_dec a 0) as [|Ha]; auto. exfalso.
  assert (0 < a * a) by nra. assert (0 < (q + 1) * (q + 1)) by nra.
  assert (X : - (a * a * (q + 2)) / ((q + 1) * (q + 1)) < 0).
  { unfold Rdiv. rewrite <- (Rmult_0_l (/ ((q + 1) * (q + 1)))). apply Rmult_lt_compat_r; [apply Rinv_0_lt_compat; auto|nra]. }
  lra.
Qed.

Section Energy.
Variables (st : settings) (cells : list cell) (faces : list face) (inverse : mat -> mat) (u : list vec).
Variable FB : vec -> vec -> Z -> Z -> nat -> vec.
Variables FT FTB : vec -> Z -> vec.
Variable wall : Z -> nat -> vec.
Notation nCell := (zlen cells).
Notation n := (NDOF st - 1)%nat.
Notation cell_of := (the_cell cells).
Notation face_at := (the_face faces).
Hypothesis HS : supported st.
Hypothesis NP : isPeriodic st = false.
Hypothesis HM : sound_mesh st nCell cells faces.
Hypothesis HW : whole_mesh cells faces.
Hypothesis LU : zlen u = zlen cells.
Hypothesis HR : positive_rules faces.
Hypothesis HG : given FB wall.

Definition ext (k : Z) : bool := FaceIDIsExternalBC (zone (face_at k)).
Definition uval (i : Z) (v : nat) (m : nat * nat * nat) : R := if Nat.eqb (order_of m) 0 then get zero_vec u i v else 0.
Definition wval (k : Z) (g v : nat) (m : nat * nat * nat) : R := if Nat.eqb (order_of m) 0 then wall k g v else 0.
(** The base functions and what coefficients make of them. *)
Definition phi (i : Z) (x : vec) (l : nat) (m : nat * nat * nat) : R := value_at (dpeval (bpoly st (cell_of i) (S l)) m) x.
Definition lin (h : nat -> R) (i : Z) (x : vec) (m : nat * nat * nat) : R := sumn n (fun l => h l * phi i x l m).
Definition recD (c : list mat) (i : Z) (v : nat) (x : vec) (m : nat * nat * nat) : R := uval i v m + lin (fun l => get zero_mat c i l v) i x m.
Definition jmp (c : list mat) (k : Z) (g v : nat) (x : vec) (m : nat * nat * nat) : R :=
  recD c (f2c0 (face_at k)) v x m - (if ext k then wval k g v m else recD c (f2c1 (face_at k)) v x m).
Definition jlin (h : Z -> nat -> R) (k : Z) (x : vec) (m : nat * nat * nat) : R :=
  lin (h (f2c0 (face_at k))) (f2c0 (face_at k)) x m - (if ext k then 0 else lin (h (f2c1 (face_at k))) (f2c1 (face_at k)) x m).
Definition prod (k : Z) := product st (face_at k) (maxOrder st).
Definition allf : list Z := upto (zlen faces).
Definition E (c : list mat) (v : nat) : R := sum_over allf (fun k => over_numbered (points (face_at k)) (fun g x => prod k (jmp c k g v x) (jmp c k g v x))).
Definition cross (c : list mat) (v : nat) (h : Z -> nat -> R) : R := sum_over allf (fun k => over_numbered (points (face_at k)) (fun g x => prod k (jmp c k g v x) (jlin h k x))).
Definition quad (h : Z -> nat -> R) : R := sum_over allf (fun k => over_numbered (points (face_at k)) (fun g x => prod k (jlin h k x) (jlin h k x))).
Definition diff (c c' : list mat) (v : nat) (i : Z) (l : nat) : R := get zero_mat c' i l v - get zero_mat c i l v.

Lemma lin_plus : forall h h' i x m, lin (fun l => h l + h' l) i x m = lin h i x m + lin h' i x m.
Proof. intros. unfold lin. rewrite <- sumn_plus. apply sumn_ext. intros. ring. Qed.
Lemma jmp_diff : forall c c' k g v x m, jmp c' k g v x m = jmp c k g v x m + jlin (diff c c' v) k x m.
Proof.
  intros. unfold jmp, jlin, recD.
  assert (L : forall i, lin (fun l => get zero_mat c' i l v) i x m = lin (fun l => get zero_mat c i l v) i x m + lin (diff c c' v i) i x m).
  { intros i. rewrite <- lin_plus. unfold lin. apply sumn_ext. intros l _. unfold diff. ring. }
  rewrite !L. destruct (ext k); ring.
Qed.
Lemma E_diff : forall c c' v, E c' v = E c v + 2 * cross c v (diff c c' v) + quad (diff c c' v).
Proof.
  intros c c' v. unfold E, cross, quad. rewrite <- sum_over_scal, <- !sum_over_plus. apply sum_seq_map. intros k.
  rewrite <- on_scal, <- !on_plus. apply on_ext. intros g x. unfold prod. rewrite <- product_square. apply product_ext; intros; apply jmp_diff.
Qed.
Lemma cross_diff : forall c c' v h, cross c' v h = cross c v h + sum_over allf (fun k => over_numbered (points (face_at k)) (fun g x => prod k (jlin (diff c c' v) k x) (jlin h k x))).
Proof.
  intros c c' v h. unfold cross. rewrite <- sum_over_plus. apply sum_seq_map. intros k. rewrite <- on_plus. apply on_ext. intros g x. unfold prod.
  rewrite <- product_plus_l. apply product_ext; intros; [apply jmp_diff|reflexivity].
Qed.
Lemma cross_quad : forall c c' v, cross c' v (diff c c' v) = cross c v (diff c c' v) + quad (diff c c' v).
Proof. intros. apply cross_diff. Qed.
Lemma in_allf : forall k, In k allf -> vget faces k = Ok (face_at k).
Proof. intros k H. apply in_upto in H. apply get_vget. auto. Qed.
Lemma quad_nonneg : forall h, 0 <= quad h.
Proof.
  intros h. unfold quad. assert (G : forall l, (forall k, In k l -> In k allf) -> 0 <= sum_over l (fun k => over_numbered (points (face_at k)) (fun g x => prod k (jlin h k x) (jlin h k x)))).
  { induction l as [|k l IH]; intros Hl; [unfold sum_over; cbn; lra|]. rewrite sum_cons. specialize (IH (fun k Hk => Hl k (or_intror Hk))).
    pose proof (in_allf k (Hl k (or_introl eq_refl))) as G. apply vget_Ok in G. destruct G as [_ G]. apply nth_error_In in G.
    assert (0 <= over_numbered (points (face_at k)) (fun g x => prod k (jlin h k x) (jlin h k x))); [|lra].
    apply on_nonneg; [intros w J x Hx; apply (HR (face_at k) w J x); auto|]. intros. apply product_nonneg. }
  apply G. auto.
Qed.

(** *** the sum over the faces by cells *)
Definition sgn (k i : Z) : R := if (f2c0 (face_at k) =? i)%Z then 1 else -1.
Definition grad (c : list mat) (v : nat) (i : Z) (l : nat) : R :=
  sum_over (cell2face (cell_of i)) (fun k => sgn k i * over_numbered (points (face_at k)) (fun g x => prod k (jmp c k g v x) (phi i x l))).
Lemma listed : forall i, (0 <= i < nCell)%Z -> NoDup (cell2face (cell_of i)) /\ forall k, In k (cell2face (cell_of i)) <->
  In k allf /\ (f2c0 (face_at k) = i \/ ext k = false /\ f2c1 (face_at k) = i).
Proof.
  intros i Hi. destruct HW as [_ W]. destruct (W i (cell_of i) (get_vget _ none cells i Hi)) as [ND L]. split; auto. intros k. rewrite L. split.
  - intros [f [Ef S]]. pose proof (vget_get _ noface _ _ _ Ef) as G. unfold ext, the_face. rewrite G. split; auto. apply in_upto. apply vget_Ok in Ef. destruct Ef as [P N].
    assert (Z.to_nat k < length faces)%nat by (apply nth_error_Some; congruence). unfold zlen. lia.
  - intros [Hk S]. exists (face_at k). split; [apply in_allf; auto|exact S].
Qed.
Lemma by_cells : forall G : Z -> Z -> R, sum_over (upto nCell) (fun i => sum_over (cell2face (cell_of i)) (fun k => G k i)) =
  sum_over allf (fun k => G k (f2c0 (face_at k)) + if ext k then 0 else G k (f2c1 (face_at k))).
Proof.
  intros G.
  rewrite (sum_over_ext _ (upto nCell) _ (fun i => sum_over allf (fun k => (if (f2c0 (face_at k) =? i)%Z then G k i else 0) + if (f2c1 (face_at k) =? i)%Z then (if ext k then 0 else G k i) else 0))).
  - rewrite sum_over_swap. apply sum_over_ext. intros k Hk. rewrite sum_over_plus. destruct HW as [W _]. pose proof (in_allf k Hk) as F. destruct (W k _ F) as [B0 B1].
    rewrite (sum_one (upto nCell) (f2c0 (face_at k)) (fun i => G k i)); [|apply nodup_upto|apply in_upto; auto]. f_equal.
    destruct (ext k) eqn:EX.
    + apply sum_over_zero. intros i _. destruct (f2c1 (face_at k) =? i)%Z; reflexivity.
    + destruct (B1 EX) as [_ B]. rewrite (sum_one (upto nCell) (f2c1 (face_at k)) (fun i => G k i)); [reflexivity|apply nodup_upto|apply in_upto; auto].
  - intros i Hi. apply in_upto in Hi. destruct (listed i Hi) as [ND L].
    rewrite (sum_listed _ allf); [|auto|apply nodup_upto|intros k Hk; apply L; auto].
    apply sum_over_ext. intros k Hk. destruct HW as [W _]. destruct (W k _ (in_allf k Hk)) as [B0 B1].
    destruct (in_dec Z.eq_dec k (cell2face (cell_of i))) as [I|I].
    + apply L in I. destruct I as [_ [I|[EX I]]].
      * rewrite I, Z.eqb_refl. destruct (Z.eqb_spec (f2c1 (face_at k)) i) as [e|]; [|ring]. destruct (ext k) eqn:EX; [ring|]. destruct (B1 EX). congruence.
      * rewrite I, Z.eqb_refl. destruct (B1 EX) as [N _]. rewrite EX. destruct (Z.eqb_spec (f2c0 (face_at k)) i); [congruence|ring].
    + destruct (Z.eqb_spec (f2c0 (face_at k)) i) as [e|e]; [exfalso; apply I; apply L; auto|].
      destruct (Z.eqb_spec (f2c1 (face_at k)) i) as [e'|e']; [|ring]. destruct (ext k) eqn:EX; [ring|]. exfalso. apply I. apply L. auto.
Qed.
Lemma cross_grad : forall c v h, cross c v h = sum_over (upto nCell) (fun i => sumn n (fun l => h i l * grad c v i l)).
Proof.
  intros c v h. set (G := fun k i => sgn k i * sumn n (fun l => h i l * over_numbered (points (face_at k)) (fun g x => prod k (jmp c k g v x) (phi i x l)))).
  rewrite (sum_over_ext _ (upto nCell) _ (fun i => sum_over (cell2face (cell_of i)) (fun k => G k i))).
  - rewrite by_cells. unfold cross. apply sum_over_ext. intros k Hk. destruct HW as [W _]. destruct (W k _ (in_allf k Hk)) as [B0 B1].
    assert (P : forall i, over_numbered (points (face_at k)) (fun g x => prod k (jmp c k g v x) (lin (h i) i x)) =
                          sumn n (fun l => h i l * over_numbered (points (face_at k)) (fun g x => prod k (jmp c k g v x) (phi i x l)))).
    { intros i. rewrite (sumn_ext n (fun l => h i l * over_numbered (points (face_at k)) (fun g x => prod k (jmp c k g v x) (phi i x l))) (fun l => over_numbered (points (face_at k)) (fun g x => h i l * prod k (jmp c k g v x) (phi i x l)))).
      - rewrite <- (on_sumn (points (face_at k)) n (fun l g x => h i l * prod k (jmp c k g v x) (phi i x l))). apply on_ext. intros g x. unfold prod, lin. apply product_sumn_r.
      - intros l _. rewrite on_scal. reflexivity. }
    unfold G, sgn. rewrite Z.eqb_refl, <- P. unfold jlin. destruct (ext k) eqn:EX.
    + rewrite Rplus_0_r, Rmult_1_l. apply on_ext. intros g x. unfold prod. apply product_agree_r. intros. ring.
    + destruct (B1 EX) as [N _]. destruct (Z.eqb_spec (f2c0 (face_at k)) (f2c1 (face_at k))); [contradiction|]. rewrite <- P, Rmult_1_l, <- on_scal, <- on_plus.
      apply on_ext. intros g x. unfold prod. rewrite <- product_scal_r, <- product_plus_r. apply product_agree_r. intros. ring.
  - intros i _. unfold grad, G. rewrite (sumn_ext n _ (fun l => sum_over (cell2face (cell_of i)) (fun k => h i l * (sgn k i * over_numbered (points (face_at k)) (fun g x => prod k (jmp c k g v x) (phi i x l)))))).
    + rewrite sumn_swap_over. apply sum_seq_map. intros k. rewrite <- sumn_scal. apply sumn_ext. intros. ring.
    + intros l _. rewrite sum_over_scal. reflexivity.
Qed.

(** *** the derivative of the energy is the residual of the equations of the cells *)
Lemma own_phi : forall i f back x l, own_d st (cell_of i) f back x l = phi i x l.
Proof. intros. apply functional_extensionality. intros m. unfold own_d, phi, in_frame. rewrite NP. reflexivity. Qed.
Lemma SP : sound_periods st.
Proof. intros X. congruence. Qed.
Lemma other_phi : forall i f back x l, other_d st (cell_of i) f back x l = phi i x l.
Proof.
  intros. apply functional_extensionality. intros m. unfold other_d, phi, in_frame. rewrite NP. unfold value_at. apply dpeval_unique. intros X Y Z.
  rewrite pcomp_eval, !(xpoly_eval st f back _ X Y Z HS SP). unfold across, which_turn. rewrite NP. reflexivity.
Qed.
Lemma face_grad : forall c v i k l, (0 <= i < nCell)%Z -> In k (cell2face (cell_of i)) ->
  sgn k i * over_numbered (points (face_at k)) (fun g x => prod k (jmp c k g v x) (phi i x l)) =
  sumn n (fun q => face_A st (cell_of i) (face_at k) (isback (face_at k) i) l q * get zero_mat c i q v) -
  face_rhs st cells faces u FB FT FTB i k c (get zero_mat c i) l v.
Proof.
  intros c v i k l Hi Hk. destruct (listed i Hi) as [_ L]. pose proof (proj1 (L k) Hk) as [Hf Sd]. destruct HW as [W _]. destruct (W k _ (in_allf k Hf)) as [B0 B1].
  assert (FA : sumn n (fun q => face_A st (cell_of i) (face_at k) (isback (face_at k) i) l q * get zero_mat c i q v) =
               over_numbered (points (face_at k)) (fun _ x => prod k (lin (fun q => get zero_mat c i q v) i x) (phi i x l))).
  { rewrite (on_ext _ _ (fun _ x => sumn n (fun q => get zero_mat c i q v * prod k (phi i x l) (phi i x q)))).
    - rewrite (on_sumn _ n (fun q _ x => get zero_mat c i q v * prod k (phi i x l) (phi i x q))). apply sumn_ext. intros q _.
      rewrite (on_scal _ (fun _ x => prod k (phi i x l) (phi i x q))), over_numbered_plain. unfold face_A. rewrite Rmult_comm. f_equal. apply over_ext. intros x. rewrite !own_phi. reflexivity.
    - intros _ x. unfold prod. rewrite product_sym. unfold lin. apply product_sumn_r. }
  rewrite FA. unfold face_rhs. cbv zeta. fold (ext k). destruct (ext k) eqn:EX.
  - destruct Sd as [Sd|[Sd _]]; [|discriminate]. unfold sgn. rewrite Sd, Z.eqb_refl, Rmult_1_l.
    unfold Rminus. rewrite <- (Rmult_1_l (over_numbered _ (fun iG x => product st (face_at k) 0 _ _))), Ropp_mult_distr_l, <- on_scal, <- on_plus. apply on_ext. intros g x.
    rewrite own_phi. unfold bound_value.
    rewrite HG, (product_const st (face_at k) (maxOrder st)). unfold prod.
    rewrite (product_sym st (face_at k) _ (phi i x l) _), (product_sym st (face_at k) _ (jmp c k g v x)), (product_sym st (face_at k) _ (lin _ i x)), (product_sym st (face_at k) _ (fun m => if Nat.eqb (order_of m) 0 then _ else _)).
    rewrite <- product_scal_r, <- product_plus_r. apply product_agree_r. intros m _. unfold jmp, recD. rewrite EX, Sd. unfold uval, wval. destruct (Nat.eqb (order_of m) 0); ring.
  - set (j := other (face_at k) i).
    assert (RB : sumn n (fun q => face_B st (cell_of i) (cell_of j) (face_at k) (isback (face_at k) i) l q * turn_rows st FT FTB (face_at k) (isback (face_at k) i) (get zero_mat c j) q v) =
                 over_numbered (points (face_at k)) (fun _ x => prod k (phi i x l) (lin (fun q => get zero_mat c j q v) j x))).
    { rewrite (on_ext _ _ (fun _ x => sumn n (fun q => get zero_mat c j q v * prod k (phi i x l) (phi j x q)))).
      - rewrite (on_sumn _ n (fun q _ x => get zero_mat c j q v * prod k (phi i x l) (phi j x q))). apply sumn_ext. intros q _.
        rewrite (on_scal _ (fun _ x => prod k (phi i x l) (phi j x q))), over_numbered_plain. unfold face_B, turn_rows, turn_vec, which_turn. rewrite NP. cbn [negb]. rewrite Rmult_comm. f_equal.
        apply over_ext. intros x. rewrite own_phi, other_phi. reflexivity.
      - intros _ x. unfold prod, lin. apply product_sumn_r. }
    assert (Rb : face_b st (cell_of i) (face_at k) (isback (face_at k) i) l * (turn_vec st FT FTB (face_at k) (isback (face_at k) i) (get zero_vec u j) v - get zero_vec u i v) =
                 over_numbered (points (face_at k)) (fun _ x => prod k (phi i x l) (fun m => if Nat.eqb (order_of m) 0 then get zero_vec u j v - get zero_vec u i v else 0))).
    { unfold turn_vec, which_turn. rewrite NP. cbn [negb]. unfold face_b. rewrite Rmult_comm, <- over_numbered_plain, <- on_scal. apply on_ext. intros _ x.
      rewrite own_phi. unfold prod. rewrite <- (product_const st (face_at k) (maxOrder st)), <- product_scal_r. apply product_agree_r. intros. ring. }
    rewrite RB, Rb. rewrite <- on_plus. unfold Rminus. rewrite <- (Rmult_1_l (over_numbered _ (fun _ x => prod k (phi i x l) _ + _))), Ropp_mult_distr_l, <- !on_scal, <- on_plus. apply on_ext. intros g x.
    unfold prod. rewrite <- product_plus_r, (product_sym st (face_at k) _ (jmp c k g v x)), (product_sym st (face_at k) _ (lin _ i x)), <- !product_scal_r, <- product_plus_r.
    apply product_agree_r. intros m _. unfold jmp, recD. rewrite EX. unfold uval, sgn, j, other.
    destruct (Z.eqb_spec (f2c0 (face_at k)) i) as [->|Ne].
    + destruct (Nat.eqb (order_of m) 0); ring.
    + destruct Sd as [Sd|[_ ->]]; [congruence|]. destruct (Nat.eqb (order_of m) 0); ring.
Qed.
Lemma grad_eq : forall c v i l, (0 <= i < nCell)%Z ->
  grad c v i l = sumn n (fun q => A_of st cells faces i l q * get zero_mat c i q v) - total st cells faces u FB FT FTB i c (get zero_mat c i) l v.
Proof.
  intros c v i l Hi. unfold grad. rewrite (sum_over_ext _ _ _ _ (fun k Hk => face_grad c v i k l Hi Hk)). unfold Rminus. rewrite sum_over_plus. f_equal.
  - rewrite <- sumn_swap_over. apply sumn_ext. intros q _. unfold A_of. rewrite Rmult_comm, <- sum_over_scal. apply sum_seq_map. intros. ring.
  - unfold total. rewrite <- (Rmult_1_l (sum_over _ (fun k => face_rhs st cells faces u FB FT FTB i k c (get zero_mat c i) l v))), Ropp_mult_distr_l, <- sum_over_scal. apply sum_seq_map. intros. ring.
Qed.

(** *** changes of one cell *)
Definition change (c : list mat) (i : Z) (m : mat) : list mat := upd (Z.to_nat i) m c.
Lemma steadyB : steady FB.
Proof. intros a b ui i k g. apply functional_extensionality. intros v. rewrite !HG. reflexivity. Qed.
Lemma total_change : forall c i m, (0 <= i < nCell)%Z -> total st cells faces u FB FT FTB i (change c i m) m = total st cells faces u FB FT FTB i c (get zero_mat c i).
Proof.
  intros c i m Hi. apply functional_extensionality. intros l. apply functional_extensionality. intros v. unfold total. apply sum_over_ext. intros k Hk.
  unfold change. rewrite (rhs_own st cells faces nCell u FB FT FTB HM i k c m m); [|split; auto].
  unfold face_rhs. destruct (FaceIDIsExternalBC (zone (face_at k))); [|reflexivity]. apply on_ext. intros g x. apply product_agree_r. intros _ _. unfold bound_value. rewrite !HG. reflexivity.
Qed.
Lemma E_change : forall c v i m, zlen c = nCell -> (0 <= i < nCell)%Z ->
  let h := fun l => m l v - get zero_mat c i l v in
  let Ah := fun l => sumn n (fun q => A_of st cells faces i l q * h q) in
  E (change c i m) v = E c v + 2 * sumn n (fun l => h l * grad c v i l) + sumn n (fun l => h l * Ah l) /\ 0 <= sumn n (fun l => h l * Ah l).
Proof.
  intros c v i m LC Hi h Ah. set (c' := change c i m). set (d := diff c c' v).
  assert (Gi : get zero_mat c' i = m) by (apply (get_upd_same _ zero_mat c); lia).
  assert (D0 : forall j l, In j (upto nCell) -> d j l = if (i =? j)%Z then h l else 0).
  { intros j l Hj. apply in_upto in Hj. unfold d, diff. destruct (Z.eqb_spec i j) as [<-|Ne].
    - rewrite Gi. reflexivity.
    - unfold c', change. rewrite (get_upd_other _ zero_mat c) by lia. ring. }
  assert (CR : forall c0, cross c0 v d = sumn n (fun l => h l * grad c0 v i l)).
  { intros c0. rewrite cross_grad. rewrite (sum_over_ext _ (upto nCell) _ (fun j => if (i =? j)%Z then sumn n (fun l => h l * grad c0 v j l) else 0)).
    - apply (sum_one (upto nCell) i (fun j => sumn n (fun l => h l * grad c0 v j l))); [apply nodup_upto|apply in_upto; auto].
    - intros j Hj. destruct (Z.eqb_spec i j) as [<-|Ne].
      + apply sumn_ext. intros l _. rewrite D0 by auto. rewrite Z.eqb_refl. reflexivity.
      + rewrite (sumn_ext n _ (fun _ => 0)); [apply sumn_zero|]. intros l _. rewrite D0 by auto. destruct (Z.eqb_spec i j); [contradiction|ring]. }
  assert (Q : quad d = sumn n (fun l => h l * Ah l)).
  { pose proof (cross_quad c c' v) as X. fold d in X. rewrite !CR in X.
    assert (Y : sumn n (fun l => h l * grad c' v i l) = sumn n (fun l => h l * grad c v i l) + sumn n (fun l => h l * Ah l)).
    { rewrite <- sumn_plus. apply sumn_ext. intros l _. rewrite <- Rmult_plus_distr_l. f_equal. rewrite !grad_eq by auto. rewrite Gi. unfold c'. rewrite total_change by auto.
      unfold Ah. rewrite (sumn_ext n (fun q => A_of st cells faces i l q * m q v) (fun q => A_of st cells faces i l q * get zero_mat c i q v + A_of st cells faces i l q * h q)) by (intros; unfold h; ring).
      rewrite sumn_plus. ring. }
    lra. }
  split.
  - rewrite (E_diff c c' v). fold d. rewrite CR, Q. reflexivity.
  - rewrite <- Q. apply quad_nonneg.
Qed.

(** *** the energy of the statement *)
Lemma smooth_unique : forall k f d d' m X Y Z, smooth_in everywhere k f d -> smooth_in everywhere k f d' -> (order_of m <= k)%nat -> d m X Y Z = d' m X Y Z.
Proof.
  intros k f d d' [[a b] c] X Y Z H H' Hm. set (ds := repeat AX a ++ repeat AY b ++ repeat AZ c).
  assert (Em : multi ds = (a, b, c)%nat) by (unfold ds, multi; rewrite !times_app, !times_repeat; cbn; repeat f_equal; lia).
  assert (Ln : (length ds <= k)%nat) by (unfold ds; rewrite !app_length, !repeat_length; cbn in Hm; lia).
  pose proof (smooth_partial everywhere k f d H ds (0, 0, 0)%nat ltac:(cbn; lia)) as P. rewrite multi_add_all in P.
  destruct (partial_in_same everywhere ds _ f _ (fun X Y Z => proj1 H X Y Z) P) as [g [Pg Vg]].
  rewrite <- Em, <- Vg. apply (smooth_value k f); auto.
Qed.
Definition rpoly (c : list mat) (i : Z) (v : nat) : poly := [(get zero_vec u i v, zero3)] ++ psum n (fun l => get zero_mat c i l v) (fun l => bpoly st (cell_of i) (S l)).
Lemma rpoly_d : forall c i v m x, value_at (dpeval (rpoly c i v) m) x = recD c i v x m.
Proof.
  intros. unfold value_at, rpoly. rewrite dpeval_app, dpeval_const, dpeval_sum. reflexivity.
Qed.
Lemma rpoly_smooth : forall c i v k, zlen c = nCell -> (0 <= i < nCell)%Z -> smooth_in everywhere k (fun X Y Z => reconstruction st cells u c i v (point X Y Z)) (dpeval (rpoly c i v)).
Proof.
  intros c i v k LC Hi. eapply smooth_same; [|apply peval_smooth]. intros X Y Z. cbv beta. rewrite peval_dpeval.
  change (dpeval (rpoly c i v) zero3 X Y Z) with (value_at (dpeval (rpoly c i v) zero3) (point X Y Z)). rewrite rpoly_d.
  rewrite (recon st cells u HS LU c LC i v (point X Y Z) Hi). unfold recD, uval, lin. cbn [order_of zero3 Nat.add Nat.eqb]. f_equal. apply sumn_ext. intros q _. f_equal.
  unfold phi, value_at. rewrite <- bpoly_eval, peval_dpeval. reflexivity.
Qed.
Lemma D_value : forall c D i v m x, zlen c = nCell -> derivatives_of st cells u c D -> (0 <= i < nCell)%Z -> (order_of m <= maxOrder st)%nat -> value_at (D i v m) x = recD c i v x m.
Proof.
  intros c D i v m x LC HD Hi Hm. rewrite <- rpoly_d. unfold value_at. apply (smooth_unique (maxOrder st) _ _ _ m _ _ _ (HD i v Hi) (rpoly_smooth c i v (maxOrder st) LC Hi) Hm).
Qed.
Lemma sum_faces : forall F : Z -> face -> R, sum_over (combine (upto (zlen faces)) faces) (fun '(k, f) => F k f) = sum_over allf (fun k => F k (face_at k)).
Proof.
  intros F. unfold allf, upto, zlen. rewrite Nat2Z.id.
  assert (G : forall (l : list face) m, (forall j f, nth_error l j = Some f -> face_at (Z.of_nat (m + j)) = f) ->
     sum_over (combine (map Z.of_nat (seq m (length l))) l) (fun '(k, f) => F k f) = sum_over (map Z.of_nat (seq m (length l))) (fun k => F k (face_at k))).
  { induction l as [|f l IH]; intros m H; [reflexivity|]. cbn [length seq map combine]. rewrite !sum_cons.
    pose proof (H 0%nat f eq_refl) as H0. rewrite Nat.add_0_r in H0. rewrite H0. f_equal.
    apply IH. intros j f' Hj. replace (S m + j)%nat with (m + S j)%nat by lia. apply H. exact Hj. }
  apply G. intros j f Hj. unfold the_face, get. cbn [Nat.add]. rewrite Nat2Z.id. apply nth_error_nth. auto.
Qed.
Lemma energy_E : forall c D v, zlen c = nCell -> derivatives_of st cells u c D -> energy st faces wall D v = E c v.
Proof.
  intros c D v LC HD. unfold energy.
  etransitivity; [exact (sum_faces (fun k f => sum_over (combine (seq 0 (length (points f))) (points f)) (fun '(g, (w, J, x)) => let j := jump f (wall k g v) (fun i => D i v) x in product st f (maxOrder st) j j * J * w)))|].
  unfold E. apply sum_over_ext. intros k Hk. destruct HW as [W _]. destruct (W k _ (in_allf k Hk)) as [B0 B1].
  unfold over_numbered. apply sum_seq_map. intros [g [[w J] x]]. cbv zeta. f_equal. f_equal.
  assert (JJ : forall m, (order_of m <= maxOrder st)%nat -> jump (face_at k) (wall k g v) (fun i => D i v) x m = jmp c k g v x m).
  { intros m Hm. unfold jump, jmp. fold (ext k). rewrite (D_value c D _ v m x LC HD B0 Hm). f_equal. destruct (ext k) eqn:EX; [reflexivity|]. apply D_value; auto. apply (B1 EX). }
  unfold prod. apply product_ext; auto.
Qed.
Lemma derivatives_exist : forall c, zlen c = nCell -> exists D, derivatives_of st cells u c D.
Proof. intros c LC. exists (fun i v => dpeval (rpoly c i v)). intros i v Hi. apply rpoly_smooth; auto. Qed.

(** *** solutions are minimal *)
Lemma sumn_swap2 : forall p q (f : nat -> nat -> R), sumn p (fun a => sumn q (fun b => f a b)) = sumn q (fun b => sumn p (fun a => f a b)).
Proof.
  intros p q f. induction p as [|p IH]; cbn [sumn]; [symmetry; apply sumn_zero|]. rewrite IH, <- sumn_plus. reflexivity.
Qed.
Lemma matvec : forall (A B : mat) w l, (forall a b, (a < n)%nat -> (b < n)%nat -> mmul n A B a b = kron a b) -> (l < n)%nat ->
  sumn n (fun q => A l q * sumn n (fun p => B q p * w p)) = w l.
Proof.
  intros A B w l H Hl. rewrite <- (sumn_kron n l w Hl). 
  rewrite (sumn_ext n (fun q => A l q * sumn n (fun p => B q p * w p)) (fun q => sumn n (fun p => A l q * B q p * w p))).
  - rewrite sumn_swap2. apply sumn_ext. intros p Hp. rewrite <- (H l p Hl Hp). unfold mmul. rewrite Rmult_comm, <- sumn_scal. apply sumn_ext. intros. ring.
  - intros q _. rewrite <- sumn_scal. apply sumn_ext. intros. ring.
Qed.
Section Solve.
Variable Ks : list coeff.
Hypothesis HK : are_coeffs st cells faces inverse nCell Ks.
Hypothesis HL : forall K, In K Ks -> inverted st K.
Hypothesis HRt : forall K, In K Ks -> inverted_right st K.
Lemma K_in : forall i, (0 <= i < nCell)%Z -> In (K_of Ks i) Ks.
Proof. intros i Hi. destruct HK as [LK _]. unfold K_of, get. apply nth_In. unfold zlen in *. lia. Qed.
Lemma A_inv : forall i a b, (0 <= i < nCell)%Z -> (a < n)%nat -> (b < n)%nat ->
  mmul n (AInv (K_of Ks i)) (A_of st cells faces i) a b = kron a b /\ mmul n (A_of st cells faces i) (AInv (K_of Ks i)) a b = kron a b.
Proof.
  intros i a b Hi Ha Hb. destruct (coeffs_at st cells faces inverse nCell Ks i HK Hi) as [_ [MA _]].
  assert (LI := HL _ (K_in i Hi)). assert (RI := HRt _ (K_in i Hi)). unfold inverted, inverted_right in *. rewrite <- (ndof_rows st HS) in *. split.
  - rewrite <- (LI a b Ha Hb). unfold mmul. apply sumn_ext. intros q Hq. rewrite MA by (split; auto). reflexivity.
  - rewrite <- (RI a b Ha Hb). unfold mmul. apply sumn_ext. intros q Hq. rewrite MA by (split; auto). reflexivity.
Qed.
Notation solves_at := (solves_at st cells faces u FB FT FTB Ks).
Lemma solves_grad : forall c i, (0 <= i < nCell)%Z -> (solves_at c i <-> forall v l, (l < n)%nat -> grad c v i l = 0).
Proof.
  intros c i Hi. split.
  - intros Hs v l Hl. rewrite grad_eq by auto.
    rewrite (sumn_ext n (fun q => A_of st cells faces i l q * get zero_mat c i q v) (fun q => A_of st cells faces i l q * sumn n (fun p => AInv (K_of Ks i) q p * total st cells faces u FB FT FTB i c (get zero_mat c i) p v))).
    + rewrite (matvec (A_of st cells faces i) (AInv (K_of Ks i)) (fun p => total st cells faces u FB FT FTB i c (get zero_mat c i) p v) l); auto; [ring|]. intros. apply A_inv; auto.
    + intros q Hq. f_equal. rewrite <- (Hs q v Hq). reflexivity.
  - intros Hg l v Hl. unfold mmul.
    rewrite (sumn_ext n (fun q => AInv (K_of Ks i) l q * total st cells faces u FB FT FTB i c (get zero_mat c i) q v) (fun q => AInv (K_of Ks i) l q * sumn n (fun p => A_of st cells faces i q p * get zero_mat c i p v))).
    + rewrite (matvec (AInv (K_of Ks i)) (A_of st cells faces i) (fun p => get zero_mat c i p v) l); auto. intros. apply A_inv; auto.
    + intros q Hq. f_equal. specialize (Hg v q Hq). rewrite grad_eq in Hg by auto. lra.
Qed.
Lemma solves_minimal : forall c, (forall i, (0 <= i < nCell)%Z -> solves_at c i) -> forall c' v, E c v <= E c' v.
Proof.
  intros c Hs c' v. rewrite (E_diff c c' v), cross_grad. rewrite sum_over_zero.
  - pose proof (quad_nonneg (diff c c' v)). lra.
  - intros i Hi. apply in_upto in Hi. rewrite (sumn_ext n _ (fun _ => 0)); [apply sumn_zero|]. intros l Hl. rewrite (proj1 (solves_grad c i Hi) (Hs i Hi)) by auto. ring.
Qed.
Lemma minimal_solves : forall c, zlen c = nCell -> (forall c' v, zlen c' = nCell -> E c v <= E c' v) -> forall i, (0 <= i < nCell)%Z -> solves_at c i.
Proof.
  intros c LC Hmin i Hi. apply solves_grad; auto. intros v l Hl.
  apply (flat (grad c v i l) (A_of st cells faces i l l)).
  - destruct (E_change c v i (fun q w => get zero_mat c i q w + kron l q) LC Hi) as [_ Q]. cbv zeta in Q.
    rewrite (sumn_ext n _ (fun q => kron l q * sumn n (fun p => A_of st cells faces i q p * kron l p))) in Q.
    + rewrite (sumn_kron n l (fun q => sumn n (fun p => A_of st cells faces i q p * kron l p)) Hl) in Q.
      rewrite (sumn_ext n _ (fun p => kron l p * A_of st cells faces i l p)) in Q by (intros; ring). rewrite (sumn_kron n l (fun p => A_of st cells faces i l p) Hl) in Q. exact Q.
    + intros q _. replace (get zero_mat c i q v + kron l q - get zero_mat c i q v) with (kron l q) by ring. f_equal. apply sumn_ext. intros p _. ring.
  - intros t. destruct (E_change c v i (fun q w => get zero_mat c i q w + t * kron l q) LC Hi) as [X _]. cbv zeta in X.
    rewrite (sumn_ext n (fun q => (get zero_mat c i q v + t * kron l q - get zero_mat c i q v) * grad c v i q) (fun q => kron l q * (t * grad c v i q))) in X by (intros; ring).
    rewrite (sumn_kron n l (fun q => t * grad c v i q) Hl) in X.
    rewrite (sumn_ext n (fun q => (get zero_mat c i q v + t * kron l q - get zero_mat c i q v) * _) (fun q => kron l q * (t * sumn n (fun p => A_of st cells faces i q p * (t * kron l p))))) in X.
    + rewrite (sumn_kron n l (fun q => t * sumn n (fun p => A_of st cells faces i q p * (t * kron l p))) Hl) in X.
      rewrite (sumn_ext n _ (fun p => kron l p * (t * A_of st cells faces i l p))) in X by (intros; ring). rewrite (sumn_kron n l (fun p => t * A_of st cells faces i l p) Hl) in X.
      pose proof (Hmin (change c i (fun q w => get zero_mat c i q w + t * kron l q)) v ltac:(unfold change; rewrite zlen_upd; auto)). lra.
    + intros q _. replace (get zero_mat c i q v + t * kron l q - get zero_mat c i q v) with (t * kron l q) by ring. rewrite (Rmult_comm t (kron l q)), Rmult_assoc. f_equal. f_equal. apply sumn_ext. intros p _. ring.
Qed.
(** One step in place. *)
Lemma sweep_energy : forall c i v, zlen c = nCell -> (0 <= i < nCell)%Z -> 0 <= relax (cell_of i) <= 2 -> E (sweep st cells faces u FB FT FTB Ks c i) v <= E c v.
Proof.
  intros c i v LC Hi Hr. unfold sweep. set (s := step st cells faces u FB FT FTB i (K_of Ks i) c). change (upd (Z.to_nat i) s c) with (change c i s).
  set (h := fun l => s l v - get zero_mat c i l v).
  assert (X : E (change c i s) v = E c v + 2 * sumn n (fun l => h l * grad c v i l) + sumn n (fun l => h l * sumn n (fun q => A_of st cells faces i l q * h q))) by exact (proj1 (E_change c v i s LC Hi)).
  assert (Q : 0 <= sumn n (fun l => h l * sumn n (fun q => A_of st cells faces i l q * h q))) by exact (proj2 (E_change c v i s LC Hi)).
  set (w := relax (cell_of i)) in *.
  assert (Hh : forall l, (l < n)%nat -> h l = - w * sumn n (fun q => AInv (K_of Ks i) l q * grad c v i q)).
  { intros l Hl. unfold h, s, step. fold w.
    rewrite (sumn_ext n (fun q => AInv (K_of Ks i) l q * grad c v i q) (fun q => AInv (K_of Ks i) l q * sumn n (fun p => A_of st cells faces i q p * get zero_mat c i p v) + -1 * (AInv (K_of Ks i) l q * total st cells faces u FB FT FTB i c (get zero_mat c i) q v)))
      by (intros q Hq; rewrite grad_eq by auto; ring).
    rewrite sumn_plus, sumn_scal. rewrite (matvec (AInv (K_of Ks i)) (A_of st cells faces i) (fun p => get zero_mat c i p v) l); auto; [|intros; apply A_inv; auto].
    unfold mmul. ring. }
  assert (HA : forall l, (l < n)%nat -> sumn n (fun q => A_of st cells faces i l q * h q) = - w * grad c v i l).
  { intros l Hl. rewrite (sumn_ext n _ (fun q => - w * (A_of st cells faces i l q * sumn n (fun p => AInv (K_of Ks i) q p * grad c v i p)))) by (intros q Hq; rewrite (Hh q Hq); ring).
    rewrite sumn_scal, (matvec (A_of st cells faces i) (AInv (K_of Ks i)) (fun p => grad c v i p) l); auto. intros; apply A_inv; auto. }
  rewrite (sumn_ext n (fun l => h l * sumn n (fun q => A_of st cells faces i l q * h q)) (fun l => - w * (h l * grad c v i l))) in X, Q by (intros l Hl; rewrite HA by auto; ring).
  rewrite sumn_scal in X, Q. set (hg := sumn n (fun l => h l * grad c v i l)) in *.
  destruct (Req_dec w 0) as [W0|W0].
  - assert (hg = 0). { unfold hg. rewrite (sumn_ext n _ (fun _ => 0)); [apply sumn_zero|]. intros l Hl. rewrite Hh by auto. rewrite W0. ring. } nra.
  - assert (hg <= 0) by nra. nra.
Qed.
Lemma sweeps_energy : forall is c v, zlen c = nCell -> (forall i, In i is -> (0 <= i < nCell)%Z /\ 0 <= relax (cell_of i) <= 2) ->
  E (fold_left (sweep st cells faces u FB FT FTB Ks) is c) v <= E c v.
Proof.
  induction is as [|i is IH]; intros c v LC Hi; cbn [fold_left]; [lra|]. destruct (Hi i (or_introl eq_refl)) as [Hi1 Hi2].
  eapply Rle_trans; [apply IH|apply sweep_energy; auto].
  - unfold sweep. rewrite zlen_upd. auto.
  - intros j Hj. apply Hi. right. auto.
Qed.
End Solve.
End Energy.

(** *** as stated *)
Lemma cell_in : forall cells i, (0 <= i < zlen cells)%Z -> In (the_cell cells i) cells.
Proof. intros cells i Hi. unfold the_cell, get. apply nth_In. unfold zlen in Hi. lia. Qed.
Lemma fixed_solves : forall st inverse cells faces Ks u uRec FB FT FTB New (into : bool) r N,
  supported st -> known_scale st -> sound_periods st -> sound_mesh st (zlen cells) cells faces -> are_coeffs st cells faces inverse (zlen cells) Ks ->
  zlen u = zlen cells -> zlen uRec = zlen cells -> zlen New = zlen cells -> may_sweep st cells faces (zlen cells) FB ->
  (forall c, In c cells -> relax c <> 0) ->
  DoReconstructionIter st FB FT FTB (zlen cells) cells faces Ks u into false false uRec New = Ok (r, N) ->
  same_coefficients st (zlen cells) (if into then N else r) uRec <-> solves st cells faces (zlen cells) u FB FT FTB Ks uRec.
Proof.
  intros st inverse cells faces Ks u uRec FB FT FTB New into r N HS KS SP HM HK LU LR LN MS HX EI.
  destruct (iter_ok st cells faces inverse (zlen cells) u FB FT FTB HS KS SP HM LU Ks into uRec New HK MS LR LN) as (r' & N' & E' & L & G).
  rewrite EI in E'. injection E' as <- <-. set (out := if into then N else r) in *.
  assert (SA : same_coefficients st (zlen cells) out uRec <-> forall i l v, (0 <= i < zlen cells)%Z -> (l < NDOF st - 1)%nat -> get zero_mat out i l v = get zero_mat uRec i l v).
  { unfold same_coefficients. rewrite <- (ndof_rows st HS). split.
    - intros H i l v Hi Hl. destruct (H i Hi) as (x & y & Ex & Ey & V). rewrite (vget_get _ zero_mat _ _ _ Ex), (vget_get _ zero_mat _ _ _ Ey). auto.
    - intros H i Hi. exists (get zero_mat out i), (get zero_mat uRec i). split; [apply get_vget; lia|]. split; [apply get_vget; lia|]. auto. }
  rewrite SA. destruct (SORInstead st) eqn:SO.
  - assert (G' : forall i, (0 <= i < zlen cells)%Z -> get zero_mat out i = get zero_mat (fold_left (sweep st cells faces u FB FT FTB Ks) (upto (zlen cells)) uRec) i).
    { intros i Hi. rewrite G by auto. replace (i <? zlen cells)%Z with true by (symmetry; apply Z.ltb_lt; lia). reflexivity. }
    split.
    + intros H i Hi. apply (fixed_sweep st cells faces (zlen cells) u FB FT FTB HM Ks (upto (zlen cells)) uRec LR (nodup_upto _)); [| | |apply in_upto; auto].
      * intros j Hj. apply in_upto in Hj. auto.
      * intros j Hj. apply in_upto in Hj. apply HX, cell_in; auto.
      * split; [rewrite sweep_zlen; auto|]. intros j l v Hj Hl. rewrite <- G' by auto. auto.
    + intros H i l v Hi Hl. rewrite G' by auto.
      apply (sweep_fixed st cells faces (zlen cells) u FB FT FTB HM Ks (upto (zlen cells)) uRec LR); auto; intros j Hj; apply in_upto in Hj; auto.
  - assert (G' : forall i, (0 <= i < zlen cells)%Z -> get zero_mat out i = step st cells faces u FB FT FTB i (K_of Ks i) uRec).
    { intros i Hi. rewrite G by auto. replace (i <? zlen cells)%Z with true by (symmetry; apply Z.ltb_lt; lia). reflexivity. }
    split.
    + intros H i Hi. apply solves_step; [apply HX, cell_in; auto|]. intros l v Hl. rewrite <- G' by auto. auto.
    + intros H i l v Hi Hl. rewrite G' by auto. apply step_solves; auto.
Qed.
Lemma fixed_minimal : forall st inverse cells faces Ks u uRec FB FT FTB wall D New (into : bool) r N,
  supported st -> known_scale st -> isPeriodic st = false -> sound_mesh st (zlen cells) cells faces -> whole_mesh cells faces -> positive_rules faces ->
  ConstructRecCoeff st inverse (zlen cells) cells faces = Ok Ks -> (forall K, In K Ks -> inverted st K /\ inverted_right st K) ->
  zlen u = zlen cells -> zlen uRec = zlen cells -> zlen New = zlen cells -> given FB wall ->
  (forall c, In c cells -> relax c <> 0) -> derivatives_of st cells u uRec D ->
  DoReconstructionIter st FB FT FTB (zlen cells) cells faces Ks u into false false uRec New = Ok (r, N) ->
  same_coefficients st (zlen cells) (if into then N else r) uRec <-> minimal st cells faces wall u D.
Proof.
  intros st inverse cells faces Ks u uRec FB FT FTB wall D New into r N HS KS NP HM HW HR EC HI LU LR LN HG HX HD EI.
  assert (SP : sound_periods st) by (intros X; congruence).
  pose proof (the_coeffs st inverse (zlen cells) cells faces Ks HS KS SP HM EC) as HK.
  assert (ST : steady FB) by (intros a b ui i k g; apply functional_extensionality; intros v; rewrite !HG; reflexivity).
  rewrite (fixed_solves st inverse cells faces Ks u uRec FB FT FTB New into r N); auto; [|intros _; left; auto]. unfold minimal, solves. split.
  - intros H uRec' D' v L' H'. rewrite (energy_E st cells faces u wall HS HW LU uRec D v), (energy_E st cells faces u wall HS HW LU uRec' D' v); auto.
    eapply (solves_minimal st cells faces inverse u FB FT FTB wall HS NP HW HR HG Ks HK); auto; intros; apply HI; auto.
  - intros H i Hi. eapply (minimal_solves st cells faces inverse u FB FT FTB wall HS NP HM HW HR HG Ks HK); auto; try (intros; apply HI; auto).
    intros c' v LC. destruct (derivatives_exist st cells u HS LU c' LC) as [D' H']. rewrite <- (energy_E st cells faces u wall HS HW LU uRec D v), <- (energy_E st cells faces u wall HS HW LU c' D' v); auto. apply (H c' D' v); auto.
Qed.
Lemma sweep_decreases : forall st inverse cells faces Ks u uRec FB FT FTB wall D D' New (into : bool) r N,
  supported st -> known_scale st -> isPeriodic st = false -> SORInstead st = true -> sound_mesh st (zlen cells) cells faces -> whole_mesh cells faces -> positive_rules faces ->
  ConstructRecCoeff st inverse (zlen cells) cells faces = Ok Ks -> (forall K, In K Ks -> inverted st K /\ inverted_right st K) ->
  zlen u = zlen cells -> zlen uRec = zlen cells -> zlen New = zlen cells -> given FB wall ->
  (forall c, In c cells -> 0 <= relax c <= 2) -> derivatives_of st cells u uRec D ->
  DoReconstructionIter st FB FT FTB (zlen cells) cells faces Ks u into false false uRec New = Ok (r, N) ->
  derivatives_of st cells u (if into then N else r) D' ->
  forall v, energy st faces wall D' v <= energy st faces wall D v.
Proof.
  intros st inverse cells faces Ks u uRec FB FT FTB wall D D' New into r N HS KS NP SO HM HW HR EC HI LU LR LN HG HX HD EI HD' v.
  assert (SP : sound_periods st) by (intros X; congruence).
  pose proof (the_coeffs st inverse (zlen cells) cells faces Ks HS KS SP HM EC) as HK.
  assert (ST : steady FB) by (intros a b ui i k g; apply functional_extensionality; intros w; rewrite !HG; reflexivity).
  destruct (iter_ok st cells faces inverse (zlen cells) u FB FT FTB HS KS SP HM LU Ks into uRec New HK) as (r' & N' & E' & L & G); auto; [intros _; left; auto|].
  rewrite EI in E'. injection E' as <- <-. rewrite SO in G. set (out := if into then N else r) in *.
  rewrite (energy_E st cells faces u wall HS HW LU uRec D v), (energy_E st cells faces u wall HS HW LU out D' v); auto.
  set (sw := fold_left (sweep st cells faces u FB FT FTB Ks) (upto (zlen cells)) uRec).
  assert (EE : E st cells faces u wall out v = E st cells faces u wall sw v).
  { destruct (derivatives_exist st cells u HS LU sw ltac:(unfold sw; rewrite sweep_zlen; auto)) as [Ds Hs].
    rewrite <- (energy_E st cells faces u wall HS HW LU sw Ds v); auto; [|unfold sw; rewrite sweep_zlen; auto].
    rewrite (energy_E st cells faces u wall HS HW LU out Ds v); auto. intros i w Hi. eapply smooth_same; [|apply (Hs i w Hi)]. intros X Y Z. unfold reconstruction.
    rewrite (get_vget _ none cells i Hi), (get_vget _ zero_vec u) by lia. rewrite (get_vget _ zero_mat sw), (get_vget _ zero_mat out) by (try lia; unfold sw; rewrite sweep_zlen; lia).
    rewrite G by auto. replace (i <? zlen cells)%Z with true by (symmetry; apply Z.ltb_lt; lia). reflexivity. }
  rewrite EE. apply (sweeps_energy st cells faces inverse u FB FT FTB wall HS NP HM HW HR HG Ks HK); auto; try (intros; apply HI; auto).
  intros i Hi. apply in_upto in Hi. split; auto. apply HX, cell_in; auto.
Qed.
