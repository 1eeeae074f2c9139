(** Polynomials of the coordinates and their derivatives (C56). *)
From Coq Require Import List ZArith Reals Bool Lia Lra.
From Verif Require Import Base.Prelude Base.PreludeFacts Geom.PeriodicModel Geom.PeriodicProofs
  Geom.BaseFnModel Geom.BaseFnSpec Geom.BaseFnProofs Geom.DiffTensorSpec Geom.DiffTensorAnalysis Geom.DiffTensorLinProofs CFV.RecModel CFV.RecSpec.
Import ListNotations.
Local Open Scope R_scope.

(** *** differentials *)
Lemma differential_mult : forall D f g df dg, differential_in D f df -> differential_in D g dg ->
  differential_in D (fun X Y Z => f X Y Z * g X Y Z) (fun a X Y Z => df a X Y Z * g X Y Z + f X Y Z * dg a X Y Z).
Proof.
  intros D f g df dg Hf Hg X Y Z HD e He. specialize (Hf X Y Z HD). specialize (Hg X Y Z HD).
  set (F := f X Y Z) in *. set (G := g X Y Z) in *.
  set (f1 := df AX X Y Z) in *. set (f2 := df AY X Y Z) in *. set (f3 := df AZ X Y Z) in *.
  set (g1 := dg AX X Y Z) in *. set (g2 := dg AY X Y Z) in *. set (g3 := dg AZ X Y Z) in *.
  set (A := Rabs f1 + Rabs f2 + Rabs f3). set (B := Rabs g1 + Rabs g2 + Rabs g3).
  assert (HA : 0 <= A) by (unfold A; pose proof (Rabs_pos f1); pose proof (Rabs_pos f2); pose proof (Rabs_pos f3); lra).
  assert (HB : 0 <= B) by (unfold B; pose proof (Rabs_pos g1); pose proof (Rabs_pos g2); pose proof (Rabs_pos g3); lra).
  set (K := Rabs F + Rabs G + (A + 1) * (B + 1) + 1).
  assert (HAB : 0 <= (A + 1) * (B + 1)) by (apply Rmult_le_pos; lra).
  assert (HK : 0 < K) by (unfold K; pose proof (Rabs_pos F); pose proof (Rabs_pos G); lra).
  set (e1 := Rmin 1 (e / (2 * K))).
  assert (P1 : 0 < e / (2 * K)) by (apply Rdiv_lt_0_compat; lra).
  assert (He1 : 0 < e1) by (apply Rmin_pos; lra).
  assert (L1 : e1 <= 1) by apply Rmin_l. assert (L2 : e1 <= e / (2 * K)) by apply Rmin_r.
  destruct (Hf e1 He1) as [d1 [Hd1 Kf]]. destruct (Hg e1 He1) as [d2 [Hd2 Kg]].
  set (d3 := e / (6 * K)). assert (Hd3 : 0 < d3) by (apply Rdiv_lt_0_compat; lra).
  exists (Rmin d1 (Rmin d2 d3)). split; [repeat apply Rmin_pos; auto|]. intros u v w Hu Hv Hw.
  assert (M1 : Rmin d1 (Rmin d2 d3) <= d1) by apply Rmin_l.
  assert (M2 : Rmin d1 (Rmin d2 d3) <= d2) by (eapply Rle_trans; [apply Rmin_r|apply Rmin_l]).
  assert (M3 : Rmin d1 (Rmin d2 d3) <= d3) by (eapply Rle_trans; [apply Rmin_r|apply Rmin_r]).
  specialize (Kf u v w ltac:(lra) ltac:(lra) ltac:(lra)). specialize (Kg u v w ltac:(lra) ltac:(lra) ltac:(lra)).
  set (N := Rabs u + Rabs v + Rabs w) in *.
  assert (HN : 0 <= N) by (unfold N; pose proof (Rabs_pos u); pose proof (Rabs_pos v); pose proof (Rabs_pos w); lra).
  assert (HN3 : N <= 3 * d3) by (unfold N; lra).
  set (F' := f (X + u) (Y + v) (Z + w)) in *. set (G' := g (X + u) (Y + v) (Z + w)) in *.
  set (lf := f1 * u + f2 * v + f3 * w) in *. set (lg := g1 * u + g2 * v + g3 * w) in *.
  assert (Bl : forall a b c, Rabs (a * u + b * v + c * w) <= (Rabs a + Rabs b + Rabs c) * N).
  { intros a b c. eapply Rle_trans; [apply Rabs_triang|]. eapply Rle_trans; [apply Rplus_le_compat_r, Rabs_triang|].
    rewrite !Rabs_mult. unfold N. pose proof (Rabs_pos a). pose proof (Rabs_pos b). pose proof (Rabs_pos c).
    pose proof (Rabs_pos u). pose proof (Rabs_pos v). pose proof (Rabs_pos w). nra. }
  pose proof (Bl f1 f2 f3) as Bf. fold lf A in Bf. pose proof (Bl g1 g2 g3) as Bg. fold lg B in Bg.
  assert (DF : Rabs (F' - F) <= (A + 1) * N).
  { replace (F' - F) with ((F' - F - lf) + lf) by ring. eapply Rle_trans; [apply Rabs_triang|]. nra. }
  assert (DG : Rabs (G' - G) <= (B + 1) * N).
  { replace (G' - G) with ((G' - G - lg) + lg) by ring. eapply Rle_trans; [apply Rabs_triang|]. nra. }
  match goal with |- Rabs ?t <= _ => replace t with ((F' - F - lf) * G + F * (G' - G - lg) + (F' - F) * (G' - G)) by (unfold lf, lg; ring) end.
  eapply Rle_trans; [apply Rabs_triang|]. eapply Rle_trans; [apply Rplus_le_compat_r, Rabs_triang|]. rewrite !Rabs_mult.
  assert (T1 : Rabs (F' - F - lf) * Rabs G + Rabs F * Rabs (G' - G - lg) <= (Rabs F + Rabs G) * (e1 * N)).
  { pose proof (Rabs_pos F). pose proof (Rabs_pos G). nra. }
  assert (T2 : Rabs (F' - F) * Rabs (G' - G) <= ((A + 1) * N) * ((B + 1) * N)).
  { apply Rmult_le_compat; try apply Rabs_pos; auto. }
  assert (T3 : (Rabs F + Rabs G) * (e1 * N) <= e / 2 * N).
  { assert (e1 * (Rabs F + Rabs G) <= e / 2).
    { apply Rle_trans with (e / (2 * K) * K); [|right; field; lra].
      apply Rmult_le_compat; try lra. pose proof (Rabs_pos F). pose proof (Rabs_pos G). lra. unfold K. lra. }
    nra. }
  assert (T4 : ((A + 1) * N) * ((B + 1) * N) <= e / 2 * N).
  { assert ((A + 1) * (B + 1) * N <= e / 2).
    { apply Rle_trans with (K * (3 * d3)); [|right; unfold d3; field; lra].
      apply Rmult_le_compat; try lra. unfold K. pose proof (Rabs_pos F). pose proof (Rabs_pos G). lra. }
    nra. }
  lra.
Qed.

Lemma differential_plus : forall D f g df dg, differential_in D f df -> differential_in D g dg ->
  differential_in D (fun X Y Z => f X Y Z + g X Y Z) (fun a X Y Z => df a X Y Z + dg a X Y Z).
Proof.
  intros D f g df dg Hf Hg X Y Z HD e He. destruct (Hf X Y Z HD (e / 2) ltac:(lra)) as [d1 [H1 K1]].
  destruct (Hg X Y Z HD (e / 2) ltac:(lra)) as [d2 [H2 K2]].
  exists (Rmin d1 d2). split; [apply Rmin_pos; auto|]. intros u v w Hu Hv Hw.
  pose proof (Rmin_l d1 d2). pose proof (Rmin_r d1 d2).
  specialize (K1 u v w ltac:(lra) ltac:(lra) ltac:(lra)). specialize (K2 u v w ltac:(lra) ltac:(lra) ltac:(lra)).
  match goal with K1 : Rabs ?a <= _, K2 : Rabs ?b <= _ |- Rabs ?t <= _ => replace t with (a + b) by ring end.
  eapply Rle_trans; [apply Rabs_triang|]. lra.
Qed.
Lemma differential_value : forall D f df df', differential_in D f df ->
  (forall a X Y Z, D X Y Z -> df a X Y Z = df' a X Y Z) -> differential_in D f df'.
Proof. intros D f df df' H E X Y Z HD. rewrite <- !E by auto. apply H; auto. Qed.
Lemma differential_same : forall D f f' df, (forall X Y Z, f X Y Z = f' X Y Z) -> differential_in D f df -> differential_in D f' df.
Proof.
  intros D f f' df E H X Y Z HD e He. destruct (H X Y Z HD e He) as [d [Hd K]]. exists d. split; auto.
  intros. rewrite <- !E. apply K; auto.
Qed.

(** A function of one coordinate. *)
Lemma differential_one : forall D a f f', (forall t, derivable_pt_lim f t (f' t)) ->
  differential_in D (fun X Y Z => f (coordinate a X Y Z)) (fun b X Y Z => if axis_eqb a b then f' (coordinate a X Y Z) else 0).
Proof.
  intros D a f f' H X Y Z _ e He. destruct (H (coordinate a X Y Z) e He) as [d Hd]. exists d. split; [apply cond_pos|].
  intros u v w Hu Hv Hw.
  assert (Q : forall t h, (forall h, h <> 0 -> Rabs h < d -> Rabs ((f (t + h) - f t) / h - f' t) < e) -> Rabs h < d ->
     Rabs (f (t + h) - f t - f' t * h) <= e * Rabs h).
  { intros t h K Hh. destruct (Req_dec h 0) as [-> |N].
    - rewrite Rplus_0_r. replace (f t - f t - f' t * 0) with 0 by ring. rewrite Rabs_R0. lra.
    - replace (f (t + h) - f t - f' t * h) with (((f (t + h) - f t) / h - f' t) * h) by (field; auto).
      rewrite Rabs_mult. apply Rmult_le_compat_r; [apply Rabs_pos|]. left. auto. }
  pose proof (Rabs_pos u). pose proof (Rabs_pos v). pose proof (Rabs_pos w).
  destruct a; cbn [coordinate axis_eqb] in *.
  - eapply Rle_trans; [|apply (Rmult_le_compat_l e (Rabs u)); lra]. rewrite !Rmult_0_l, !Rplus_0_r. apply Q; auto.
  - eapply Rle_trans; [|apply (Rmult_le_compat_l e (Rabs v)); lra]. rewrite !Rmult_0_l, Rplus_0_l, Rplus_0_r. apply Q; auto.
  - eapply Rle_trans; [|apply (Rmult_le_compat_l e (Rabs w)); lra]. rewrite !Rmult_0_l, !Rplus_0_l. apply Q; auto.
Qed.

(** *** monomials *)
Definition dpow (p d : nat) (x : R) : R := INR (ff p d) * x ^ (p - d).
Lemma dpow_derivable : forall p d x, derivable_pt_lim (dpow p d) x (dpow p (S d) x).
Proof.
  intros p d x. unfold dpow. cbn [ff]. rewrite mult_INR, Rmult_assoc.
  apply (ext_derivable (mult_real_fct (INR (ff p d)) (fun t => t ^ (p - d)))); [reflexivity|].
  apply derivable_pt_lim_scal. replace (p - S d)%nat with (Init.Nat.pred (p - d)) by lia. apply derivable_pt_lim_pow.
Qed.
Definition dmono (p m : nat * nat * nat) : fn := fun X Y Z =>
  let '(a, b, c) := p in let '(d, e, f) := m in dpow a d X * dpow b e Y * dpow c f Z.
Lemma dmono_differential : forall D p m, differential_in D (dmono p m) (fun a => dmono p (next a m)).
Proof.
  intros D [[a b] c] [[d e] f].
  eapply differential_value; [apply (differential_mult D (fun X Y Z => dpow a d X * dpow b e Y) (fun X Y Z => dpow c f Z))|].
  - apply (differential_mult D (fun X Y Z => dpow a d X) (fun X Y Z => dpow b e Y)).
    + apply (differential_one D AX (dpow a d) (dpow a (S d)) (dpow_derivable a d)).
    + apply (differential_one D AY (dpow b e) (dpow b (S e)) (dpow_derivable b e)).
  - apply (differential_one D AZ (dpow c f) (dpow c (S f)) (dpow_derivable c f)).
  - intros x X Y Z _. destruct x; cbn [axis_eqb next dmono coordinate]; ring.
Qed.

(** *** polynomials *)
Definition poly := list (R * (nat * nat * nat)).
Definition peval (l : poly) : fn := fun X Y Z => sum_over l (fun t => fst t * mono (snd t) X Y Z).
Definition dpeval (l : poly) (m : nat * nat * nat) : fn := fun X Y Z => sum_over l (fun t => fst t * dmono (snd t) m X Y Z).
Definition degree (dim n : nat) (l : poly) : Prop := Forall (fun t => (order_of (snd t) <= n)%nat /\ (dim = 2%nat -> snd (snd t) = 0%nat)) l.

Lemma peval_smooth : forall D k l, smooth_in D k (peval l) (dpeval l).
Proof.
  intros D k l. split.
  - intros X Y Z. unfold peval, dpeval. induction l as [|[c [[p q] r]] l IH]; cbn [sum_over fold_right]; auto.
    unfold sum_over in IH. rewrite IH. f_equal. cbn [fst snd mono dmono]. unfold dpow. cbn [ff INR]. rewrite !Nat.sub_0_r. ring.
  - intros m _. unfold dpeval. induction l as [|[c p] l IH]; cbn [sum_over fold_right].
    + apply const_differential.
    + apply (differential_plus D (fun X Y Z => fst (c, p) * dmono (snd (c, p)) m X Y Z) (fun X Y Z => fold_right _ 0 l)); [|exact IH].
      eapply differential_value; [apply (differential_mult D (fun _ _ _ => c)); [apply const_differential|apply dmono_differential]|].
      intros a X Y Z _. cbn [fst snd]. ring.
Qed.

Lemma sum_over_app : forall A (l l' : list A) f, sum_over (l ++ l') f = sum_over l f + sum_over l' f.
Proof. intros A l l' f. unfold sum_over. induction l as [|x l IH]; cbn [app fold_right]; [ring|]. rewrite IH. ring. Qed.
Lemma sum_over_scal : forall A (l : list A) f c, sum_over l (fun x => c * f x) = c * sum_over l f.
Proof. intros A l f c. unfold sum_over. induction l as [|x l IH]; cbn [fold_right]; [ring|]. rewrite IH. ring. Qed.
Lemma sum_over_plus : forall A (l : list A) f g, sum_over l (fun x => f x + g x) = sum_over l f + sum_over l g.
Proof. intros A l f g. unfold sum_over. induction l as [|x l IH]; cbn [fold_right]; [ring|]. rewrite IH. ring. Qed.
Lemma sum_over_map : forall A B (h : A -> B) l f, sum_over (map h l) f = sum_over l (fun x => f (h x)).
Proof. intros A B h l f. unfold sum_over. induction l as [|x l IH]; cbn [map fold_right]; auto. rewrite IH. reflexivity. Qed.
Lemma sum_over_flat : forall A B (h : A -> list B) l f, sum_over (flat_map h l) f = sum_over l (fun x => sum_over (h x) f).
Proof. intros A B h l f. induction l as [|x l IH]; cbn [flat_map]; [reflexivity|]. rewrite sum_over_app, IH. reflexivity. Qed.
Lemma sum_over_zero : forall A (l : list A) f, (forall x, In x l -> f x = 0) -> sum_over l f = 0.
Proof. intros A l f H. unfold sum_over. induction l as [|x l IH]; cbn [fold_right]; auto. rewrite H, IH by (cbn; auto; intros; apply H; cbn; auto). ring. Qed.

Definition addm (p q : nat * nat * nat) : nat * nat * nat :=
  let '(a, b, c) := p in let '(a', b', c') := q in (a + a', b + b', c + c')%nat.
Lemma mono_addm : forall p q X Y Z, mono (addm p q) X Y Z = mono p X Y Z * mono q X Y Z.
Proof. intros [[a b] c] [[a' b'] c'] X Y Z. cbn [mono addm]. rewrite !pow_add. ring. Qed.
Definition pmul (l l' : poly) : poly := flat_map (fun s => map (fun t => (fst s * fst t, addm (snd s) (snd t))) l') l.
Lemma pmul_eval : forall l l' X Y Z, peval (pmul l l') X Y Z = peval l X Y Z * peval l' X Y Z.
Proof.
  intros l l' X Y Z. unfold pmul, peval. rewrite sum_over_flat. rewrite Rmult_comm, <- sum_over_scal.
  f_equal. apply FunctionalExtensionality.functional_extensionality. intros s.
  rewrite sum_over_map. rewrite (Rmult_comm _ (fst s * _)), <- sum_over_scal. cbn [fst snd].
  f_equal. apply FunctionalExtensionality.functional_extensionality. intros t. rewrite mono_addm. ring.
Qed.
Lemma pmul_degree : forall dim n n' l l', degree dim n l -> degree dim n' l' -> degree dim (n + n') (pmul l l').
Proof.
  intros dim n n' l l' H H'. unfold degree, pmul in *. rewrite Forall_forall in *. intros t Ht.
  apply in_flat_map in Ht. destruct Ht as [s [Hs Ht]]. apply in_map_iff in Ht. destruct Ht as [s' [<- Hs']].
  specialize (H s Hs). specialize (H' s' Hs'). cbn [snd]. destruct (snd s) as [[a b] c]. destruct (snd s') as [[a' b'] c'].
  cbn [addm order_of snd] in *. destruct H, H'. split; [lia|]. intros E. specialize (H0 E). specialize (H2 E). lia.
Qed.

(** *** polynomial functions *)
Lemma poly_same : forall dim n f g, (forall X Y Z, f X Y Z = g X Y Z) -> polynomial dim n f -> polynomial dim n g.
Proof. intros dim n f g E [l [H V]]. exists l. split; auto. intros. rewrite <- E. auto. Qed.
Lemma poly_le : forall dim n n' f, (n <= n')%nat -> polynomial dim n f -> polynomial dim n' f.
Proof. intros dim n n' f L [l [H V]]. exists l. split; auto. eapply Forall_impl; [|exact H]. cbn. intros t [A B]. split; auto; lia. Qed.
Lemma poly_const : forall dim n c, polynomial dim n (fun _ _ _ => c).
Proof.
  intros dim n c. exists [(c, (0, 0, 0)%nat)]. split; [repeat constructor; cbn; lia|].
  intros. cbn [sum_over fold_right fst snd mono pow]. ring.
Qed.
Lemma poly_coord : forall dim a, In a (axes dim) -> polynomial dim 1 (coordinate a).
Proof.
  intros dim a H. exists [(1, next a (0, 0, 0)%nat)]. split.
  - constructor; [|constructor]. split; [destruct a; cbn; lia|]. intros ->. destruct a; cbn in *; intuition (try discriminate; auto).
  - intros. destruct a; cbn [sum_over fold_right fst snd mono pow next coordinate]; ring.
Qed.
Lemma poly_plus : forall dim n f g, polynomial dim n f -> polynomial dim n g -> polynomial dim n (fun X Y Z => f X Y Z + g X Y Z).
Proof.
  intros dim n f g [l [H V]] [l' [H' V']]. exists (l ++ l'). split; [apply Forall_app; auto|].
  intros. rewrite sum_over_app, V, V'. reflexivity.
Qed.
Lemma poly_mult : forall dim n n' f g, polynomial dim n f -> polynomial dim n' g -> polynomial dim (n + n') (fun X Y Z => f X Y Z * g X Y Z).
Proof.
  intros dim n n' f g [l [H V]] [l' [H' V']]. exists (pmul l l'). split; [apply pmul_degree; auto|].
  intros. rewrite V, V'. symmetry. apply pmul_eval.
Qed.
Lemma poly_scal : forall dim n c f, polynomial dim n f -> polynomial dim n (fun X Y Z => c * f X Y Z).
Proof. intros dim n c f H. apply (poly_mult dim 0 n (fun _ _ _ => c)); auto. apply poly_const. Qed.
Lemma poly_sumn : forall dim n k (f : nat -> fn), (forall i, (i < k)%nat -> polynomial dim n (f i)) ->
  polynomial dim n (fun X Y Z => sumn k (fun i => f i X Y Z)).
Proof.
  intros dim n k f. induction k as [|k IH]; intros H; cbn [sumn]; [apply poly_const|].
  apply (poly_plus dim n (fun X Y Z => sumn k (fun i => f i X Y Z))); [apply IH; auto|auto].
Qed.
Lemma poly_sum_over : forall A dim n (l : list A) (f : A -> fn), (forall x, In x l -> polynomial dim n (f x)) ->
  polynomial dim n (fun X Y Z => sum_over l (fun x => f x X Y Z)).
Proof.
  intros A dim n l f. induction l as [|x l IH]; intros H; [apply (poly_const dim n 0)|].
  apply (poly_plus dim n (f x) (fun X Y Z => sum_over l (fun x => f x X Y Z))); [apply H; cbn; auto|].
  apply IH. intros. apply H. cbn. auto.
Qed.
Lemma poly_pow : forall dim f p, polynomial dim 1 f -> polynomial dim p (fun X Y Z => f X Y Z ^ p).
Proof.
  intros dim f p H. induction p as [|p IH]; cbn [pow]; [apply poly_const|]. exact (poly_mult dim 1 p f _ H IH).
Qed.
Lemma poly_compose : forall dim n f (xi : axis -> fn), polynomial dim n f -> (forall a, In a (axes dim) -> polynomial dim 1 (xi a)) ->
  polynomial dim n (compose f xi).
Proof.
  intros dim n f xi [l [H V]] Hxi. rewrite Forall_forall in H.
  apply (poly_same dim n (fun X Y Z => sum_over l (fun t => fst t * mono (snd t) (xi AX X Y Z) (xi AY X Y Z) (xi AZ X Y Z)))).
  { intros. unfold compose. rewrite V. reflexivity. }
  apply (poly_sum_over _ dim n l (fun t X Y Z => fst t * mono (snd t) (xi AX X Y Z) (xi AY X Y Z) (xi AZ X Y Z))).
  intros [c [[p q] r]] Ht. specialize (H _ Ht). cbn [fst snd order_of] in H. destruct H as [L Z2]. cbn [fst snd mono].
  apply (poly_scal dim n c (fun X Y Z => xi AX X Y Z ^ p * xi AY X Y Z ^ q * xi AZ X Y Z ^ r)).
  apply (poly_le dim (p + q + r)); [lia|].
  apply (poly_mult dim (p + q) r (fun X Y Z => xi AX X Y Z ^ p * xi AY X Y Z ^ q)).
  - apply (poly_mult dim p q (fun X Y Z => xi AX X Y Z ^ p)); apply poly_pow, Hxi; unfold axes; destruct (Nat.eqb dim 2); cbn; auto.
  - unfold axes in Hxi. destruct (Nat.eqb_spec dim 2) as [E|N].
    + rewrite (Z2 E). cbn [pow]. apply poly_const.
    + apply poly_pow, Hxi. cbn. auto.
Qed.

Lemma poly_smooth : forall D k dim n f, polynomial dim n f -> exists d, smooth_in D k f d.
Proof.
  intros D k dim n f [l [_ V]]. exists (dpeval l). eapply smooth_same; [|apply peval_smooth]. intros. symmetry. apply V.
Qed.
