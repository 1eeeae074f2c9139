(** The chain rule up to order 3 (C55). *)
From Coq Require Import List ZArith Reals Bool Lia Lra.
From Verif Require Import Base.Prelude Base.PreludeFacts Geom.PeriodicModel Geom.PeriodicSpec Geom.PeriodicProofs
  Geom.BaseFnModel Geom.BaseFnSpec Geom.BaseFnProofs Geom.DiffTensorSpec.
Import ListNotations.
Local Open Scope R_scope.

(** *** one variable *)
Lemma path_chain : forall (F : fn) (g1 g2 g3 : R) (y1 y2 y3 : R -> R) t v1 v2 v3,
  derivable_pt_lim y1 t v1 -> derivable_pt_lim y2 t v2 -> derivable_pt_lim y3 t v3 ->
  (forall e, 0 < e -> exists d, 0 < d /\
   forall u v w, Rabs u < d -> Rabs v < d -> Rabs w < d ->
    Rabs (F (y1 t + u) (y2 t + v) (y3 t + w) - F (y1 t) (y2 t) (y3 t) - (g1 * u + g2 * v + g3 * w)) <=
    e * (Rabs u + Rabs v + Rabs w)) ->
  derivable_pt_lim (fun s => F (y1 s) (y2 s) (y3 s)) t (g1 * v1 + g2 * v2 + g3 * v3).
Proof.
  intros F g1 g2 g3 y1 y2 y3 t v1 v2 v3 D1 D2 D3 HF eps Heps.
  set (M := Rabs v1 + Rabs v2 + Rabs v3 + 3).
  set (G := Rabs g1 + Rabs g2 + Rabs g3 + 1).
  assert (HM : 0 < M) by (unfold M; pose proof (Rabs_pos v1); pose proof (Rabs_pos v2); pose proof (Rabs_pos v3); lra).
  assert (HG : 0 < G) by (unfold G; pose proof (Rabs_pos g1); pose proof (Rabs_pos g2); pose proof (Rabs_pos g3); lra).
  assert (He1 : 0 < eps / 2 / M) by (apply Rdiv_lt_0_compat; lra).
  destruct (HF (eps / 2 / M) He1) as [d [Hd HF']].
  set (e2 := Rmin 1 (eps / 2 / G)).
  assert (He2 : 0 < e2) by (unfold e2; apply Rmin_pos; [lra|apply Rdiv_lt_0_compat; lra]).
  assert (L1 : e2 <= 1) by apply Rmin_l. assert (L2 : e2 <= eps / 2 / G) by apply Rmin_r.
  destruct (D1 e2 He2) as [d1 K1]. destruct (D2 e2 He2) as [d2 K2]. destruct (D3 e2 He2) as [d3 K3].
  assert (Hdd : 0 < Rmin (d / M) (Rmin d1 (Rmin d2 d3))).
  { repeat apply Rmin_pos; try apply cond_pos. apply Rdiv_lt_0_compat; lra. }
  exists (mkposreal _ Hdd). intros h Hh Hl. cbn [pos] in Hl.
  assert (B0 : Rabs h < d / M) by (eapply Rlt_le_trans; [exact Hl|apply Rmin_l]).
  assert (B' : Rabs h < Rmin d1 (Rmin d2 d3)) by (eapply Rlt_le_trans; [exact Hl|apply Rmin_r]).
  assert (B1 : Rabs h < d1) by (eapply Rlt_le_trans; [exact B'|apply Rmin_l]).
  assert (B'' : Rabs h < Rmin d2 d3) by (eapply Rlt_le_trans; [exact B'|apply Rmin_r]).
  assert (B2 : Rabs h < d2) by (eapply Rlt_le_trans; [exact B''|apply Rmin_l]).
  assert (B3 : Rabs h < d3) by (eapply Rlt_le_trans; [exact B''|apply Rmin_r]).
  specialize (K1 h Hh B1). specialize (K2 h Hh B2). specialize (K3 h Hh B3).
  assert (Hp : 0 < Rabs h) by (apply Rabs_pos_lt; auto).
  assert (Q : forall y v, Rabs ((y (t + h) - y t) / h - v) < e2 -> Rabs (y (t + h) - y t - v * h) <= e2 * Rabs h).
  { intros y v K. replace (y (t + h) - y t - v * h) with (((y (t + h) - y t) / h - v) * h) by (field; auto).
    rewrite Rabs_mult. apply Rmult_le_compat_r; lra. }
  apply Q in K1. apply Q in K2. apply Q in K3.
  assert (W : forall y v, Rabs (y (t + h) - y t - v * h) <= e2 * Rabs h -> Rabs (y (t + h) - y t) <= (Rabs v + 1) * Rabs h).
  { intros y v K. replace (y (t + h) - y t) with ((y (t + h) - y t - v * h) + v * h) by ring.
    eapply Rle_trans; [apply Rabs_triang|]. rewrite Rabs_mult. nra. }
  pose proof (W _ _ K1) as W1. pose proof (W _ _ K2) as W2. pose proof (W _ _ K3) as W3.
  set (u := y1 (t + h) - y1 t) in *. set (v := y2 (t + h) - y2 t) in *. set (w := y3 (t + h) - y3 t) in *.
  assert (S0 : Rabs u + Rabs v + Rabs w <= M * Rabs h) by (unfold M; lra).
  assert (MB : M * Rabs h < d).
  { apply (Rmult_lt_compat_l M) in B0; auto. replace (M * (d / M)) with d in B0 by (field; lra). exact B0. }
  assert (Bu : Rabs u < d) by (pose proof (Rabs_pos v); pose proof (Rabs_pos w); lra).
  assert (Bv : Rabs v < d) by (pose proof (Rabs_pos u); pose proof (Rabs_pos w); lra).
  assert (Bw : Rabs w < d) by (pose proof (Rabs_pos u); pose proof (Rabs_pos v); lra).
  specialize (HF' u v w Bu Bv Bw).
  replace (y1 t + u) with (y1 (t + h)) in HF' by (unfold u; ring).
  replace (y2 t + v) with (y2 (t + h)) in HF' by (unfold v; ring).
  replace (y3 t + w) with (y3 (t + h)) in HF' by (unfold w; ring).
  set (dF := F (y1 (t + h)) (y2 (t + h)) (y3 (t + h)) - F (y1 t) (y2 t) (y3 t)) in *.
  assert (T1 : Rabs (dF - (g1 * u + g2 * v + g3 * w)) <= eps / 2 * Rabs h).
  { eapply Rle_trans; [exact HF'|]. apply Rle_trans with (eps / 2 / M * (M * Rabs h)).
    - apply Rmult_le_compat_l; lra.
    - right. field. lra. }
  assert (T2 : Rabs (g1 * (u - v1 * h) + g2 * (v - v2 * h) + g3 * (w - v3 * h)) <= (G - 1) * (e2 * Rabs h)).
  { eapply Rle_trans; [apply Rabs_triang|].
    eapply Rle_trans; [apply Rplus_le_compat_r, Rabs_triang|]. rewrite !Rabs_mult. unfold G.
    pose proof (Rabs_pos g1). pose proof (Rabs_pos g2). pose proof (Rabs_pos g3). nra. }
  assert (T3 : (G - 1) * (e2 * Rabs h) < eps / 2 * Rabs h).
  { apply Rlt_le_trans with (G * (e2 * Rabs h)).
    - apply Rmult_lt_compat_r; [apply Rmult_lt_0_compat; lra|lra].
    - rewrite <- Rmult_assoc. apply Rmult_le_compat_r; [lra|].
      apply Rle_trans with (G * (eps / 2 / G)); [apply Rmult_le_compat_l; lra|right; field; lra]. }
  replace (dF / h - (g1 * v1 + g2 * v2 + g3 * v3)) with ((dF - (g1 * v1 + g2 * v2 + g3 * v3) * h) / h) by (field; auto).
  unfold Rdiv at 1. rewrite Rabs_mult, Rabs_inv.
  apply (Rmult_lt_reg_r (Rabs h)); auto. rewrite Rmult_assoc, Rinv_l, Rmult_1_r by lra.
  replace (dF - (g1 * v1 + g2 * v2 + g3 * v3) * h) with
    ((dF - (g1 * u + g2 * v + g3 * w)) + (g1 * (u - v1 * h) + g2 * (v - v2 * h) + g3 * (w - v3 * h))) by ring.
  eapply Rle_lt_trans; [apply Rabs_triang|]. lra.
Qed.

(** *** a calculus of derivatives in a region *)
Section Calc.
Variable D : region.

Lemma along_plus : forall a f g f' g', along_in D a f f' -> along_in D a g g' ->
  along_in D a (fun X Y Z => f X Y Z + g X Y Z) (fun X Y Z => f' X Y Z + g' X Y Z).
Proof.
  intros a f g f' g' Hf Hg X Y Z HD. specialize (Hf X Y Z HD). specialize (Hg X Y Z HD).
  destruct a; exact (derivable_pt_lim_plus _ _ _ _ _ Hf Hg).
Qed.
Lemma along_mult : forall a f g f' g', along_in D a f f' -> along_in D a g g' ->
  along_in D a (fun X Y Z => f X Y Z * g X Y Z) (fun X Y Z => f' X Y Z * g X Y Z + f X Y Z * g' X Y Z).
Proof.
  intros a f g f' g' Hf Hg X Y Z HD. specialize (Hf X Y Z HD). specialize (Hg X Y Z HD).
  destruct a; exact (derivable_pt_lim_mult _ _ _ _ _ Hf Hg).
Qed.
Lemma along_const : forall a c, along_in D a (fun _ _ _ => c) (fun _ _ _ => 0).
Proof. intros a c X Y Z HD. destruct a; exact (derivable_pt_lim_const c _). Qed.
Lemma along_sum : forall n a (f f' : nat -> fn), (forall i, (i < n)%nat -> along_in D a (f i) (f' i)) ->
  along_in D a (fun X Y Z => sumn n (fun i => f i X Y Z)) (fun X Y Z => sumn n (fun i => f' i X Y Z)).
Proof.
  induction n; intros a f f' H; cbn [sumn]; [apply along_const|].
  apply along_plus; [apply IHn; auto|apply H; auto].
Qed.
Lemma along_value : forall a f g g', along_in D a f g -> (forall X Y Z, D X Y Z -> g X Y Z = g' X Y Z) -> along_in D a f g'.
Proof. intros a f g g' H E X Y Z HD. specialize (H X Y Z HD). specialize (E X Y Z HD). destruct a; rewrite <- E; exact H. Qed.
Lemma along_same : forall a f f' g, (forall X Y Z, f X Y Z = f' X Y Z) -> along_in D a f g -> along_in D a f' g.
Proof. intros a f f' g E H X Y Z HD. specialize (H X Y Z HD). destruct a; (eapply ext_derivable; [|exact H]); intros; apply E. Qed.

Lemma differential_along : forall f g, differential_in D f g -> forall a, along_in D a f (g a).
Proof.
  intros f g H a X Y Z HD. specialize (H X Y Z HD).
  pose proof (fun c x => derivable_pt_lim_const c x) as Dc. pose proof derivable_pt_lim_id as Di.
  destruct a.
  - replace (g AX X Y Z) with (g AX X Y Z * 1 + g AY X Y Z * 0 + g AZ X Y Z * 0) by ring.
    exact (path_chain f _ _ _ id (fct_cte Y) (fct_cte Z) X 1 0 0 (Di X) (Dc Y X) (Dc Z X) H).
  - replace (g AY X Y Z) with (g AX X Y Z * 0 + g AY X Y Z * 1 + g AZ X Y Z * 0) by ring.
    exact (path_chain f _ _ _ (fct_cte X) id (fct_cte Z) Y 0 1 0 (Dc X Y) (Di Y) (Dc Z Y) H).
  - replace (g AZ X Y Z) with (g AX X Y Z * 0 + g AY X Y Z * 0 + g AZ X Y Z * 1) by ring.
    exact (path_chain f _ _ _ (fct_cte X) (fct_cte Y) id Z 0 0 1 (Dc X Z) (Dc Y Z) (Di Z) H).
Qed.

Lemma chain3 : forall E f g xi (h : axis -> fn) a, maps D E xi -> differential_in E f g ->
  (forall b, along_in D a (xi b) (h b)) ->
  along_in D a (compose f xi) (fun X Y Z => compose (g AX) xi X Y Z * h AX X Y Z +
    compose (g AY) xi X Y Z * h AY X Y Z + compose (g AZ) xi X Y Z * h AZ X Y Z).
Proof.
  intros E f g xi h a HM Hf Hxi X Y Z HD. specialize (Hf _ _ _ (HM X Y Z HD)).
  pose proof (Hxi AX X Y Z HD) as H1. pose proof (Hxi AY X Y Z HD) as H2. pose proof (Hxi AZ X Y Z HD) as H3.
  unfold compose. destruct a.
  - exact (path_chain f _ _ _ (fun t => xi AX t Y Z) (fun t => xi AY t Y Z) (fun t => xi AZ t Y Z) X _ _ _ H1 H2 H3 Hf).
  - exact (path_chain f _ _ _ (fun t => xi AX X t Z) (fun t => xi AY X t Z) (fun t => xi AZ X t Z) Y _ _ _ H1 H2 H3 Hf).
  - exact (path_chain f _ _ _ (fun t => xi AX X Y t) (fun t => xi AY X Y t) (fun t => xi AZ X Y t) Z _ _ _ H1 H2 H3 Hf).
Qed.
End Calc.

(** *** uniqueness *)
Lemma local_derivable : forall f g x a e, 0 < e -> (forall t, Rabs (t - x) < e -> f t = g t) ->
  derivable_pt_lim f x a -> derivable_pt_lim g x a.
Proof.
  intros f g x a e He H Df eps Heps. destruct (Df eps Heps) as [d Hd].
  assert (P : 0 < Rmin e d) by (apply Rmin_pos; [auto|apply cond_pos]).
  exists (mkposreal _ P). intros h Hh Hl. cbn [pos] in Hl.
  rewrite <- (H (x + h)), <- (H x).
  - apply Hd; auto. eapply Rlt_le_trans; [exact Hl|apply Rmin_r].
  - rewrite Rminus_diag_eq by auto. rewrite Rabs_R0. auto.
  - replace (x + h - x) with h by ring. eapply Rlt_le_trans; [exact Hl|apply Rmin_l].
Qed.
Lemma along_unique : forall D a f f' g g', open_region D -> (forall X Y Z, D X Y Z -> f X Y Z = f' X Y Z) ->
  along_in D a f g -> along_in D a f' g' -> forall X Y Z, D X Y Z -> g X Y Z = g' X Y Z.
Proof.
  intros D a f f' g g' HO E H H' X Y Z HD. specialize (H X Y Z HD). specialize (H' X Y Z HD).
  destruct (HO X Y Z HD) as [e [He HB]].
  assert (Z0 : forall x, Rabs (x - x) < e) by (intros x; rewrite Rminus_diag_eq by auto; rewrite Rabs_R0; auto).
  destruct a; (eapply uniqueness_limite; [eapply local_derivable; [exact He| |exact H]|exact H']); intros t Ht; apply E, HB; auto.
Qed.
Lemma partial_unique : forall D ds f f' g g', open_region D -> (forall X Y Z, D X Y Z -> f X Y Z = f' X Y Z) ->
  partial_in D ds f g -> partial_in D ds f' g' -> forall X Y Z, D X Y Z -> g X Y Z = g' X Y Z.
Proof.
  intros D ds. induction ds as [|a ds IH]; intros f f' g g' HO E H H'; inversion H; subst; inversion H'; subst; auto.
  eapply IH; [exact HO| |eassumption|eassumption]. eapply along_unique; eauto.
Qed.
