(** Proofs about the limiters that weigh whole polynomials. *)
From Coq Require Import Reals List Lra Lia Psatz.
From Verif Require Import Base.Prelude Base.PreludeFacts.
From Verif Require Import CFV.LimiterModel CFV.LimiterSpec CFV.LimiterProofs.
Import ListNotations.
Open Scope R_scope.

Lemma norm_weights_ok : forall dim rows w, norm_weights dim rows = Ok w ->
  length w = rows /\ Forall (fun a => 1 / 6 <= a <= 1) w.
Proof.
  intros dim rows w. unfold norm_weights. destruct (Nat.eqb dim 2).
  - do 5 (destruct rows as [|rows]; [first [discriminate|intros E; injection E as <-;
      split; [reflexivity|repeat (apply Forall_cons; [lra|]); apply Forall_nil]]|]); discriminate.
  - do 11 (destruct rows as [|rows]; [first [discriminate|intros E; injection E as <-;
      split; [reflexivity|repeat (apply Forall_cons; [lra|]); apply Forall_nil]]|]); discriminate.
Qed.

Definition wgood (w : list R) : Prop := Forall (fun a => 1 / 6 <= a <= 1) w.

Lemma wsq_nonneg : forall w t, wgood w -> 0 <= wsq w t.
Proof.
  induction w as [|a w IH]; intros [|x t] H; cbn; try lra.
  inversion H; subst. specialize (IH t H3). nra.
Qed.

Lemma wsq_scale : forall w k t, wsq w (map (fun x => x * k) t) = k * k * wsq w t.
Proof.
  induction w as [|a w IH]; intros k [|x t]; cbn; try ring. rewrite IH. ring.
Qed.

Lemma wsq_div : forall w m t, wsq w (map (fun x => x / m) t) = / m * / m * wsq w t.
Proof. intros. unfold Rdiv. apply wsq_scale. Qed.

Lemma wsq_mid : forall w, wgood w -> forall s t, 
  wsq w (map2 (fun x y => x * (1 / 2) + y * (1 / 2)) s t)
  <= 1 / 2 * wsq w s + 1 / 2 * wsq w t.
Proof.
  induction w as [|a w IH]; intros Hw s t; cbn; [lra|].
  inversion Hw as [|? ? Ha Hw']; subst. unfold map2 in *.
  destruct s as [|x s]; cbn.
  - destruct t as [|y t]; [lra|]. pose proof (wsq_nonneg w t Hw'). nra.
  - destruct t as [|y t]; cbn.
    + pose proof (wsq_nonneg w s Hw'). nra.
    + specialize (IH Hw' s t).
      assert ((x * (1 / 2) + y * (1 / 2)) * (x * (1 / 2) + y * (1 / 2)) * a
              <= 1 / 2 * (x * x * a) + 1 / 2 * (y * y * a)).
      { assert (0 <= (x - y) * (x - y) * a) by (apply Rmult_le_pos; [apply sq_nonneg|lra]). nra. }
      lra.
Qed.

Lemma map2_ext : forall f g a b, (forall x y, f x y = g x y) -> map2 f a b = map2 g a b.
Proof. intros. unfold map2. apply map_ext. auto. Qed.

Lemma map2_fst : forall a b, length a = length b -> map2 (fun x _ => x) a b = a.
Proof.
  induction a as [|x a IH]; intros [|y b] H; cbn in *; try discriminate; auto.
  unfold map2 in IH. rewrite IH by lia. reflexivity.
Qed.
Lemma map2_snd : forall a b, length a = length b -> map2 (fun _ y => y) a b = b.
Proof.
  induction a as [|x a IH]; intros [|y b] H; cbn in *; try discriminate; auto.
  unfold map2 in IH. rewrite IH by lia. reflexivity.
Qed.
Lemma map2_length : forall f a b, length a = length b -> length (map2 f a b) = length a.
Proof. intros. unfold map2. rewrite map_length, combine_length. lia. Qed.

Lemma map2_nth : forall f a b i, length a = length b -> (i < length a)%nat ->
  nth i (map2 f a b) 0 = f (nth i a 0) (nth i b 0).
Proof.
  unfold map2. induction a as [|x a IH]; intros [|y b] [|i] H Hi; cbn in *; try discriminate; try lia; auto.
  apply IH; lia.
Qed.

(** ** The maximum *)
Lemma col_max_nonneg : forall u1 u2, 0 <= col_max u1 u2.
Proof.
  induction u1 as [|x u1 IH]; intros [|y u2]; cbn; try lra.
  eapply Rle_trans; [apply IH|apply Rmax_r].
Qed.

Lemma col_max_attained : forall u1 u2, length u1 = length u2 -> 0 < col_max u1 u2 ->
  exists i, (i < length u1)%nat /\
    (Rabs (nth i u1 0) = col_max u1 u2 \/ Rabs (nth i u2 0) = col_max u1 u2).
Proof.
  induction u1 as [|x u1 IH]; intros [|y u2] H P; cbn in *; try discriminate; try lra.
  assert (C : Rmax (Rmax (Rabs x) (Rabs y)) (col_max u1 u2) = col_max u1 u2 \/
    Rmax (Rmax (Rabs x) (Rabs y)) (col_max u1 u2) = Rabs x \/
    Rmax (Rmax (Rabs x) (Rabs y)) (col_max u1 u2) = Rabs y) by (minmax; auto).
  destruct C as [C|[C|C]]; rewrite C in *.
  - destruct (IH u2 ltac:(lia) P) as (i & Hi & A). exists (S i). split; [lia|exact A].
  - exists 0%nat. split; [lia|auto].
  - exists 0%nat. split; [lia|auto].
Qed.

Lemma wsq_lower : forall w t i, wgood w -> length w = length t -> (i < length t)%nat ->
  nth i t 0 * nth i t 0 / 6 <= wsq w t.
Proof.
  induction w as [|a w IH]; intros [|x t] i Hw H Hi; cbn in *; try lia.
  inversion Hw as [|? ? Ha Hw']; subst. destruct i as [|i].
  - pose proof (wsq_nonneg w t Hw'). assert (0 <= x * x) by nra. nra.
  - specialize (IH t i Hw' ltac:(lia) ltac:(lia)). assert (0 <= x * x * a) by nra. lra.
Qed.

Lemma nth_div : forall m l i, nth i (map (fun x => x / m) l) 0 = nth i l 0 / m.
Proof.
  intros m l. induction l as [|x l IH]; intros [|i]; cbn; auto; unfold Rdiv; ring.
Qed.

(** ** The two-way blend *)
Section Blend.
  Variables (eps e n : R) (w u1 u2 : list R).
  Hypothesis (Heps : 0 < eps) (He : 0 < e) (Hn : 0 < n) (Hw : wgood w).
  Hypothesis (L1 : length w = length u1) (L2 : length u1 = length u2).
  Let m := u_max e u1 u2.
  Let q1 := wsq w (map (fun x => x / m) u1).
  Let q2 := wsq w (map (fun x => x / m) u2).

  Lemma m_pos : 0 < m.
  Proof. unfold m, u_max. pose proof (col_max_nonneg u1 u2). lra. Qed.

  Lemma q_pos : 0 <= q1 /\ 0 <= q2.
  Proof. split; apply wsq_nonneg; auto. Qed.

  Definition blend_spec (out : list R) : Prop :=
    exists a b, 0 <= a /\ 0 <= b /\ a + b <= 1 /\
      out = map2 (fun x y => a * x + b * y) u1 u2 /\
      a * (wsq w u1) ^ 2 = n * b * (wsq w u2) ^ 2 /\
      (e <= col_max u1 u2 -> 1 - (a + b) <= 576 * eps / Rmin 1 n).

  Lemma blend_ok : blend_spec (wbap_blend eps n (q1 * q1) (q2 * q2) u1 u2).
  Proof.
    destruct q_pos as [Q1 Q2]. pose proof m_pos as Hm.
    assert (P1 : 0 <= q1 * q1) by nra. assert (P2 : 0 <= q2 * q2) by nra.
    set (D := q1 * q1 + n * (q2 * q2) + eps).
    assert (HD : 0 < D) by (unfold D; nra).
    exists (n * (q2 * q2) / D), (q1 * q1 / D).
    split; [apply le_div; auto; nra|]. split; [apply le_div; auto; nra|].
    split.
    { replace (n * (q2 * q2) / D + q1 * q1 / D) with ((n * (q2 * q2) + q1 * q1) / D)
        by (field; lra).
      apply div_le; auto. unfold D. lra. }
    split.
    { unfold wbap_blend. apply map2_ext. intros x y. fold D. field. lra. }
    split.
    { unfold q1, q2. rewrite !wsq_div. field. split; lra. }
    intros Hbig.
    replace (1 - (n * (q2 * q2) / D + q1 * q1 / D)) with (eps / D)
      by (unfold D; field; unfold D in HD; lra).
    assert (E : q1 >= 1 / 24 \/ q2 >= 1 / 24).
    { assert (Hc : 0 < col_max u1 u2) by lra.
      assert (H2 : 1 / 2 <= col_max u1 u2 / m).
      { apply le_div; auto. unfold m, u_max. lra. }
      destruct (col_max_attained u1 u2 L2 Hc) as (i & Hi & [A|A]).
      - left. unfold q1.
        pose proof (wsq_lower w (map (fun x => x / m) u1) i Hw
          ltac:(rewrite map_length; auto) ltac:(rewrite map_length; auto)) as B.
        rewrite nth_div in B.
        assert (C : (nth i u1 0 / m) * (nth i u1 0 / m) = (col_max u1 u2 / m) * (col_max u1 u2 / m)).
        { rewrite <- A. unfold Rdiv.
          transitivity ((nth i u1 0 * nth i u1 0) * (/ m * / m)); [ring|].
          transitivity ((Rabs (nth i u1 0) * Rabs (nth i u1 0)) * (/ m * / m)); [|ring].
          f_equal. rewrite <- Rabs_mult. symmetry. apply Rabs_right. nra. }
        rewrite C in B. nra.
      - right. unfold q2.
        pose proof (wsq_lower w (map (fun x => x / m) u2) i Hw
          ltac:(rewrite map_length; lia) ltac:(rewrite map_length; lia)) as B.
        rewrite nth_div in B.
        assert (C : (nth i u2 0 / m) * (nth i u2 0 / m) = (col_max u1 u2 / m) * (col_max u1 u2 / m)).
        { rewrite <- A. unfold Rdiv.
          transitivity ((nth i u2 0 * nth i u2 0) * (/ m * / m)); [ring|].
          transitivity ((Rabs (nth i u2 0) * Rabs (nth i u2 0)) * (/ m * / m)); [|ring].
          f_equal. rewrite <- Rabs_mult. symmetry. apply Rabs_right. nra. }
        rewrite C in B. nra. }
    assert (HR : 0 < Rmin 1 n) by (minmax; lra).
    assert (DL : Rmin 1 n / 576 <= D).
    { unfold D. destruct E as [E|E].
      - assert (1 / 576 <= q1 * q1) by nra. assert (Rmin 1 n <= 1) by (apply Rmin_l). nra.
      - assert (1 / 576 <= q2 * q2) by nra. assert (Rmin 1 n <= n) by (apply Rmin_r). nra. }
    apply div_le; auto. unfold Rdiv in DL |- *.
    apply (Rmult_le_reg_r (Rmin 1 n)); auto.
    replace (576 * eps * / Rmin 1 n * D * Rmin 1 n) with (576 * eps * D) by (field; lra). nra.
  Qed.
End Blend.

Lemma blend_bound : forall a b x y, 0 <= a -> 0 <= b -> a + b <= 1 ->
  Rabs (a * x + b * y) <= Rmax (Rabs x) (Rabs y).
Proof.
  intros a b x y Ha Hb H. eapply Rle_trans; [apply Rabs_triang|].
  rewrite !Rabs_mult, (Rabs_right a), (Rabs_right b) by lra.
  pose proof (Rabs_pos x). pose proof (Rabs_pos y). minmax; nra.
Qed.

Lemma wbap_norm_ok : forall eps e n dim u1 u2 w, 0 < eps -> 0 < e -> 0 < n ->
  length u1 = length u2 -> norm_weights dim (length u1) = Ok w ->
  exists out, wbap_norm_eps eps e n dim u1 u2 = Ok out /\ blend_spec eps e n w u1 u2 out.
Proof.
  intros eps e n dim u1 u2 w Heps He Hn L W. unfold wbap_norm_eps.
  rewrite (proj2 (Nat.eqb_eq _ _) L). cbn [assert_ bind]. rewrite W. cbn [bind].
  eexists. split; [reflexivity|].
  destruct (norm_weights_ok _ _ _ W) as [LW GW].
  apply blend_ok; auto.
Qed.

Lemma wbap_orth_ok : forall eps e n u1 u2, 0 < eps -> 0 < e -> 0 < n ->
  length u1 = length u2 ->
  exists out, wbap_orth_eps eps e n u1 u2 = Ok out /\
    blend_spec eps e n (map (fun _ => 1) u1) u1 u2 out.
Proof.
  intros eps e n u1 u2 Heps He Hn L. unfold wbap_orth_eps.
  rewrite (proj2 (Nat.eqb_eq _ _) L). cbn [assert_ bind].
  eexists. split; [reflexivity|].
  apply blend_ok; auto.
  - apply Forall_forall. intros x Hx. apply in_map_iff in Hx. destruct Hx as (? & <- & _). lra.
  - apply map_length.
Qed.

Lemma wbap_norm_abort : forall eps e n dim u1 u2,
  (length u1 <> length u2 \/ norm_weights dim (length u1) = Abort) ->
  wbap_norm_eps eps e n dim u1 u2 = Abort.
Proof.
  intros eps e n dim u1 u2 H. unfold wbap_norm_eps.
  destruct (Nat.eqb_spec (length u1) (length u2)) as [E|E]; cbn [assert_ bind]; [|reflexivity].
  destruct H as [H|H]; [contradiction|]. rewrite H. reflexivity.
Qed.

(** ** MEMM *)
Lemma memm_ok : forall e dim u1 u2 w, 0 < e ->
  length u1 = length u2 -> norm_weights dim (length u1) = Ok w ->
  exists out, memm_eps e dim u1 u2 = Ok out /\
    (wsq w u1 < wsq w u2 -> out = u1) /\
    (wsq w u2 < wsq w u1 -> out = u2) /\
    (wsq w u1 = wsq w u2 -> out = map2 (fun x y => x * (1/2) + y * (1/2)) u1 u2).
Proof.
  intros e dim u1 u2 w He L W. unfold memm_eps.
  rewrite (proj2 (Nat.eqb_eq _ _) L). cbn [assert_ bind]. rewrite W. cbn [bind].
  destruct (norm_weights_ok _ _ _ W) as [LW GW].
  eexists. split; [reflexivity|].
  assert (Hm : 0 < u_max e u1 u2) by (unfold u_max; pose proof (col_max_nonneg u1 u2); lra).
  set (m := u_max e u1 u2) in *.
  assert (Hi : 0 < / m * / m) by (assert (0 < / m) by (apply Rinv_0_lt_compat; auto); nra).
  assert (N1 : 0 <= wsq w u1) by (apply wsq_nonneg; auto).
  assert (N2 : 0 <= wsq w u2) by (apply wsq_nonneg; auto).
  rewrite !wsq_div. repeat split; intros H.
  - rewrite sgn_neg.
    + etransitivity; [|apply (map2_fst u1 u2 L)]. apply map2_ext. intros x y. lra.
    + assert (sqrt (/ m * / m * wsq w u1) < sqrt (/ m * / m * wsq w u2)); [|lra].
      apply sqrt_lt_1; nra.
  - rewrite sgn_pos.
    + etransitivity; [|apply (map2_snd u1 u2 L)]. apply map2_ext. intros x y. lra.
    + assert (sqrt (/ m * / m * wsq w u2) < sqrt (/ m * / m * wsq w u1)); [|lra].
      apply sqrt_lt_1; nra.
  - rewrite H, (Rminus_diag_eq (sqrt (/ m * / m * wsq w u2)) _ eq_refl), sgn_zero.
    apply map2_ext. intros x y. lra.
Qed.

Lemma memm_least : forall e dim u1 u2 w, 0 < e ->
  length u1 = length u2 -> norm_weights dim (length u1) = Ok w ->
  exists out, memm_eps e dim u1 u2 = Ok out /\ length out = length u1 /\
    wsq w out <= wsq w u1 /\ wsq w out <= wsq w u2 /\
    ((wsq w u1 < wsq w u2 /\ out = u1) \/ (wsq w u2 < wsq w u1 /\ out = u2) \/
     (wsq w u1 = wsq w u2 /\ out = map2 (fun x y => x * (1/2) + y * (1/2)) u1 u2)).
Proof.
  intros e dim u1 u2 w He L W.
  destruct (memm_ok e dim u1 u2 w He L W) as (out & E & A & B & C).
  destruct (norm_weights_ok _ _ _ W) as [LW GW].
  exists out. split; [exact E|].
  destruct (Rtotal_order (wsq w u1) (wsq w u2)) as [H|[H|H]].
  - rewrite (A H). repeat split; try lra. left; auto.
  - rewrite (C H). pose proof (wsq_mid w GW u1 u2) as M.
    split; [apply map2_length; auto|].
    split; [lra|]. split; [lra|]. right; right; auto.
  - rewrite (B H). repeat split; try lra; auto.
Qed.

(** ** Many candidates *)
Lemma abs_max_ge : forall u m, m <= abs_max u m.
Proof.
  induction u as [|x u IH]; intros m; cbn; [lra|].
  eapply Rle_trans; [|apply IH]. apply Rmax_l.
Qed.
Lemma abs_max_nonneg : forall u m, 0 <= m -> 0 <= abs_max u m.
Proof. intros u m H. eapply Rle_trans; [exact H|apply abs_max_ge]. Qed.
Lemma multi_max_ge : forall us m, m <= multi_max m us.
Proof.
  induction us as [|u us IH]; intros m; cbn; [lra|].
  eapply Rle_trans; [|apply IH]. apply abs_max_ge.
Qed.

Section Many.
  Variables (e m : R) (w : list R).
  Hypothesis (He : 0 < e) (Hm : 0 < m) (Hw : wgood w).

  (** Every accumulated row is within [B i / m] times the weight. *)
  Definition inv (B : nat -> R) (rows : nat) (s : list R * R) : Prop :=
    length (fst s) = rows /\ 0 <= snd s /\
    forall i, (i < rows)%nat -> Rabs (nth i (fst s) 0) <= B i / m * snd s.

  Lemma step_inv : forall B rows s exn u, 0 <= exn -> length u = rows ->
    (forall i, (i < rows)%nat -> Rabs (nth i u 0) <= B i) ->
    inv B rows s -> inv B rows (multi_step e m w s exn u).
  Proof.
    intros B rows [a d] exn u Hx Lu HB (L & D & I). cbn in L, D, I. unfold multi_step. cbn [fst snd].
    set (k := / _).
    assert (Hk : 0 < k).
    { unfold k. apply Rinv_0_lt_compat.
      pose proof (wsq_nonneg w (map (fun x => x / m) u) Hw). nra. }
    split; [cbn [fst]; rewrite map2_length; auto; rewrite map_length; lia|].
    cbn [fst snd]. split; [nra|].
    intros i Hi. rewrite map2_nth by (rewrite ?map_length; lia). rewrite nth_div.
    eapply Rle_trans; [apply Rabs_triang|].
    specialize (I i Hi). specialize (HB i Hi).
    rewrite !Rabs_mult, (Rabs_right k), (Rabs_right exn) by lra.
    assert (X : Rabs (nth i u 0 / m) <= B i / m).
    { unfold Rdiv. rewrite Rabs_mult, (Rabs_right (/ m)) by (left; apply Rinv_0_lt_compat; auto).
      apply Rmult_le_compat_r; [left; apply Rinv_0_lt_compat; auto|auto]. }
    assert (0 <= k * exn) by nra. nra.
  Qed.

  Lemma fold_inv : forall B rows us s,
    (forall u, In u us -> length u = rows /\
       forall i, (i < rows)%nat -> Rabs (nth i u 0) <= B i) ->
    inv B rows s -> inv B rows (fold_left (fun s u => multi_step e m w s 1 u) us s).
  Proof.
    induction us as [|u us IH]; intros s H I; cbn [fold_left]; [exact I|].
    apply IH; [intros; apply H; right; auto|].
    destruct (H u (or_introl eq_refl)) as [A C]. apply step_inv; auto; lra.
  Qed.
End Many.

Lemma nth_zeros : forall (u : list R) i, nth i (map (fun _ => 0) u) 0 = 0.
Proof. induction u as [|x u IH]; intros [|i]; cbn; auto. Qed.

Lemma multi_out_bound : forall eps e n1 w us rows B,
  0 < eps -> 0 < e -> 0 <= n1 -> wgood w -> us <> [] ->
  (forall u, In u us -> length u = rows /\
     forall i, (i < rows)%nat -> Rabs (nth i u 0) <= B i) ->
  length (multi_out eps e n1 w us) = rows /\
  forall i, (i < rows)%nat -> Rabs (nth i (multi_out eps e n1 w us) 0) <= B i.
Proof.
  intros eps e n1 w [|u0 rest] rows B Heps He Hn Hw Hne H; [congruence|]. clear Hne.
  unfold multi_out. set (m := multi_max eps (u0 :: rest)). cbn zeta.
  assert (Hm : 0 < m) by (pose proof (multi_max_ge (u0 :: rest) eps); unfold m; lra).
  set (s := fold_left _ _ _).
  assert (I : inv m B rows s).
  { apply fold_inv; auto; [intros; apply H; right; auto|].
    destruct (H u0 (or_introl eq_refl)) as [A C].
    apply step_inv; auto. split; [cbn; rewrite map_length; auto|]. cbn. split; [lra|].
    intros i Hi. rewrite nth_zeros, Rabs_R0. lra. }
  clearbody s. destruct s as [a d]. destruct I as (L & D & I). cbn [fst snd] in *.
  split; [rewrite map_length; auto|]. intros i Hi.
  rewrite (nth_indep _ 0 (m * (0 / (d + eps)))) by (rewrite map_length; lia).
  rewrite map_nth with (f := fun a => m * (a / (d + eps))).
  specialize (I i Hi). 
  assert (HB : 0 <= B i).
  { destruct (H u0 (or_introl eq_refl)) as [_ C]. eapply Rle_trans; [apply Rabs_pos|apply (C i Hi)]. }
  rewrite Rabs_mult, (abs_pos m) by auto. unfold Rdiv. rewrite Rabs_mult.
  rewrite (abs_pos (/ (d + eps))) by (apply Rinv_0_lt_compat; lra).
  apply (Rmult_le_compat_l m) in I; [|lra].
  replace (m * (B i / m * d)) with (B i * d) in I by (field; lra).
  rewrite <- Rmult_assoc. apply div_le; [lra|]. nra.
Qed.

(** ** Least norm among many *)
Lemma select_ok : forall w b t, wgood w -> length b = length t ->
  length (memm_select w b t) = length t /\
  wsq w (memm_select w b t) <= wsq w b /\ wsq w (memm_select w b t) <= wsq w t.
Proof.
  intros w b t Hw L. unfold memm_select. split; [apply map2_length; auto|].
  destruct (Rtotal_order (wsq w t) (wsq w b)) as [H|[H|H]].
  - rewrite sgn_neg by lra.
    rewrite (map2_ext _ (fun x _ => x)) by (intros; lra). rewrite map2_fst by auto. lra.
  - replace (wsq w t - wsq w b) with 0 by lra. rewrite sgn_zero.
    rewrite (map2_ext _ (fun x y => x * (1 / 2) + y * (1 / 2))) by (intros; lra).
    pose proof (wsq_mid w Hw t b). lra.
  - rewrite sgn_pos by lra.
    rewrite (map2_ext _ (fun _ y => y)) by (intros; lra). rewrite map2_snd by auto. lra.
Qed.

Lemma select_fold : forall w rows vs b, wgood w -> length b = rows ->
  (forall v, In v vs -> length v = rows) ->
  let r := fold_left (memm_select w) vs b in
  length r = rows /\ wsq w r <= wsq w b /\ forall v, In v vs -> wsq w r <= wsq w v.
Proof.
  induction vs as [|v vs IH]; intros b Hw L H r; cbn [fold_left] in r.
  - subst r. repeat split; auto; [lra|intros ? []].
  - assert (Lv : length v = rows) by (apply H; left; auto).
    destruct (select_ok w b v Hw ltac:(lia)) as (A & B & C).
    destruct (IH (memm_select w b v) Hw ltac:(lia) ltac:(intros; apply H; right; auto)) as (D & E & F).
    fold r in D, E, F. split; [auto|]. split; [lra|].
    intros v' [<-|Hv]; [lra|auto].
Qed.

Lemma memm_multi_least : forall u others w,
  (forall v, In v others -> length v = length u) ->
  norm_weights 2 (length u) = Ok w ->
  exists out, memm_multi u others = Ok out /\ length out = length u /\
    wsq w out <= wsq w u /\ forall v, In v others -> wsq w out <= wsq w v.
Proof.
  intros u others w HL W. unfold memm_multi.
  assert (FA : forallb (fun v => Nat.eqb (length v) (length u)) others = true).
  { apply forallb_forall. intros v Hv. apply Nat.eqb_eq. auto. }
  rewrite FA. cbn [assert_ bind]. rewrite W. cbn [bind].
  destruct (norm_weights_ok _ _ _ W) as [LW GW].
  eexists. split; [reflexivity|].
  pose proof verySmall_pos as Hv.
  set (m := abs_max u 0 + verySmallReal).
  assert (Hm : 0 < m) by (unfold m; pose proof (abs_max_nonneg u 0 ltac:(lra)); lra).
  set (t0 := map (fun x => x / m) u).
  set (best := fold_left _ others t0).
  assert (EB : best = fold_left (memm_select w) (map (map (fun x => x / m)) others) t0).
  { unfold best. generalize t0. clear. induction others as [|v vs IH]; intros t0; cbn; [reflexivity|apply IH]. }
  destruct (select_fold w (length u) (map (map (fun x => x / m)) others) t0 GW
    ltac:(unfold t0; apply map_length)) as (A & B & C).
  { intros v Hi. apply in_map_iff in Hi. destruct Hi as (x & <- & Hx). rewrite map_length. auto. }
  rewrite <- EB in A, B, C. clearbody best. clear EB.
  set (loc := Rmax _ _). clearbody loc.
  assert (EF : forall r, r * ((loc * 0 + 1 - 1) / loc) = 0) by (intros; unfold Rdiv; ring).
  rewrite EF. clear EF loc.
  assert (Hmm : 0 < m * m) by nra.
  assert (ER : m * m * wsq w best = wsq w (map (fun x => x * m) best)) by (rewrite wsq_scale; ring).
  assert (EU : m * m * wsq w t0 = wsq w u).
  { unfold t0. rewrite wsq_div. field. lra. }
  assert (BU : wsq w (map (fun x => x * m) best) <= wsq w u) by (rewrite <- ER, <- EU; nra).
  assert (BV : forall v, In v others -> wsq w (map (fun x => x * m) best) <= wsq w v).
  { intros v Hi. rewrite <- ER.
    specialize (C (map (fun x => x / m) v) (in_map _ _ _ Hi)). rewrite wsq_div in C.
    replace (wsq w v) with (m * m * (/ m * / m * wsq w v)) by (field; lra). nra. }
  assert (LB : length u = length (map (fun x => x * m) best)) by (rewrite map_length; auto).
  assert (EM : forall f, map2 (fun x b => x * f + b * m * (1 - f)) u best =
                         map2 (fun x b => x * f + b * (1 - f)) u (map (fun x => x * m) best)).
  { intros f. clearbody m. clear. unfold map2. revert best. induction u as [|x u IH]; intros [|b best]; cbn; auto.
    rewrite IH. reflexivity. }
  rewrite EM. split; [apply map2_length; auto|].
  destruct (Rtotal_order (wsq w t0) (wsq w best)) as [H|[H|H]]; [lra| |].
  - rewrite (Rminus_diag_eq _ _ H), sgn_zero.
    rewrite (map2_ext _ (fun x y => x * (1 / 2) + y * (1 / 2))) by (intros; lra).
    pose proof (wsq_mid w GW u (map (fun x => x * m) best)).
    assert (wsq w u = wsq w (map (fun x => x * m) best)) by (rewrite <- ER, <- EU, H; ring).
    split; [lra|]. intros v Hi. specialize (BV v Hi). lra.
  - rewrite sgn_pos by lra.
    rewrite (map2_ext _ (fun _ y => y)) by (intros; lra). rewrite map2_snd by auto. auto.
Qed.

(** Distinct norms: one of the candidates comes out. *)
Lemma select_pick : forall w b t, wsq w t <> wsq w b -> length b = length t ->
  memm_select w b t = b \/ memm_select w b t = t.
Proof.
  intros w b t H L. unfold memm_select. destruct (Rtotal_order (wsq w t) (wsq w b)) as [G|[G|G]].
  - right. rewrite sgn_neg by lra.
    rewrite (map2_ext _ (fun x _ => x)) by (intros; lra). apply map2_fst; auto.
  - contradiction.
  - left. rewrite sgn_pos by lra.
    rewrite (map2_ext _ (fun _ y => y)) by (intros; lra). apply map2_snd; auto.
Qed.

Lemma select_fold_in : forall w rows vs b, length b = rows ->
  (forall v, In v vs -> length v = rows) ->
  NoDup (map (wsq w) (b :: vs)) -> In (fold_left (memm_select w) vs b) (b :: vs).
Proof.
  induction vs as [|v vs IH]; intros b L H N; cbn [fold_left]; [left; auto|].
  assert (Lv : length v = rows) by (apply H; left; auto).
  cbn in N. apply NoDup_cons_iff in N. destruct N as [N1 N2].
  apply NoDup_cons_iff in N2. destruct N2 as [N2 N3].
  destruct (select_pick w b v) as [E|E]; [intros E; apply N1; left; auto|lia| |]; rewrite E.
  - destruct (IH b L) as [I|I]; [intros; apply H; right; auto| | |].
    + cbn. apply NoDup_cons_iff. split; [intros I; apply N1; right; auto|auto].
    + left; auto.
    + right; right; auto.
  - right. apply IH; [lia|intros; apply H; right; auto|]. cbn. apply NoDup_cons_iff. auto.
Qed.

Lemma map_div_mul : forall m l, m <> 0 -> map (fun x => x * m) (map (fun x => x / m) l) = l.
Proof.
  intros m l H. rewrite map_map. rewrite <- (map_id l) at 2. apply map_ext. intros. field. auto.
Qed.

Lemma memm_multi_picks : forall u others w out,
  (forall v, In v others -> length v = length u) ->
  norm_weights 2 (length u) = Ok w ->
  NoDup (map (wsq w) (u :: others)) ->
  memm_multi u others = Ok out -> In out (u :: others).
Proof.
  intros u others w out HL W N. unfold memm_multi.
  assert (FA : forallb (fun v => Nat.eqb (length v) (length u)) others = true).
  { apply forallb_forall. intros v Hv. apply Nat.eqb_eq. auto. }
  rewrite FA. cbn [assert_ bind]. rewrite W. cbn [bind].
  destruct (norm_weights_ok _ _ _ W) as [LW GW].
  pose proof verySmall_pos as Hv.
  set (m := abs_max u 0 + verySmallReal).
  assert (Hm : 0 < m) by (unfold m; pose proof (abs_max_nonneg u 0 ltac:(lra)); lra).
  clearbody m.
  set (dv := map (fun x => x / m)). set (t0 := dv u).
  set (best := fold_left _ others t0).
  assert (EB : best = fold_left (memm_select w) (map dv others) t0).
  { unfold best. generalize t0. clear. induction others as [|v vs IH]; intros t0; cbn; [reflexivity|apply IH]. }
  assert (SD : forall v, wsq w (dv v) = / m * / m * wsq w v) by (intros; apply wsq_div).
  assert (Hi : 0 < / m * / m) by (assert (0 < / m) by (apply Rinv_0_lt_compat; auto); nra).
  assert (IB : In best (map dv (u :: others))).
  { rewrite EB. cbn [map]. fold t0. apply (select_fold_in w (length u)).
    - unfold t0, dv. apply map_length.
    - intros v I. apply in_map_iff in I. destruct I as (x & <- & I). unfold dv. rewrite map_length. auto.
    - unfold t0. change (dv u :: map dv others) with (map dv (u :: others)). rewrite map_map.
      rewrite (map_ext _ (fun v => (fun r => / m * / m * r) (wsq w v))) by (intros; apply SD).
      rewrite <- map_map. apply FinFun.Injective_map_NoDup; [|exact N].
      intros x y E. apply (Rmult_eq_reg_l (/ m * / m)); [exact E|lra]. }
  assert (LB : wsq w best <= wsq w t0).
  { rewrite EB. destruct (select_fold w (length u) (map dv others) t0 GW) as (_ & X & _).
    - unfold t0, dv. apply map_length.
    - intros v I. apply in_map_iff in I. destruct I as (x & <- & I). unfold dv. rewrite map_length. auto.
    - exact X. }
  clearbody best. set (loc := Rmax _ _). clearbody loc.
  assert (EF : forall r, r * ((loc * 0 + 1 - 1) / loc) = 0) by (intros; unfold Rdiv; ring).
  rewrite EF. clear EF loc. intros Q.
  assert (Q' : out = map2 (fun x b => x * (0 + (1 - (sgn (wsq w t0 - wsq w best) * (1 / 2) + 1 / 2))) +
     b * m * (1 - (0 + (1 - (sgn (wsq w t0 - wsq w best) * (1 / 2) + 1 / 2))))) u best) by congruence.
  clear Q. apply in_map_iff in IB. destruct IB as (v & Ev & Iv).
  assert (EM : forall f, map2 (fun x b => x * f + b * m * (1 - f)) u best =
                         map2 (fun x b => x * f + b * (1 - f)) u (map (fun x => x * m) best)).
  { intros f. clear. unfold map2. revert best. induction u as [|x u IH]; intros [|b best]; cbn; auto.
    rewrite IH. reflexivity. }
  rewrite EM in Q'. rewrite <- Ev in Q'. unfold dv in Q' at 2. 
  replace (map (fun x => x * m) (dv v)) with v in Q' by (symmetry; apply map_div_mul; lra).
  assert (Lv : length v = length u) by (destruct Iv as [<-|Iv]; auto).
  rewrite <- Ev in LB. unfold t0 in LB. rewrite !SD in LB.
  fold (dv v) in Q'. unfold t0 in Q'. rewrite !SD in Q'.
  destruct Iv as [<-|Iv].
  - rewrite (Rminus_diag_eq (/ m * / m * wsq w u) _ eq_refl), sgn_zero in Q'. left. rewrite Q'.
    rewrite (map2_ext _ (fun x y => x * (1 / 2) + y * (1 / 2))) by (intros; lra).
    clear. induction u as [|x u IH]; [reflexivity|]. unfold map2 in *. cbn. rewrite <- IH. f_equal. lra.
  - right. cbn in N. apply NoDup_cons_iff in N. destruct N as [N _].
    assert (wsq w v <> wsq w u) by (intros E; apply N; rewrite <- E; apply in_map; auto).
    rewrite sgn_pos in Q' by nra.
    rewrite (map2_ext _ (fun _ y => y)) in Q' by (intros; lra).
    rewrite map2_snd in Q' by auto. rewrite Q'. auto.
Qed.
