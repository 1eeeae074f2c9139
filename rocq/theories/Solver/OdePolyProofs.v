From Coq Require Import List ZArith Reals Lia Lra.
From Verif Require Import Base.Prelude Solver.OdeModel Solver.OdeSpec.
Import ListNotations.
Local Open Scope R_scope.

(** ** Derivatives *)
Fixpoint dpoly (a : list R) (t : R) : R :=
  match a with [] => 0 | _ :: a' => poly a' t + t * dpoly a' t end.

Lemma dpoly_lim a t : derivable_pt_lim (poly a) t (dpoly a t).
Proof.
  induction a as [|c a IH].
  - apply (derivable_pt_lim_const 0).
  - cbn [dpoly].
    pose proof (derivable_pt_lim_plus _ _ t _ _ (derivable_pt_lim_const c t)
      (derivable_pt_lim_mult _ _ t _ _ (derivable_pt_lim_id t) IH)) as M.
    replace (poly a t + t * dpoly a t) with (0 + (1 * poly a t + t * dpoly a t)) by ring. exact M.
Qed.

Lemma slope_eq a t f i : slope a t f -> f i = dpoly (a i) t.
Proof. intro S. exact (uniqueness_limite _ _ _ _ (S i) (dpoly_lim _ _)). Qed.

Lemma poly_cons c a t : poly (c :: a) t = c + t * poly a t.
Proof. reflexivity. Qed.

Lemma poly_pad n a : (length a <= n)%nat -> exists b, length b = n /\ (forall s, poly a s = poly b s) /\ (forall s, dpoly a s = dpoly b s).
Proof.
  intro L. exists (a ++ repeat 0 (n - length a)).
  assert (Z : forall m s, poly (repeat 0 m) s = 0).
  { induction m as [|m IH]; intro s; cbn [repeat]; [auto|]. rewrite poly_cons, IH. ring. }
  assert (DZ : forall m s, dpoly (repeat 0 m) s = 0).
  { induction m as [|m IH]; intro s; cbn [repeat dpoly]; [auto|]. rewrite IH, Z. ring. }
  assert (P : forall a m s, poly (a ++ repeat 0 m) s = poly a s).
  { clear - Z. induction a as [|c a IH]; intros m s; cbn [app]; [apply Z|]. rewrite !poly_cons, IH. reflexivity. }
  split; [rewrite app_length, repeat_length; lia|]. split; [intro s; now rewrite P|].
  clear L. generalize (n - length a)%nat. intros m s. revert m. induction a as [|c a IH]; intro m; cbn [app dpoly]; [now rewrite DZ|].
  rewrite <- IH, P. reflexivity.
Qed.

(** ** Exactness *)
Lemma exact_intro c a t dt ts : dt <> 0 ->
  (forall i, old_sum c (map (at_time a) (t :: ts)) dt i + c_rhs c * dpoly (a i) (t + dt) = poly (a i) (t + dt) / dt) ->
  exact_for c a t dt ts.
Proof.
  intros Hd H x f S. split; intros X i; specialize (X i); specialize (H i); rewrite <- (slope_eq _ _ f i S) in H.
  - unfold residual in X. unfold at_time. apply (Rmult_eq_reg_r (/ dt)); [|now apply Rinv_neq_0_compat].
    fold (x i / dt). fold (poly (a i) (t + dt) / dt). lra.
  - unfold residual. rewrite X. unfold at_time in *. lra.
Qed.

Ltac open_poly :=
  repeat match goal with
  | L : length ?b = S _ |- _ => destruct b as [|? b]; [discriminate L|]; cbn [length] in L; apply Nat.succ_inj in L
  | L : length ?b = 0%nat |- _ => destruct b; [clear L|discriminate L]
  end.

Lemma bdf_exact n a t dt dts : (n <= 3)%nat -> length dts = n -> dt <> 0 -> of_degree (S n) a ->
  exact_for (BDF_formula dts dt) a t dt (map (fun j => t - INR (S j) * dt) (seq 0 n)).
Proof.
  intros Hn L Hd Ha. apply exact_intro; auto. intro i.
  destruct (poly_pad _ (a i) (Ha i)) as (b & Lb & P & DP). unfold old_sum, BDF_formula. rewrite L, DP, P.
  unfold at_time.
  destruct n as [|[|[|[|n]]]]; try lia; cbn [nth form_of hd tl c_old c_rhs seq map combine fst snd Rsum];
    rewrite ?P; open_poly; unfold poly; cbn [fold_right dpoly]; unfold poly; cbn [fold_right INR]; field; auto.
Qed.

Lemma vbdf_exact1 a t dt : dt <> 0 -> of_degree 1 a -> exact_for (VBDF_formula [] dt) a t dt [].
Proof.
  intros Hd Ha. apply exact_intro; auto. intro i.
  destruct (poly_pad _ (a i) (Ha i)) as (b & Lb & P & DP). unfold old_sum, VBDF_formula. rewrite DP, P.
  unfold at_time. cbn [form_of hd tl c_old c_rhs map combine fst snd Rsum].
    rewrite ?P; open_poly; unfold poly; cbn [fold_right dpoly]; unfold poly; cbn [fold_right]; field; auto.
Qed.

Lemma vbdf_exact2 a t dt d : 0 < dt -> 0 < d -> of_degree 2 a -> exact_for (VBDF_formula [d] dt) a t dt [t - d].
Proof.
  intros Hd Hd' Ha. apply exact_intro; [lra|]. intro i.
  destruct (poly_pad _ (a i) (Ha i)) as (b & Lb & P & DP). unfold old_sum, VBDF_formula. rewrite DP, P.
  unfold at_time. cbn [form_of hd tl c_old c_rhs map combine fst snd Rsum].
    rewrite ?P; open_poly; unfold poly; cbn [fold_right dpoly]; unfold poly; cbn [fold_right]; field; repeat split; lra.
Qed.

Lemma vbdf_constant dts dt : 0 < dt -> (length dts <= 1)%nat -> Forall (eq dt) dts -> VBDF_formula dts dt = BDF_formula dts dt.
Proof.
  intros H L F. destruct dts as [|d [|d' dts]]; [reflexivity| |cbn in L; lia].
  apply Forall_inv in F. subst d. unfold VBDF_formula, BDF_formula. cbn [length nth].
  unfold form_of. cbn [hd tl]. f_equal; [field; lra|]. f_equal; [field; lra|]. f_equal. field. lra.
Qed.
