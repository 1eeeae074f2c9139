(** Integrals of monomials over reference elements (C52). *)
From Coq Require Import List ZArith QArith Qreals Reals Lia Lra Arith.
From Verif Require Import Base.Prelude Geom.ElemModel Geom.QuadratureSpec.
Import ListNotations.
Local Open Scope R_scope.

(** *** antiderivatives *)
Lemma ext_lim : forall f g x a, (forall t, f t = g t) -> derivable_pt_lim f x a -> derivable_pt_lim g x a.
Proof. intros f g x a H D e He. destruct (D e He) as [dl Hd]. exists dl. intros h Hh Hl. rewrite <- !H. auto. Qed.

Lemma integral_ext : forall f g a b v, (forall t, f t = g t) -> integral f a b v -> integral g a b v.
Proof. intros f g a b v H [F [D E]]. exists F. split; auto. intros t. rewrite <- H. auto. Qed.
Lemma integral_val : forall f a b v w, v = w -> integral f a b v -> integral f a b w.
Proof. intros; subst; auto. Qed.

Lemma integral_plus : forall f g a b v w, integral f a b v -> integral g a b w ->
  integral (fun t => f t + g t) a b (v + w).
Proof.
  intros f g a b v w [F [D E]] [F' [D' E']]. exists (fun t => F t + F' t). split; [|rewrite E, E'; ring].
  intros t. apply (ext_lim (plus_fct F F')); [intros; reflexivity|]. apply derivable_pt_lim_plus; auto.
Qed.
Lemma integral_scal : forall f a b c v, integral f a b v -> integral (fun t => c * f t) a b (c * v).
Proof.
  intros f a b c v [F [D E]]. exists (fun t => c * F t). split; [|rewrite E; ring].
  intros t. apply (ext_lim (mult_real_fct c F)); [intros; reflexivity|]. apply derivable_pt_lim_scal; auto.
Qed.
Lemma integral_scal_r : forall f a b c v, integral f a b v -> integral (fun t => f t * c) a b (v * c).
Proof.
  intros f a b c v H. apply (integral_ext (fun t => c * f t)); [intros; ring|]. rewrite Rmult_comm. apply integral_scal; auto.
Qed.
Lemma integral_minus : forall f g a b v w, integral f a b v -> integral g a b w ->
  integral (fun t => f t - g t) a b (v - w).
Proof.
  intros f g a b v w H H'. apply (integral_ext (fun t => f t + -1 * g t)); [intros; ring|].
  apply (integral_val _ _ _ (v + -1 * w)); [ring|]. apply integral_plus; auto. apply integral_scal; auto.
Qed.

Lemma integral_pow : forall n a b, integral (fun t => t ^ n) a b ((b ^ S n - a ^ S n) / INR (S n)).
Proof.
  intros n a b. assert (N : INR (S n) <> 0) by (apply not_0_INR; lia).
  exists (fun t => / INR (S n) * t ^ S n). split; [|field; auto].
  intros t. replace (t ^ n) with (/ INR (S n) * (INR (S n) * t ^ n)) by (field; auto).
  apply (ext_lim (mult_real_fct (/ INR (S n)) (fun y => y ^ S n))); [intros; reflexivity|].
  apply derivable_pt_lim_scal. apply (derivable_pt_lim_pow t (S n)).
Qed.

(** *** the three one-dimensional integrals *)
(** over [-1, 1] *)
Definition sym (a : nat) : R := (1 ^ S a - (-1) ^ S a) / INR (S a).
Lemma integral_sym : forall a, integral (fun t => t ^ a) (-1) 1 (sym a).
Proof. intros. apply integral_pow. Qed.
Lemma integral_sym_u : forall a u, integral (fun t => t ^ a) (- u) u (u ^ S a * sym a).
Proof.
  intros a u. eapply integral_val; [|apply integral_pow]. unfold sym. replace (- u) with (-1 * u) by ring.
  rewrite Rpow_mult_distr, pow1. field. apply not_0_INR; lia.
Qed.

(** over [0, u], of t^b (u - t)^n *)
Definition beta (a n : nat) : R := INR (fact a) * INR (fact n) / INR (fact (a + n + 1)).
Lemma fact_pos : forall n, INR (fact n) <> 0.
Proof. intros. apply INR_fact_neq_0. Qed.
Lemma beta_step : forall a n, beta a (S n) = beta a n - beta (S a) n.
Proof.
  intros a n. unfold beta. replace (a + S n + 1)%nat with (S (a + n + 1)) by lia. replace (S a + n + 1)%nat with (S (a + n + 1)) by lia.
  rewrite !fact_simpl, !mult_INR. pose proof (fact_pos a). pose proof (fact_pos n). pose proof (fact_pos (a + n + 1)).
  assert (INR (S (a + n + 1)) <> 0) by (apply not_0_INR; lia).
  replace (INR (S n)) with (INR (S (a + n + 1)) - INR (S a)); [field; auto|]. rewrite !S_INR, !plus_INR. simpl (INR 1). ring.
Qed.
Lemma beta_zero : forall a, beta a 0 = / INR (S a).
Proof.
  intros a. unfold beta. replace (a + 0 + 1)%nat with (S a) by lia. rewrite fact_simpl, mult_INR. simpl (fact 0). simpl (INR 1).
  field. split; first [apply fact_pos|apply not_0_INR; lia].
Qed.

Lemma integral_beta : forall n b u, integral (fun t => t ^ b * (u - t) ^ n) 0 u (u ^ (b + n + 1) * beta b n).
Proof.
  induction n as [|n IH]; intros b u.
  - apply (integral_ext (fun t => t ^ b)); [intros; cbn [pow]; ring|]. eapply integral_val; [|apply integral_pow].
    rewrite beta_zero. replace (b + 0 + 1)%nat with (S b) by lia. rewrite pow_i by lia. field. apply not_0_INR; lia.
  - apply (integral_ext (fun t => u * (t ^ b * (u - t) ^ n) - t ^ S b * (u - t) ^ n)); [intros; cbn [pow]; ring|].
    apply (integral_val _ _ _ (u * (u ^ (b + n + 1) * beta b n) - u ^ (S b + n + 1) * beta (S b) n)).
    + rewrite beta_step. replace (b + S n + 1)%nat with (S (b + n + 1)) by lia. replace (S b + n + 1)%nat with (S (b + n + 1)) by lia. cbn [pow]. ring.
    + apply integral_minus; [apply integral_scal; apply IH|apply IH].
Qed.

Lemma integral_unit_beta : forall n b, integral (fun t => t ^ b * (1 - t) ^ n) 0 1 (beta b n).
Proof. intros. eapply integral_val; [|apply (integral_beta n b 1)]. rewrite pow1. ring. Qed.

Lemma integral_0_pow : forall n u, integral (fun t => t ^ n) 0 u (u ^ S n / INR (S n)).
Proof. intros. eapply integral_val; [|apply integral_pow]. rewrite pow_i by lia. field. apply not_0_INR; lia. Qed.

(** *** over elements *)
Definition mono (a b c : nat) (x y z : R) : R := x ^ a * y ^ b * z ^ c.
Definition exact (ps : ParamSpace) (a b c : nat) : R :=
  match ps with
  | LineSpace => sym a * 0 ^ b * 0 ^ c
  | QuadSpace => sym a * sym b * 0 ^ c
  | TriSpace => beta a (S b) / INR (S b) * 0 ^ c
  | HexSpace => sym a * sym b * sym c
  | TetSpace => beta b (S c) / INR (S c) * beta a (b + c + 2)
  | PrismSpace => beta a (S b) / INR (S b) * sym c
  | PyramidSpace => sym a * sym b * beta c (a + b + 2)
  | UnknownPSpace => 0
  end.

Lemma exact_ok : forall ps a b c, ps <> UnknownPSpace -> integral_over ps (mono a b c) (exact ps a b c).
Proof.
  intros ps a b c H. destruct ps; try congruence; cbn [integral_over exact]; unfold mono.
  - apply integral_scal_r, integral_scal_r, integral_sym.
  - exists (fun x => x ^ a * (1 - x) ^ S b * (/ INR (S b) * 0 ^ c)). split.
    + intros x. apply (integral_ext (fun y => x ^ a * (y ^ b * 0 ^ c))); [intros; ring|].
      eapply integral_val; [|apply integral_scal, integral_scal_r, integral_0_pow]. field. apply not_0_INR; lia.
    + unfold Rdiv. rewrite Rmult_assoc. apply integral_scal_r, integral_unit_beta.
  - exists (fun x => x ^ a * (sym b * 0 ^ c)). split.
    + intros x. apply (integral_ext (fun y => x ^ a * (y ^ b * 0 ^ c))); [intros; ring|]. apply integral_scal, integral_scal_r, integral_sym.
    + rewrite Rmult_assoc. apply integral_scal_r, integral_sym.
  - exists (fun x y => x ^ a * y ^ b * (1 - x - y) ^ S c / INR (S c)), (fun x => x ^ a * (1 - x) ^ (b + c + 2) * (beta b (S c) / INR (S c))).
    assert (N : INR (S c) <> 0) by (apply not_0_INR; lia). split; [|split].
    + intros x y. eapply integral_val; [|apply integral_scal, integral_0_pow]. field; auto.
    + intros x. apply (integral_ext (fun y => x ^ a / INR (S c) * (y ^ b * (1 - x - y) ^ S c))); [intros; field; auto|].
      eapply integral_val; [|apply integral_scal, (integral_beta (S c) b (1 - x))].
      replace (b + S c + 1)%nat with (b + c + 2)%nat by lia. field; auto.
    + rewrite Rmult_comm. apply integral_scal_r, integral_unit_beta.
  - exists (fun x y => x ^ a * y ^ b * sym c), (fun x => x ^ a * (sym b * sym c)). split; [|split].
    + intros x y. apply integral_scal, integral_sym.
    + intros x. apply (integral_ext (fun y => x ^ a * (y ^ b * sym c))); [intros; ring|]. apply integral_scal, integral_scal_r, integral_sym.
    + rewrite Rmult_assoc. apply integral_scal_r, integral_sym.
  - exists (fun x y => x ^ a * y ^ b * sym c), (fun x => x ^ a * (1 - x) ^ S b * (/ INR (S b) * sym c)). split; [|split].
    + intros x y. apply integral_scal, integral_sym.
    + intros x. apply (integral_ext (fun y => x ^ a * (y ^ b * sym c))); [intros; ring|].
      eapply integral_val; [|apply integral_scal, integral_scal_r, integral_0_pow]. field. apply not_0_INR; lia.
    + unfold Rdiv. rewrite Rmult_assoc. apply integral_scal_r, integral_unit_beta.
  - exists (fun y z => (1 - z) ^ S a * sym a * (y ^ b * z ^ c)), (fun z => z ^ c * (1 - z) ^ (a + b + 2) * (sym a * sym b)). split; [|split].
    + intros y z. apply (integral_ext (fun x => x ^ a * (y ^ b * z ^ c))); [intros; ring|]. apply integral_scal_r, integral_sym_u.
    + intros z. apply (integral_ext (fun y => (1 - z) ^ S a * sym a * z ^ c * y ^ b)); [intros; ring|].
      eapply integral_val; [|apply integral_scal, integral_sym_u].
      replace (a + b + 2)%nat with (S a + S b)%nat by lia. rewrite pow_add. ring.
    + rewrite (Rmult_comm (sym a * sym b)). apply integral_scal_r, integral_unit_beta.
Qed.

(** *** linearity *)
Lemma over_ext : forall ps f g v, (forall x y z, f x y z = g x y z) -> integral_over ps f v -> integral_over ps g v.
Proof.
  intros ps f g v H I. destruct ps; cbn [integral_over] in *; auto.
  - eapply integral_ext; [|exact I]; intros; apply H.
  - destruct I as [h [A B]]. exists h. split; auto. intros x. eapply integral_ext; [|apply A]; intros; apply H.
  - destruct I as [h [A B]]. exists h. split; auto. intros x. eapply integral_ext; [|apply A]; intros; apply H.
  - destruct I as [h [k [A B]]]. exists h, k. split; auto. intros x y. eapply integral_ext; [|apply A]; intros; apply H.
  - destruct I as [h [k [A B]]]. exists h, k. split; auto. intros x y. eapply integral_ext; [|apply A]; intros; apply H.
  - destruct I as [h [k [A B]]]. exists h, k. split; auto. intros x y. eapply integral_ext; [|apply A]; intros; apply H.
  - destruct I as [h [k [A B]]]. exists h, k. split; auto. intros x y. eapply integral_ext; [|apply A]; intros; apply H.
Qed.

Lemma over_lin : forall ps q f g v w, integral_over ps f v -> integral_over ps g w ->
  integral_over ps (fun x y z => q * f x y z + g x y z) (q * v + w).
Proof.
  intros ps q f g v w I J.
  assert (L : forall f g a b v w, integral f a b v -> integral g a b w -> integral (fun t => q * f t + g t) a b (q * v + w)).
  { intros. apply integral_plus; auto. apply integral_scal; auto. }
  destruct ps; cbn [integral_over] in *; try contradiction.
  - apply L; auto.
  - destruct I as [h [A B]], J as [h' [A' B']]. exists (fun x => q * h x + h' x). split; intros; apply L; auto.
  - destruct I as [h [A B]], J as [h' [A' B']]. exists (fun x => q * h x + h' x). split; intros; apply L; auto.
  - destruct I as [h [k [A [B C]]]], J as [h' [k' [A' [B' C']]]]. exists (fun x y => q * h x y + h' x y), (fun x => q * k x + k' x).
    repeat split; intros; apply L; auto.
  - destruct I as [h [k [A [B C]]]], J as [h' [k' [A' [B' C']]]]. exists (fun x y => q * h x y + h' x y), (fun x => q * k x + k' x).
    repeat split; intros; apply L; auto.
  - destruct I as [h [k [A [B C]]]], J as [h' [k' [A' [B' C']]]]. exists (fun x y => q * h x y + h' x y), (fun x => q * k x + k' x).
    repeat split; intros; apply L; auto.
  - destruct I as [h [k [A [B C]]]], J as [h' [k' [A' [B' C']]]]. exists (fun x y => q * h x y + h' x y), (fun x => q * k x + k' x).
    repeat split; intros; apply L; auto.
Qed.

Lemma over_zero : forall ps, ps <> UnknownPSpace -> integral_over ps (fun _ _ _ => 0) 0.
Proof.
  intros ps H. pose proof (over_lin ps 0 _ _ _ _ (exact_ok ps 0 0 0 H) (exact_ok ps 0 0 0 H)) as X.
  pose proof (over_lin ps (-1) _ _ _ _ (exact_ok ps 0 0 0 H) (exact_ok ps 0 0 0 H)) as Y.
  replace (-1 * exact ps 0 0 0 + exact ps 0 0 0) with 0 in Y by ring.
  eapply over_ext; [|exact Y]. intros. cbn beta. ring.
Qed.

Definition exact_poly (ps : ParamSpace) (p : poly) : R :=
  fold_right (fun '(q, (a, b, c)) s => q * exact ps a b c + s) 0 p.

Lemma exact_poly_ok : forall ps p, ps <> UnknownPSpace -> integral_over ps (eval p) (exact_poly ps p).
Proof.
  intros ps p H. induction p as [|[q [[a b] c]] p IH]; cbn [exact_poly fold_right].
  - apply (over_ext ps (fun _ _ _ => 0)); [reflexivity|]. apply over_zero; auto.
  - eapply over_ext; [|apply (over_lin ps q _ _ _ _ (exact_ok ps a b c H) IH)]. intros x y z. reflexivity.
Qed.
