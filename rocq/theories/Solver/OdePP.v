(** StepPP with limiters that never act, as a Step with other callbacks. *)
From Coq Require Import List ZArith Reals Lia Lra Bool FunctionalExtensionality.
From Verif Require Import Base.Prelude Base.PreludeFacts Solver.OdeModel Solver.OdeSpec Solver.OdeProofs.
Import ListNotations.
Local Open Scope R_scope.

Lemma rel_eq {A} (a b : res A) : rel_res eq a b -> a = b.
Proof. destruct a, b; cbn; intro H; try contradiction; congruence. Qed.

Lemma old_part_rel st row xL dt :
  rel_res (fun r r' => r' = addTo r xL (1 / dt)) (old_part_PP st row xL dt) (old_part st row xL dt).
Proof.
  unfold old_part_PP, old_part. destruct (coef row 1) as [c1| |]; cbn [bind]; try exact I.
  assert (S0 : addTo (setConstant 0) xL (c1 / dt) = addTo (addTo (setConstant 0) xL ((c1 - 1) / dt)) xL (1 / dt)).
  { apply functional_extensionality. intro i. unfold addTo, setConstant. unfold Rdiv. ring. }
  destruct (kBDF st - 1 =? 0)%Z; [exact S0|].
  revert S0. generalize (addTo (setConstant 0) xL (c1 / dt)), (addTo (setConstant 0) xL ((c1 - 1) / dt)).
  induction (prev_range st) as [|p ps IH]; intros r' r Hr; cbn [foldM]; [exact Hr|].
  destruct (prev_at st (xPrevs st) p) as [xp| |]; cbn [bind]; try exact I.
  destruct (coef row (2 + p)) as [c| |]; cbn [bind]; try exact I.
  apply IH. subst r'. apply functional_extensionality. intro i. unfold addTo. ring.
Qed.

Section PP.
Context {E T : Type}.
Variable C : calls E T.
Variable Lm : limiters (E := E).
Hypothesis In_ : inactive Lm.

Lemma bdf_PP_is st l ri mi dt : BDF_StepPP C Lm st l ri mi dt = BDF_Step (deaf C) st l mi dt.
Proof.
  apply rel_eq. unfold BDF_StepPP, BDF_Step. eapply rel_bind; [apply rel_refl|]. intros _ _ _.
  eapply rel_bind; [apply rel_refl|]. intros row _ <-.
  eapply rel_bind.
  - apply loop_rel with (R0 := fun (a : pregs) a' => let '(l1, xL, _) := a in l1 = a' /\ xL = r_x l); [|auto].
    intros it ((l1, xL), ri1) l1' (<- & ->). destruct In_ as (I1 & I2).
    unfold bdf_body_PP, bdf_body. destruct (coef row 0) as [c0| |]; cbn [bind]; try exact I.
    cbn [deaf fdt frhs fstop fincrement fsolve].
    destruct (fdt C (r_env l1) (r_x l1) (r_dTau l1) c0 0) as ((e1, x1), t1).
    destruct (frhs C e1 (r_rhsbuf l1) x1 t1 it 1 0) as (((e2, f), x2), t2).
    pose proof (old_part_rel st row (r_x l) dt) as O1.
    destruct (old_part_PP st row (r_x l) dt) as [r0| |] eqn:Eo, (old_part st row (r_x l) dt) as [r1| |]; cbn [bind rel_res] in *; try contradiction; try exact I.
    match goal with |- context [fresidualIncPP Lm e2 x2 (r_x l) f ri1 ?renew 1 0%Z] =>
      assert (Hren : forall e' xp' f', fst (renew e' xp' f') = e') by
      (intros e' xp' f0; cbv beta; destruct (old_part_PP st row xp' dt); try reflexivity; rewrite I1; reflexivity);
      destruct (I2 e2 x2 (r_x l) f ri1 renew 1 0%Z Hren) as (ri2 & ->) end.
    rewrite Eo. cbn [bind]. rewrite I1, <- O1.
    match goal with |- context [fsolve C e2 x2 (addTo ?a ?a c0) r1] =>
      replace (addTo a a c0) with (fun i => (1 + c0) * (r1 i - x2 i / dt)) end.
    2:{ apply functional_extensionality. intro i. unfold addTo, Rdiv. ring. }
    destruct (fsolve C e2 x2 _ _ t2 dt c0 (r_xinc l1) it 1 0) as (((((e5, x5), rhs'), ro'), t5), xinc5).
    destruct (fincrement C e5 x5 xinc5 1 0) as ((e6, x6), xinc6). destruct (fstop C e6 it rhs' 1) as ((e7, rhs''), stop).
    cbn. auto.
  - intros (((l1, xL1), ri1), it1) (l2, it2) (H & Es). cbn [fst snd] in *. destruct H as (H1 & H2). subst it2 l2 xL1.
    destruct (bdf_push st (r_x l) dt); cbn; auto.
Qed.

Hypothesis HS : same_but_rhs C C.

Lemma vbdf_PP_is st l ri mi dt : VBDF_StepPP C Lm st l ri mi dt = VBDF_Step (stale C) st l mi dt.
Proof.
  apply rel_eq. unfold VBDF_StepPP, VBDF_Step. eapply rel_bind; [apply rel_refl|]. intros row _ <-.
  eapply rel_bind.
  - apply loop_rel with (R0 := fun (a : regs E T * D) a' => fst a = a'); [|auto].
    intros it (l1, ri1) l1' H. cbn [fst] in H. subst l1'. destruct In_ as (I1 & I2). destruct HS as (_ & _ & _ & _ & E5).
    unfold vbdf_body_PP, bdf_body. destruct (coef row 0) as [c0| |]; cbn [bind]; try exact I.
    cbn [stale fdt frhs fstop fincrement fsolve].
    destruct (fdt C (r_env l1) (r_x l1) (r_dTau l1) c0 0) as ((e1, x1), t1).
    specialize (E5 e1 (r_rhs l1) (r_rhsbuf l1) x1 t1 it 1 0%Z).
    destruct (frhs C e1 (r_rhs l1) x1 t1 it 1 0) as (((e2, f), x2), t2).
    destruct (frhs C e1 (r_rhsbuf l1) x1 t1 it 1 0) as (((e2', f'), x2'), t2'). destruct E5 as (<- & <- & <-).
    destruct (old_part st row (r_x l) dt) as [r0| |]; cbn [bind]; try exact I.
    match goal with |- context [fresidualIncPP Lm e2 x2 r0 (r_rhsbuf l1) ri1 ?renew 1 0%Z] =>
      assert (Hren : forall e' xp' f', fst (renew e' xp' f') = e') by (intros e' xp' f0; reflexivity);
      destruct (I2 e2 x2 r0 (r_rhsbuf l1) ri1 renew 1 0%Z Hren) as (ri2 & ->) end.
    destruct (fsolve C e2 x2 _ _ t2 dt c0 (r_xinc l1) it 1 0) as (((((e5, x5), rhs'), ro'), t5), xinc5).
    destruct (fincrement C e5 x5 xinc5 1 0) as ((e6, x6), xinc6). destruct (fstop C e6 it rhs' 1) as ((e7, rhs''), stop).
    cbn. auto.
  - intros ((l1, ri1), it1) (l2, it2) (Ha & Es). cbn [fst snd] in *. subst l2 it2.
    destruct (bdf_push st (r_x l) dt); cbn; auto.
Qed.
End PP.
