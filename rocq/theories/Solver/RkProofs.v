From Coq Require Import List ZArith Reals Lia Lra Bool FunctionalExtensionality.
From Verif Require Import Base.Prelude Base.PreludeFacts Solver.ScalarModel Geom.NodeCellProofs Geom.PartProofs
  Solver.OdeModel Solver.OdeSpec Solver.OdePolyProofs Solver.RkModel Solver.RkSpec.
Import ListNotations.
Local Open Scope R_scope.

Lemma vset_in {A} (l : list A) k x : (k < length l)%nat -> vset l (Z.of_nat k) x = Ok (upd k x l).
Proof.
  intro H. unfold vset. replace ((Z.of_nat k <? 0)%Z || (Z.of_nat (length l) <=? Z.of_nat k)%Z) with false by lia.
  now rewrite Nat2Z.id.
Qed.
Lemma vset0 {A} (l : list A) x : (0 < length l)%nat -> vset l 0 x = Ok (upd 0 x l).
Proof. exact (vset_in l 0 x). Qed.
Lemma vset1 {A} (l : list A) x : (1 < length l)%nat -> vset l 1 x = Ok (upd 1 x l).
Proof. exact (vset_in l 1 x). Qed.
Lemma vset2 {A} (l : list A) x : (2 < length l)%nat -> vset l 2 x = Ok (upd 2 x l).
Proof. exact (vset_in l 2 x). Qed.
Lemma vget_in {A} (l : list A) k d : (k < length l)%nat -> vget l (Z.of_nat k) = Ok (nth k l d).
Proof. intro H. apply vget_of_nat. apply nth_error_nth'. exact H. Qed.
Lemma upd_upd {A} k (x y : A) l : upd k x (upd k y l) = upd k x l.
Proof. revert k. induction l as [|a l IH]; intros [|k]; cbn; auto. now rewrite IH. Qed.

(** ** Well-formed tableaux *)
Record wf (tb : tableau) : Prop := {
  wf_A : length (bA tb) = nStage tb;
  wf_r : forall i, (i < nStage tb)%nat -> length (nth i (bA tb) []) = nStage tb;
  wf_B : length (bB tb) = nStage tb;
  wf_C : length (bC tb) = nStage tb
}.
Definition a_ (tb : tableau) i j := nth j (nth i (bA tb) []) 0.

Lemma at_A_in tb i j : wf tb -> (i < nStage tb)%nat -> (j < nStage tb)%nat -> at_A tb i j = Ok (a_ tb i j).
Proof.
  intros W I J. unfold at_A. rewrite (vget_in _ _ []) by (rewrite (wf_A _ W); lia). cbn [bind].
  rewrite (vget_in _ _ 0) by (rewrite (wf_r _ W); lia). reflexivity.
Qed.

Lemma wf_sdirk z : wf (sdirk_tableau z).
Proof. constructor; try reflexivity. cbn [nStage sdirk_tableau bA]. intros [|[|[|i]]] H; try reflexivity. lia. Qed.
Lemma wf_esdirk : wf esdirk_tableau.
Proof. constructor; try reflexivity. cbn [nStage esdirk_tableau bA]. intros [|[|[|[|[|[|i]]]]]] H; try reflexivity. lia. Qed.

Definition zd : D := setConstant 0.

(** Sums along a fold *)
Lemma Rsum_app l l' : Rsum (l ++ l') = Rsum l + Rsum l'.
Proof. induction l as [|x l IH]; cbn; [ring|]. rewrite IH. ring. Qed.

Lemma fold_sum (buf : list D) (g : nat -> res R) (gv : nat -> R) n : (n <= length buf)%nat ->
  (forall j, (j < n)%nat -> g j = Ok (gv j)) -> forall r,
  foldM (fun r jB => do b <- vget buf (Z.of_nat jB); do a <- g jB; Ok (addTo r b a)) r (seq 0 n)
  = Ok (fun i => r i + Rsum (map (fun j => nth j buf zd i * gv j) (seq 0 n))).
Proof.
  intros L G. induction n as [|n IH]; intro r.
  - cbn. f_equal. apply functional_extensionality. intro i. ring.
  - rewrite seq_S, foldM_snoc, IH by (try lia; intros; apply G; lia). cbn [bind Nat.add].
    rewrite (vget_in _ _ zd) by lia. cbn [bind]. rewrite G by lia. cbn [bind]. f_equal.
    apply functional_extensionality. intro i. unfold addTo. rewrite map_app, Rsum_app. cbn. ring.
Qed.

Section Stages.
Context {E T : Type}.
Variable C : calls E T.
Variables (t0 dt : R) (f : R -> D).

(** *** Any solver: what the stages leave in the buffers *)
Section Any.
Hypothesis HW : writes C t0 dt f.

Lemma any_body tb xL iB iter s : wf tb -> (iB < nStage tb)%nat -> length (k_buf s) = nStage tb ->
  (schemeC tb <> 1)%Z -> exists s' b, stage_body C tb xL dt iB iter s = Ok (s', b) /\
  k_buf s' = upd iB (f (t0 + nth iB (bC tb) 0 * dt)) (k_buf s).
Proof.
  intros W I L N. unfold stage_body. replace ((schemeC tb =? 1)%Z) with false by lia. cbn [andb].
  rewrite (at_A_in tb iB iB W I I). cbn [bind]. rewrite (vget_in (bC tb) iB 0) by (rewrite (wf_C _ W); lia). cbn [bind].
  destruct (fdt C _ _ _ _ _) as ((e1, x1), t1). rewrite (vget_in (k_buf s) iB zd) by lia. cbn [bind].
  match goal with |- context [frhs C ?a ?b ?c ?d ?e ?g ?h] => destruct (HW a b c d e g h) as (e2 & x2 & t2 & ->) end.
  rewrite vset_in by lia. cbn [bind]. unfold earlier. rewrite (fold_sum _ _ (a_ tb iB)).
  - cbn [bind]. destruct (fsolve C _ _ _ _ _ _ _ _ _ _ _) as (((((e3, x3), r3), ro3), t3), xi3).
    destruct (fincrement C _ _ _ _ _) as ((e4, x4), xi4). destruct (fstop C _ _ _ _) as ((e5, r5), st).
    eexists _, _. split; [reflexivity|]. reflexivity.
  - rewrite upd_length. lia.
  - intros j J. apply at_A_in; auto. lia.
Qed.

Lemma any_loop tb xL iB n : wf tb -> (iB < nStage tb)%nat -> (schemeC tb <> 1)%Z -> forall iter s,
  length (k_buf s) = nStage tb -> exists s' i, loop (stage_body C tb xL dt iB) n iter s = Ok (s', i) /\
  k_buf s' = match n with O => k_buf s | S _ => upd iB (f (t0 + nth iB (bC tb) 0 * dt)) (k_buf s) end.
Proof.
  intros W I N. induction n as [|n IH]; intros iter s L; cbn [loop].
  - eexists _, _. split; reflexivity.
  - destruct (any_body tb xL iB iter s W I L N) as (s1 & b & -> & B1). cbn [bind fst snd].
    destruct b; [eexists _, _; split; [reflexivity|exact B1]|].
    destruct (IH (iter + 1)%Z s1) as (s2 & i & E2 & B2); [rewrite B1, upd_length; exact L|].
    exists s2, i. split; auto. rewrite B2, B1. destruct n; auto. apply upd_upd.
Qed.

Lemma any_stage tb xL mi s iB : wf tb -> (iB < nStage tb)%nat -> (schemeC tb <> 1)%Z -> (1 <= mi)%Z ->
  length (k_buf s) = nStage tb -> exists s', stage C tb xL dt mi s iB = Ok s' /\
  k_buf s' = upd iB (f (t0 + nth iB (bC tb) 0 * dt)) (k_buf s).
Proof.
  intros W I N M L. unfold stage.
  match goal with |- context [loop _ _ _ ?s0] => destruct (any_loop tb xL iB (Z.to_nat mi) W I N 1%Z s0 L) as (s1 & i & -> & B) end.
  destruct (Z.to_nat mi) eqn:Em; [lia|]. cbn [bind k_buf] in *.
  destruct (mi <? i)%Z; [|eexists; split; [reflexivity|exact B]].
  destruct (fstop C _ _ _ _) as ((e, r), b). eexists. split; [reflexivity|]. exact B.
Qed.

Lemma sdirk_step z s mi : (1 <= mi)%Z -> length (k_buf s) = 3%nat ->
  exists s', SDIRK_Step C (sdirk_tableau z) s mi dt = Ok s' /\ length (k_buf s') = 3%nat /\
  forall i, k_x s' i = k_x s i + dt * quad (bB (sdirk_tableau z)) (bC (sdirk_tableau z)) f t0 dt i.
Proof.
  intros M L. pose proof (wf_sdirk z) as W. unfold SDIRK_Step. set (tb := sdirk_tableau z) in *.
  assert (N : (schemeC tb <> 1)%Z) by (cbn; lia). assert (Ns : nStage tb = 3%nat) by reflexivity.
  assert (Fo : exists s3, foldM (stage C tb (k_x s) dt mi) s (seq 0 (nStage tb)) = Ok s3 /\ length (k_buf s3) = 3%nat /\
    k_buf s3 = map (fun c => f (t0 + c * dt)) (bC tb)).
  { rewrite Ns. cbn [seq foldM].
    destruct (any_stage tb (k_x s) mi s 0 W) as (s1 & -> & B1); try lia. cbn [bind].
    assert (L1 : length (k_buf s1) = 3%nat) by (rewrite B1, upd_length; exact L).
    destruct (any_stage tb (k_x s) mi s1 1 W) as (s2 & -> & B2); try lia. cbn [bind].
    assert (L2 : length (k_buf s2) = 3%nat) by (rewrite B2, upd_length; exact L1).
    destruct (any_stage tb (k_x s) mi s2 2 W) as (s3 & -> & B3); try lia. cbn [bind].
    assert (L3 : length (k_buf s3) = 3%nat) by (rewrite B3, upd_length; exact L2).
    eexists. split; [reflexivity|]. split; [exact L3|]. rewrite B3, B2, B1.
    destruct (k_buf s) as [|b0 [|b1 [|b2 [|b3 bs]]]]; try discriminate L. reflexivity. }
  destruct Fo as (s3 & -> & L3 & B). cbn [bind].
  replace (schemeC tb =? 1)%Z with false by lia. rewrite Ns.
  assert (Q : forall x, foldM (fun x jB => do f <- vget (k_buf s3) (Z.of_nat jB); do b <- vget (bB tb) (Z.of_nat jB);
            Ok (addTo x f (b * dt))) x (seq 0 3) = Ok (fun i => x i + Rsum (map (fun j => nth j (k_buf s3) zd i * (nth j (bB tb) 0 * dt)) (seq 0 3)))).
  { intro x. rewrite <- (fold_sum (k_buf s3) (fun j => do b <- vget (bB tb) (Z.of_nat j); Ok (b * dt)) (fun j => nth j (bB tb) 0 * dt) 3); try lia.
    - f_equal. apply functional_extensionality. intro y. apply functional_extensionality. intro j.
      destruct (vget (k_buf s3) (Z.of_nat j)); auto. cbn [bind]. destruct (vget (bB tb) (Z.of_nat j)); auto.
    - intros j J. rewrite (vget_in _ _ 0) by (rewrite (wf_B _ W); lia). reflexivity. }
  rewrite Q. cbn [bind]. eexists. split; [reflexivity|]. split; [exact L3|].
  intro i. cbn [k_x set_x]. rewrite B. unfold quad. subst tb.
  cbn [upd nth seq map Rsum sdirk_tableau bB bC combine fst snd]. ring.
Qed.
End Any.

(** *** With the solver *)
Section Solved.
Hypothesis HT : time_only C t0 dt f.
Hypothesis HS : solver C dt.
Hypothesis Hdt : dt <> 0.

Lemma solved_body tb xL iB iter s : wf tb -> (iB < nStage tb)%nat -> length (k_buf s) = nStage tb ->
  (schemeC tb =? 1)%Z && Nat.eqb iB 0 = false ->
  let F := f (t0 + nth iB (bC tb) 0 * dt) in
  exists s' b, stage_body C tb xL dt iB iter s = Ok (s', b) /\ k_has s' = k_has s /\
  k_buf s' = upd iB F (k_buf s) /\
  forall i, k_x s' i = xL i + dt * (Rsum (map (fun j => nth j (k_buf s) zd i * a_ tb iB j) (seq 0 iB)) + F i * a_ tb iB iB).
Proof.
  intros W I L N F. unfold stage_body. rewrite N.
  rewrite (at_A_in tb iB iB W I I). cbn [bind]. rewrite (vget_in (bC tb) iB 0) by (rewrite (wf_C _ W); lia). cbn [bind].
  match goal with |- context [fdt C ?a ?b ?c ?d ?e] => destruct (sv_dt _ _ HS a b c d e) as (e1 & t1 & ->) end.
  rewrite (vget_in (k_buf s) iB zd) by lia. cbn [bind].
  match goal with |- context [frhs C ?a ?b ?c ?d ?e ?g ?h] => destruct (HT a b c d e g h) as (e2 & t2 & ->) end.
  rewrite vset_in by lia. cbn [bind]. unfold earlier. rewrite (fold_sum _ _ (a_ tb iB)).
  - cbn [bind].
    match goal with |- context [fsolve C ?a ?b ?c ?d ?e dt ?g ?h ?i ?j ?k] => destruct (sv_solve _ _ HS a b c d e g h i j k) as (e3 & r3 & ro3 & t3 & ->) end.
    match goal with |- context [fincrement C ?a ?b ?c ?d ?e] => destruct (sv_inc _ _ HS a b c d e) as (e4 & xi4 & ->) end.
    destruct (fstop C _ _ _ _) as ((e5, r5), st).
    eexists _, _. split; [reflexivity|]. split; [reflexivity|]. split; [reflexivity|].
    intro i. cbn [k_x]. unfold addTo, scale. fold F.
    replace (map (fun j => nth j (upd iB F (k_buf s)) zd i * a_ tb iB j) (seq 0 iB))
      with (map (fun j => nth j (k_buf s) zd i * a_ tb iB j) (seq 0 iB)).
    + field. exact Hdt.
    + apply map_ext_in. intros j J. apply in_seq in J. f_equal.
      assert (X : nth_error (upd iB F (k_buf s)) j = nth_error (k_buf s) j) by (apply nth_error_upd_other; lia).
      rewrite (nth_error_nth' (k_buf s) zd) in X by lia. apply (nth_error_nth _ _ zd) in X. now rewrite X.
  - rewrite upd_length. lia.
  - intros j J. apply at_A_in; auto. lia.
Qed.

Lemma solved_loop tb xL iB n : wf tb -> (iB < nStage tb)%nat -> (schemeC tb =? 1)%Z && Nat.eqb iB 0 = false ->
  let F := f (t0 + nth iB (bC tb) 0 * dt) in forall iter s,
  length (k_buf s) = nStage tb -> exists s' i, loop (stage_body C tb xL dt iB) n iter s = Ok (s', i) /\ k_has s' = k_has s /\
  match n with O => s' = s | S _ => k_buf s' = upd iB F (k_buf s) /\
    forall i, k_x s' i = xL i + dt * (Rsum (map (fun j => nth j (k_buf s) zd i * a_ tb iB j) (seq 0 iB)) + F i * a_ tb iB iB) end.
Proof.
  intros W I N F. induction n as [|n IH]; intros iter s L; cbn [loop].
  - eexists _, _. split; [reflexivity|]. auto.
  - destruct (solved_body tb xL iB iter s W I L N) as (s1 & b & -> & H1 & B1 & X1). cbn [bind fst snd].
    destruct b; [eexists _, _; split; [reflexivity|auto]|].
    destruct (IH (iter + 1)%Z s1) as (s2 & i & E2 & H2 & B2); [rewrite B1, upd_length; exact L|].
    exists s2, i. split; auto. split; [congruence|]. destruct n; [subst s2; auto|].
    destruct B2 as (B2 & X2). split; [rewrite B2, B1; apply upd_upd|].
    intro j. rewrite X2. do 4 f_equal. apply map_ext_in. intros k K. apply in_seq in K. f_equal. rewrite B1. fold F.
    assert (X : nth_error (upd iB F (k_buf s)) k = nth_error (k_buf s) k) by (apply nth_error_upd_other; lia).
    rewrite (nth_error_nth' (k_buf s) zd) in X by lia. apply (nth_error_nth _ _ zd) in X. now rewrite X.
Qed.

Lemma solved_stage tb xL mi s iB : wf tb -> (iB < nStage tb)%nat -> (schemeC tb =? 1)%Z && Nat.eqb iB 0 = false -> (1 <= mi)%Z ->
  length (k_buf s) = nStage tb -> let F := f (t0 + nth iB (bC tb) 0 * dt) in
  exists s', stage C tb xL dt mi s iB = Ok s' /\ k_has s' = k_has s /\ k_buf s' = upd iB F (k_buf s) /\
    forall i, k_x s' i = xL i + dt * (Rsum (map (fun j => nth j (k_buf s) zd i * a_ tb iB j) (seq 0 iB)) + F i * a_ tb iB iB).
Proof.
  intros W I N M L F. unfold stage.
  match goal with |- context [loop _ _ _ ?s0] => destruct (solved_loop tb xL iB (Z.to_nat mi) W I N 1%Z s0 L) as (s1 & i & -> & H & B) end.
  destruct (Z.to_nat mi) eqn:Em; [lia|]. cbn [bind k_buf k_has] in *. destruct B as (B & X).
  destruct (mi <? i)%Z; [|eexists; split; [reflexivity|auto]].
  destruct (fstop C _ _ _ _) as ((e, r), b). eexists. split; [reflexivity|]. cbn. auto.
Qed.

Lemma first_stage s xL mi : (1 <= mi)%Z -> length (k_buf s) = 6%nat ->
  (k_has s = true -> nth 5 (k_buf s) zd = f t0) ->
  exists s', stage C esdirk_tableau xL dt mi s 0 = Ok s' /\ k_has s' = k_has s /\ k_buf s' = upd 0 (f t0) (k_buf s).
Proof.
  intros M L Hb. unfold stage. destruct (Z.to_nat mi) as [|n] eqn:Em; [lia|]. cbn [loop].
  unfold stage_body at 1. cbn [schemeC esdirk_tableau Nat.eqb andb Z.eqb Pos.eqb k_has k_buf k_env k_x k_dTau nStage].
  change (Z.of_nat 6 - 1)%Z with (Z.of_nat 5). change 0%Z with (Z.of_nat 0).
  destruct (k_has s) eqn:Eh.
  - rewrite (vget_in (k_buf s) 5 zd) by lia. cbn [bind]. rewrite vset_in by lia. cbn [bind fst snd].
    replace (mi <? 1)%Z with false by lia. eexists. split; [reflexivity|]. cbn [k_has k_buf]. rewrite Hb; auto.
  - change (vget (bC esdirk_tableau) (Z.of_nat 0)) with (Ok 0). cbn [bind].
    rewrite (vget_in (k_buf s) 0 zd) by lia. cbn [bind].
    match goal with |- context [frhs C ?a ?b ?c ?d ?e ?g ?h] => destruct (HT a b c d e g h) as (e2 & t2 & ->) end.
    rewrite vset_in by lia. cbn [bind fst snd]. replace (mi <? 1)%Z with false by lia.
    eexists. split; [reflexivity|]. cbn [k_has k_buf]. rewrite Rmult_0_l, Rplus_0_r. auto.
Qed.

Lemma esdirk_step s mi : (1 <= mi)%Z -> length (k_buf s) = 6%nat ->
  (k_has s = true -> nth 5 (k_buf s) zd = f t0) ->
  exists s', SDIRK_Step C esdirk_tableau s mi dt = Ok s' /\ length (k_buf s') = 6%nat /\
  k_has s' = true /\ nth 5 (k_buf s') zd = f (t0 + dt) /\
  forall i, k_x s' i = k_x s i + dt * quad (bB esdirk_tableau) (bC esdirk_tableau) f t0 dt i.
Proof.
  intros M L Hb. pose proof wf_esdirk as W. unfold SDIRK_Step.
  change (seq 0 (nStage esdirk_tableau)) with [0%nat; 1%nat; 2%nat; 3%nat; 4%nat; 5%nat].
  assert (Ns : nStage esdirk_tableau = 6%nat) by reflexivity. cbn [foldM].
  destruct (first_stage s (k_x s) mi M L Hb) as (s0 & -> & _ & B0). cbn [bind].
  assert (L0 : length (k_buf s0) = 6%nat) by (rewrite B0, upd_length; exact L).
  destruct (solved_stage esdirk_tableau (k_x s) mi s0 1 W) as (s1 & -> & _ & B1 & _); auto; try lia. cbn [bind].
  assert (L1 : length (k_buf s1) = 6%nat) by (rewrite B1, upd_length; exact L0).
  destruct (solved_stage esdirk_tableau (k_x s) mi s1 2 W) as (s2 & -> & _ & B2 & _); auto; try lia. cbn [bind].
  assert (L2 : length (k_buf s2) = 6%nat) by (rewrite B2, upd_length; exact L1).
  destruct (solved_stage esdirk_tableau (k_x s) mi s2 3 W) as (s3 & -> & _ & B3 & _); auto; try lia. cbn [bind].
  assert (L3 : length (k_buf s3) = 6%nat) by (rewrite B3, upd_length; exact L2).
  destruct (solved_stage esdirk_tableau (k_x s) mi s3 4 W) as (s4 & -> & _ & B4 & _); auto; try lia. cbn [bind].
  assert (L4 : length (k_buf s4) = 6%nat) by (rewrite B4, upd_length; exact L3).
  destruct (solved_stage esdirk_tableau (k_x s) mi s4 5 W) as (s5 & -> & _ & B5 & X5); auto; try lia. cbn [bind].
  change (schemeC esdirk_tableau =? 1)%Z with true. cbn iota. eexists. split; [reflexivity|]. cbn [k_buf k_has k_x].
  split; [rewrite B5, upd_length; exact L4|]. split; [reflexivity|].
  destruct (k_buf s) as [|b0 [|b1 [|b2 [|b3 [|b4 [|b5 [|b6 bs]]]]]]]; try discriminate L.
  rewrite B4, B3, B2, B1, B0 in X5. rewrite B5, B4, B3, B2, B1, B0. cbn [upd nth].
  split. { replace (t0 + nth 5 (bC esdirk_tableau) 0 * dt) with (t0 + dt); [reflexivity|]. unfold bC, esdirk_tableau. cbn [nth]. ring. }
  intro i. rewrite X5. unfold quad, a_. cbn [upd nth seq map Rsum esdirk_tableau bA bB bC combine fst snd].
  replace (t0 + 0 * dt) with t0 by ring. ring.
Qed.

(** *** Backward Euler *)
Lemma euler_body_ok xL iter s : length (k_buf s) = 1%nat ->
  exists s' b, euler_body C xL dt iter s = Ok (s', b) /\ length (k_buf s') = 1%nat /\
  forall i, k_x s' i = xL i + dt * f (t0 + dt) i.
Proof.
  intro L. unfold euler_body.
  match goal with |- context [fdt C ?a ?b ?c ?d ?e] => destruct (sv_dt _ _ HS a b c d e) as (e1 & t1 & ->) end.
  change (vget (k_buf s) 0) with (vget (k_buf s) (Z.of_nat 0)). rewrite (vget_in (k_buf s) 0 zd) by lia. cbn [bind].
  match goal with |- context [frhs C ?a ?b ?c ?d ?e ?g ?h] => destruct (HT a b c d e g h) as (e2 & t2 & ->) end.
  match goal with |- context [vset (k_buf s) 0 ?x] => change (vset (k_buf s) 0 x) with (vset (k_buf s) (Z.of_nat 0) x) end.
  rewrite vset_in by lia. cbn [bind].
  match goal with |- context [fsolve C ?a ?b ?c ?d ?e dt ?g ?h ?i ?j ?k] => destruct (sv_solve _ _ HS a b c d e g h i j k) as (e3 & r3 & ro3 & t3 & ->) end.
  match goal with |- context [fincrement C ?a ?b ?c ?d ?e] => destruct (sv_inc _ _ HS a b c d e) as (e4 & xi4 & ->) end.
  destruct (fstop C _ _ _ _) as ((e5, r5), st). eexists _, _. split; [reflexivity|]. cbn [k_buf k_x].
  split; [now rewrite upd_length|]. intro i. rewrite Rmult_1_l. unfold addTo, scale, plus. field. exact Hdt.
Qed.

Lemma euler_loop xL n : forall iter s, length (k_buf s) = 1%nat ->
  exists s' i, loop (euler_body C xL dt) n iter s = Ok (s', i) /\ length (k_buf s') = 1%nat /\
  match n with O => True | S _ => forall i, k_x s' i = xL i + dt * f (t0 + dt) i end.
Proof.
  induction n as [|n IH]; intros iter s L; cbn [loop]; [eexists _, _; split; [reflexivity|]; auto|].
  destruct (euler_body_ok xL iter s L) as (s1 & b & -> & L1 & X1). cbn [bind fst snd].
  destruct b; [eexists _, _; split; [reflexivity|]; auto|].
  destruct n; [cbn [loop]; eexists _, _; split; [reflexivity|]; auto|].
  destruct (IH (iter + 1)%Z s1 L1) as (s2 & i & E2 & L2 & X2). exists s2, i. auto.
Qed.

Lemma euler_step s mi : (1 <= mi)%Z -> length (k_buf s) = 1%nat ->
  exists s', Euler_Step C s mi dt = Ok s' /\ length (k_buf s') = 1%nat /\ forall i, k_x s' i = k_x s i + dt * f (t0 + dt) i.
Proof.
  intros M L. unfold Euler_Step. destruct (euler_loop (k_x s) (Z.to_nat mi) 1%Z s L) as (s' & i & -> & L' & X).
  destruct (Z.to_nat mi) eqn:Em; [lia|]. cbn [bind fst]. eauto.
Qed.
End Solved.
End Stages.

(** ** Hermite *)
Section Hermite.
Context {E T : Type}.
Variable C : calls E T.
Variables (t0 dt : R) (f : R -> D).
Hypothesis HT : time_only C t0 dt f.
Hypothesis HS : solver C dt.
Hypothesis Hdt : dt <> 0.
Variables (cf : hconf) (co : hcoef).
Hypothesis Hm : curSolveMethod cf = 0%Z.

Definition h_base (xL : D) (s : hm E T) := hb0 s = f t0 /\ h_xLast s = xL.
Definition h_value (xL : D) : D := fun i => xL i + dt * (w0 co * f t0 i + w1 co * f (t0 + alphaHM3 cf * dt) i + w2 co * f (t0 + dt) i).

Lemma hermite_body_ok xL iter s : h_base xL s ->
  exists s' b, hermite_body C cf co dt iter s = Ok (s', b) /\ h_base xL s' /\ hb1 s' = f (t0 + dt) /\
    (b = true -> (nStartIter cf <= iter)%Z) /\
    (hb1 s = f (t0 + dt) -> (nStartIter cf <= iter)%Z -> forall i, h_x s' i = h_value xL i) /\
    (patient C -> iter = 1%Z -> b = false).
Proof.
  intros (B0 & BL). unfold hermite_body. rewrite Hm. change (0 =? 0)%Z with true. cbn iota.
  destruct (Z.ltb_spec iter (nStartIter cf)) as [Lt|Ge].
  - match goal with |- context [fdt C ?a ?b ?c ?d ?e] => destruct (sv_dt _ _ HS a b c d e) as (e1 & t1 & ->) end.
    match goal with |- context [frhs C ?a ?b ?c ?d ?e ?g ?h] => destruct (HT a b c d e g h) as (e2 & t2 & ->) end.
    match goal with |- context [fsolve C ?a ?b ?c ?d ?e dt ?g ?h ?i ?j ?k] => destruct (sv_solve _ _ HS a b c d e g h i j k) as (e3 & r3 & ro3 & t3 & ->) end.
    cbn [h_env h_rhsMid]. destruct (fstop C e3 iter (h_rhsMid s) 1) as ((e5, r5), st) eqn:Es.
    replace (nStartIter cf <=? iter)%Z with false by lia. rewrite andb_false_r.
    eexists _, _. split; [reflexivity|]. unfold h_base. cbn. rewrite Rmult_1_l.
    split; [auto|]. split; [auto|]. split; [discriminate|]. split; [intros; lia|auto].
  - match goal with |- context [fdt C ?a ?b ?c ?d 1%Z] => destruct (sv_dt _ _ HS a b c d 1%Z) as (e1 & t1 & ->) end.
    match goal with |- context [fsolve C ?a ?b ?c ?d ?e dt ?g ?h ?i ?j 1%Z] => destruct (sv_solve _ _ HS a b c d e g h i j 1%Z) as (e2 & r2 & ro2 & t2 & ->) end.
    match goal with |- context [fincrement C ?a ?b ?c ?d 1%Z] => destruct (sv_inc _ _ HS a b c d 1%Z) as (e3 & xi3 & ->) end.
    match goal with |- context [frhs C ?a ?b ?c ?d ?e ?g 1%Z] => destruct (HT a b c d e g 1%Z) as (e4 & t4 & ->) end.
    match goal with |- context [fdt C ?a ?b ?c ?d 0%Z] => destruct (sv_dt _ _ HS a b c d 0%Z) as (e5 & t5 & ->) end.
    match goal with |- context [fsolve C ?a ?b ?c ?d ?e dt ?g ?h ?i ?j 0%Z] => destruct (sv_solve _ _ HS a b c d e g h i j 0%Z) as (e6 & r6 & ro6 & t6 & ->) end.
    match goal with |- context [fincrement C ?a ?b ?c ?d 0%Z] => destruct (sv_inc _ _ HS a b c d 0%Z) as (e7 & xi7 & ->) end.
    match goal with |- context [frhs C ?a ?b ?c ?d ?e ?g 0%Z] => destruct (HT a b c d e g 0%Z) as (e8 & t8 & ->) end.
    cbn [h_env h_rhsMid]. destruct (fstop C e8 iter r2 1) as ((e9, r9), st) eqn:Es.
    replace (nStartIter cf <=? iter)%Z with true by lia. rewrite andb_true_r.
    eexists _, _. split; [reflexivity|]. unfold h_base. cbn. rewrite Rmult_1_l.
    split; [auto|]. split; [auto|]. split; [auto|]. split.
    + intros B1 _ i. unfold h_value, addTo, scale, setConstant. rewrite B0, B1, BL. field. exact Hdt.
    + intros P ->. specialize (P e8 r2 1%Z). rewrite Es in P. exact P.
Qed.

Lemma hermite_loop xL n : forall iter s, h_base xL s -> hb1 s = f (t0 + dt) -> (nStartIter cf < iter + Z.of_nat n)%Z ->
  (1 <= n)%nat ->
  exists s' i, loop (hermite_body C cf co dt) n iter s = Ok (s', i) /\ h_base xL s' /\ hb1 s' = f (t0 + dt) /\
    forall i, h_x s' i = h_value xL i.
Proof.
  induction n as [|n IH]; intros iter s B B1 N N1; [lia|]. cbn [loop].
  destruct (hermite_body_ok xL iter s B) as (s1 & b & -> & B' & B1' & Hb & X & _). cbn [bind fst snd].
  destruct b; [eexists _, _; split; [reflexivity|]; auto 10|]. destruct n as [|n].
  - cbn [loop]. eexists _, _; split; [reflexivity|]. split; auto. split; auto. apply X; auto. lia.
  - apply IH; auto; lia.
Qed.

Lemma hermite_step s mi : (2 <= mi)%Z -> (nStartIter cf <= mi)%Z -> patient C ->
  (h_has s = true -> hb1 s = f t0) ->
  SetCoefs cf (h_prevSize s) (h_dtPrev s / (dt + verySmallReal)) = Ok co ->
  exists s', Hermite_Step C cf s mi dt = Ok s' /\ h_has s' = true /\ hb1 s' = f (t0 + dt) /\
    h_prevSize s' = 1%Z /\ h_dtPrev s' = dt /\ h_xPrev s' = h_x s /\
    forall i, h_x s' i = h_value (h_x s) i.
Proof.
  intros M1 M2 P Hh Hc. unfold Hermite_Step. rewrite Hc. cbn [bind].
  match goal with |- context [fdt C ?a ?b ?c ?d 0%Z] => destruct (sv_dt _ _ HS a b c d 0%Z) as (e1 & t1 & ->) end.
  assert (R0 : exists e2 t2, (if h_has s then (e1, hb1 s, h_x s, t1) else frhs C e1 (hb0 s) (h_x s) t1 INT_MAX 0 0%Z) = (e2, f t0, h_x s, t2)).
  { destruct (h_has s).
    - rewrite Hh by auto. eauto.
    - match goal with |- context [frhs C ?a ?b ?c ?d ?e ?g ?h] => destruct (HT a b c d e g h) as (e2 & t2 & ->) end.
      rewrite Rmult_0_l, Rplus_0_r. eauto. }
  destruct R0 as (e2 & t2 & ->).
  destruct (Z.to_nat mi) as [|[|n]] eqn:Em; try lia. cbn [loop].
  match goal with |- context [hermite_body C cf co dt 1 ?s0] =>
    destruct (hermite_body_ok (h_x s) 1%Z s0) as (s1 & b & -> & B' & B1' & _ & _ & Hb); [split; reflexivity|] end.
  rewrite (Hb P eq_refl). cbn [bind fst snd].
  destruct (hermite_loop (h_x s) (S n) (1 + 1)%Z s1 B' B1') as (s2 & i & E2 & B2 & F2 & X); try lia.
  cbn [loop] in E2. rewrite E2. cbn [bind].
  match goal with |- context [if (mi <? i)%Z then ?a else ?b] => destruct (if (mi <? i)%Z then a else b) as (e3, r3) end.
  eexists. split; [reflexivity|]. cbn. split; auto. split; auto. split; auto. split; auto. split; auto. apply B2.
Qed.

(** ** SSPRK3 *)
Lemma ssprk3_step mulT (s : rk E T) : (3 <= length (k_buf s))%nat ->
  exists s', SSPRK3_Step C mulT false s dt = Ok s' /\
    forall i, k_x s' i = k_x s i + dt * quad [1 / 6; 1 / 6; 2 / 3] [1 / 2; 1; 1 / 4] f t0 dt i.
Proof.
  intro L. unfold SSPRK3_Step.
  match goal with |- context [fdt C ?a ?b ?c ?d 0%Z] => destruct (sv_dt _ _ HS a b c d 0%Z) as (e0 & u0 & ->) end.
  destruct (HT e0 (k_rhs s) (k_x s) u0 1%Z (1 / 2) 0%Z) as (e1 & u1 & ->).
  rewrite vset0 by lia. cbn [bind].
  match goal with |- context [fincrement C e1 ?b ?c ?d ?e] => destruct (sv_inc _ _ HS e1 b c d e) as (e2 & r2 & ->) end.
  match goal with |- context [frhs C e2 ?b ?c ?d ?e ?g ?h] => destruct (HT e2 b c d e g h) as (e3 & u3 & ->) end.
  rewrite vset1 by (rewrite upd_length; lia). cbn [bind].
  match goal with |- context [fincrement C e3 ?b ?c ?d ?e] => destruct (sv_inc _ _ HS e3 b c d e) as (e4 & r4 & ->) end.
  match goal with |- context [frhs C e4 ?b ?c ?d ?e ?g ?h] => destruct (HT e4 b c d e g h) as (e5 & u5 & ->) end.
  rewrite vset2 by (rewrite !upd_length; lia). cbn [bind].
  match goal with |- context [fincrement C e5 ?b ?c ?d ?e] => destruct (sv_inc _ _ HS e5 b c d e) as (e6 & r6 & ->) end.
  eexists. split; [reflexivity|]. intro i. unfold quad. cbn [k_x map combine fst snd Rsum].
  unfold addTo, scale. field.
Qed.
End Hermite.

Lemma ssprk3_linear {E T} (C : calls E T) dt L mulT (s : rk E T) : autonomous C L -> linear L -> solver C dt ->
  (3 <= length (k_buf s))%nat ->
  exists s', SSPRK3_Step C mulT false s dt = Ok s' /\
    forall i, k_x s' i = k_x s i + dt * L (k_x s) i + dt * dt / 2 * L (L (k_x s)) i + dt * dt * dt / 6 * L (L (L (k_x s))) i.
Proof.
  intros HA HL HS Len. unfold SSPRK3_Step.
  match goal with |- context [fdt C ?a ?b ?c ?d 0%Z] => destruct (sv_dt _ _ HS a b c d 0%Z) as (e0 & u0 & ->) end.
  destruct (HA e0 (k_rhs s) (k_x s) u0 1%Z (1 / 2) 0%Z) as (e1 & u1 & ->).
  rewrite vset0 by lia. cbn [bind].
  match goal with |- context [fincrement C e1 ?b ?c ?d ?e] => destruct (sv_inc _ _ HS e1 b c d e) as (e2 & r2 & ->) end.
  match goal with |- context [frhs C e2 ?b ?c ?d ?e ?g ?h] => destruct (HA e2 b c d e g h) as (e3 & u3 & ->) end.
  rewrite vset1 by (rewrite upd_length; lia). cbn [bind].
  match goal with |- context [fincrement C e3 ?b ?c ?d ?e] => destruct (sv_inc _ _ HS e3 b c d e) as (e4 & r4 & ->) end.
  match goal with |- context [frhs C e4 ?b ?c ?d ?e ?g ?h] => destruct (HA e4 b c d e g h) as (e5 & u5 & ->) end.
  rewrite vset2 by (rewrite !upd_length; lia). cbn [bind].
  match goal with |- context [fincrement C e5 ?b ?c ?d ?e] => destruct (sv_inc _ _ HS e5 b c d e) as (e6 & r6 & ->) end.
  eexists. split; [reflexivity|]. intro i. cbn [k_x]. set (x := k_x s).
  assert (HL' : forall a b x y, L (fun j => a * x j + b * y j) = fun j => a * L x j + b * L y j)
    by (intros; apply functional_extensionality; intro; apply HL).
  assert (E1 : addTo x (scale (L x) dt) 1 = fun j => 1 * x j + dt * L x j).
  { apply functional_extensionality. intro j. unfold addTo, scale. ring. }
  rewrite E1. set (x1 := fun j => 1 * x j + dt * L x j).
  assert (L1 : L x1 = fun j => 1 * L x j + dt * L (L x) j) by apply HL'.
  assert (E2 : addTo (addTo (scale x1 (1 / 4)) x (3 / 4)) (scale (L x1) dt) (1 / 4)
    = fun j => 1 * (fun j => 1 * x j + dt / 2 * L x j) j + dt * dt / 4 * L (L x) j).
  { apply functional_extensionality. intro j. unfold addTo, scale. rewrite L1. unfold x1. field. }
  rewrite E2. set (x2 := fun j => 1 * (fun j => 1 * x j + dt / 2 * L x j) j + dt * dt / 4 * L (L x) j).
  assert (L2 : L x2 = fun j => 1 * (1 * L x j + dt / 2 * L (L x) j) + dt * dt / 4 * L (L (L x)) j).
  { unfold x2. rewrite HL'. apply functional_extensionality. intro j. now rewrite HL'. }
  unfold addTo, scale. rewrite L2. unfold x2. field.
Qed.

(** ** Quadratures on polynomials *)
Lemma sdirk_poly z a t dt f i : z <> 1 / 2 -> of_degree 4 a -> solution a f ->
  at_time a t i + dt * quad (bB (sdirk_tableau z)) (bC (sdirk_tableau z)) f t dt i = at_time a (t + dt) i.
Proof.
  intros Hz Ha Hf. unfold quad. cbn [sdirk_tableau bB bC map combine fst snd Rsum].
  rewrite !(slope_eq a _ _ i (Hf _)). unfold at_time. destruct (poly_pad _ (a i) (Ha i)) as (b & Lb & P & DP).
  rewrite !P, !DP. open_poly. cbn [dpoly poly fold_right]. field. lra.
Qed.

Lemma hermite_poly al a t dt f i : 0 < al < 1 -> of_degree 3 a -> solution a f ->
  let '(u, v, w) := hweights al in
  at_time a t i + dt * (u * f t i + v * f (t + al * dt) i + w * f (t + dt) i) = at_time a (t + dt) i.
Proof.
  intros Hal Ha Hf. unfold hweights. rewrite !(slope_eq a _ _ i (Hf _)). unfold at_time.
  destruct (poly_pad _ (a i) (Ha i)) as (b & Lb & P & DP). rewrite !P, !DP. open_poly. cbn [dpoly poly fold_right].
  field. split; lra.
Qed.

Lemma euler_poly a t dt f i : of_degree 1 a -> solution a f -> at_time a t i + dt * f (t + dt) i = at_time a (t + dt) i.
Proof.
  intros Ha Hf. rewrite !(slope_eq a _ _ i (Hf _)). unfold at_time.
  destruct (poly_pad _ (a i) (Ha i)) as (b & Lb & P & DP). rewrite !P, !DP. open_poly. cbn [dpoly poly fold_right]. ring.
Qed.

(** *** Runs *)
Lemma sdirk_run {E T} z a f (todo : list (calls E T * Z * R)) : z <> 1 / 2 -> of_degree 4 a -> solution a f ->
  forall t s, follows (fun C t dt => writes C t dt f) t todo -> length (k_buf s) = 3%nat ->
  (forall i, k_x s i = at_time a t i) ->
  exists s', foldM (fun s c => SDIRK_Step (fst (fst c)) (sdirk_tableau z) s (snd (fst c)) (snd c)) s todo = Ok s' /\
    forall i, k_x s' i = at_time a (end_time t todo) i.
Proof.
  intros Hz Ha Hf. induction todo as [|((C, mi), dt) todo IH]; intros t s F L X; cbn [foldM fst snd].
  - exists s. split; auto. unfold end_time. cbn. intro i. now rewrite Rplus_0_r.
  - destruct F as (F1 & F2 & F3). destruct (sdirk_step C t dt f F1 z s mi F2 L) as (s1 & -> & L1 & X1). cbn [bind].
    destruct (IH (t + dt) s1 F3 L1) as (s2 & E2 & X2).
    + intro i. rewrite X1, X. now apply sdirk_poly.
    + exists s2. split; auto. intro i. rewrite X2. unfold end_time. cbn [map snd Rsum]. f_equal. ring.
Qed.

Lemma euler_run {E T} a f (todo : list (calls E T * Z * R)) : of_degree 1 a -> solution a f ->
  forall t s, follows (fun C t dt => time_only C t dt f /\ solver C dt /\ dt <> 0) t todo -> length (k_buf s) = 1%nat ->
  (forall i, k_x s i = at_time a t i) ->
  exists s', foldM (fun s c => Euler_Step (fst (fst c)) s (snd (fst c)) (snd c)) s todo = Ok s' /\
    forall i, k_x s' i = at_time a (end_time t todo) i.
Proof.
  intros Ha Hf. induction todo as [|((C, mi), dt) todo IH]; intros t s F L X; cbn [foldM fst snd].
  - exists s. split; auto. unfold end_time. cbn. intro i. now rewrite Rplus_0_r.
  - destruct F as ((F1 & F1' & F1'') & F2 & F3). destruct (euler_step C t dt f F1 F1' F1'' s mi F2 L) as (s1 & -> & L1 & X1). cbn [bind].
    destruct (IH (t + dt) s1 F3 L1) as (s2 & E2 & X2).
    + intro i. rewrite X1, X. now apply euler_poly.
    + exists s2. split; auto. intro i. rewrite X2. unfold end_time. cbn [map snd Rsum]. f_equal. ring.
Qed.

(** Hermite: the coefficients *)
Lemma SetCoefs_ok cf p h : 0 < alphaHM3 cf < 1 -> maskHM3 cf = 0%Z \/ maskHM3 cf = 1%Z ->
  exists co, SetCoefs cf p h = Ok co /\ (w0 co, w1 co, w2 co) = hweights (alphaHM3 cf).
Proof.
  intros Hal M. unfold SetCoefs. destruct (Rlt_dec 0 (alphaHM3 cf)); [|lra]. destruct (Rlt_dec (alphaHM3 cf) 1); [|lra].
  destruct M as [-> | ->]; cbn [Z.eqb Pos.eqb]; eexists; split; reflexivity.
Qed.

Lemma hermite_run {E T} cf a f (todo : list (calls E T * Z * R)) : of_degree 3 a -> solution a f ->
  0 < alphaHM3 cf < 1 -> maskHM3 cf = 0%Z \/ maskHM3 cf = 1%Z -> curSolveMethod cf = 0%Z ->
  (forall C mi dt, In (C, mi, dt) todo -> (2 <= mi)%Z /\ (nStartIter cf <= mi)%Z) ->
  forall t (s : hm E T), follows (fun C t dt => time_only C t dt f /\ solver C dt /\ dt <> 0 /\ patient C) t todo ->
  (h_has s = true -> hb1 s = f t) ->
  (forall i, h_x s i = at_time a t i) ->
  exists s', foldM (fun s c => Hermite_Step (fst (fst c)) cf s (snd (fst c)) (snd c)) s todo = Ok s' /\
    forall i, h_x s' i = at_time a (end_time t todo) i.
Proof.
  intros Ha Hf Hal M Hm. induction todo as [|((C, mi), dt) todo IH]; intros Hmi t s F L X; cbn [foldM fst snd].
  - exists s. split; auto. unfold end_time. cbn. intro i. now rewrite Rplus_0_r.
  - destruct F as ((F1 & F1' & F1'' & Fp) & F2 & F3).
    destruct (Hmi C mi dt (or_introl eq_refl)) as (Q1 & Q2).
    destruct (SetCoefs_ok cf (h_prevSize s) (h_dtPrev s / (dt + verySmallReal)) Hal M) as (co & Ec & Ew).
    destruct (hermite_step C t dt f F1 F1' F1'' cf co Hm s mi Q1 Q2 Fp L Ec) as (s1 & -> & L1 & B1 & _ & _ & _ & X1). cbn [bind].
    destruct (IH (fun C mi dt I => Hmi C mi dt (or_intror I)) (t + dt) s1 F3 (fun _ => B1)) as (s2 & E2 & X2).
    + intro i. rewrite X1. unfold h_value. rewrite X. pose proof (hermite_poly (alphaHM3 cf) a t dt f i Hal Ha Hf) as HP.
      rewrite <- Ew in HP. exact HP.
    + exists s2. split; auto. intro i. rewrite X2. unfold end_time. cbn [map snd Rsum]. f_equal. ring.
Qed.

Lemma hermite_three {E T} (C : calls E T) cf a f t dt (s : hm E T) mi : of_degree 3 a -> solution a f ->
  0 < alphaHM3 cf < 1 -> maskHM3 cf = 2%Z -> curSolveMethod cf = 0%Z -> (2 <= mi)%Z -> (nStartIter cf <= mi)%Z ->
  time_only C t dt f -> solver C dt -> dt <> 0 -> patient C ->
  (h_has s = true -> hb1 s = f t) ->
  h_prevSize s = 1%Z -> 1 / 100 < h_dtPrev s / (dt + verySmallReal) < 100 ->
  (forall i, h_x s i = at_time a t i) ->
  exists s', Hermite_Step C cf s mi dt = Ok s' /\ forall i, h_x s' i = at_time a (t + dt) i.
Proof.
  intros Ha Hf Hal M Hm Q1 Q2 F1 F2 F3 Fp L Ps Hr X.
  assert (exists co, SetCoefs cf (h_prevSize s) (h_dtPrev s / (dt + verySmallReal)) = Ok co /\ (w0 co, w1 co, w2 co) = hweights (alphaHM3 cf)) as (co & Ec & Ew).
  { unfold SetCoefs. rewrite M, Ps. destruct (Rlt_dec 0 (alphaHM3 cf)); [|lra]. destruct (Rlt_dec (alphaHM3 cf) 1); [|lra].
    cbn [Z.eqb Pos.eqb]. destruct (Rlt_dec _ 100); [|lra]. destruct (Rlt_dec (1 / 100) _); [|lra]. eexists; split; reflexivity. }
  destruct (hermite_step C t dt f F1 F2 F3 cf co Hm s mi Q1 Q2 Fp L Ec) as (s1 & -> & L1 & B1 & _ & _ & _ & X1).
  eexists. split; [reflexivity|]. intro i. rewrite X1. unfold h_value. rewrite X.
  pose proof (hermite_poly (alphaHM3 cf) a t dt f i Hal Ha Hf) as HP. rewrite <- Ew in HP. exact HP.
Qed.

(** The interpolation *)
Lemma interp_mask cf p h co : SetCoefs cf p h = Ok co ->
  (maskHM3 cf = 0%Z -> interpolates co (fun a v => derivable_pt_lim (poly a) 0 v) (alphaHM3 cf) 3) /\
  (maskHM3 cf = 1%Z -> interpolates co (fun _ _ => True) (alphaHM3 cf) 2) /\
  (maskHM3 cf = 2%Z -> p = 1%Z -> 1 / 100 < h < 100 -> interpolates co (fun a v => v = poly a (- h)) (alphaHM3 cf) 3).
Proof.
  unfold SetCoefs. destruct (Rlt_dec 0 (alphaHM3 cf)); [|discriminate]. destruct (Rlt_dec (alphaHM3 cf) 1); [|discriminate].
  intro Hc. split; [|split].
  - intro M. rewrite M in Hc. cbn [Z.eqb hweights] in Hc. injection Hc as <-. intros a v s La Hs Hv.
    rewrite (uniqueness_limite _ _ _ _ Hs (dpoly_lim _ _)), (uniqueness_limite _ _ _ _ Hv (dpoly_lim _ _)). destruct (poly_pad _ a La) as (b & Lb & P & DP). rewrite !P, !DP.
    open_poly. cbn [cI0 cI1 cI2 cI3 dpoly poly fold_right]. ring.
  - intro M. rewrite M in Hc. cbn [Z.eqb Pos.eqb hweights] in Hc. injection Hc as <-. intros a v s La Hs Hv.
    rewrite (uniqueness_limite _ _ _ _ Hs (dpoly_lim _ _)). destruct (poly_pad _ a La) as (b & Lb & P & DP). rewrite !P, !DP.
    open_poly. cbn [cI0 cI1 cI2 cI3 dpoly poly fold_right]. ring.
  - intros M -> Hh. rewrite M in Hc. cbn [Z.eqb Pos.eqb] in Hc. destruct (Rlt_dec h 100); [|lra]. destruct (Rlt_dec (1 / 100) h); [|lra].
    cbn [hweights] in Hc. injection Hc as <-. intros a v s La Hs Hv.
    rewrite (uniqueness_limite _ _ _ _ Hs (dpoly_lim _ _)), Hv. destruct (poly_pad _ a La) as (b & Lb & P & DP). rewrite !P, !DP.
    open_poly. cbn [cI0 cI1 cI2 cI3 dpoly poly fold_right]. field. split; lra.
Qed.

(** *** The six-stage scheme *)
Lemma esdirk_poly a t dt f i c0 c1 c2 c3 c4 : solution a f -> (forall s, poly (a i) (t + s * dt) = poly [c0; c1; c2; c3; c4] s) -> dt <> 0 ->
  Rabs (at_time a t i + dt * quad (bB esdirk_tableau) (bC esdirk_tableau) f t dt i - at_time a (t + dt) i)
    <= 1 / 1000000000000000 * Rabs c1 + 1 / 10000000 * (Rabs c2 + Rabs c3 + Rabs c4).
Proof.
  intros Hf Hp Hd.
  assert (Hs : forall s, dt * f (t + s * dt) i = c1 + s * (2 * c2 + s * (3 * c3 + s * (4 * c4)))).
  { intro s. pose proof (Hf (t + s * dt) i) as Q.
    assert (M : derivable_pt_lim (comp (poly (a i)) (fun s => t + s * dt)) s (f (t + s * dt) i * (0 + (1 * dt + s * 0)))).
    { apply derivable_pt_lim_comp; [|exact Q].
      apply (derivable_pt_lim_plus (fun _ => t) (fun s => s * dt)); [apply (derivable_pt_lim_const t)|].
      apply (derivable_pt_lim_mult id (fun _ => dt)); [apply derivable_pt_lim_id|apply (derivable_pt_lim_const dt)]. }
    assert (M' : derivable_pt_lim (comp (poly (a i)) (fun s => t + s * dt)) s (dpoly [c0; c1; c2; c3; c4] s)).
    { intros eps He. destruct (dpoly_lim [c0; c1; c2; c3; c4] s eps He) as (del & Hdel). exists del. intros h H0 H1.
      unfold comp. rewrite !Hp. apply Hdel; auto. }
    pose proof (uniqueness_limite _ _ _ _ M M') as U. cbn [dpoly poly fold_right] in U.
    transitivity (f (t + s * dt) i * (0 + (1 * dt + s * 0))); [ring|]. rewrite U. ring. }
  unfold at_time. replace (poly (a i) t) with (poly [c0; c1; c2; c3; c4] 0) by (rewrite <- Hp; f_equal; ring).
  replace (poly (a i) (t + dt)) with (poly [c0; c1; c2; c3; c4] 1) by (rewrite <- Hp; f_equal; ring).
  unfold quad. cbn [esdirk_tableau bB bC map combine fst snd Rsum].
  match goal with |- Rabs (_ + dt * (?b1 * f (t + ?n1 * dt) i + (?b2 * f (t + ?n2 * dt) i + (?b3 * f (t + ?n3 * dt) i + (?b4 * f (t + ?n4 * dt) i +
     (?b5 * f (t + ?n5 * dt) i + (?b6 * f (t + ?n6 * dt) i + 0)))))) - _) <= _ =>
    pose proof (Hs n1) as S1; pose proof (Hs n2) as S2; pose proof (Hs n3) as S3; pose proof (Hs n4) as S4; pose proof (Hs n5) as S5; pose proof (Hs n6) as S6 end.
  cbn [poly fold_right].
  set (y1 := f (t + 0 * dt) i) in *.
  match goal with |- Rabs ?X <= _ => assert (EX : exists d1 d2 d3 d4, X = d1 * c1 + d2 * c2 + d3 * c3 + d4 * c4 /\
     Rabs d1 <= 1 / 1000000000000000 /\ Rabs d2 <= 1 / 10000000 /\ Rabs d3 <= 1 / 10000000 /\ Rabs d4 <= 1 / 10000000) end.
  { set (b1 := 1579162951616714 / 10000000000000000) in *. set (b3 := 1867589405240008 / 10000000000000000) in *.
    set (b4 := 6805652953093346 / 10000000000000000) in *. set (b5 := -2752405309950067 / 10000000000000000) in *.
    set (n3 := 332 / 1000) in *. set (n4 := 62 / 100) in *. set (n5 := 849999966747388 / 1000000000000000) in *.
    exists (b1 + b3 + b4 + b5 + 1 / 4 - 1), (2 * (b3 * n3 + b4 * n4 + b5 * n5 + 1 / 4) - 1),
      (3 * (b3 * n3 * n3 + b4 * n4 * n4 + b5 * n5 * n5 + 1 / 4) - 1), (4 * (b3 * n3 * n3 * n3 + b4 * n4 * n4 * n4 + b5 * n5 * n5 * n5 + 1 / 4) - 1).
    split; [|split; [|split; [|split]]].
    - transitivity (c0 + (b1 * (dt * y1) + b3 * (dt * f (t + n3 * dt) i) + b4 * (dt * f (t + n4 * dt) i) + b5 * (dt * f (t + n5 * dt) i) + 1 / 4 * (dt * f (t + 1 * dt) i))
         - (c0 + c1 + c2 + c3 + c4)); [ring|]. rewrite S1, S3, S4, S5, S6. ring.
    - unfold b1, b3, b4, b5. apply Rabs_le. lra.
    - unfold b1, b3, b4, b5, n3, n4, n5. apply Rabs_le. lra.
    - unfold b1, b3, b4, b5, n3, n4, n5. apply Rabs_le. lra.
    - unfold b1, b3, b4, b5, n3, n4, n5. apply Rabs_le. lra. }
  destruct EX as (d1 & d2 & d3 & d4 & -> & H1 & H2 & H3 & H4).
  assert (T3 : Rabs (d1 * c1 + d2 * c2 + d3 * c3 + d4 * c4) <= Rabs d1 * Rabs c1 + Rabs d2 * Rabs c2 + Rabs d3 * Rabs c3 + Rabs d4 * Rabs c4).
  { rewrite <- !Rabs_mult. eapply Rle_trans; [apply Rabs_triang|]. apply Rplus_le_compat_r.
    eapply Rle_trans; [apply Rabs_triang|]. apply Rplus_le_compat_r. apply Rabs_triang. }
  pose proof (Rmult_le_compat_r _ _ _ (Rabs_pos c1) H1). pose proof (Rmult_le_compat_r _ _ _ (Rabs_pos c2) H2).
  pose proof (Rmult_le_compat_r _ _ _ (Rabs_pos c3) H3). pose proof (Rmult_le_compat_r _ _ _ (Rabs_pos c4) H4). lra.
Qed.

(** ** Tableaux *)
Lemma zeta_half : zeta <> 1 / 2.
Proof. unfold zeta. lra. Qed.

Lemma sdirk_consistent : consistent (sdirk_tableau zeta) 0.
Proof.
  pose proof zeta_half as Hz. split.
  - cbn [sdirk_tableau bB Rsum]. replace (_ - 1) with 0; [rewrite Rabs_R0; lra|]. field. lra.
  - assert (Z0 : forall a b, a = b -> Rabs (a - b) <= 0) by (intros a b ->; rewrite Rminus_eq_0, Rabs_R0; lra).
    cbn [sdirk_tableau bA bC]. intros [|[|[|i]]] r H; cbn in H.
    + injection H as <-. eexists. split; [reflexivity|]. apply Z0. cbn. ring.
    + injection H as <-. eexists. split; [reflexivity|]. apply Z0. cbn. field.
    + injection H as <-. eexists. split; [reflexivity|]. apply Z0. cbn. ring.
    + destruct i; discriminate H.
Qed.

Lemma vsr_small : 0 < verySmallReal < 1 / 1000000000000000.
Proof.
  unfold verySmallReal. split; [apply Rinv_0_lt_compat, pow_lt; lra|].
  unfold Rdiv. rewrite Rmult_1_l. apply Rinv_lt_contravar.
  - apply Rmult_lt_0_compat; [lra|apply pow_lt; lra].
  - replace 1000000000000000 with (10 ^ 15) by (cbn; ring). apply Rlt_pow; [lra|lia].
Qed.

Lemma esdirk_consistent : consistent esdirk_tableau (1 / 1000000000000000).
Proof.
  pose proof vsr_small as V. split.
  - cbn [esdirk_tableau bB Rsum]. apply Rabs_le. lra.
  - cbn [esdirk_tableau bA bC]. intros [|[|[|[|[|[|i]]]]]] r H; cbn in H;
      try (injection H as <-; eexists; split; [reflexivity|]; apply Rabs_le; cbn [Rsum]; lra).
    destruct i; discriminate H.
Qed.

Lemma Rabs_between x y : Rabs x <= y -> - y <= x <= y.
Proof. intro H. pose proof (Rle_abs x). pose proof (Rle_abs (- x)) as Q. rewrite Rabs_Ropp in Q. lra. Qed.

(** ** Refutations: x' = 2t *)
Definition ftwo : R -> D := fun t _ => 2 * t.
Definition exact_calls (t0 dt : R) (f : R -> D) : calls unit unit := {|
  frhs := fun e _ x t _ ct _ => (e, f (t0 + ct * dt), x, t);
  fdt := fun e x t _ _ => (e, x, t);
  fsolve := fun e x rhs ro t dt _ _ _ _ _ => (e, x, rhs, ro, t, scale rhs dt);
  fstop := fun e _ rhs _ => (e, rhs, false);
  fincrement := fun e x xinc al _ => (e, addTo x xinc al, xinc) |}.
Definition zero_rk (n : nat) : rk unit unit := {| k_env := tt; k_x := zd; k_xinc := zd; k_dTau := tt;
  k_buf := repeat zd n; k_rhs := zd; k_resOther := zd; k_xIncPrev := zd; k_has := false; k_latest := 0 |}.
Definition zero_hm : hm unit unit := {| h_env := tt; h_x := zd; h_xinc := zd; h_dTau := tt; h_xMid := zd;
  h_rhsMid := zd; h_rhsFull := zd; h_resOther := zd; hb0 := zd; hb1 := zd; hb2 := zd; h_xLast := zd;
  h_xIncPrev := zd; h_has := false; h_xPrev := zd; h_dtPrev := 0; h_prevSize := 0 |}.

Lemma exact_time t0 dt f : time_only (exact_calls t0 dt f) t0 dt f.
Proof. intros e r x t it ct p. cbn. eauto. Qed.
Lemma exact_solver t0 dt f : solver (exact_calls t0 dt f) dt.
Proof. constructor; cbn; eauto 10. Qed.
Lemma exact_patient t0 dt f : patient (exact_calls t0 dt f).
Proof. intros e r s. reflexivity. Qed.
Lemma two_solution : solution (fun _ => [0; 0; 1]) ftwo.
Proof.
  intros t i. pose proof (dpoly_lim [0; 0; 1] t) as H. unfold ftwo.
  replace (2 * t) with (dpoly [0; 0; 1] t) by (cbn; ring). exact H.
Qed.
Lemma two_degree n : (2 <= n)%nat -> of_degree n (fun _ => [0; 0; 1]).
Proof. intros H i. cbn. lia. Qed.

Lemma esdirk_off : ~ (forall (C : calls unit unit) a f t dt s mi s', of_degree 4 a -> solution a f ->
  time_only C t dt f -> solver C dt -> dt <> 0 -> (1 <= mi)%Z -> k_has s = false -> length (k_buf s) = 6%nat ->
  (forall i, k_x s i = at_time a t i) -> SDIRK_Step C esdirk_tableau s mi dt = Ok s' ->
  Rabs (k_x s' 0%nat - at_time a (t + dt) 0%nat) <= 1 / 100000000).
Proof.
  intro H.
  destruct (esdirk_step (exact_calls 0 1 ftwo) 0 1 ftwo (exact_time 0 1 ftwo) (exact_solver 0 1 ftwo) ltac:(lra) (zero_rk 6) 1 ltac:(lia) eq_refl)
    as (s' & E' & _ & _ & _ & X); [discriminate|].
  pose proof (H (exact_calls 0 1 ftwo) (fun _ => [0; 0; 1]) ftwo 0 1 (zero_rk 6) 1%Z s' (two_degree 4 ltac:(lia)) two_solution
    (exact_time 0 1 ftwo) (exact_solver 0 1 ftwo) ltac:(lra) ltac:(lia) eq_refl eq_refl) as Q.
  assert (X0 : forall i, k_x (zero_rk 6) i = at_time (fun _ => [0; 0; 1]) 0 i) by (intro i; cbn; unfold zd, setConstant; ring).
  specialize (Q X0 E'). rewrite X in Q. unfold quad, at_time, ftwo in Q.
  cbn [zero_rk k_x esdirk_tableau bB bC map combine fst snd Rsum poly fold_right] in Q. unfold zd, setConstant in Q.
  apply Rabs_between in Q. lra.
Qed.

Lemma ssprk3_off : ~ (forall (C : calls unit unit) mulT a f t dt s s', of_degree 3 a -> solution a f ->
  time_only C t dt f -> solver C dt -> dt <> 0 -> (3 <= length (k_buf s))%nat ->
  (forall i, k_x s i = at_time a t i) -> SSPRK3_Step C mulT false s dt = Ok s' ->
  Rabs (k_x s' 0%nat - at_time a (t + dt) 0%nat) <= 1 / 10).
Proof.
  intro H.
  destruct (ssprk3_step (exact_calls 0 1 ftwo) 0 1 ftwo (exact_time 0 1 ftwo) (exact_solver 0 1 ftwo) (fun x _ => x) (zero_rk 3) ltac:(cbn; lia))
    as (s' & E' & X).
  pose proof (H (exact_calls 0 1 ftwo) (fun x _ => x) (fun _ => [0; 0; 1]) ftwo 0 1 (zero_rk 3) s' (two_degree 3 ltac:(lia)) two_solution
    (exact_time 0 1 ftwo) (exact_solver 0 1 ftwo) ltac:(lra) ltac:(cbn; lia)) as Q.
  assert (X0 : forall i, k_x (zero_rk 3) i = at_time (fun _ => [0; 0; 1]) 0 i) by (intro i; cbn; unfold zd, setConstant; ring).
  specialize (Q X0 E'). rewrite X in Q. unfold quad, at_time, ftwo in Q.
  cbn [zero_rk k_x map combine fst snd Rsum poly fold_right] in Q. unfold zd, setConstant in Q.
  apply Rabs_between in Q. lra.
Qed.

Definition mask2 : hconf := {| alphaHM3 := 1 / 2; maskHM3 := 2; thetaM1 := 9146 / 10000; curSolveMethod := 0; nStartIter := 0 |}.

Lemma hermite_off : ~ (forall (C : calls unit unit) cf a f t dt s mi s', of_degree 3 a -> solution a f ->
  0 < alphaHM3 cf < 1 -> maskHM3 cf = 2%Z -> curSolveMethod cf = 0%Z -> (2 <= mi)%Z -> (nStartIter cf <= mi)%Z ->
  time_only C t dt f -> solver C dt -> dt <> 0 -> patient C -> h_has s = false -> h_prevSize s = 0%Z ->
  (forall i, h_x s i = at_time a t i) -> Hermite_Step C cf s mi dt = Ok s' ->
  Rabs (h_x s' 0%nat - at_time a (t + dt) 0%nat) <= 1 / 10).
Proof.
  intro H.
  assert (exists co, SetCoefs mask2 (h_prevSize zero_hm) (h_dtPrev zero_hm / (1 + verySmallReal)) = Ok co /\ (w0 co, w1 co, w2 co) = hweights (1 / 4)) as (co & Ec & Ew).
  { unfold SetCoefs. cbn [mask2 alphaHM3 maskHM3 h_prevSize zero_hm Z.eqb Pos.eqb]. destruct (Rlt_dec 0 (1 / 2)); [|lra]. destruct (Rlt_dec (1 / 2) 1); [|lra].
    eexists; split; reflexivity. }
  destruct (hermite_step (exact_calls 0 1 ftwo) 0 1 ftwo (exact_time 0 1 ftwo) (exact_solver 0 1 ftwo) ltac:(lra) mask2 co eq_refl zero_hm 2
    ltac:(lia) ltac:(cbn; lia) (exact_patient 0 1 ftwo) ltac:(discriminate) Ec) as (s' & E' & _ & _ & _ & _ & _ & X).
  assert (X0 : forall i, h_x zero_hm i = at_time (fun _ => [0; 0; 1]) 0 i) by (intro i; cbn; unfold zd, setConstant; ring).
  assert (Hal : 0 < alphaHM3 mask2 < 1) by (cbn; lra).
  pose proof (H (exact_calls 0 1 ftwo) mask2 (fun _ => [0; 0; 1]) ftwo 0 1 zero_hm 2%Z s' (two_degree 3 ltac:(lia)) two_solution Hal eq_refl eq_refl
    ltac:(lia) ltac:(cbn; lia) (exact_time 0 1 ftwo) (exact_solver 0 1 ftwo) ltac:(lra) (exact_patient 0 1 ftwo) eq_refl eq_refl X0 E') as Q.
  rewrite X in Q. unfold h_value in Q. unfold hweights in Ew. injection Ew as E0 E1 E2. rewrite E0, E1, E2 in Q.
  unfold at_time, ftwo in Q. cbn [zero_hm h_x mask2 alphaHM3 poly fold_right] in Q. unfold zd, setConstant in Q.
  apply Rabs_between in Q. lra.
Qed.

Lemma nth_of {A} (l : list A) k d x : nth_error l k = Some x -> nth k l d = x.
Proof. intro H. now apply nth_error_nth. Qed.

Lemma esdirk_bound {E T} (C : calls E T) a f t dt s mi i c0 c1 c2 c3 c4 : solution a f ->
  (forall u, poly (a i) (t + u * dt) = poly [c0; c1; c2; c3; c4] u) ->
  time_only C t dt f -> solver C dt -> dt <> 0 -> (1 <= mi)%Z -> length (k_buf s) = 6%nat ->
  (k_has s = true -> nth_error (k_buf s) 5 = Some (f t)) ->
  (forall i, k_x s i = at_time a t i) ->
  exists s', SDIRK_Step C esdirk_tableau s mi dt = Ok s' /\
    length (k_buf s') = 6%nat /\ k_has s' = true /\ nth_error (k_buf s') 5 = Some (f (t + dt)) /\
    Rabs (k_x s' i - at_time a (t + dt) i) <= 1 / 1000000000000000 * Rabs c1 + 1 / 10000000 * (Rabs c2 + Rabs c3 + Rabs c4).
Proof.
  intros Hf Hp HT HS Hd M L Hb X.
  destruct (esdirk_step C t dt f HT HS Hd s mi M L (fun h => nth_of _ _ _ _ (Hb h))) as (s' & E' & L' & H' & B' & X').
  exists s'. split; auto. split; auto. split; auto. split.
  - rewrite (nth_error_nth' _ zd) by lia. now rewrite B'.
  - rewrite X', X. now apply (esdirk_poly a t dt f i c0 c1 c2 c3 c4).
Qed.
