From Coq Require Import List ZArith Bool Lia.
From Verif Require Import Base.Prelude Base.PreludeFacts Base.MPIModel Geom.ElemModel Geom.OrderModel.
Import ListNotations.
Local Open Scope Z_scope.

Lemma hasBad_ok ok cells : hasBad ok cells = 0 <-> Forall (fun t => ok t = true) cells.
Proof.
  induction cells as [|t r IH]; cbn [hasBad].
  - split; [constructor|reflexivity].
  - rewrite Forall_cons_iff. destruct (ok t); [tauto|].
    split; [discriminate|intros []; discriminate].
Qed.

Lemma IsOrder_nth ok world r :
  nth_error (IsOrder ok world) r = option_map (fun cells => Z.eqb (hasBad ok cells) 0) (nth_error world r).
Proof.
  unfold IsOrder, allreduce. set (c := fold_left _ _ _). clearbody c.
  revert r. induction world as [|x w IH]; intros [|r]; try reflexivity. cbn. apply IH.
Qed.

Lemma listed_O1_order t : listed_O1 t = true <-> GetOrder t = Some 1%nat.
Proof. destruct t; cbn; split; intro H; try reflexivity; discriminate H. Qed.
Lemma listed_O2_order t : listed_O2 t = true <-> GetOrder t = Some 2%nat.
Proof. destruct t; cbn; split; intro H; try reflexivity; discriminate H. Qed.

Section Gen.
  Variables (ok : ElemType -> bool) (k : nat).
  Hypothesis Hok : forall t, ok t = true <-> GetOrder t = Some k.

  Lemma local_answer world r b : nth_error (IsOrder ok world) r = Some b ->
    exists cells, nth_error world r = Some cells /\
      (b = true <-> Forall (fun t => GetOrder t = Some k) cells).
  Proof.
    rewrite IsOrder_nth. destruct (nth_error world r) as [cells|]; [|discriminate].
    cbn. intro H. inversion H; subst. exists cells. split; [reflexivity|].
    rewrite Z.eqb_eq, hasBad_ok, !Forall_forall.
    split; intros F t Ht; apply Hok; auto.
  Qed.

  Lemma all_true world : (forall b, In b (IsOrder ok world) -> b = true) <->
    (forall cells t, In cells world -> In t cells -> GetOrder t = Some k).
  Proof.
    split.
    - intros H cells t Hc Ht. apply In_nth_error in Hc. destruct Hc as (r & Hr).
      pose proof (IsOrder_nth ok world r) as E. rewrite Hr in E. cbn in E.
      pose proof (nth_error_In _ _ E) as Hb. apply H in Hb.
      apply Z.eqb_eq, hasBad_ok in Hb. rewrite Forall_forall in Hb. apply Hok. auto.
    - intros H b Hb. apply In_nth_error in Hb. destruct Hb as (r & Hr).
      destruct (local_answer world r b Hr) as (cells & Hc & E). apply E.
      apply Forall_forall. intros t Ht. eapply H; eauto. eapply nth_error_In; eauto.
  Qed.
End Gen.

Lemma o1_local world r b : nth_error (IsO1 world) r = Some b ->
  exists cells, nth_error world r = Some cells /\
    (b = true <-> Forall (fun t => GetOrder t = Some 1%nat) cells).
Proof. apply local_answer. exact listed_O1_order. Qed.
Lemma o2_local world r b : nth_error (IsO2 world) r = Some b ->
  exists cells, nth_error world r = Some cells /\
    (b = true <-> Forall (fun t => GetOrder t = Some 2%nat) cells).
Proof. apply local_answer. exact listed_O2_order. Qed.
Lemma o1_all world : (forall b, In b (IsO1 world) -> b = true) <->
  (forall cells t, In cells world -> In t cells -> GetOrder t = Some 1%nat).
Proof. apply all_true. exact listed_O1_order. Qed.
Lemma o2_all world : (forall b, In b (IsO2 world) -> b = true) <->
  (forall cells t, In cells world -> In t cells -> GetOrder t = Some 2%nat).
Proof. apply all_true. exact listed_O2_order. Qed.

Lemma disagree : exists world, IsO1 world = [true; false] /\ IsO2 world = [false; true].
Proof. exists [[Tri3; Quad4]; [Tri6]]. split; reflexivity. Qed.
