(** Proofs about the elevation of a mesh. *)
From Coq Require Import Reals List ZArith Bool Permutation Lia Lra Arith.
From Verif Require Import Base.Prelude Base.PreludeFacts Geom.ElemModel Geom.PeriodicModel Geom.PeriodicSpec
  Geom.ElevModel Geom.ElevSpec.
Import ListNotations.
Local Open Scope Z_scope.

(** *** sorted inclusion *)
Lemma includes_incl : forall a b, includes a b = true -> incl b a.
Proof.
  induction a as [|x a IH]; intros [|y b] H; cbn in H; try discriminate; [intros z []..|].
  destruct (y <? x) eqn:E; [discriminate|]. destruct (x <? y) eqn:E2.
  - apply IH in H. intros z Hz. right. auto.
  - assert (x = y) by lia. subst. apply IH in H. intros z [-> | Hz]; [left; auto|right; auto].
Qed.

Lemma includes_complete : forall a b, asc a -> asc b -> (forall z, (count_occ Z.eq_dec b z <= count_occ Z.eq_dec a z)%nat) -> includes a b = true.
Proof.
  induction a as [|x a IH]; intros [|y b] Sa Sb H; cbn; auto.
  - specialize (H y). cbn in H. destruct (Z.eq_dec y y); [lia|congruence].
  - apply asc_cons in Sa. destruct Sa as [Sa La].
    assert (Sb' := Sb). apply asc_cons in Sb. destruct Sb as [Sb Lb].
    assert (Iy : In y (x :: a)).
    { apply (count_occ_In Z.eq_dec). specialize (H y). rewrite (count_occ_cons_eq Z.eq_dec b (eq_refl y)) in H. lia. }
    destruct (y <? x) eqn:E.
    + exfalso. destruct Iy as [-> | Iy]; [lia|]. apply La in Iy. lia.
    + destruct (x <? y) eqn:E2.
      * apply IH; auto. intro z. specialize (H z). cbn [count_occ] in H |- *.
        destruct (Z.eq_dec x z) as [->|]; [|exact H].
        assert (~ In z b). { intro K. apply Lb in K. lia. }
        apply (count_occ_not_In Z.eq_dec) in H0. destruct (Z.eq_dec y z); lia.
      * assert (x = y) by lia. subst. apply IH; auto. intro z. specialize (H z). cbn [count_occ] in H.
        destruct (Z.eq_dec y z); lia.
Qed.

Lemma count_perm a b z : Permutation a b -> count_occ Z.eq_dec a z = count_occ Z.eq_dec b z.
Proof. intro P. apply (proj1 (Permutation_count_occ Z.eq_dec a b)); exact P. Qed.

Lemma includes_sort a b : (forall z, (count_occ Z.eq_dec b z <= count_occ Z.eq_dec a z)%nat) -> includes (zsort a) (zsort b) = true.
Proof.
  intro H. apply includes_complete; [apply zsort_asc..|]. intro z.
  rewrite <- (count_perm _ _ z (zsort_perm a)), <- (count_perm _ _ z (zsort_perm b)). apply H.
Qed.
Lemma includes_sort_incl a b : includes (zsort a) (zsort b) = true -> incl b a.
Proof.
  intros H z Hz. apply includes_incl in H. apply (Permutation_in _ (Permutation_sym (zsort_perm a))). apply H.
  apply (Permutation_in _ (zsort_perm b)). exact Hz.
Qed.
Lemma includes_nodup a b : NoDup b -> incl b a -> includes (zsort a) (zsort b) = true.
Proof.
  intros N I. apply includes_sort. intro z. destruct (in_dec Z.eq_dec z b) as [K|K].
  - assert (count_occ Z.eq_dec b z <= 1)%nat by (apply (proj1 (NoDup_count_occ Z.eq_dec b) N)).
    apply I in K. apply (count_occ_In Z.eq_dec) in K. lia.
  - apply (count_occ_not_In Z.eq_dec) in K. lia.
Qed.
Lemma asc_perm_eq : forall a b, asc a -> asc b -> Permutation a b -> a = b.
Proof.
  induction a as [|x a IH]; intros b Sa Sb P.
  - apply Permutation_nil in P. now subst.
  - destruct b as [|y b]; [apply Permutation_sym, Permutation_nil in P; discriminate|].
    assert (x = y).
    { apply asc_cons in Sa. apply asc_cons in Sb. destruct Sa as [_ La], Sb as [_ Lb].
      assert (In x (y :: b)) by (eapply Permutation_in; [exact P|now left]).
      assert (In y (x :: a)) by (eapply Permutation_in; [symmetry; exact P|now left]).
      destruct H as [->|H]; auto. destruct H0 as [->|H0]; auto. apply La in H0. apply Lb in H. lia. }
    subst. f_equal. apply IH.
    + now apply asc_cons in Sa.
    + now apply asc_cons in Sb.
    + now apply Permutation_cons_inv in P.
Qed.
Lemma zsort_perm_eq a b : Permutation a b -> zsort a = zsort b.
Proof.
  intro P. apply asc_perm_eq; [apply zsort_asc..|].
  rewrite <- (zsort_perm a), <- (zsort_perm b). exact P.
Qed.

(** *** the owner *)
Definition holds (cells : list cell) (s : list Z) (o : Z) : Prop :=
  exists c, vget cells o = Ok c /\ includes (zsort (c_nodes c)) (zsort s) = true.

Lemma holds_perm cells s s' o : Permutation s s' -> holds cells s o -> holds cells s' o.
Proof. intros P (c & V & I). exists c. split; auto. now rewrite <- (zsort_perm_eq _ _ P). Qed.

Lemma owner_fold cells me s : forall l st st', foldM (owner_step cells me s) st l = Ok st' ->
  fst st <= me ->
  fst st' <= fst st
  /\ (st' = st \/ exists q, In q l /\ st' = (snd q, Some (fst q)) /\ holds cells s (snd q) /\ snd q < fst st)
  /\ (forall q, In q l -> snd q <> me -> holds cells s (snd q) -> fst st' <= snd q).
Proof.
  induction l as [|q l IH]; intros st st' H B; cbn [foldM] in H.
  - injection H as <-. repeat split; auto; [lia|]. intros q [].
  - apply bind_Ok in H. destruct H as (st1 & H1 & H2). unfold owner_step in H1.
    destruct (snd q =? me) eqn:E.
    + injection H1 as <-. destruct (IH _ _ H2 B) as (A1 & A2 & A3). split; auto. split.
      * destruct A2 as [->|(p & I & P)]; auto. right. exists p. split; [now right|exact P].
      * intros p [<-|I] N K; [lia|]. eauto.
    + apply bind_Ok in H1. destruct H1 as (c & V & H1). injection H1 as <-.
      destruct ((snd q <? fst st) && includes (zsort (c_nodes c)) (zsort s)) eqn:C.
      * apply andb_true_iff in C. destruct C as [C1 C2]. apply Z.ltb_lt in C1.
        assert (B' : fst (snd q, Some (fst q)) <= me) by (cbn; lia).
        destruct (IH _ _ H2 B') as (A1 & A2 & A3). cbn [fst] in A1. split; [lia|]. split.
        -- right. destruct A2 as [->|(p & I & P & K & L)].
           ++ exists q. split; [now left|]. repeat split; auto. exists c. auto.
           ++ exists p. split; [now right|]. cbn [fst] in L. repeat split; auto. lia.
        -- intros p [<-|I] N K; [lia|]. eauto.
      * destruct (IH _ _ H2 B) as (A1 & A2 & A3). split; auto. split.
        -- destruct A2 as [->|(p & I & P)]; auto. right. exists p. split; [now right|exact P].
        -- intros p [<-|I] N K; [|eauto]. destruct K as (c' & V' & I'). assert (c' = c) by congruence. subst.
           rewrite I', andb_true_r in C. apply Z.ltb_ge in C. lia.
Qed.

Lemma in_indexed A (l : list A) : forall a p x, In (p, x) (combine (seq a (length l)) l) <-> ((a <= p)%nat /\ nth_error l (p - a) = Some x).
Proof.
  induction l as [|y l IH]; intros a p x; cbn [length seq combine].
  - split; [intros []|]. intros [_ H]. destruct (p - a)%nat; discriminate.
  - split.
    + intros [E|I].
      * injection E as <- <-. split; [lia|]. now rewrite Nat.sub_diag.
      * apply IH in I. destruct I as [L N]. split; [lia|]. replace (p - a)%nat with (S (p - S a)) by lia. exact N.
    + intros [L N]. destruct (Nat.eq_dec p a) as [->|Ne].
      * rewrite Nat.sub_diag in N. cbn in N. injection N as ->. now left.
      * right. apply IH. split; [lia|]. replace (p - a)%nat with (S (p - S a)) in N by lia. exact N.
Qed.

(** with complete neighbours the owner is the least cell that holds the span *)
Definition least (cells : list cell) (s : list Z) (o : Z) : Prop :=
  holds cells s o /\ forall o', holds cells s o' -> o <= o'.
Lemma least_unique cells s o o' : least cells s o -> least cells s o' -> o = o'.
Proof. intros [H L] [H' L']. apply L in H'. apply L' in H. lia. Qed.
Lemma least_perm cells s s' o : Permutation s s' -> least cells s o -> least cells s' o.
Proof.
  intros P [H L]. split; [eapply holds_perm; eauto|]. intros o' H'. apply L. eapply holds_perm; [symmetry; exact P|exact H'].
Qed.

Lemma owner_least cells me s nb o : owner cells me s nb = Ok o -> holds cells s me ->
  (forall j, j <> me -> holds cells s j -> In j nb) ->
  match o with
  | None => least cells s me
  | Some p => exists j, nth_error nb p = Some j /\ least cells s j /\ j <> me
  end.
Proof.
  intros H Hm C. unfold owner in H. apply bind_Ok in H. destruct H as (st & H & E). injection E as <-.
  apply owner_fold in H; [|cbn; lia]. cbn [fst] in H. destruct H as (A1 & A2 & A3).
  assert (A4 : forall j, holds cells s j -> fst st <= j).
  { intros j Hj. destruct (Z.eq_dec j me) as [->|N]; [lia|]. destruct (In_nth_error _ _ (C j N Hj)) as (p & P).
    apply (A3 (p, j)); auto. apply in_indexed. split; [lia|]. now rewrite Nat.sub_0_r. }
  destruct A2 as [->|(q & I & -> & K & L)]; cbn [snd fst] in *.
  - split; auto.
  - destruct q as [p j]. cbn [fst snd] in *. apply in_indexed in I. destruct I as [_ I]. rewrite Nat.sub_0_r in I.
    exists j. split; auto. split; [|lia]. split; auto.
Qed.
