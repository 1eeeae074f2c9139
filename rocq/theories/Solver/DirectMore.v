(** Consequences of the specification of the symbolic factorization, and tests for examples. *)
From Coq Require Import List ZArith Lia Bool.
From Verif Require Import Base.Prelude Base.PreludeFacts Solver.DirectModel Solver.DirectSpec Solver.DirectProofs.
Import ListNotations.
Local Open Scope Z_scope.

Definition graph_test (n : Z) (adj : list (list Z)) : bool :=
  (zlen adj =? n) && forallb (fun i => forallb (fun j => (0 <=? j) && (j <? n) && member i (row adj j)) (row adj i)) (range n).
Lemma graph_check n adj : graph_test n adj = true -> graph_ok n adj.
Proof.
  unfold graph_test. rewrite andb_true_iff, Z.eqb_eq, forallb_forall. intros (H1 & H2).
  assert (H : forall i j, 0 <= i < n -> In j (row adj i) -> 0 <= j < n /\ In i (row adj j)).
  { intros i j Hi Hj. specialize (H2 i (proj2 (range_In n i) Hi)). rewrite forallb_forall in H2. specialize (H2 j Hj).
    rewrite !andb_true_iff, Z.leb_le, Z.ltb_lt, member_In in H2. tauto. }
  constructor; auto; intros; eapply H; eauto.
Qed.
Definition ordering_test (n : Z) (o2n n2o : list Z) : bool :=
  (zlen o2n =? n) && (zlen n2o =? n) &&
  forallb (fun v => (0 <=? place o2n v) && (place o2n v <? n) && (place n2o (place o2n v) =? v) &&
                    (0 <=? place n2o v) && (place n2o v <? n) && (place o2n (place n2o v) =? v)) (range n).
Lemma ordering_check n o2n n2o : ordering_test n o2n n2o = true -> ordering_ok n o2n n2o.
Proof.
  unfold ordering_test. rewrite !andb_true_iff, !Z.eqb_eq, forallb_forall. intros ((H1 & H2) & H3).
  assert (H : forall v, 0 <= v < n -> (0 <= place o2n v < n /\ place n2o (place o2n v) = v) /\ (0 <= place n2o v < n /\ place o2n (place n2o v) = v)).
  { intros v Hv. specialize (H3 v (proj2 (range_In n v) Hv)). rewrite !andb_true_iff, !Z.leb_le, !Z.ltb_lt, !Z.eqb_eq in H3. tauto. }
  constructor; [auto| |]; intros v Hv; now apply H.
Qed.

Section C.
Variables (n : Z) (adj : list (list Z)) (o2n n2o : list Z) (iluCode : Z) (s : symlu).
Hypothesis HG : graph_ok n adj.
Hypothesis HO : ordering_ok n o2n n2o.
Hypothesis HS : symbolic n adj o2n n2o iluCode = Ok s.

Lemma structure : structure_ok n adj o2n n2o (pattern adj n2o iluCode) s.
Proof.
  assert (HI : iluCode <= 5).
  { destruct (Z.le_gt_cases iluCode 5); auto. exfalso. unfold symbolic, enlarge in HS.
    destruct (Z.ltb_spec 0 iluCode); [|lia]. destruct (Z.leb_spec iluCode 5); [lia|]. discriminate. }
  destruct (symbolic_ok n adj o2n n2o iluCode HG HO HI) as (s' & E & R). rewrite HS in E. injection E as <-. exact R.
Qed.

Lemma transposed i j : 0 <= i < n -> 0 <= j < n -> (In j (row (lowNew s) i) <-> In i (row (uppNew s) j)).
Proof.
  intros Hi Hj. destruct structure as [_ _ _ _ L U _ _ _ _ _]. destruct (L i Hi) as (_ & Li). destruct (U j Hj) as (_ & Uj). rewrite Li, Uj.
  split; intros (H1 & H2); (split; [lia|]); eapply pattern_sym; eauto.
Qed.

Lemma adjacency_kept i j : 0 <= i < n -> In j (row adj i) -> In j (i :: row (lowOld s) i ++ row (uppOld s) i).
Proof.
  intros Hi Hj. destruct structure as [_ _ _ _ _ _ _ _ _ _ Ps]. specialize (Ps i Hi).
  assert (Q : forall l ps, Forall2 (fun j p => if Z.eq_dec j i then p = -1 else 0 < p /\ at_ (i :: row (lowOld s) i ++ row (uppOld s) i) p j) l ps ->
     In j l -> In j (i :: row (lowOld s) i ++ row (uppOld s) i)).
  { intros l ps H. induction H as [|x p l ps H1 H2 IH]; intros I; [destruct I|]. destruct I as [->|I]; [|auto].
    destruct (Z.eq_dec j i) as [->|]; [now left|]. destruct H1 as (_ & _ & H1). eapply nth_error_In; eauto. }
  eapply Q; eauto.
Qed.

Lemma complete_closed_ k i j : iluCode < 0 -> 0 <= i < n -> 0 <= j < i -> In k (row (lowNew s) i) -> In k (row (lowNew s) j) -> In j (row (lowNew s) i).
Proof.
  intros HL Hi Hj H1 H2. destruct structure as [_ _ _ _ L _ _ _ _ _ _].
  destruct (L i Hi) as (_ & Li). destruct (L j ltac:(lia)) as (_ & Lj). apply Li in H1. apply Lj in H2. apply Li. split; [lia|].
  destruct H1 as (R1 & P1), H2 as (R2 & P2).
  apply (f_fill _ _ k); auto; try lia.
  - left. exact HL.
  - eapply pattern_sym; eauto; lia.
Qed.
Lemma level_zero_ i j : iluCode = 0 -> 0 <= i < n -> (In j (row (lowOld s) i ++ row (uppOld s) i) <-> j <> i /\ In j (row adj i)).
Proof.
  intros HL Hi. pose proof (adjacency_kept i j Hi) as AK. destruct structure as [_ _ _ _ L U LO UO _ _ _].
  destruct (o_new _ _ _ HO i Hi) as (Rw & Ew). specialize (LO _ Rw). specialize (UO _ Rw). rewrite Ew in LO, UO.
  destruct (L _ Rw) as (_ & Lw). destruct (U _ Rw) as (_ & Uw). split.
  - intro H. assert (Q : exists q, 0 <= q < n /\ j = place n2o q /\ pattern adj n2o iluCode (place o2n i) q).
    { rewrite in_app_iff, LO, UO, !in_map_iff in H. destruct H as [(q & <- & H)|(q & <- & H)].
      - apply Lw in H. exists q. repeat split; try tauto; lia.
      - apply Uw in H. exists q. repeat split; try tauto; lia. }
    destruct Q as (q & Rq & -> & P). remember (place o2n i) as p eqn:Ep.
    destruct P as [a b Hd He|k a b _ _ _ [Ha|(Ha & _)] _ _]; [|lia|lia].
    rewrite Ew in He. split; [|exact He]. intro Eq. apply Hd. rewrite Ep, <- Eq.
    apply (o_old _ _ _ HO); auto.
  - intros (Hd & Ha). destruct (AK Ha) as [->|H]; [congruence|exact H].
Qed.
End C.
Lemma complete_closed n adj o2n n2o iluCode s :
  graph_ok n adj -> ordering_ok n o2n n2o -> iluCode < 0 -> symbolic n adj o2n n2o iluCode = Ok s ->
  forall k i j, 0 <= i < n -> 0 <= j < i -> In k (row (lowNew s) i) -> In k (row (lowNew s) j) -> In j (row (lowNew s) i).
Proof. intros HG HO HL HS k i j. eapply complete_closed_; eauto. Qed.
Lemma level_zero n adj o2n n2o s :
  graph_ok n adj -> ordering_ok n o2n n2o -> symbolic n adj o2n n2o 0 = Ok s ->
  forall i j, 0 <= i < n -> (In j (row (lowOld s) i ++ row (uppOld s) i) <-> j <> i /\ In j (row adj i)).
Proof. intros HG HO HS i j. eapply level_zero_; eauto. Qed.
