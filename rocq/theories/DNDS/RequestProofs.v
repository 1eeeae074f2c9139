From Coq Require Import List ZArith Bool Arith Lia Permutation.
From Verif Require Import Base.Prelude Base.PreludeFacts DNDS.ExchangeModel DNDS.RequestModel.
Import ListNotations.

(** ** Programs that cannot deadlock *)
Record wf (rq : list req) (p : list instr) : Prop := {
  wf_start : forall k, (k < length rq)%nat <-> In (Start k) p;
  wf_once : forall a k b, p = a ++ Start k :: b -> ~ In (Start k) a /\ ~ In (Start k) b;
  wf_recv : forall a k b j s, p = a ++ Wait k :: b -> nth_error rq j = Some (Recv s) -> ~ In (Start j) b;
  wf_last : forall a k b j s, p = a ++ Wait k :: b -> nth_error rq k = Some (Recv s) -> ~ In (Start j) b;
  wf_wait : forall k, (k < length rq)%nat <-> In (Wait k) p;
  wf_order : forall a k b, p = a ++ Wait k :: b -> In (Start k) a
}.

Lemma app_split_in : forall A (a b c d : list A) x, a ++ b = c ++ x :: d ->
  (exists c2, b = c2 ++ x :: d /\ c = a ++ c2) \/ (exists d1, a = c ++ x :: d1 /\ d = d1 ++ b).
Proof.
  induction a as [|y a IH]; intros b c d x H.
  - left. exists c. auto.
  - destruct c as [|z c]; cbn in H.
    + injection H as -> H. right. exists a. auto.
    + injection H as -> H. destruct (IH _ _ _ _ H) as [[c2 [-> ->]]|[d1 [-> ->]]]; [left; exists c2|right; exists d1]; auto.
Qed.

Lemma map_split : forall A B (f : A -> B) l c x d, map f l = c ++ x :: d ->
  exists c' y d', l = c' ++ y :: d' /\ c = map f c' /\ x = f y /\ d = map f d'.
Proof.
  induction l as [|y l IH]; intros c x d H; [destruct c; discriminate|].
  destruct c as [|z c]; cbn in H; injection H as E H.
  - exists [], y, l. auto.
  - destruct (IH _ _ _ H) as (c'&y'&d'&->&->&->&->). exists (y :: c'), y', d'. rewrite <- E. auto.
Qed.

Lemma seq_split : forall n a c x d, seq a n = c ++ x :: d -> x = (a + length c)%nat /\ c = seq a (length c) /\
  d = seq (S x) (n - S (length c)) /\ (length c < n)%nat.
Proof.
  induction n as [|n IH]; intros a c x d H; [destruct c; discriminate|].
  destruct c as [|z c]; cbn in H; injection H as E H.
  - subst. cbn. rewrite Nat.sub_0_r. repeat split; lia.
  - destruct (IH _ _ _ _ H) as (->&Ec&->&L). subst z. cbn [length].
    split; [lia|]. split; [cbn [seq]; f_equal; auto|]. split; [f_equal; lia|lia].
Qed.

Lemma in_starts : forall k l, In (Start k) (map Start l) <-> In k l.
Proof. intros. rewrite in_map_iff. split; [intros [x [E H]]; injection E as ->; auto|eauto]. Qed.
Lemma in_waits : forall k l, In (Wait k) (map Wait l) <-> In k l.
Proof. intros. rewrite in_map_iff. split; [intros [x [E H]]; injection E as ->; auto|eauto]. Qed.
Lemma no_start_waits : forall k l, ~ In (Start k) (map Wait l).
Proof. intros k l H. apply in_map_iff in H. destruct H as [x [E _]]. discriminate. Qed.
Lemma no_wait_starts : forall k l, ~ In (Wait k) (map Start l).
Proof. intros k l H. apply in_map_iff in H. destruct H as [x [E _]]. discriminate. Qed.

Lemma wf_all : forall rq, wf rq (cycle_all rq).
Proof.
  intro rq. unfold cycle_all. set (n := length rq). 
  assert (W : forall a k b, map Start (seq 0 n) ++ map Wait (seq 0 n) = a ++ Wait k :: b ->
    exists c, map Wait (seq 0 n) = c ++ Wait k :: b /\ a = map Start (seq 0 n) ++ c).
  { intros a k b E. destruct (app_split_in _ _ _ _ _ _ E) as [[c2 [H ->]]|[d1 [H _]]]; eauto.
    exfalso. apply (no_wait_starts k (seq 0 n)). rewrite H, in_app_iff. right. left. auto. }
  constructor.
  - intro k. rewrite in_app_iff, in_starts, in_seq. split; [left; lia|].
    intros [H|H]; [lia|destruct (no_start_waits _ _ H)].
  - intros a k b E. destruct (app_split_in _ _ _ _ _ _ E) as [[c2 [H ->]]|[d1 [H ->]]].
    + exfalso. apply (no_start_waits k (seq 0 n)). rewrite H, in_app_iff. right. left. auto.
    + destruct (map_split _ _ _ _ _ _ _ H) as (c'&y&d'&E1&->&E2&->). injection E2 as <-.
      destruct (seq_split _ _ _ _ _ E1) as (->&Ec&->&L). rewrite in_app_iff, !in_starts, Ec, !in_seq, ?seq_length.
      split; [lia|]. intros [X|X]; [lia|destruct (no_start_waits _ _ X)].
  - intros a k b j s E _ H. destruct (W _ _ _ E) as [c [E2 _]]. apply (no_start_waits j (seq 0 n)).
    rewrite E2, in_app_iff. right. right. auto.
  - intros a k b j s E _ H. destruct (W _ _ _ E) as [c [E2 _]]. apply (no_start_waits j (seq 0 n)).
    rewrite E2, in_app_iff. right. right. auto.
  - intro k. rewrite in_app_iff, in_waits, in_seq. split; [right; lia|].
    intros [H|H]; [destruct (no_wait_starts _ _ H)|lia].
  - intros a k b E. destruct (W _ _ _ E) as [c [E2 ->]]. rewrite in_app_iff, in_starts. left.
    apply in_waits. rewrite E2, in_app_iff. right. left. auto.
Qed.

Definition pairs_of (l : list nat) : list instr := flat_map (fun k => [Start k; Wait k]) l.
Lemma pairs_cons : forall k l, pairs_of (k :: l) = Start k :: Wait k :: pairs_of l.
Proof. reflexivity. Qed.
Lemma pairs_app : forall a b, pairs_of (a ++ b) = pairs_of a ++ pairs_of b.
Proof. intros. apply flat_map_app. Qed.
Lemma in_pairs : forall k l, (In (Start k) (pairs_of l) <-> In k l) /\ (In (Wait k) (pairs_of l) <-> In k l).
Proof.
  intros k l. unfold pairs_of. rewrite !in_flat_map. split; split.
  - intros [x [H [E|[E|[]]]]]; [injection E as ->; auto|discriminate].
  - intro H. exists k. split; auto. left. auto.
  - intros [x [H [E|[E|[]]]]]; [discriminate|injection E as ->; auto].
  - intro H. exists k. split; auto. right. left. auto.
Qed.
Lemma pairs_split : forall l c x d, pairs_of l = c ++ x :: d ->
  exists l1 k l2, l = l1 ++ k :: l2 /\
    ((x = Start k /\ c = pairs_of l1 /\ d = Wait k :: pairs_of l2) \/
     (x = Wait k /\ c = pairs_of l1 ++ [Start k] /\ d = pairs_of l2)).
Proof.
  induction l as [|k l IH]; intros c x d H; [destruct c; discriminate|].
  rewrite pairs_cons in H. destruct c as [|y [|z c]]; cbn in H.
  - injection H as <- <-. exists [], k, l. auto.
  - injection H as <- <- <-. exists [], k, l. auto.
  - injection H as <- <- H. destruct (IH _ _ _ H) as (l1&k'&l2&->&[(->&->&->)|(->&->&->)]);
      exists (k :: l1), k', l2; split; auto.
Qed.

Lemma split_recvs : forall rq a b, rq = a ++ b -> Forall (fun q => is_recv q = true) a ->
  Forall (fun q => is_recv q = false) b -> n_recv rq = length a.
Proof.
  intros rq a b -> Ha Hb. unfold n_recv. rewrite filter_app, app_length.
  assert (E1 : filter is_recv a = a) by (clear Hb; induction Ha as [|x l E _ IH]; cbn; [|rewrite E, IH]; auto).
  assert (E2 : filter is_recv b = []) by (clear Ha E1; induction Hb as [|x l E _ IH]; cbn; [|rewrite E, IH]; auto).
  rewrite E1, E2. cbn. lia.
Qed.

Lemma wf_one : forall rq, recvs_first rq -> wf rq (cycle_one_by_one rq).
Proof.
  intros rq [A [B [Erq [HA HB]]]]. unfold cycle_one_by_one. rewrite (split_recvs _ _ _ Erq HA HB).
  set (m := length A). assert (Hn : length rq = (m + length B)%nat) by (subst rq; rewrite app_length; auto).
  set (q := (length rq - m)%nat). fold (pairs_of (seq m q)).
  assert (RV : forall j s, nth_error rq j = Some (Recv s) -> (j < m)%nat).
  { intros j s H. destruct (Nat.lt_ge_cases j m) as [|G]; auto. subst rq. rewrite nth_error_app2 in H by auto.
    apply nth_error_In in H. rewrite Forall_forall in HB. apply HB in H. discriminate. }
  assert (W : forall a k b, map Start (seq 0 m) ++ pairs_of (seq m q) ++ map Wait (seq 0 m) = a ++ Wait k :: b ->
    (exists l1 l2, seq m q = l1 ++ k :: l2 /\ a = map Start (seq 0 m) ++ pairs_of l1 ++ [Start k] /\
                   b = pairs_of l2 ++ map Wait (seq 0 m)) \/
    (exists c, map Wait (seq 0 m) = c ++ Wait k :: b /\ a = map Start (seq 0 m) ++ pairs_of (seq m q) ++ c)).
  { intros a k b E. destruct (app_split_in _ _ _ _ _ _ E) as [[c2 [H ->]]|[d1 [H _]]].
    - destruct (app_split_in _ _ _ _ _ _ H) as [[c3 [H3 ->]]|[d3 [H3 ->]]].
      + right. exists c3. auto.
      + left. destruct (pairs_split _ _ _ _ H3) as (l1&k'&l2&El&[(X&_)|(X&->&->)]); [discriminate|].
        injection X as <-. exists l1, l2. auto.
    - exfalso. apply (no_wait_starts k (seq 0 m)). rewrite H, in_app_iff. right. left. auto. }
  constructor.
  - intro k. rewrite !in_app_iff, in_starts, (proj1 (in_pairs k _)), !in_seq. split.
    + intro H. destruct (Nat.lt_ge_cases k m); [left|right; left]; lia.
    + intros [H|[H|H]]; [lia|lia|destruct (no_start_waits _ _ H)].
  - intros a k b E. destruct (app_split_in _ _ _ _ _ _ E) as [[c2 [H ->]]|[d1 [H ->]]].
    + destruct (app_split_in _ _ _ _ _ _ H) as [[c3 [H3 ->]]|[d3 [H3 ->]]].
      * exfalso. apply (no_start_waits k (seq 0 m)). rewrite H3, in_app_iff. right. left. auto.
      * destruct (pairs_split _ _ _ _ H3) as (l1&k'&l2&El&[(X&->&->)|(X&_)]); [|discriminate]. injection X as <-.
        destruct (seq_split _ _ _ _ _ El) as (->&Ec&->&L).
        rewrite !in_app_iff, in_starts, (proj1 (in_pairs _ _)), in_seq. cbn [In]. rewrite (proj1 (in_pairs _ _)), Ec, !in_seq, ?seq_length.
        split; [lia|]. intros [[X|X]|X]; [discriminate|lia|destruct (no_start_waits _ _ X)].
    + destruct (map_split _ _ _ _ _ _ _ H) as (c'&y&d'&E1&->&E2&->). injection E2 as <-.
      destruct (seq_split _ _ _ _ _ E1) as (->&Ec&->&L).
      rewrite !in_app_iff, !in_starts, (proj1 (in_pairs _ _)), Ec, !in_seq, ?seq_length.
      split; [lia|]. intros [X|[X|X]]; [lia|lia|destruct (no_start_waits _ _ X)].
  - intros a k b j s E Hj H. apply RV in Hj. destruct (W _ _ _ E) as [[l1 [l2 [El [_ ->]]]]|[c [E2 _]]].
    + destruct (seq_split _ _ _ _ _ El) as (->&Ec&->&L). rewrite in_app_iff, (proj1 (in_pairs _ _)), in_seq in H.
      destruct H as [H|H]; [lia|destruct (no_start_waits _ _ H)].
    + apply (no_start_waits j (seq 0 m)). rewrite E2, in_app_iff. right. right. auto.
  - intros a k b j s E Hk H. apply RV in Hk. destruct (W _ _ _ E) as [[l1 [l2 [El [_ ->]]]]|[c [E2 _]]].
    + destruct (seq_split _ _ _ _ _ El) as (->&_). lia.
    + apply (no_start_waits j (seq 0 m)). rewrite E2, in_app_iff. right. right. auto.
  - intro k. rewrite !in_app_iff, in_waits, (proj2 (in_pairs k _)), !in_seq. split.
    + intro H. destruct (Nat.lt_ge_cases k m); [right; right|right; left]; lia.
    + intros [H|[H|H]]; [destruct (no_wait_starts _ _ H)|lia|lia].
  - intros a k b E. destruct (W _ _ _ E) as [[l1 [l2 [El [-> _]]]]|[c [E2 ->]]].
    + rewrite !in_app_iff. right. right. left. auto.
    + rewrite in_app_iff, in_starts. left. apply in_waits. rewrite E2, in_app_iff. right. left. auto.
Qed.

Lemma NoDup_app_intro : forall A (l1 l2 : list A), NoDup l1 -> NoDup l2 -> (forall x, In x l1 -> ~ In x l2) -> NoDup (l1 ++ l2).
Proof.
  induction l1 as [|x l1 IH]; intros l2 H1 H2 H; cbn; auto. inversion H1; subst. constructor.
  - rewrite in_app_iff. intros [X|X]; [auto|]. apply (H x); [left|]; auto.
  - apply IH; auto. intros y Hy. apply H. right. auto.
Qed.

(** ** Executions *)
Section Run.
Variable eager : bool.
Variable reqs : list (list req).
Variable progs : list (list instr).
Hypothesis PAIR : paired reqs.
Hypothesis LEN : length progs = length reqs.
Hypothesis WF : forall r, (r < length reqs)%nat -> wf (nth r reqs []) (nth r progs []).

Notation request := (request reqs).

Definition pair_of (r : nat) (q : req) : nat * nat := match q with Send x => (r, x) | Recv s => (s, r) end.

Record inv (st : state) : Prop := {
  iv_pre : exists pre, (forall r, nth r progs [] = pre r ++ todo st r) /\
    (forall r k q, request r k = Some q -> (In k (active st r) <-> In (Start k) (pre r) /\ ~ In (pair_of r q) (log st))) /\
    (forall s r, In (s, r) (log st) -> exists k j, request s k = Some (Send r) /\ request r j = Some (Recv s) /\
        In (Start k) (pre s) /\ In (Start j) (pre r)) /\
    (forall r k s, In (Wait k) (pre r) -> request r k = Some (Recv s) -> In (s, r) (log st));
  iv_nd : NoDup (log st)
}.

Lemma request_inj : forall r k k' q, request r k = Some q -> request r k' = Some q -> k = k'.
Proof.
  intros r k k' q H H'. unfold RequestModel.request in *.
  destruct (Nat.lt_ge_cases r (length reqs)) as [Hr|Hr]; [|rewrite (nth_overflow _ _ Hr) in H; destruct k; discriminate].
  assert (ND : NoDup (nth r reqs [])).
  { destruct PAIR as [F _]. rewrite Forall_forall in F. apply F. apply nth_In. auto. }
  rewrite NoDup_nth_error in ND. apply ND; [eapply nth_error_Some_lt; eauto|congruence].
Qed.

Lemma request_rank : forall r k q, request r k = Some q -> (r < length reqs)%nat /\ (k < length (nth r reqs []))%nat.
Proof.
  intros r k q H. unfold RequestModel.request in *. split; [|eapply nth_error_Some_lt; eauto].
  destruct (Nat.lt_ge_cases r (length reqs)) as [Hr|Hr]; auto. rewrite (nth_overflow _ _ Hr) in H; destruct k; discriminate.
Qed.

Lemma send_recv : forall s k r, request s k = Some (Send r) -> exists j, request r j = Some (Recv s).
Proof.
  intros s k r H. destruct PAIR as [_ P2]. apply nth_error_In in H. apply P2 in H. apply In_nth_error in H. auto.
Qed.
Lemma recv_send : forall r j s, request r j = Some (Recv s) -> exists k, request s k = Some (Send r).
Proof.
  intros s k r H. destruct PAIR as [_ P2]. apply nth_error_In in H. apply P2 in H. apply In_nth_error in H. auto.
Qed.

Lemma inv_begin : inv (begin progs).
Proof.
  constructor; [|constructor]. exists (fun _ => []). cbn. split; auto. split; [|split]; try tauto.
Qed.

Lemma set_same : forall A (f : nat -> A) r x, set f r x r = x.
Proof. intros. unfold set. rewrite Nat.eqb_refl. auto. Qed.
Lemma set_other : forall A (f : nat -> A) r x i, i <> r -> set f r x i = f i.
Proof. intros. unfold set. destruct (i =? r) eqn:E; auto. apply Nat.eqb_eq in E. lia. Qed.
Lemma in_drop : forall k l i, In i (drop k l) <-> In i l /\ i <> k.
Proof.
  intros. unfold drop. rewrite filter_In. destruct (i =? k) eqn:E; cbn.
  - apply Nat.eqb_eq in E. intuition.
  - apply Nat.eqb_neq in E. intuition.
Qed.

Lemma pair_same : forall r q s x, pair_of r q = (s, x) -> (q = Send x /\ r = s) \/ (q = Recv s /\ r = x).
Proof. intros r [y|y] s x H; cbn in H; injection H as <- <-; auto. Qed.

Lemma inv_step : forall st st', inv st -> rstep eager reqs st st' -> inv st'.
Proof.
  intros st st' [[pre [I1 [I2 [I3 I4]]]] ND] S. destruct S as [st r k t E|st r k t E C|st s k r j Hs Hr As Ar].
  - (* start *)
    constructor; [|exact ND]. cbn [todo active log].
    assert (ER : nth r progs [] = pre r ++ Start k :: t) by (rewrite I1, E; auto).
    assert (Hr : (r < length reqs)%nat).
    { destruct (Nat.lt_ge_cases r (length reqs)) as [|G]; auto. rewrite <- LEN in G. rewrite (nth_overflow _ _ G) in ER.
      destruct (pre r); discriminate. }
    destruct (wf_once _ _ (WF r Hr) _ _ _ ER) as [N1 _].
    exists (set pre r (pre r ++ [Start k])). split; [|split; [|split]].
    + intro i. destruct (Nat.eq_dec i r) as [->|Ni]; [rewrite !set_same, <- app_assoc; auto|rewrite !set_other; auto].
    + intros i k' q Hq. destruct (Nat.eq_dec i r) as [->|Ni]; [rewrite !set_same|rewrite !set_other by auto; auto].
      rewrite in_app_iff. cbn [In]. rewrite (I2 r k' q Hq). destruct (Nat.eq_dec k k') as [<-|Nk].
      * split; [|tauto]. intros _. split; auto. intro L. destruct (pair_of r q) as [a b] eqn:EP.
        destruct (I3 _ _ L) as (k1&j1&R1&R2&S1&S2). destruct (pair_same _ _ _ _ EP) as [[-> ->]|[-> ->]].
        -- rewrite (request_inj _ _ _ _ Hq R1) in N1. auto.
        -- rewrite (request_inj _ _ _ _ Hq R2) in N1. auto.
      * split; [intros [X|X]; [congruence|tauto]|]. intros [[X|[X|[]]] Y]; [tauto|injection X; congruence].
    + intros a b L. destruct (I3 _ _ L) as (k1&j1&R1&R2&S1&S2). exists k1, j1. split; auto. split; auto.
      split; [destruct (Nat.eq_dec a r) as [->|Ni]|destruct (Nat.eq_dec b r) as [->|Ni]];
        rewrite ?set_same, ?set_other, ?in_app_iff by auto; auto.
    + intros i k' a Hw Hq. destruct (Nat.eq_dec i r) as [->|Ni]; [rewrite !set_same in Hw|rewrite !set_other in Hw by auto; eauto].
      rewrite in_app_iff in Hw. destruct Hw as [Hw|[Hw|[]]]; [eauto|discriminate].
  - (* wait *)
    constructor; [|exact ND]. cbn [todo active log].
    assert (ER : nth r progs [] = pre r ++ Wait k :: t) by (rewrite I1, E; auto).
    assert (Hr : (r < length reqs)%nat).
    { destruct (Nat.lt_ge_cases r (length reqs)) as [|G]; auto. rewrite <- LEN in G. rewrite (nth_overflow _ _ G) in ER.
      destruct (pre r); discriminate. }
    pose proof (wf_order _ _ (WF r Hr) _ _ _ ER) as SK.
    assert (SE : forall i x, In (Start x) (set pre r (pre r ++ [Wait k]) i) <-> In (Start x) (pre i)).
    { intros i x. destruct (Nat.eq_dec i r) as [->|Ni]; [rewrite set_same, in_app_iff|rewrite set_other by auto; tauto].
      split; [intros [|[H|[]]]; [auto|discriminate]|auto]. }
    exists (set pre r (pre r ++ [Wait k])). split; [|split; [|split]].
    + intro i. destruct (Nat.eq_dec i r) as [->|Ni]; [rewrite !set_same, <- app_assoc; auto|rewrite !set_other; auto].
    + intros i k' q Hq. rewrite SE. auto.
    + intros a b L. destruct (I3 _ _ L) as (k1&j1&R1&R2&S1&S2). exists k1, j1. rewrite !SE. auto.
    + intros i k' a Hw Hq. destruct (Nat.eq_dec i r) as [->|Ni]; [rewrite !set_same in Hw|rewrite !set_other in Hw by auto; eauto].
      rewrite in_app_iff in Hw. destruct Hw as [Hw|[Hw|[]]]; [eauto|]. injection Hw as <-.
      destruct C as [C|[_ [x C]]]; [|congruence]. rewrite (I2 r k _ Hq) in C. cbn [pair_of] in C.
      destruct (in_dec (fun x y : nat * nat => ltac:(decide equality; apply Nat.eq_dec)) (a, r) (log st)); auto.
      exfalso. apply C. auto.
  - (* transfer *)
    pose proof (proj1 (I2 s k _ Hs) As) as [S1 L1]. pose proof (proj1 (I2 r j _ Hr) Ar) as [S2 _]. cbn [pair_of] in L1.
    constructor; cbn [todo active log]; [|constructor; auto].
    exists pre. split; [auto|]. split; [|split].
    + intros i k' q Hq.
      assert (EA : In k' (set (set (active st) s (drop k (active st s))) r
                      (drop j (set (active st) s (drop k (active st s)) r)) i) <->
                   In k' (active st i) /\ ~ (i = s /\ k' = k) /\ ~ (i = r /\ k' = j)).
      { destruct (Nat.eq_dec i r) as [->|Ni]; [rewrite set_same, in_drop|rewrite set_other by auto].
        - destruct (Nat.eq_dec r s) as [->|Ns]; [rewrite set_same, in_drop|rewrite set_other by auto]; intuition.
        - destruct (Nat.eq_dec i s) as [->|Ns]; [rewrite set_same, in_drop|rewrite set_other by auto]; intuition. }
      rewrite EA, (I2 i k' q Hq). cbn [In]. split.
      * intros [[A1 A2] [A3 A4]]. split; auto. intros [X|X]; [|auto]. symmetry in X.
        destruct (pair_same _ _ _ _ X) as [[-> ->]|[-> ->]].
        -- apply A3. split; auto. eapply request_inj; eauto.
        -- apply A4. split; auto. eapply request_inj; eauto.
      * intros [A1 A2]. split; [split; auto|]. split.
        -- intros [-> ->]. rewrite Hs in Hq. injection Hq as <-. apply A2. left. auto.
        -- intros [-> ->]. rewrite Hr in Hq. injection Hq as <-. apply A2. left. auto.
    + intros a b [X|X]; [|eauto]. injection X as <- <-. exists k, j. auto.
    + intros i k' a Hw Hq. right. eauto.
Qed.

Lemma inv_steps : forall n st, rsteps eager reqs n (begin progs) st -> inv st.
Proof.
  intros n st H. remember (begin progs) as st0. induction H; subst; [apply inv_begin|]. eapply inv_step; eauto.
Qed.

Lemma todo_rank : forall st r, inv st -> todo st r <> [] -> (r < length reqs)%nat.
Proof.
  intros st r [[pre [I1 _]] _] H. destruct (Nat.lt_ge_cases r (length reqs)) as [|G]; auto. exfalso. apply H.
  rewrite <- LEN in G. specialize (I1 r). rewrite (nth_overflow _ _ G) in I1. destruct (pre r); [auto|discriminate].
Qed.

Lemma not_stuck : forall st, inv st -> ~ stuck eager reqs st.
Proof.
  intros st IV [NF NS]. pose proof IV as [[pre [I1 [I2 [I3 I4]]]] ND].
  (* a rank with something to do waits for an active request *)
  assert (B : forall r, todo st r <> [] -> exists k t, todo st r = Wait k :: t /\ In k (active st r)).
  { intros r H. destruct (todo st r) as [|[k|k] t] eqn:E; [congruence| |].
    - exfalso. eapply NS. eapply st_start. eauto.
    - exists k, t. split; auto. destruct (in_dec Nat.eq_dec k (active st r)) as [|N]; auto.
      exfalso. eapply NS. eapply st_wait; eauto. }
  (* every receive was started *)
  assert (RS : forall r j s, request r j = Some (Recv s) -> In (Start j) (pre r)).
  { intros r j s H. destruct (request_rank _ _ _ H) as [Hr Hj].
    pose proof (proj1 (wf_start _ _ (WF r Hr) j) Hj) as P1. rewrite I1, in_app_iff in P1. destruct P1 as [|P1]; auto.
    destruct (B r) as [k [t [E _]]]; [intro X; rewrite X in P1; destruct P1|].
    assert (ER : nth r progs [] = pre r ++ Wait k :: t) by (rewrite I1, E; auto).
    rewrite E in P1. destruct P1 as [P1|P1]; [discriminate|]. destruct (wf_recv _ _ (WF r Hr) _ _ _ _ _ ER H P1). }
  (* no rank waits for a send *)
  assert (NSEND : forall r k t x, todo st r = Wait k :: t -> In k (active st r) -> request r k <> Some (Send x)).
  { intros r k t x E A H. destruct (send_recv _ _ _ H) as [j Hj].
    pose proof (proj1 (I2 r k _ H) A) as [_ L]. eapply NS. eapply (st_transfer eager reqs st r k x j); auto.
    apply (I2 x j _ Hj). split; [eapply RS; eauto|exact L]. }
  assert (RQ : forall r k t, todo st r = Wait k :: t -> exists q, request r k = Some q).
  { intros r k t E. assert (Hr : (r < length reqs)%nat) by (apply (todo_rank st); auto; rewrite E; discriminate).
    assert (In (Wait k) (nth r progs [])) as P1 by (rewrite I1, E, in_app_iff; right; left; auto).
    apply (wf_wait _ _ (WF r Hr)) in P1. apply nth_error_lt_Some in P1. auto. }
  apply NF. intro r. destruct (todo st r) as [|i0 t0] eqn:E0; auto. exfalso.
  destruct (B r) as [k [t [E A]]]; [rewrite E0; discriminate|].
  destruct (RQ _ _ _ E) as [[x|s] Hq]; [eapply NSEND; eauto|].
  destruct (recv_send _ _ _ Hq) as [k' Hk']. destruct (request_rank _ _ _ Hk') as [Hs Hkl].
  pose proof (proj1 (I2 r k _ Hq) A) as [_ L].
  pose proof (proj1 (wf_start _ _ (WF s Hs) k') Hkl) as P1. rewrite I1, in_app_iff in P1. destruct P1 as [P1|P1].
  - eapply NS. eapply (st_transfer eager reqs st s k' r k); auto. apply (I2 s k' _ Hk'). split; auto.
  - destruct (B s) as [k2 [t2 [E2 A2]]]; [intro X; rewrite X in P1; destruct P1|].
    destruct (RQ _ _ _ E2) as [[x|s2] Hq2]; [eapply NSEND; eauto|].
    assert (ER : nth s progs [] = pre s ++ Wait k2 :: t2) by (rewrite I1, E2; auto).
    rewrite E2 in P1. destruct P1 as [P1|P1]; [discriminate|]. destruct (wf_last _ _ (WF s Hs) _ _ _ _ _ ER Hq2 P1).
Qed.

Lemma in_transfers : forall s r, In (s, r) (transfers reqs) <-> In (Recv s) (nth r reqs []).
Proof.
  intros s r. unfold transfers. rewrite in_concat. split.
  - intros [l [Hl H]]. apply in_map_iff in Hl. destruct Hl as [r' [<- Hr']]. apply in_flat_map in H.
    destruct H as [[x|x] [Hx H]]; [destruct H|]. destruct H as [H|[]]. injection H as -> ->. auto.
  - intro H. assert (Hr : (r < length reqs)%nat).
    { destruct (Nat.lt_ge_cases r (length reqs)) as [|G]; auto. rewrite (nth_overflow _ _ G) in H. destruct H. }
    eexists. split; [apply in_map_iff; exists r; split; [reflexivity|apply in_seq; lia]|].
    apply in_flat_map. exists (Recv s). split; auto. left. auto.
Qed.

Lemma NoDup_transfers : NoDup (transfers reqs).
Proof.
  unfold transfers. destruct PAIR as [F _].
  assert (G : forall l, NoDup l -> NoDup (concat (map (fun r => flat_map (fun q => match q with Recv s => [(s, r)] | Send _ => [] end)
                                 (nth r reqs [])) l))).
  { induction l as [|r l IH]; intro N; cbn [map concat]; [constructor|]. inversion N; subst.
    apply NoDup_app_intro.
    - assert (NR : NoDup (nth r reqs [])).
      { destruct (Nat.lt_ge_cases r (length reqs)) as [Hr|Hr]; [|rewrite nth_overflow by auto; constructor].
        rewrite Forall_forall in F. apply F. apply nth_In. auto. }
      clear - NR. induction NR as [|[x|x] l H N IH]; cbn; [constructor| |]; auto.
      constructor; auto. intro X. apply in_flat_map in X. destruct X as [[y|y] [Hy X]]; [destruct X|].
      destruct X as [X|[]]. injection X as ->. auto.
    - apply IH. auto.
    - intros [a b] X Y. apply in_flat_map in X. destruct X as [[y|y] [Hy X]]; [destruct X|]. destruct X as [X|[]]. injection X as -> <-.
      apply in_concat in Y. destruct Y as [l' [Hl' Y]]. apply in_map_iff in Hl'. destruct Hl' as [r' [<- Hr']].
      apply in_flat_map in Y. destruct Y as [[z|z] [Hz Y]]; [destruct Y|]. destruct Y as [Y|[]]. injection Y as -> ->. auto. }
  apply G. apply seq_NoDup.
Qed.

Lemma finished_log : forall st, inv st -> finished st -> Permutation (log st) (transfers reqs).
Proof.
  intros st [[pre [I1 [I2 [I3 I4]]]] ND] F. apply NoDup_Permutation; auto; [apply NoDup_transfers|].
  intros [s r]. rewrite in_transfers. split; intro H.
  - destruct (I3 _ _ H) as (k&j&_&R2&_). eapply nth_error_In; eauto.
  - apply In_nth_error in H. destruct H as [j Hj]. change (request r j = Some (Recv s)) in Hj.
    destruct (request_rank _ _ _ Hj) as [Hr Hl]. pose proof (proj1 (wf_wait _ _ (WF r Hr) j) Hl) as W.
    rewrite I1, F, app_nil_r in W. eauto.
Qed.

(** *** bounded length *)
Definition weight (st : state) : nat := list_sum (map (fun r => length (todo st r)) (seq 0 (length reqs))).

Lemma list_sum_set : forall (f : nat -> list instr) r t i l, NoDup l -> In r l -> f r = i :: t ->
  (S (list_sum (map (fun x => length (set f r t x)) l)) = list_sum (map (fun x => length (f x)) l))%nat.
Proof.
  induction l as [|x l IH]; intros N H E; [destruct H|]. inversion N; subst. cbn [map].
  change (list_sum (?a :: ?b)) with (a + list_sum b)%nat. destruct H as [->|H].
  - rewrite set_same, E. cbn [length]. assert (EM : map (fun x => length (set f r t x)) l = map (fun x => length (f x)) l).
    { apply map_ext_in. intros y Hy. rewrite set_other; auto. congruence. }
    rewrite EM. change (list_sum (?a :: ?b)) with (a + list_sum b)%nat. lia.
  - rewrite set_other by congruence.
    change (list_sum (?a :: ?b)) with (a + list_sum b)%nat. specialize (IH H3 H E). lia.
Qed.

Lemma steps_count : forall n st, rsteps eager reqs n (begin progs) st ->
  (n + weight st = weight (begin progs) + length (log st))%nat.
Proof.
  intros n st H. remember (begin progs) as st0. induction H as [|n s0 s1 s2 H IH S]; subst; [cbn; lia|].
  specialize (IH eq_refl). pose proof (inv_steps _ _ H) as IV. unfold weight in *.
  destruct S as [st r k t E|st r k t E C|st s k r j Hs Hr As Ar]; cbn [todo log length].
  - assert (Hr : (r < length reqs)%nat) by (apply (todo_rank st); auto; rewrite E; discriminate).
    pose proof (list_sum_set (todo st) r t _ (seq 0 (length reqs)) (seq_NoDup _ _) ltac:(apply in_seq; lia) E). lia.
  - assert (Hr : (r < length reqs)%nat) by (apply (todo_rank st); auto; rewrite E; discriminate).
    pose proof (list_sum_set (todo st) r t _ (seq 0 (length reqs)) (seq_NoDup _ _) ltac:(apply in_seq; lia) E). lia.
  - cbn [todo] in *. lia.
Qed.

Lemma log_bound : forall st, inv st -> (length (log st) <= length (transfers reqs))%nat.
Proof.
  intros st [[pre [I1 [I2 [I3 I4]]]] ND]. apply NoDup_incl_length; auto. intros [s r] H.
  apply in_transfers. destruct (I3 _ _ H) as (k&j&_&R2&_). eapply nth_error_In; eauto.
Qed.

End Run.
