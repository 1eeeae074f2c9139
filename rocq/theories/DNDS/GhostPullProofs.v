(** The pull constructor and the ghost searches (C02, C03). *)
From Coq Require Import List ZArith Lia Bool Arith.
From Verif Require Import Base.Prelude Base.PreludeFacts Base.MPIModel Base.MPIFacts
  DNDS.DefinesModel DNDS.DefinesProofs DNDS.IndexMappingModel DNDS.IndexMappingSpec
  DNDS.IndexMappingProofs.
Import ListNotations.
Local Open Scope Z_scope.

Definition owner (lens : list nat) (q : Z) : nat :=
  match item_at lens q with Some (r, _) => r | None => O end.
Definition valid (lens : list nat) (q : Z) : Prop := item_at lens q <> None.

Definition distinct (l : list Z) : list Z := zuniq (zsort l).
(** what a rank requesting [pull] asks from rank [s] *)
Definition reqs (lens : list nat) (pull : list Z) (s : nat) : list Z :=
  filter (fun q => owner lens q =? s)%nat (distinct pull).

Lemma valid_owner_lt : forall lens q, valid lens q -> (owner lens q < length lens)%nat.
Proof.
  intros lens q H. unfold valid, owner in *. destruct (item_at lens q) as [[r v]|] eqn:E; [|congruence].
  apply item_at_spec in E. destruct E as [[l [Hl _]] _]. eapply nth_error_Some_lt; eauto.
Qed.

Lemma owner_mono : forall lens p q, valid lens p -> valid lens q -> p <= q ->
  (owner lens p <= owner lens q)%nat.
Proof.
  intros lens p q Hp Hq Hpq. unfold valid, owner in *.
  destruct (item_at lens p) as [[r v]|] eqn:Ep; [|congruence].
  destruct (item_at lens q) as [[r' v']|] eqn:Eq; [|congruence].
  apply item_at_spec in Ep. apply item_at_spec in Eq.
  destruct Ep as [[l [Hl Hv]] Hp']. destruct Eq as [[l' [Hl' Hv']] Hq'].
  destruct (le_lt_dec r r'); auto. exfalso.
  pose proof (list_sum_firstn_mono lens (S r') r ltac:(lia)).
  rewrite (list_sum_firstn_S _ _ _ Hl') in H. lia.
Qed.

(** *** counting *)
Definition count (lens : list nat) (idx : list Z) (r : nat) : Z :=
  zlen (filter (fun q => owner lens q =? r)%nat idx).

Definition cstep lens := (fun (sizes : list Z) i =>
      match gsearch (gom lens) i with
      | None => Abort
      | Some (rank, _) => do c <- vget sizes rank; vset sizes rank (c + 1)
      end).

Lemma count_owners_inv : forall lens idx acc st,
  foldM (cstep lens) acc idx = Ok st -> length acc = length lens ->
  Forall (valid lens) idx /\ length st = length lens /\
  forall r a, nth_error acc r = Some a -> nth_error st r = Some (a + count lens idx r).
Proof.
  intros lens. induction idx as [|q idx IH]; intros acc st H Hl.
  - simpl in H. injection H as <-. repeat split; auto.
    intros r a Ha. unfold count. simpl. rewrite Ha. unfold zlen. simpl. f_equal. lia.
  - cbn [foldM] in H. apply bind_Ok in H. destruct H as [acc' [H1 H2]].
    unfold cstep in H1. rewrite gsearch_gom in H1.
    destruct (item_at lens q) as [[r0 v0]|] eqn:E; [|discriminate].
    inv_bind. apply vget_Ok in H. destruct H as [_ H]. rewrite Nat2Z.id in H.
    unfold vset in H1. destruct ((Z.of_nat r0 <? 0) || (Z.of_nat (length acc) <=? Z.of_nat r0)) eqn:Eb;
      [discriminate|]. injection H1 as <-. rewrite Nat2Z.id in H2.
    destruct (IH _ _ H2) as [Hv [Hlen Hn]]; [rewrite upd_length; auto|].
    split; [constructor; auto; unfold valid; congruence|]. split; auto.
    intros r a Ha. unfold count. simpl.
    assert (Ho : owner lens q = r0) by (unfold owner; rewrite E; auto). rewrite Ho.
    destruct (Nat.eqb_spec r0 r).
    + clear Ho. subst r. rewrite (Hn r0 (a + 1)).
      * unfold count, zlen. simpl. f_equal. lia.
      * rewrite nth_error_upd_same by (eapply nth_error_Some_lt; eauto). f_equal. congruence.
    + rewrite (Hn r a); auto. rewrite nth_error_upd_other; auto.
Qed.

Lemma count_owners_ok : forall lens idx acc, Forall (valid lens) idx ->
  length acc = length lens -> exists st, foldM (cstep lens) acc idx = Ok st.
Proof.
  intros lens. induction idx as [|q idx IH]; intros acc Hv Hl; simpl; eauto.
  inversion Hv; subst. unfold cstep at 1. rewrite gsearch_gom.
  pose proof (valid_owner_lt _ _ H1) as Ho. unfold owner, valid in *.
  destruct (item_at lens q) as [[r0 v0]|] eqn:E; [|congruence].
  destruct (nth_error_lt_Some _ acc r0 ltac:(lia)) as [c Hc].
  rewrite (vget_of_nat _ _ _ _ Hc). cbn [bind]. unfold vset.
  destruct (Z.ltb_spec (Z.of_nat r0) 0); [lia|].
  destruct (Z.leb_spec (Z.of_nat (length acc)) (Z.of_nat r0)); [lia|]. cbn [bind orb].
  apply IH; auto. rewrite upd_length; auto.
Qed.

Lemma nth_error_repeat_ : forall A (x : A) n i, (i < n)%nat -> nth_error (repeat x n) i = Some x.
Proof. induction n; destruct i; simpl; intros; auto; try lia. apply IHn; lia. Qed.

Lemma count_owners_eq : forall lens idx st,
  count_owners (gom lens) (length lens) idx = Ok st ->
  Forall (valid lens) idx /\ st = map (count lens idx) (seq 0 (length lens)).
Proof.
  intros lens idx st H. unfold count_owners in H.
  destruct (count_owners_inv lens idx (repeat 0 (length lens)) st) as [Hv [Hl Hn]].
  - exact H.
  - apply repeat_length.
  - split; auto. apply nth_error_ext. intro r. rewrite nth_error_map_, nth_error_seq.
    destruct (Nat.ltb_spec r (length lens)).
    + rewrite (Hn r 0); [reflexivity|]. apply nth_error_repeat_; auto.
    + simpl. apply nth_error_None. lia.
Qed.

(** *** grouping a sorted list by a monotone key *)
Lemma group_sorted : forall (key : Z -> nat) n p l,
  (forall i j x y, (i <= j)%nat -> nth_error l i = Some x -> nth_error l j = Some y ->
     (key x <= key y)%nat) ->
  (forall x, In x l -> (p <= key x < p + n)%nat) ->
  l = concat (map (fun s => filter (fun q => key q =? s)%nat l) (seq p n)).
Proof.
  intros key. induction n; intros p l Hm Hr.
  - destruct l as [|x l]; auto. specialize (Hr x (or_introl eq_refl)). lia.
  - assert (Hsplit : l = filter (fun q => key q =? p)%nat l ++ filter (fun q => negb (key q =? p)%nat) l).
    { clear IHn. induction l as [|x l IH]; auto. simpl.
      destruct (Nat.eqb_spec (key x) p); simpl.
      - f_equal. apply IH.
        + intros i j a b Hij Ha Hb. apply (Hm (S i) (S j)); simpl; auto; lia.
        + intros; apply Hr; simpl; auto.
      - assert (Hall : forall y, In y l -> key y <> p).
        { intros y Hy. apply In_nth_error in Hy. destruct Hy as [k Hk].
          assert (key x <= key y)%nat by (apply (Hm O (S k)); simpl; auto; lia).
          specialize (Hr x (or_introl eq_refl)). lia. }
        rewrite (filter_none _ (fun q => key q =? p)%nat).
        + simpl. f_equal. symmetry. clear -Hall. induction l as [|y l IH]; auto. simpl.
          destruct (Nat.eqb_spec (key y) p).
          * exfalso. eapply Hall; eauto. left; auto.
          * simpl. f_equal. apply IH. intros; apply Hall; simpl; auto.
        + intros y Hy. apply Nat.eqb_neq. auto. }
    cbn [seq map concat]. rewrite Hsplit at 1. f_equal.
    set (l' := filter (fun q => negb (key q =? p)%nat) l).
    rewrite (IHn (S p) l').
    + f_equal. apply map_ext_in. intros s Hs. apply in_seq in Hs.
      unfold l'. clear -Hs. induction l as [|x l IH]; auto. simpl.
      destruct (Nat.eqb_spec (key x) p); simpl.
      * rewrite IH. destruct (Nat.eqb_spec (key x) s); auto. lia.
      * destruct (Nat.eqb_spec (key x) s); rewrite IH; auto.
    + intros i j x y Hij Hx Hy.
      assert (Hsub : forall l i j (x y : Z) f, (i <= j)%nat -> nth_error (filter f l) i = Some x ->
        nth_error (filter f l) j = Some y -> exists i' j', (i' <= j')%nat /\
          nth_error l i' = Some x /\ nth_error l j' = Some y).
      { clear. induction l as [|a l IH]; intros i j x y f Hij Hx Hy; simpl in *.
        - destruct i; discriminate.
        - destruct (f a).
          + destruct i, j; simpl in *; try lia.
            * exists O, O. simpl; auto.
            * injection Hx as ->. apply nth_error_In in Hy. apply filter_In in Hy.
              destruct Hy as [Hy _]. apply In_nth_error in Hy. destruct Hy as [k Hk].
              exists O, (S k). simpl. repeat split; auto; lia.
            * destruct (IH i j x y f) as [i' [j' [H1 [H2 H3]]]]; auto; [lia|].
              exists (S i'), (S j'). simpl. repeat split; auto; lia.
          + destruct (IH i j x y f) as [i' [j' [H1 [H2 H3]]]]; auto.
            exists (S i'), (S j'). simpl. repeat split; auto; lia. }
      destruct (Hsub l i j x y _ Hij Hx Hy) as [i' [j' [H1 [H2 H3]]]]. eapply Hm; eauto.
    + intros x Hx. apply filter_In in Hx. destruct Hx as [Hx Hk].
      specialize (Hr _ Hx). apply negb_true_iff, Nat.eqb_neq in Hk. lia.
Qed.

Lemma distinct_sasc : forall l, sasc (distinct l).
Proof. intros; apply zsort_uniq_sasc. Qed.
Lemma distinct_In : forall l x, In x (distinct l) <-> In x l.
Proof. intros; apply zsort_uniq_In. Qed.

Lemma zinsert_head : forall x l, (forall y, In y l -> x <= y) -> zinsert x l = x :: l.
Proof.
  destruct l as [|y l]; intros H; auto. simpl.
  destruct (Z.leb_spec x y); auto. specialize (H y (or_introl eq_refl)). lia.
Qed.

Lemma zsort_sorted : forall l, asc l -> zsort l = l.
Proof.
  induction l as [|x l IH]; intro H; auto. apply asc_cons in H. destruct H as [H1 H2].
  change (zsort (x :: l)) with (zinsert x (zsort l)). rewrite IH by auto.
  apply zinsert_head; auto.
Qed.

Definition rsegs lens pull := map (reqs lens pull) (seq 0 (length lens)).

Lemma distinct_concat : forall lens pull, Forall (valid lens) (distinct pull) ->
  distinct pull = concat (rsegs lens pull).
Proof.
  intros. unfold rsegs, reqs. apply group_sorted.
  - intros i j x y Hij Hx Hy. rewrite Forall_forall in H. apply owner_mono.
    + apply H. eapply nth_error_In; eauto.
    + apply H. eapply nth_error_In; eauto.
    + apply (sasc_asc _ (distinct_sasc pull) i j); auto.
  - intros x Hx. rewrite Forall_forall in H. split; [lia|]. apply valid_owner_lt. auto.
Qed.

Lemma pull_local_inv : forall lens pull t,
  pull_local (gom lens) (length lens) pull = Ok t ->
  Forall (valid lens) pull /\
  t = (zlensl (rsegs lens pull), psums 0 (zlensl (rsegs lens pull)), concat (rsegs lens pull)).
Proof.
  intros lens pull t H. unfold pull_local in H. fold (distinct pull) in H. inv_bind. subst t.
  apply count_owners_eq in H0. destruct H0 as [Hv Hsz].
  assert (Hsz' : v = zlensl (rsegs lens pull)).
  { rewrite Hsz. unfold zlensl, rsegs. rewrite map_map. reflexivity. }
  split.
  - apply Forall_forall. intros x Hx. rewrite Forall_forall in Hv. apply Hv. apply distinct_In; auto.
  - apply accumulate_Ok in H1. rewrite Hsz' in H1. rewrite H1, Hsz'. f_equal.
    assert (v1 = distinct pull) as ->.
    { rewrite (mapM_map _ _ _ (fun i => i)) in H2.
      - rewrite map_id in H2. congruence.
      - intros x Hx. rewrite gsearch_gom. rewrite Forall_forall in Hv. specialize (Hv _ Hx).
        unfold valid in Hv. destruct (item_at lens x) as [[? ?]|]; congruence. }
    rewrite zsort_sorted by apply sasc_asc, distinct_sasc.
    apply distinct_concat; auto.
Qed.

(** *** the constructed maps *)
Definition psegs lens pulls s := map (fun r => reqs lens (nth r pulls []) s) (seq 0 (length lens)).

Definition expected lens (mains : list (Z * Z)) pulls r : ghostmap :=
  let gs := rsegs lens (nth r pulls []) in
  let ps := psegs lens pulls r in
  {| mainOffset := fst (nth r mains (0,0)); mainSize := snd (nth r mains (0,0));
     ghostSizes := zlensl gs; ghostIndex := concat gs; ghostStart := psums 0 (zlensl gs);
     pushIndexSizes := zlensl ps; pushIndexStarts := psums 0 (zlensl ps);
     pushingIndexGlobal := concat ps |}.

Lemma map_nth_seq : forall A (d : A) l, l = map (fun i => nth i l d) (seq 0 (length l)).
Proof.
  intros. apply nth_error_ext. intro i. rewrite nth_error_map_, nth_error_seq.
  destruct (Nat.ltb_spec i (length l)).
  - simpl. apply nth_error_nth'; auto.
  - simpl. apply nth_error_None; auto.
Qed.

Lemma combine_map_seq : forall A B (f : nat -> A) (g : nat -> B) n,
  combine (map f (seq 0 n)) (map g (seq 0 n)) = map (fun i => (f i, g i)) (seq 0 n).
Proof.
  intros. apply nth_error_ext. intro i.
  rewrite nth_error_combine, !nth_error_map_, nth_error_seq.
  destruct (Nat.ltb i n); reflexivity.
Qed.

Lemma last_psums : forall l a, last (psums a l) 0 = a + zsum l.
Proof.
  induction l as [|x l IH]; intros a; simpl; [unfold zsum; simpl; lia|].
  pose proof (psums_length l (a + x)).
  destruct (psums (a + x) l) eqn:Ep; [discriminate|]. rewrite <- Ep, IH. unfold zsum; simpl. lia.
Qed.

Lemma construct_pull_inv : forall lens mains pulls ms,
  length pulls = length lens -> length mains = length lens ->
  construct_pull (gom lens) mains pulls = Ok ms ->
  Forall (Forall (valid lens)) pulls /\
  ms = map (expected lens mains pulls) (seq 0 (length lens)).
Proof.
  intros lens mains pulls ms Hp Hm H. unfold construct_pull in H. rewrite Hp in H.
  apply bind_Ok in H. destruct H as [loc [Hloc H]].
  apply mapM_nth in Hloc. destruct Hloc as [Hll Hloc].
  assert (Hvalid : Forall (Forall (valid lens)) pulls).
  { apply Forall_forall. intros pull Hin. apply In_nth_error in Hin. destruct Hin as [r Hr].
    destruct (Hloc _ _ Hr) as [t [Ht _]]. apply pull_local_inv in Ht. tauto. }
  split; auto.
  set (P := length lens) in *.
  assert (Eloc : loc = map (fun r => let gs := rsegs lens (nth r pulls []) in
              (zlensl gs, psums 0 (zlensl gs), concat gs)) (seq 0 P)).
  { apply nth_error_ext. intro r. rewrite nth_error_map_, nth_error_seq.
    destruct (Nat.ltb_spec r P).
    - destruct (nth_error_lt_Some _ pulls r ltac:(lia)) as [pull Hpull].
      destruct (Hloc _ _ Hpull) as [t [Ht Hn]]. apply pull_local_inv in Ht.
      destruct Ht as [_ ->]. rewrite Hn. simpl. rewrite (nth_error_nth _ _ _ Hpull). reflexivity.
    - simpl. apply nth_error_None. lia. }
  subst loc. clear Hloc Hll.
  rewrite !map_map in H. cbn [fst snd] in H.
  assert (Esz : map (fun r => zlensl (rsegs lens (nth r pulls []))) (seq 0 P) =
     map (fun s => map (fun r => zlen (reqs lens (nth s pulls []) r)) (seq 0 P)) (seq 0 P)).
  { apply map_ext. intro r. unfold zlensl, rsegs. rewrite map_map. reflexivity. }
  rewrite Esz in H. rewrite alltoall_spec in H. cbn [bind] in H.
  apply bind_Ok in H. destruct H as [pst [Hpst H]].
  assert (Epsz : map (fun r => map (fun s => zlen (reqs lens (nth s pulls []) r)) (seq 0 P)) (seq 0 P) =
     map (fun r => zlensl (psegs lens pulls r)) (seq 0 P)).
  { apply map_ext. intro r. unfold zlensl, psegs. rewrite map_map. reflexivity. }
  rewrite Epsz in *. rewrite <- Esz in H.
  assert (Epst : pst = map (fun r => psums 0 (zlensl (psegs lens pulls r))) (seq 0 P)).
  { apply mapM_nth in Hpst. destruct Hpst as [Hl Hn].
    rewrite map_length, seq_length in Hl.
    apply nth_error_ext. intro r. rewrite nth_error_map_, nth_error_seq.
    destruct (Nat.ltb_spec r P).
    - destruct (Hn r (zlensl (psegs lens pulls r))) as [y [Hy Hny]].
      + rewrite nth_error_map_, nth_error_seq. destruct (Nat.ltb_spec r P); [reflexivity|lia].
      + rewrite Hny. unfold AccumulateRowSize in Hy. apply accumulate_Ok in Hy. subst y. reflexivity.
    - simpl. apply nth_error_None. lia. }
  subst pst. clear Hpst.
  rewrite combine_map_seq, map_map in H. cbn [fst snd] in H.
  rewrite (alltoallv_spec Z P (fun s r => reqs lens (nth s pulls []) r)) in H.
  - cbn [bind] in H. rewrite (map_nth_seq _ (0,0) mains) in H. rewrite Hm in H. fold P in H.
    rewrite !combine_map_seq, map_map in H. injection H as <-.
    apply map_ext. intro r. reflexivity.
  - rewrite map_length, seq_length. reflexivity.
  - rewrite map_length, seq_length. reflexivity.
  - intros s x Hx. rewrite nth_error_map_, nth_error_seq in Hx.
    destruct (Nat.ltb_spec s P); [|discriminate]. simpl in Hx. injection Hx as <-. simpl. auto.
  - intros r w Hw. rewrite nth_error_map_, nth_error_seq in Hw.
    destruct (Nat.ltb_spec r P); [|discriminate]. simpl in Hw. injection Hw as <-. simpl.
    rewrite repeat_length, last_psums, zsum_zlensl, Z.add_0_l. unfold zlen. rewrite Nat2Z.id. auto.
Qed.
