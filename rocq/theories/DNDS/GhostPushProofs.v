(** The push constructor (C06). *)
From Coq Require Import List ZArith Lia Bool Arith.
From Verif Require Import Base.Prelude Base.PreludeFacts Base.MPIModel Base.MPIFacts
  DNDS.DefinesModel DNDS.DefinesProofs DNDS.IndexMappingModel DNDS.IndexMappingSpec
  DNDS.IndexMappingProofs DNDS.GhostPullProofs DNDS.GhostSearchProofs.
Import ListNotations.
Local Open Scope Z_scope.

(** global index of a local row *)
Definition glob lens s (i : nat) : Z := Z.of_nat (list_sum (firstn s lens)) + Z.of_nat i.

Lemma glob_item : forall lens s i, (s < length lens)%nat -> (i < nth s lens 0)%nat ->
  item_at lens (glob lens s i) = Some (s, i).
Proof.
  intros. apply item_at_spec. destruct (nth_error_lt_Some _ lens s H) as [l Hl].
  rewrite (nth_error_nth _ _ 0%nat Hl) in H0. split; [eauto|]. unfold glob. lia.
Qed.

Definition gsegs lens s (dests : list (list nat)) : list (list Z) := map (map (glob lens s)) dests.

Lemma concat_map_map : forall A B (f : A -> B) l, concat (map (map f) l) = map f (concat l).
Proof. induction l; simpl; auto. rewrite map_app, IHl. reflexivity. Qed.

Lemma zlensl_gsegs : forall lens s dests, zlensl (gsegs lens s dests) = zlensl dests.
Proof. intros. unfold zlensl, gsegs. rewrite map_map. apply map_ext. intro. unfold zlen. rewrite map_length. auto. Qed.

Lemma starts_psums : forall (dests : list (list nat)),
  map (fun r => Z.of_nat (length (concat (firstn r dests)))) (seq 0 (S (length dests))) =
  psums 0 (zlensl dests).
Proof.
  intros. apply nth_error_ext. intro i. rewrite nth_error_map_, nth_error_seq.
  destruct (Nat.ltb_spec i (S (length dests))).
  - rewrite zlensl_psums_nth by lia. reflexivity.
  - symmetry. apply nth_error_None. rewrite psums_length. unfold zlensl. rewrite map_length. lia.
Qed.

Lemma narrow32_Ok : forall x y, narrow32 x = Ok y -> y = x.
Proof. unfold narrow32. intros. destruct (in_int32 x); congruence. Qed.

Lemma accumulate32_Ok : forall l a st, accumulate32 a l = Ok st -> st = psums a l.
Proof.
  induction l; cbn [accumulate32 psums]; intros; [congruence|]. inv_bind. subst.
  apply narrow32_Ok in H0. subst. f_equal. eapply IHl; eauto.
Qed.

Lemma mapM_narrow32 : forall l st, mapM narrow32 l = Ok st -> st = l.
Proof.
  induction l; cbn [mapM]; intros; [congruence|]. inv_bind. subst. apply narrow32_Ok in H0. subst.
  f_equal. eapply IHl; eauto.
Qed.

Lemma psums_hd : forall l a, exists t, psums a l = a :: t.
Proof. destruct l; simpl; eauto. Qed.

Lemma push_local_inv : forall lens s dests t, (s < length lens)%nat -> length dests = length lens ->
  Forall (Forall (fun i => (i < nth s lens 0)%nat)) dests ->
  push_local (gom lens) (length lens) (Z.of_nat s) (push_args dests) = Ok t ->
  let gs := gsegs lens s dests in
  t = (zlensl gs, psums 0 (zlensl gs), concat gs).
Proof.
  intros lens s dests t Hs Hl Hv H gs. unfold push_local, push_args in H.
  rewrite starts_psums in H. inv_bind. subst t.
  unfold gs. rewrite zlensl_gsegs. unfold gsegs. rewrite concat_map_map.
  f_equal; [f_equal|].
  - apply mapM_nth in H3. destruct H3 as [Hll Hn]. rewrite ranks_length in Hll.
    apply nth_error_ext. intro r. unfold zlensl. rewrite nth_error_map_.
    destruct (lt_dec r (length lens)) as [Hr|Hr].
    + destruct (Hn r (Z.of_nat r) (ranks_nth _ _ Hr)) as [y [Hy Hny]]. rewrite Hny.
      replace (Z.of_nat r + 1) with (Z.of_nat (S r)) in Hy by lia.
      rewrite (vget_of_nat _ _ _ _ (zlensl_psums_nth _ dests (S r) ltac:(lia))) in Hy. cbn [bind] in Hy.
      rewrite (vget_of_nat _ _ _ _ (zlensl_psums_nth _ dests r ltac:(lia))) in Hy. cbn [bind] in Hy.
      apply narrow32_Ok in Hy. subst y.
      destruct (nth_error_lt_Some _ dests r ltac:(lia)) as [x Hx]. rewrite Hx. cbn [option_map].
      rewrite (concat_firstn_S _ _ _ _ Hx). unfold zlen. rewrite app_length. f_equal. lia.
    + rewrite (proj2 (nth_error_None _ r)), (proj2 (nth_error_None dests r)) by lia. reflexivity.
  - apply mapM_narrow32 in H4. subst. destruct (psums_hd (zlensl dests) 0) as [t ->]. reflexivity.
  - apply mapM_nth in H5. destruct H5 as [Hll Hn]. rewrite map_length in Hll.
    apply nth_error_ext. intro k. rewrite nth_error_map_.
    destruct (nth_error (concat dests) k) as [i|] eqn:E.
    + simpl. destruct (Hn k (Z.of_nat i)) as [y [Hy Hny]].
      { rewrite nth_error_map_, E. reflexivity. }
      rewrite Hny. f_equal.
      assert (Hi : (i < nth s lens 0)%nat).
      { apply nth_error_In in E. apply in_concat in E. destruct E as [l [H6 H7]].
        rewrite Forall_forall in Hv. specialize (Hv _ H6). rewrite Forall_forall in Hv. auto. }
      rewrite toGlobal_gom in Hy by lia. injection Hy as <-. unfold glob. lia.
    + simpl. apply nth_error_None. apply nth_error_None in E. lia.
Qed.

Definition pexpected lens (L : list (list (list nat))) r : ghostmap :=
  let gs := map (fun s => map (glob lens s) (seg_of L s r)) (seq 0 (length lens)) in
  let ps := map (fun d => map (glob lens r) (seg_of L r d)) (seq 0 (length lens)) in
  {| mainOffset := fst (main_range lens r); mainSize := snd (main_range lens r);
     ghostSizes := zlensl gs; ghostIndex := concat gs; ghostStart := psums 0 (zlensl gs);
     pushIndexSizes := zlensl ps; pushIndexStarts := psums 0 (zlensl ps);
     pushingIndexGlobal := concat ps |}.

Lemma gsegs_seq : forall lens L s dests P, nth_error L s = Some dests -> length dests = P ->
  gsegs lens s dests = map (fun d => map (glob lens s) (seg_of L s d)) (seq 0 P).
Proof.
  intros. unfold gsegs, seg_of. rewrite (nth_error_nth _ _ _ H). subst P.
  rewrite (map_nth_seq _ [] dests) at 1. rewrite map_map. reflexivity.
Qed.

Lemma setup_push_inv : forall lens L g ms, pushes_ok lens L ->
  setup_push (map Z.of_nat lens) (map push_args L) = Ok (g, ms) ->
  ms = map (pexpected lens L) (seq 0 (length lens)).
Proof.
  intros lens L g ms [HL Hd] H. unfold setup_push in H.
  apply bind_Ok in H. destruct H as [g' [Hg H]]. apply align_inv in Hg. subst g'.
  rewrite own_ranges_gom in H. cbn [bind] in H.
  apply bind_Ok in H. destruct H as [ms' [H E]]. injection E as _ <-.
  unfold construct_push in H. rewrite map_length, HL in H.
  apply bind_Ok in H. destruct H as [loc [Hloc H]].
  apply mapM_nth in Hloc. destruct Hloc as [Hll Hloc].
  rewrite combine_length, ranks_length, map_length, HL, Nat.min_id in Hll.
  set (P := length lens) in *.
  set (ps := fun r => map (fun d => map (glob lens r) (seg_of L r d)) (seq 0 P)).
  assert (Eloc : loc = map (fun r => (zlensl (ps r), psums 0 (zlensl (ps r)), concat (ps r))) (seq 0 P)).
  { apply nth_error_ext. intro r. rewrite nth_error_map_, nth_error_seq.
    destruct (Nat.ltb_spec r P).
    - destruct (nth_error_lt_Some _ L r ltac:(lia)) as [dests Hdests].
      destruct (Hloc r (Z.of_nat r, push_args dests)) as [t [Ht Hn]].
      { rewrite nth_error_combine, ranks_nth, nth_error_map_, Hdests by auto. reflexivity. }
      destruct (Hd _ _ Hdests) as [H1 H2].
      apply push_local_inv in Ht; auto. rewrite Hn, Ht.
      rewrite (gsegs_seq _ _ _ _ P Hdests H1). reflexivity.
    - simpl. apply nth_error_None. lia. }
  subst loc. clear Hloc Hll. rewrite !map_map in H. cbn [fst snd] in H.
  assert (Esz : map (fun r => zlensl (ps r)) (seq 0 P) =
     map (fun s => map (fun r => zlen (map (glob lens s) (seg_of L s r))) (seq 0 P)) (seq 0 P)).
  { apply map_ext. intro r. unfold zlensl, ps. rewrite map_map. reflexivity. }
  rewrite Esz in H. rewrite alltoall_spec in H. cbn [bind] in H.
  apply bind_Ok in H. destruct H as [pst [Hpst H]].
  set (gs := fun r => map (fun s => map (glob lens s) (seg_of L s r)) (seq 0 P)).
  assert (Epsz : map (fun r => map (fun s => zlen (map (glob lens s) (seg_of L s r))) (seq 0 P)) (seq 0 P) =
     map (fun r => zlensl (gs r)) (seq 0 P)).
  { apply map_ext. intro r. unfold zlensl, gs. rewrite map_map. reflexivity. }
  rewrite Epsz in *. rewrite <- Esz in H.
  assert (Epst : pst = map (fun r => psums 0 (zlensl (gs r))) (seq 0 P)).
  { apply mapM_nth in Hpst. destruct Hpst as [Hl Hn].
    rewrite map_length, seq_length in Hl.
    apply nth_error_ext. intro r. rewrite nth_error_map_, nth_error_seq.
    destruct (Nat.ltb_spec r P).
    - destruct (Hn r (zlensl (gs r))) as [y [Hy Hny]].
      + rewrite nth_error_map_, nth_error_seq. destruct (Nat.ltb_spec r P); [reflexivity|lia].
      + rewrite Hny. apply accumulate32_Ok in Hy. subst y. reflexivity.
    - simpl. apply nth_error_None. lia. }
  subst pst. clear Hpst.
  rewrite combine_map_seq, map_map in H. cbn [fst snd] in H.
  rewrite (alltoallv_spec Z P (fun s r => map (glob lens s) (seg_of L s r))) in H.
  - cbn [bind] in H. unfold main_ranges in H. fold P in H.
    rewrite !combine_map_seq, map_map in H. injection H as <-.
    apply map_ext. intro r. reflexivity.
  - rewrite map_length, seq_length. reflexivity.
  - rewrite map_length, seq_length. reflexivity.
  - intros s x Hx. rewrite nth_error_map_, nth_error_seq in Hx.
    destruct (Nat.ltb_spec s P); [|discriminate]. simpl in Hx. injection Hx as <-. simpl. auto.
  - intros r w Hw. rewrite nth_error_map_, nth_error_seq in Hw.
    destruct (Nat.ltb_spec r P); [|discriminate]. simpl in Hw. injection Hw as <-. simpl.
    rewrite repeat_length, last_psums, zsum_zlensl, Z.add_0_l. unfold zlen. rewrite Nat2Z.id. auto.
Qed.

Lemma setup_push_received : forall lens L g ms r m s dests l,
  pushes_ok lens L -> setup_push (map Z.of_nat lens) (map push_args L) = Ok (g, ms) ->
  nth_error ms r = Some m -> nth_error L s = Some dests -> nth_error dests r = Some l ->
  exists rows, part (ghostStart m) (ghostIndex m) s = Some rows /\
    length rows = length l /\
    forall k q i, nth_error rows k = Some q -> nth_error l k = Some i -> item_at lens q = Some (s, i).
Proof.
  intros lens L g ms r m s dests l HL H Hm Hs Hr.
  rewrite (setup_push_inv _ _ _ _ HL H) in Hm. destruct HL as [HL Hd].
  rewrite nth_error_map_, nth_error_seq in Hm.
  destruct (Nat.ltb_spec r (length lens)) as [Hrl|]; [|discriminate]. simpl in Hm. injection Hm as <-.
  assert (Hsl : (s < length lens)%nat) by (apply nth_error_Some_lt in Hs; lia).
  assert (Eseg : seg_of L s r = l).
  { unfold seg_of. rewrite (nth_error_nth _ _ _ Hs), (nth_error_nth _ _ _ Hr). reflexivity. }
  exists (map (glob lens s) l). split; [|split].
  - unfold pexpected. cbn [ghostStart ghostIndex]. apply part_concat.
    rewrite nth_error_map_, nth_error_seq. destruct (Nat.ltb_spec s (length lens)); [|lia].
    simpl. rewrite Eseg. reflexivity.
  - apply map_length.
  - intros k q i Hq Hi. rewrite nth_error_map_, Hi in Hq. simpl in Hq. injection Hq as <-.
    apply glob_item; auto. destruct (Hd _ _ Hs) as [_ Hv].
    rewrite Forall_forall in Hv. specialize (Hv _ (nth_error_In _ _ Hr)).
    rewrite Forall_forall in Hv. apply Hv. eapply nth_error_In; eauto.
Qed.

(** what rank [r] receives in all *)
Definition received lens (L : list (list (list nat))) r : list Z :=
  concat (map (fun s => map (glob lens s) (seg_of L s r)) (seq 0 (length lens))).

Lemma sasc_app : forall l l', sasc l -> sasc l' ->
  (forall x y, In x l -> In y l' -> x < y) -> sasc (l ++ l').
Proof.
  induction l as [|a l IH]; simpl; intros l' H H' Hx; auto.
  apply sasc_cons in H. destruct H as [H1 H2]. apply sasc_cons. split.
  - apply IH; auto.
  - intros y Hy. apply in_app_or in Hy. destruct Hy; auto.
Qed.

Lemma seg_of_valid : forall lens L s r i, pushes_ok lens L -> (s < length lens)%nat ->
  In i (seg_of L s r) -> (i < nth s lens 0)%nat.
Proof.
  intros lens L s r i [HL Hd] Hs Hi. destruct (nth_error_lt_Some _ L s ltac:(lia)) as [dests Hs'].
  destruct (Hd _ _ Hs') as [Hl Hv]. unfold seg_of in Hi. rewrite (nth_error_nth _ _ _ Hs') in Hi.
  destruct (nth_error dests r) as [l|] eqn:E.
  - rewrite (nth_error_nth _ _ _ E) in Hi. rewrite Forall_forall in Hv.
    specialize (Hv _ (nth_error_In _ _ E)). rewrite Forall_forall in Hv. auto.
  - rewrite nth_overflow in Hi by (apply nth_error_None; auto). destruct Hi.
Qed.

Lemma seg_of_asc : forall L s r, ascending_pushes L ->
  forall i j x y, (i < j)%nat ->
     nth_error (seg_of L s r) i = Some x -> nth_error (seg_of L s r) j = Some y -> (x < y)%nat.
Proof.
  intros L s r H. unfold seg_of. destruct (nth_error L s) as [dests|] eqn:E.
  - rewrite (nth_error_nth _ _ _ E). unfold ascending_pushes in H. rewrite Forall_forall in H.
    specialize (H _ (nth_error_In _ _ E)). destruct (nth_error dests r) as [l|] eqn:E'.
    + rewrite (nth_error_nth _ _ _ E'). rewrite Forall_forall in H. apply (H _ (nth_error_In _ _ E')).
    + rewrite nth_overflow by (apply nth_error_None; auto). intros. destruct i; discriminate.
  - rewrite (nth_overflow L) by (apply nth_error_None; auto). intros. destruct r, i; discriminate.
Qed.

Lemma received_sasc_gen : forall lens L r n p, pushes_ok lens L -> ascending_pushes L ->
  (p + n = length lens)%nat ->
  sasc (concat (map (fun s => map (glob lens s) (seg_of L s r)) (seq p n))) /\
  forall q, In q (concat (map (fun s => map (glob lens s) (seg_of L s r)) (seq p n))) ->
    Z.of_nat (list_sum (firstn p lens)) <= q.
Proof.
  intros lens L r. induction n; intros p HL HA Hp.
  - simpl. split; [intros i j x y ? H; destruct i; discriminate|tauto].
  - cbn [seq map concat]. destruct (IHn (S p) HL HA ltac:(lia)) as [IH1 IH2].
    destruct (nth_error_lt_Some _ lens p ltac:(lia)) as [l Hl].
    rewrite (list_sum_firstn_S _ _ _ Hl) in IH2. split.
    + apply sasc_app; auto.
      * intros i j x y Hij Hx Hy. rewrite nth_error_map_ in Hx, Hy.
        destruct (nth_error (seg_of L p r) i) as [a|] eqn:Ea; [|discriminate].
        destruct (nth_error (seg_of L p r) j) as [b|] eqn:Eb; [|discriminate].
        simpl in Hx, Hy. injection Hx as <-. injection Hy as <-.
        pose proof (seg_of_asc _ _ _ HA _ _ _ _ Hij Ea Eb). unfold glob. lia.
      * intros x y Hx Hy. apply IH2 in Hy. apply in_map_iff in Hx. destruct Hx as [i [<- Hi]].
        apply (seg_of_valid lens) in Hi; auto; [|lia]. rewrite (nth_error_nth _ _ 0%nat Hl) in Hi.
        unfold glob. lia.
    + intros q Hq. apply in_app_or in Hq. destruct Hq as [Hq|Hq].
      * apply in_map_iff in Hq. destruct Hq as [i [<- Hi]]. unfold glob. lia.
      * apply IH2 in Hq. lia.
Qed.

Lemma zuniq_sasc : forall l, sasc l -> zuniq l = l.
Proof.
  induction l as [|x l IH]; intro H; auto. apply sasc_cons in H. destruct H as [H2 H1].
  cbn [zuniq]. rewrite (IH H2). destruct l as [|y l]; auto.
  specialize (H1 y (or_introl eq_refl)). destruct (Z.eqb_spec x y); [lia|auto].
Qed.

Lemma distinct_received : forall lens L r, pushes_ok lens L -> ascending_pushes L ->
  distinct (received lens L r) = received lens L r.
Proof.
  intros. destruct (received_sasc_gen lens L r (length lens) 0 H H0 ltac:(lia)) as [Hs _].
  unfold distinct. rewrite zsort_sorted by (apply sasc_asc; auto). apply zuniq_sasc; auto.
Qed.

Lemma filter_concat : forall A (f : A -> bool) ll, filter f (concat ll) = concat (map (filter f) ll).
Proof. induction ll; simpl; auto. rewrite filter_app, IHll. reflexivity. Qed.

Lemma filter_all : forall A (f : A -> bool) l, (forall x, In x l -> f x = true) -> filter f l = l.
Proof. induction l; simpl; intros; auto. rewrite H by auto. f_equal. auto. Qed.

Lemma concat_single : forall A (f : nat -> list A) s n p, (p <= s < p + n)%nat ->
  (forall t, t <> s -> f t = []) -> concat (map f (seq p n)) = f s.
Proof.
  intros A f s. induction n; intros p Hp Hf; [lia|]. cbn [seq map concat].
  destruct (Nat.eq_dec p s).
  - subst. replace (concat (map f (seq (S s) n))) with (@nil A); [apply app_nil_r|].
    symmetry. clear IHn. assert (G : forall m q, (s < q)%nat -> concat (map f (seq q m)) = []).
    { induction m; intros; auto. cbn [seq map concat]. rewrite Hf, IHm by lia. reflexivity. }
    apply G; lia.
  - rewrite (Hf p n0). simpl. apply IHn; auto. lia.
Qed.

Lemma reqs_received : forall lens L s r, pushes_ok lens L -> ascending_pushes L ->
  (s < length lens)%nat ->
  reqs lens (received lens L r) s = map (glob lens s) (seg_of L s r).
Proof.
  intros lens L s r HL HA Hs. unfold reqs. rewrite distinct_received by auto.
  unfold received. rewrite filter_concat, map_map.
  assert (Ho : forall t q, (t < length lens)%nat -> In q (map (glob lens t) (seg_of L t r)) ->
            owner lens q = t).
  { intros t q Ht Hq. apply in_map_iff in Hq. destruct Hq as [i [<- Hi]]. unfold owner.
    rewrite glob_item; auto. eapply seg_of_valid; eauto. }
  assert (E : map (fun t => filter (fun q => owner lens q =? s)%nat (map (glob lens t) (seg_of L t r)))
        (seq 0 (length lens)) =
      map (fun t => if (t =? s)%nat then map (glob lens t) (seg_of L t r) else []) (seq 0 (length lens))).
  { apply map_ext_in. intros t Ht. apply in_seq in Ht. destruct (Nat.eqb_spec t s).
    - apply filter_all. intros q Hq. apply Nat.eqb_eq. rewrite (Ho t); auto; lia.
    - apply filter_none. intros q Hq. apply Nat.eqb_neq. rewrite (Ho t); auto; lia. }
  rewrite E, (concat_single _ _ s); [rewrite Nat.eqb_refl; auto|lia|].
  intros t Ht. destruct (Nat.eqb_spec t s); [contradiction|auto].
Qed.

Lemma pexpected_expected : forall lens L r, pushes_ok lens L -> ascending_pushes L ->
  (r < length lens)%nat ->
  pexpected lens L r =
  expected lens (main_ranges lens) (map (received lens L) (seq 0 (length lens))) r.
Proof.
  intros lens L r HL HA Hr. unfold pexpected, expected.
  rewrite main_ranges_nth by auto.
  assert (Hn : forall d, (d < length lens)%nat ->
     nth d (map (received lens L) (seq 0 (length lens))) [] = received lens L d).
  { intros. apply nth_error_nth. rewrite nth_error_map_, nth_error_seq.
    destruct (Nat.ltb_spec d (length lens)); [reflexivity|lia]. }
  assert (E1 : rsegs lens (nth r (map (received lens L) (seq 0 (length lens))) []) =
     map (fun s => map (glob lens s) (seg_of L s r)) (seq 0 (length lens))).
  { unfold rsegs. rewrite Hn by auto. apply map_ext_in. intros s Hs. apply in_seq in Hs.
    apply reqs_received; auto; lia. }
  assert (E2 : psegs lens (map (received lens L) (seq 0 (length lens))) r =
     map (fun d => map (glob lens r) (seg_of L r d)) (seq 0 (length lens))).
  { unfold psegs. apply map_ext_in. intros d Hd. apply in_seq in Hd. rewrite Hn by lia.
    apply reqs_received; auto. }
  rewrite E1, E2. reflexivity.
Qed.

Lemma push_as_pull : forall lens L g ms, pushes_ok lens L -> ascending_pushes L ->
  setup_push (map Z.of_nat lens) (map push_args L) = Ok (g, ms) ->
  forall pulls g' ms', length pulls = length lens ->
  (forall r q, (r < length lens)%nat ->
     (In q (nth r pulls []) <-> exists s i, In i (seg_of L s r) /\ item_at lens q = Some (s, i))) ->
  setup_pull (map Z.of_nat lens) pulls = Ok (g', ms') -> ms = ms'.
Proof.
  intros lens L g ms HL HA H pulls g' ms' Hlp Hq H'.
  rewrite (setup_push_inv _ _ _ _ HL H).
  assert (B : built lens pulls ms') by (split; eauto). apply built_inv in B.
  destruct B as [_ [_ ->]]. apply map_ext_in. intros r Hr. apply in_seq in Hr.
  rewrite pexpected_expected by (auto; lia).
  assert (Ed : forall d, (d < length lens)%nat -> distinct (nth d pulls []) =
       distinct (received lens L d)).
  { intros d Hd.
    assert (forall l l', sasc l -> sasc l' -> (forall x, In x l <-> In x l') -> l = l') as U.
    { clear. induction l as [|x l IH]; intros l' S1 S2 E.
      - destruct l' as [|y l']; auto. destruct (proj2 (E y) (or_introl eq_refl)).
      - destruct l' as [|y l']; [destruct (proj1 (E x) (or_introl eq_refl))|].
        apply sasc_cons in S1. apply sasc_cons in S2. destruct S1 as [S1' S1], S2 as [S2' S2].
        assert (x = y).
        { destruct (proj1 (E x) (or_introl eq_refl)); auto.
          destruct (proj2 (E y) (or_introl eq_refl)); auto.
          specialize (S1 _ H0). specialize (S2 _ H). lia. }
        subst y. f_equal. apply IH; auto. intros z. split; intro Hz.
        + destruct (proj1 (E z) (or_intror Hz)); auto. subst. specialize (S1 _ Hz). lia.
        + destruct (proj2 (E z) (or_intror Hz)); auto. subst. specialize (S2 _ Hz). lia. }
    apply U; try apply distinct_sasc. intro x. rewrite !distinct_In, Hq by auto.
    unfold received. rewrite in_concat. split.
    - intros [s [i [Hi Hx]]]. assert (Hs : (s < length lens)%nat).
      { apply item_at_spec in Hx. destruct Hx as [[l [Hl _]] _]. eapply nth_error_Some_lt; eauto. }
      exists (map (glob lens s) (seg_of L s d)). split.
      + apply in_map_iff. exists s. split; auto. apply in_seq. lia.
      + apply in_map_iff. exists i. split; auto. apply item_at_spec in Hx. unfold glob. lia.
    - intros [l [Hl Hx]]. apply in_map_iff in Hl. destruct Hl as [s [<- Hs]]. apply in_seq in Hs.
      apply in_map_iff in Hx. destruct Hx as [i [<- Hi]]. exists s, i. split; auto.
      apply glob_item; [lia|]. eapply seg_of_valid; eauto. lia. }
  assert (Hn : forall d, (d < length lens)%nat ->
     nth d (map (received lens L) (seq 0 (length lens))) [] = received lens L d).
  { intros. apply nth_error_nth. rewrite nth_error_map_, nth_error_seq.
    destruct (Nat.ltb_spec d (length lens)); [reflexivity|lia]. }
  unfold expected.
  assert (E1 : rsegs lens (nth r (map (received lens L) (seq 0 (length lens))) []) = rsegs lens (nth r pulls [])).
  { unfold rsegs, reqs. rewrite Hn by lia. rewrite Ed by lia. reflexivity. }
  assert (E2 : psegs lens (map (received lens L) (seq 0 (length lens))) r = psegs lens pulls r).
  { unfold psegs. apply map_ext_in. intros d Hd. apply in_seq in Hd. unfold reqs.
    rewrite Hn, Ed by lia. reflexivity. }
  rewrite E1, E2. reflexivity.
Qed.

(** existence, for the lookups *)
Lemma push_lookup : forall lens L g ms r m s i q,
  pushes_ok lens L -> ascending_pushes L ->
  setup_push (map Z.of_nat lens) (map push_args L) = Ok (g, ms) ->
  nth_error ms r = Some m -> s <> r -> In i (seg_of L s r) -> item_at lens q = Some (s, i) ->
  exists k kr, nth_error (ghostIndex m) k = Some q /\
    search m q = Ok (Some (Z.of_nat s, Z.of_nat k)) /\
    search_indexAppend m q = Ok (Some (Z.of_nat s, Z.of_nat (nth r lens 0%nat + k))) /\
    search_indexRank m q = Ok (Some (Z.of_nat s, Z.of_nat kr)) /\
    mapIndex m (-1) (Z.of_nat (nth r lens 0%nat + k)) = Ok q /\
    mapIndex m (Z.of_nat s) (Z.of_nat kr) = Ok q.
Proof.
  intros lens L g ms r m s i q HL HA H Hm Hsr Hi Hq.
  pose proof (setup_push_inv _ _ _ _ HL H) as E. subst ms.
  rewrite nth_error_map_, nth_error_seq in Hm.
  destruct (Nat.ltb_spec r (length lens)) as [Hrl|]; [|discriminate]. simpl in Hm. injection Hm as <-.
  rewrite pexpected_expected by auto.
  set (pulls := map (received lens L) (seq 0 (length lens))).
  assert (Hs : (s < length lens)%nat).
  { apply item_at_spec in Hq. destruct Hq as [[l [Hl _]] _]. eapply nth_error_Some_lt; eauto. }
  apply (lookup_ghost_exp lens pulls r (received lens L r) q s i); auto.
  - unfold pulls. rewrite map_length, seq_length. auto.
  - apply Forall_forall. intros pl Hp. apply in_map_iff in Hp. destruct Hp as [d [<- Hd]].
    apply Forall_forall. intros x Hx. apply in_concat in Hx. destruct Hx as [l [Hl Hx]].
    apply in_map_iff in Hl. destruct Hl as [t [<- Ht]]. apply in_seq in Ht.
    apply in_map_iff in Hx. destruct Hx as [j [<- Hj]]. unfold valid. rewrite glob_item; [congruence|lia|].
    eapply seg_of_valid; eauto. lia.
  - unfold pulls. rewrite nth_error_map_, nth_error_seq.
    destruct (Nat.ltb_spec r (length lens)); [reflexivity|lia].
  - unfold received. apply in_concat. exists (map (glob lens s) (seg_of L s r)). split.
    + apply in_map_iff. exists s. split; auto. apply in_seq. lia.
    + apply in_map_iff. exists i. split; auto. apply item_at_spec in Hq. unfold glob. lia.
Qed.

Lemma narrow32_ok : forall x, 0 <= x <= int32_max -> narrow32 x = Ok x.
Proof.
  intros. unfold narrow32, in_int32, int32_min in *.
  destruct (Z.leb_spec (-2^31) x); [|lia]. destruct (Z.leb_spec x int32_max); [reflexivity|lia].
Qed.

Lemma accumulate32_total : forall l a, 0 <= a -> Forall (fun x => 0 <= x) l -> a + zsum l <= int32_max ->
  exists st, accumulate32 a l = Ok st.
Proof.
  induction l as [|x l IH]; intros a Ha Hl Hs; cbn [accumulate32]; eauto.
  inversion Hl; subst. unfold zsum in *. simpl in Hs.
  assert (0 <= fold_right Z.add 0 l) by (clear -H2; induction H2; simpl; lia).
  rewrite narrow32_ok by lia. cbn [bind]. destruct (IH (a + x)) as [st Hst]; auto; try lia.
  rewrite Hst. cbn [bind]. eauto.
Qed.

Lemma zlen_nonneg : forall A (l : list A), 0 <= zlen l.
Proof. intros. unfold zlen. lia. Qed.

Lemma psums_bound : forall A (ss : list (list A)) x, In x (psums 0 (zlensl ss)) ->
  0 <= x <= zlen (concat ss).
Proof.
  intros. apply In_nth_error in H. destruct H as [i Hi].
  assert (i <= length ss)%nat.
  { apply nth_error_Some_lt in Hi. rewrite psums_length in Hi. unfold zlensl in Hi. rewrite map_length in Hi. lia. }
  rewrite zlensl_psums_nth in Hi by auto. injection Hi as <-.
  split; [apply zlen_nonneg|]. rewrite <- (firstn_skipn i ss) at 2. rewrite concat_app. unfold zlen.
  rewrite app_length. lia.
Qed.

Lemma push_local_total : forall lens s dests, (s < length lens)%nat -> length dests = length lens ->
  Forall (Forall (fun i => (i < nth s lens 0)%nat)) dests -> zlen (concat dests) <= int32_max ->
  exists t, push_local (gom lens) (length lens) (Z.of_nat s) (push_args dests) = Ok t.
Proof.
  intros lens s dests Hs Hl Hv Hb. unfold push_local, push_args. rewrite starts_psums.
  assert (E : zlen (psums 0 (zlensl dests)) = Z.of_nat (length lens) + 1).
  { unfold zlen. rewrite psums_length. unfold zlensl. rewrite map_length. lia. }
  rewrite E, Z.eqb_refl. cbn [assert_ bind].
  rewrite (vget_of_nat _ _ _ _ (zlensl_psums_nth _ dests (length lens) ltac:(lia))). cbn [bind].
  rewrite firstn_all2 by lia. unfold zlen at 1 2. rewrite map_length, Z.eqb_refl. cbn [assert_ bind].
  set (f := fun i => do b <- vget (psums 0 (zlensl dests)) (i + 1);
                     do a <- vget (psums 0 (zlensl dests)) i; narrow32 (b - a)).
  destruct (mapM_Ok_ex _ _ f (ranks (length lens))) as [sz Hsz].
  { intros x Hx. unfold ranks in Hx. apply in_map_iff in Hx. destruct Hx as [i [<- Hi]]. apply in_seq in Hi.
    unfold f. replace (Z.of_nat i + 1) with (Z.of_nat (S i)) by lia.
    rewrite (vget_of_nat _ _ _ _ (zlensl_psums_nth _ dests (S i) ltac:(lia))). cbn [bind].
    rewrite (vget_of_nat _ _ _ _ (zlensl_psums_nth _ dests i ltac:(lia))). cbn [bind].
    destruct (nth_error_lt_Some _ dests i ltac:(lia)) as [x Hx].
    rewrite (concat_firstn_S _ _ _ _ Hx).
    exists (zlen x). replace (zlen (concat (firstn i dests) ++ x) - zlen (concat (firstn i dests))) with (zlen x)
      by (unfold zlen; rewrite app_length; lia).
    apply narrow32_ok. split; [apply zlen_nonneg|].
    rewrite (concat_split _ _ _ _ Hx) in Hb. unfold zlen in *. rewrite !app_length in Hb. lia. }
  rewrite Hsz. cbn [bind].
  destruct (mapM_Ok_ex _ _ narrow32 (tl (psums 0 (zlensl dests)))) as [en Hen].
  { intros x Hx. exists x. apply narrow32_ok.
    assert (In x (psums 0 (zlensl dests))) by (destruct (psums 0 (zlensl dests)); simpl in *; auto).
    apply psums_bound in H. lia. }
  rewrite Hen. cbn [bind].
  destruct (mapM_Ok_ex _ _ (fun i => toGlobal (gom lens) (Z.of_nat s) i) (map Z.of_nat (concat dests))) as [gl Hgl].
  { intros x Hx. apply in_map_iff in Hx. destruct Hx as [i [<- Hi]].
    apply in_concat in Hi. destruct Hi as [l [Hl' Hi]]. rewrite Forall_forall in Hv. specialize (Hv _ Hl').
    rewrite Forall_forall in Hv. specialize (Hv _ Hi). eexists. apply toGlobal_gom; lia. }
  rewrite Hgl. cbn [bind]. eauto.
Qed.

Lemma concat_le : forall A (ll : list (list A)) x, In x ll -> zlen x <= zlen (concat ll).
Proof.
  intros. apply In_nth_error in H. destruct H as [i Hi]. rewrite (concat_split _ _ _ _ Hi).
  unfold zlen. rewrite !app_length. lia.
Qed.

Lemma recv_total_le : forall lens L r, length L = length lens ->
  zlen (concat (map (fun s => map (glob lens s) (seg_of L s r)) (seq 0 (length lens)))) <=
  zlen (concat (concat L)).
Proof.
  intros lens L r HL.
  assert (G : forall k, (k <= length L)%nat ->
    zlen (concat (map (fun s => map (glob lens s) (seg_of L s r)) (seq 0 k))) <=
    zlen (concat (concat (firstn k L)))).
  { induction k; intro Hk; [simpl; unfold zlen; simpl; lia|]. rewrite seq_S, map_app, concat_app.
    destruct (nth_error_lt_Some _ L k ltac:(lia)) as [dests Hd].
    rewrite (concat_firstn_S _ _ _ _ Hd), concat_app. cbn [map concat plus]. rewrite app_nil_r.
    specialize (IHk ltac:(lia)). unfold zlen in *. rewrite !app_length, map_length.
    unfold seg_of at 2. rewrite (nth_error_nth _ _ _ Hd).
    destruct (nth_error dests r) as [l|] eqn:E.
    - rewrite (nth_error_nth _ _ _ E). pose proof (concat_le _ _ _ (nth_error_In _ _ E)). unfold zlen in *. lia.
    - rewrite (nth_overflow dests) by (apply nth_error_None; auto). simpl. lia. }
  specialize (G (length L) ltac:(lia)). rewrite firstn_all in G. rewrite HL in G. exact G.
Qed.

Lemma setup_push_total : forall lens L, pushes_ok lens L ->
  Z.of_nat (list_sum lens) <= int64_max -> zlen (concat (concat L)) <= int32_max ->
  exists g ms, setup_push (map Z.of_nat lens) (map push_args L) = Ok (g, ms).
Proof.
  intros lens L HL Hs Hb. unfold setup_push. fold (zlens lens).
  rewrite align_Ok by auto. cbn [bind]. unfold zlens. rewrite own_ranges_gom. cbn [bind].
  unfold construct_push. pose proof HL as HL0. destruct HL as [HL Hd]. rewrite map_length, HL.
  set (P := length lens).
  set (ps := fun r => map (fun d => map (glob lens r) (seg_of L r d)) (seq 0 P)).
  set (gs := fun r => map (fun s => map (glob lens s) (seg_of L s r)) (seq 0 P)).
  assert (Eloc : mapM (fun rp : Z * (list Z * list Z) => push_local (gom lens) P (fst rp) (snd rp))
      (combine (ranks P) (map push_args L)) =
      Ok (map (fun r => (zlensl (ps r), psums 0 (zlensl (ps r)), concat (ps r))) (seq 0 P))).
  { apply mapM_intro.
    - rewrite combine_length, ranks_length, !map_length, seq_length. unfold P. lia.
    - intros r [rz a] y Hx Hy. rewrite nth_error_combine in Hx.
      rewrite nth_error_map_, nth_error_seq in Hy. destruct (Nat.ltb_spec r P) as [Hr|]; [|discriminate].
      simpl in Hy. injection Hy as <-. rewrite ranks_nth, nth_error_map_ in Hx by auto.
      destruct (nth_error L r) as [dests|] eqn:Hdests; [|discriminate]. simpl in Hx. injection Hx as <- <-.
      cbn [fst snd]. destruct (Hd _ _ Hdests) as [H1 H2].
      assert (Hb' : zlen (concat dests) <= int32_max).
      { rewrite (concat_split _ _ _ _ Hdests), !concat_app in Hb. unfold zlen in *. rewrite !app_length in Hb. lia. }
      destruct (push_local_total lens r dests Hr H1 H2 Hb') as [t Ht].
      unfold P. rewrite Ht. apply push_local_inv in Ht; auto. rewrite Ht.
      rewrite (gsegs_seq _ _ _ _ P Hdests H1). reflexivity. }
  rewrite Eloc. cbn [bind]. rewrite !map_map. cbn [fst snd].
  assert (Esz : map (fun r => zlensl (ps r)) (seq 0 P) =
     map (fun s => map (fun r => zlen (map (glob lens s) (seg_of L s r))) (seq 0 P)) (seq 0 P)).
  { apply map_ext. intro r. unfold zlensl, ps. rewrite map_map. reflexivity. }
  rewrite Esz, alltoall_spec. cbn [bind].
  assert (Epsz : map (fun r => map (fun s => zlen (map (glob lens s) (seg_of L s r))) (seq 0 P)) (seq 0 P) =
     map (fun r => zlensl (gs r)) (seq 0 P)).
  { apply map_ext. intro r. unfold zlensl, gs. rewrite map_map. reflexivity. }
  rewrite Epsz, <- Esz.
  assert (Epst : mapM (accumulate32 0) (map (fun r => zlensl (gs r)) (seq 0 P)) =
     Ok (map (fun r => psums 0 (zlensl (gs r))) (seq 0 P))).
  { apply mapM_intro; [rewrite !map_length; auto|]. intros r x y Hx Hy.
    rewrite nth_error_map_, nth_error_seq in Hx, Hy. destruct (Nat.ltb_spec r P); [|discriminate].
    simpl in Hx, Hy. injection Hx as <-. injection Hy as <-.
    destruct (accumulate32_total (zlensl (gs r)) 0) as [st Hst]; [lia|apply zlensl_nonneg| |].
    - rewrite zsum_zlensl. pose proof (recv_total_le lens L r HL). unfold gs, P. lia.
    - rewrite Hst. f_equal. apply accumulate32_Ok in Hst. auto. }
  rewrite Epst. cbn [bind].
  rewrite combine_map_seq, map_map. cbn [fst snd].
  rewrite (alltoallv_spec Z P (fun s r => map (glob lens s) (seg_of L s r))).
  - cbn [bind]. eauto.
  - rewrite map_length, seq_length. reflexivity.
  - rewrite map_length, seq_length. reflexivity.
  - intros s x Hx. rewrite nth_error_map_, nth_error_seq in Hx.
    destruct (Nat.ltb_spec s P); [|discriminate]. simpl in Hx. injection Hx as <-. simpl. auto.
  - intros r w Hw. rewrite nth_error_map_, nth_error_seq in Hw.
    destruct (Nat.ltb_spec r P); [|discriminate]. simpl in Hw. injection Hw as <-. simpl.
    rewrite repeat_length, last_psums, zsum_zlensl, Z.add_0_l. unfold zlen. rewrite Nat2Z.id. auto.
Qed.

(** the lookup fails on lists that are not ascending *)
Lemma push_lookup_unsorted :
  exists lens L g ms m q s i, pushes_ok lens L /\
    setup_push (map Z.of_nat lens) (map push_args L) = Ok (g, ms) /\
    nth_error ms 1 = Some m /\ s <> 1%nat /\ In i (seg_of L s 1) /\ item_at lens q = Some (s, i) /\
    In q (ghostIndex m) /\ search_indexAppend m q = Ok None.
Proof.
  exists [2; 1]%nat, [[[]; [1; 0]%nat]; [[]; []]].
  do 2 eexists. eexists. exists 1, 0%nat, 1%nat. split.
  - split; auto. intros s dests H. destruct s as [|[|s]]; simpl in H.
    + injection H as <-. split; [reflexivity|repeat constructor].
    + injection H as <-. split; [reflexivity|repeat constructor].
    + destruct s; discriminate.
  - split; [vm_compute; reflexivity|]. split; [vm_compute; reflexivity|].
    repeat split; try (vm_compute; auto; fail); try lia.
Qed.
