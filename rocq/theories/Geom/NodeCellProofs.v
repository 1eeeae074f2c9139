(** Proofs about the inversion of the relation from cells to nodes. *)
From Coq Require Import List ZArith Lia Bool Arith Permutation.
From Verif Require Import Base.Prelude Base.PreludeFacts Base.MPIModel Base.MPIFacts DNDS.DefinesModel
  DNDS.IndexMappingModel DNDS.IndexMappingSpec DNDS.IndexMappingProofs DNDS.GhostPullProofs
  DNDS.GhostSearchProofs DNDS.GhostPushProofs DNDS.ExchangeSpec
  Geom.AdjModel Geom.AdjSpec Geom.AdjProofs Geom.NodeCellModel Geom.NodeCellSpec.
Import ListNotations.
Local Open Scope Z_scope.

(** ** Parts of a sequence of places *)

Definition offs {A} (gs : list (list A)) : list (list nat) :=
  map (fun r => seq (length (concat (firstn r gs))) (length (nth r gs []))) (seq 0 (length gs)).

Lemma offs_length A (gs : list (list A)) : length (offs gs) = length gs.
Proof. unfold offs. now rewrite map_length, seq_length. Qed.

Lemma offs_nth A (gs : list (list A)) r g : nth_error gs r = Some g ->
  nth_error (offs gs) r = Some (seq (length (concat (firstn r gs))) (length g)).
Proof.
  intro H. unfold offs. rewrite nth_error_map_, nth_error_seq.
  pose proof (nth_error_Some_lt _ _ _ _ H). destruct (Nat.ltb_spec r (length gs)); [|lia].
  cbn. now rewrite (nth_error_nth _ _ [] H).
Qed.

Lemma offs_cons A (g : list A) gs :
  offs (g :: gs) = seq 0 (length g) :: map (map (Nat.add (length g))) (offs gs).
Proof.
  unfold offs. cbn [length seq map firstn concat nth]. f_equal.
  rewrite <- seq_shift, !map_map. apply map_ext. intro r. cbn [firstn concat nth].
  rewrite app_length.
  assert (E : forall k n a, map (Nat.add a) (seq k n) = seq (a + k) n).
  { intros k n a. revert k. induction n; intro k; cbn; [reflexivity|]. rewrite IHn. f_equal. f_equal. lia. }
  now rewrite E.
Qed.

Lemma offs_concat A (gs : list (list A)) : concat (offs gs) = seq 0 (length (concat gs)).
Proof.
  induction gs as [|g gs IH]; [reflexivity|]. rewrite offs_cons. cbn [concat].
  rewrite concat_map_map, IH, app_length, seq_app. f_equal.
  generalize (length (concat gs)). intro n. cbn [Nat.add].
  assert (E : forall k, map (Nat.add (length g)) (seq k n) = seq (length g + k) n).
  { induction n; intro k; cbn; [reflexivity|]. rewrite IHn. f_equal. f_equal. lia. }
  rewrite E. f_equal. lia.
Qed.

Lemma offs_zlensl A (gs : list (list A)) : zlensl (offs gs) = zlensl gs.
Proof.
  apply nth_error_ext. intro i. unfold zlensl. rewrite !nth_error_map_.
  destruct (nth_error gs i) as [g|] eqn:E.
  - rewrite (offs_nth _ _ _ _ E). cbn. unfold zlen. now rewrite seq_length.
  - assert (nth_error (offs gs) i = None) as ->; [|reflexivity].
    apply nth_error_None. rewrite offs_length. now apply nth_error_None.
Qed.

Lemma push_args_offs A (gs : list (list A)) :
  push_args (offs gs) = (ranks (length (concat gs)), psums 0 (zlensl gs)).
Proof.
  unfold push_args. rewrite offs_concat. f_equal.
  rewrite <- offs_zlensl. apply starts_psums.
Qed.

Lemma ranks_spec n : ranks n = map Z.of_nat (seq 0 n).
Proof. reflexivity. Qed.

(** ** Sending the rows of the sons back to the owners *)

Lemma In_combine_nth A B (a : list A) (b : list B) x y :
  In (x, y) (combine a b) <-> exists k, nth_error a k = Some x /\ nth_error b k = Some y.
Proof.
  split.
  - intro H. apply In_nth_error in H. destruct H as (k & H). rewrite nth_error_combine in H.
    destruct (nth_error a k) eqn:E1; [|discriminate]. destruct (nth_error b k) eqn:E2; [|discriminate].
    injection H as -> ->. eauto.
  - intros (k & Ha & Hb). apply (nth_error_In _ k). rewrite nth_error_combine, Ha, Hb. reflexivity.
Qed.

Lemma combine_concat A B (aa : list (list A)) (bb : list (list B)) :
  map (@length A) aa = map (@length B) bb ->
  combine (concat aa) (concat bb) = concat (map (fun p => combine (fst p) (snd p)) (combine aa bb)).
Proof.
  revert bb. induction aa as [|a aa IH]; intros [|b bb] H; try discriminate; [reflexivity|].
  cbn [map concat combine fst snd] in *. injection H as H1 H2. rewrite <- IH by exact H2.
  clear - H1. revert b H1. induction a as [|x a IH]; intros [|y b] H; try discriminate; [reflexivity|].
  cbn. f_equal. apply IH. now injection H.
Qed.

Section Back.
  Variables (lens : list nat) (pulls : list (list Z)) (ms : list ghostmap).
  Hypothesis B : built lens pulls ms.
  Variable rows : list (list (list Z)).
  Hypothesis Hrows : map zlen rows = map (fun m => zlen (ghostIndex m)) ms.

  Let L := map (fun m_r => offs (rsegs lens (nth m_r pulls []))) (seq 0 (length lens)).
  Let rlens := map (@length (list Z)) rows.

  Lemma back_ms_length : length ms = length lens.
  Proof. destruct (built_inv _ _ _ B) as (_ & _ & ->). now rewrite map_length, seq_length. Qed.
  Lemma back_rows_length : length rows = length lens.
  Proof. rewrite <- back_ms_length. pose proof (f_equal (@length Z) Hrows) as H. now rewrite !map_length in H. Qed.

  Lemma back_row_len s : (s < length lens)%nat ->
    length (nth s rows []) = length (concat (rsegs lens (nth s pulls []))).
  Proof.
    intro Hs. pose proof (f_equal (fun l => nth_error l s) Hrows) as H. cbv beta in H. rewrite !nth_error_map_ in H.
    destruct (nth_error_lt_Some _ rows s) as (r & Er); [rewrite back_rows_length; auto|].
    destruct (nth_error_lt_Some _ ms s) as (m & Em); [rewrite back_ms_length; auto|].
    rewrite Er, Em in H. cbn [option_map] in H. injection H as H. rewrite (nth_error_nth _ _ _ Er).
    destruct (built_nth _ _ _ _ _ B Em) as (_ & -> & _). unfold zlen in H. cbn [expected ghostIndex] in H. lia.
  Qed.

  Lemma back_L : map (fun x => (ranks (length (fst x)), ghostStart (snd x))) (combine rows ms) = map push_args L.
  Proof.
    apply nth_error_ext. intro s. rewrite !nth_error_map_, nth_error_combine. unfold L.
    rewrite nth_error_map_, nth_error_seq.
    destruct (Nat.ltb_spec s (length lens)) as [Hs|Hs].
    - destruct (nth_error_lt_Some _ rows s) as (r & Er); [rewrite back_rows_length; auto|].
      destruct (nth_error_lt_Some _ ms s) as (m & Em); [rewrite back_ms_length; auto|].
      rewrite Er, Em. cbn [option_map Nat.add fst snd]. rewrite push_args_offs.
      rewrite <- back_row_len by auto. rewrite (nth_error_nth _ _ _ Er).
      destruct (built_nth _ _ _ _ _ B Em) as (_ & -> & _). reflexivity.
    - assert (nth_error rows s = None) as ->; [|reflexivity].
      apply nth_error_None. rewrite back_rows_length. auto.
  Qed.

  Lemma back_sizes : map zlen rows = map Z.of_nat rlens.
  Proof. unfold rlens. now rewrite map_map. Qed.

  Lemma rlens_length : length rlens = length lens.
  Proof. unfold rlens. rewrite map_length. apply back_rows_length. Qed.

  Lemma rlens_nth s : nth s rlens 0%nat = length (nth s rows []).
  Proof. unfold rlens. change 0%nat with (@length (list Z) []). now rewrite map_nth. Qed.

  Lemma back_ok : pushes_ok rlens L.
  Proof.
    split; [unfold L; rewrite map_length, seq_length; symmetry; apply rlens_length|].
    intros s dests H. unfold L in H. rewrite nth_error_map_, nth_error_seq in H.
    destruct (Nat.ltb_spec s (length lens)) as [Hs|]; [|discriminate]. cbn in H. injection H as <-.
    split; [rewrite offs_length, rsegs_length; symmetry; apply rlens_length|].
    apply Forall_forall. intros l Hl. apply Forall_forall. intros i Hi.
    rewrite rlens_nth, back_row_len by auto.
    assert (X : In i (concat (offs (rsegs lens (nth s pulls []))))) by (apply in_concat; eauto).
    rewrite offs_concat in X. apply in_seq in X. lia.
  Qed.

  Lemma back_seg s r : (s < length lens)%nat -> (r < length lens)%nat ->
    seg_of L s r = seq (length (concat (firstn r (rsegs lens (nth s pulls []))))) (length (reqs lens (nth s pulls []) r)).
  Proof.
    intros Hs Hr. unfold seg_of, L.
    rewrite (nth_error_nth _ s (x := offs (rsegs lens (nth s pulls [])))).
    - apply nth_error_nth. rewrite (offs_nth _ _ r (reqs lens (nth s pulls []) r)); [reflexivity|].
      now apply rsegs_nth.
    - rewrite nth_error_map_, nth_error_seq. destruct (Nat.ltb_spec s (length lens)); [reflexivity|lia].
  Qed.

  Variables (gp : gomap) (mps : list ghostmap).
  Hypothesis Hpush : setup_push (map zlen rows)
    (map (fun x => (ranks (length (fst x)), ghostStart (snd x))) (combine rows ms)) = Ok (gp, mps).

  Lemma back_gp : setMPIAlignBcast (map Z.of_nat rlens) = Ok gp.
  Proof.
    pose proof Hpush as H. rewrite back_sizes in H. unfold setup_push in H. inv_bind. subst. auto.
  Qed.

  (** the part of the rows of rank [s] for rank [r] *)
  Definition rpart s r : list (list Z) :=
    map (fun i => nth i (nth s rows []) []) (seg_of L s r).

  Lemma back_past r mp past : nth_error mps r = Some mp -> pull_rows gp rows mp = Ok past ->
    (r < length lens)%nat /\ past = concat (map (fun s => rpart s r) (seq 0 (length lens))).
  Proof.
    intros Hm H. pose proof Hpush as Hp. rewrite back_sizes, back_L in Hp.
    apply setup_push_inv in Hp; [|apply back_ok]. rewrite Hp in Hm.
    rewrite nth_error_map_, nth_error_seq, rlens_length in Hm.
    destruct (Nat.ltb_spec r (length lens)) as [Hr|]; [|discriminate]. cbn [option_map Nat.add] in Hm.
    injection Hm as <-. split; [exact Hr|].
    unfold pull_rows in H. cbn [pexpected ghostIndex] in H. rewrite rlens_length in H.
    revert past H.
    assert (Hin : forall s, In s (seq 0 (length lens)) -> (s < length lens)%nat) by (intros s X; apply in_seq in X; lia).
    revert Hin. generalize (seq 0 (length lens)). intros l Hin.
    induction l as [|s l IH]; intros past H.
    - cbn in H. injection H as <-. reflexivity.
    - cbn [map concat] in H |- *.
      assert (S1 : forall q0 i, In i (seg_of L s r) -> q0 = glob rlens s i -> gsearch gp q0 = Some (Z.of_nat s, Z.of_nat i)).
      { intros q0 i Hi ->. rewrite (search_spec _ _ _ back_gp).
        rewrite glob_item; [reflexivity|rewrite rlens_length; apply Hin; now left|].
        eapply seg_of_valid; [apply back_ok|rewrite rlens_length; apply Hin; now left|eauto]. }
      assert (S2 : forall i, In i (seg_of L s r) -> (i < length (nth s rows []))%nat).
      { intros i Hi. rewrite <- rlens_nth. eapply seg_of_valid; [apply back_ok|rewrite rlens_length; apply Hin; now left|eauto]. }
      unfold rpart at 1. revert past H S1 S2. generalize (seg_of L s r). intros seg.
      induction seg as [|i seg IHs]; intros past H S1 S2.
      + cbn [map app] in H |- *. apply IH; [intros; apply Hin; now right|exact H].
      + cbn [map app mapM] in H |- *. rewrite (S1 _ i (or_introl eq_refl) eq_refl) in H.
        apply bind_Ok in H. destruct H as (row & Hrow & H). apply bind_Ok in H. destruct H as (t & Ht & E).
        injection E as <-. f_equal.
        * apply bind_Ok in Hrow. destruct Hrow as (l0 & Hl0 & Hrow).
          apply vget_Ok in Hl0. destruct Hl0 as (_ & Hl0). rewrite Nat2Z.id in Hl0.
          apply vget_Ok in Hrow. destruct Hrow as (_ & Hrow). rewrite Nat2Z.id in Hrow.
          rewrite (nth_error_nth _ _ _ Hl0). symmetry. now apply nth_error_nth.
        * apply IHs; [exact Ht|intros; apply S1; [now right|auto]|intros; apply S2; now right].
  Qed.

  Lemma back_pairs r m mp past q row : nth_error ms r = Some m -> nth_error mps r = Some mp ->
    pull_rows gp rows mp = Ok past ->
    length past = length (pushingIndexGlobal m) /\
    (In (q, row) (combine (pushingIndexGlobal m) past) <->
     owned_by lens r q /\ exists s m' k, nth_error ms s = Some m' /\ nth_error (ghostIndex m') k = Some q /\
       nth_error (nth s rows []) k = Some row).
  Proof.
    intros Hm Hmp Hp. destruct (back_past _ _ _ Hmp Hp) as (Hr & ->).
    destruct (built_nth _ _ _ _ _ B Hm) as (_ & -> & Hv & Hl).
    cbn [expected pushingIndexGlobal]. unfold psegs.
    assert (EL : forall s, In s (seq 0 (length lens)) ->
      length (rpart s r) = length (reqs lens (nth s pulls []) r)).
    { intros s Hs. apply in_seq in Hs. unfold rpart. rewrite map_length, back_seg, seq_length by lia. reflexivity. }
    assert (EM : map (@length Z) (map (fun s => reqs lens (nth s pulls []) r) (seq 0 (length lens)))
               = map (@length (list Z)) (map (fun s => rpart s r) (seq 0 (length lens)))).
    { rewrite !map_map. apply map_ext_in. intros s Hs. symmetry. now apply EL. }
    split.
    { apply (f_equal list_sum) in EM. clear - EM.
      assert (forall C (l : list (list C)), list_sum (map (@length C) l) = length (concat l)) as E.
      { induction l; cbn; [reflexivity|]. rewrite app_length, <- IHl. reflexivity. }
      rewrite !E in EM. congruence. }
    rewrite combine_concat by exact EM. rewrite in_concat.
    assert (RV : forall s, (s < length lens)%nat -> Forall (valid lens) (nth s pulls [])).
    { intros s Hs. rewrite Forall_forall in Hv. apply Hv. apply nth_In. lia. }
    split.
    - intros (l & Hl1 & Hq). apply in_map_iff in Hl1. destruct Hl1 as ((a, b) & <- & Hab). cbn [fst snd] in Hq.
      apply In_combine_nth in Hab. destruct Hab as (s & Ha & Hb). rewrite nth_error_map_, nth_error_seq in Ha, Hb.
      destruct (Nat.ltb_spec s (length lens)) as [Hs|]; [|discriminate]. cbn [option_map Nat.add] in Ha, Hb.
      injection Ha as <-. injection Hb as <-.
      apply In_combine_nth in Hq. destruct Hq as (v & Ha & Hb).
      assert (Hin : In q (reqs lens (nth s pulls []) r)) by (eapply nth_error_In; eauto).
      unfold reqs in Hin. apply filter_In in Hin. destruct Hin as (Hd & Ho). apply Nat.eqb_eq in Ho.
      apply (proj1 (distinct_In _ _)) in Hd. pose proof (RV s Hs) as V. rewrite Forall_forall in V.
      split; [apply owned_by_owner; auto|].
      destruct (nth_error_lt_Some _ ms s) as (m' & Em); [rewrite back_ms_length; auto|].
      exists s, m', (length (concat (firstn r (rsegs lens (nth s pulls [])))) + v)%nat.
      split; [exact Em|]. destruct (built_nth _ _ _ _ _ B Em) as (_ & -> & _). cbn [expected ghostIndex].
      assert (Lv : (v < length (reqs lens (nth s pulls []) r))%nat) by (eapply nth_error_Some_lt; eauto).
      split.
      + rewrite (nth_error_concat _ _ _ _ _ (rsegs_nth lens (nth s pulls []) r Hr) Lv). exact Ha.
      + unfold rpart in Hb. rewrite nth_error_map_, back_seg, nth_error_seq in Hb by auto.
        destruct (Nat.ltb_spec v (length (reqs lens (nth s pulls []) r))); [|lia].
        cbn [option_map] in Hb. injection Hb as <-. apply nth_error_nth'.
        rewrite back_row_len by auto.
        assert (X : nth_error (concat (rsegs lens (nth s pulls []))) (length (concat (firstn r (rsegs lens (nth s pulls [])))) + v) <> None).
        { rewrite (nth_error_concat _ _ _ _ _ (rsegs_nth lens (nth s pulls []) r Hr) Lv), Ha. discriminate. }
        now apply nth_error_Some in X.
    - intros (Ho & s & m' & k & Em & Hk & Hrow).
      destruct (built_nth _ _ _ _ _ B Em) as (Hs & -> & _). cbn [expected ghostIndex] in Hk.
      destruct (concat_pos _ _ _ _ Hk) as (r' & v & seg & _ & Hseg & Hv' & Ek).
      assert (Hr' : (r' < length lens)%nat).
      { apply nth_error_Some_lt in Hseg. now rewrite rsegs_length in Hseg. }
      rewrite rsegs_nth in Hseg by auto. injection Hseg as <-.
      assert (Hin : In q (reqs lens (nth s pulls []) r')) by (eapply nth_error_In; eauto).
      unfold reqs in Hin. apply filter_In in Hin. destruct Hin as (Hd & Ho'). apply Nat.eqb_eq in Ho'.
      apply (proj1 (distinct_In _ _)) in Hd. pose proof (RV s Hs) as V. rewrite Forall_forall in V.
      apply owned_by_owner in Ho; [|auto]. assert (r' = r) by congruence. clear Ho'. subst r'.
      exists (combine (reqs lens (nth s pulls []) r) (rpart s r)). split.
      + apply in_map_iff. exists (reqs lens (nth s pulls []) r, rpart s r). split; [reflexivity|].
        apply In_combine_nth. exists s. rewrite !nth_error_map_, nth_error_seq.
        destruct (Nat.ltb_spec s (length lens)); [|lia]. split; reflexivity.
      + apply In_combine_nth. exists v. split; [exact Hv'|].
        unfold rpart. rewrite nth_error_map_, back_seg, nth_error_seq by auto.
        pose proof (nth_error_Some_lt _ _ _ _ Hv').
        destruct (Nat.ltb_spec v (length (reqs lens (nth s pulls []) r))); [|lia]. cbn [option_map].
        rewrite <- Ek. f_equal. now apply nth_error_nth.
  Qed.
End Back.

(** ** The records *)

Lemma record_insert_In rec n c q d : In (q, d) (record_insert rec n c) <-> In (q, d) rec \/ (q = n /\ d = c).
Proof.
  unfold record_insert. destruct (in_dec pair_dec (n, c) rec) as [H|H].
  - split; [auto|]. intros [|[-> ->]]; auto.
  - rewrite in_app_iff. cbn. split; intros [|H1]; auto.
    + destruct H1 as [H1|[]]. injection H1 as <- <-. auto.
    + destruct H1 as [-> ->]. auto.
Qed.

Lemma record_insert_NoDup rec n c : NoDup rec -> NoDup (record_insert rec n c).
Proof.
  unfold record_insert. destruct (in_dec pair_dec (n, c) rec) as [H|H]; [auto|]. intro N.
  apply (Permutation_NoDup (l := (n, c) :: rec)); [apply Permutation_cons_append|]. now constructor.
Qed.

Lemma cells_of_In rec q c : In c (cells_of rec q) <-> In (q, c) rec.
Proof.
  unfold cells_of. rewrite in_map_iff. split.
  - intros ((n, d) & <- & H). apply filter_In in H. cbn [fst snd] in *. destruct H as (H & E).
    apply Z.eqb_eq in E. now subst.
  - intro H. exists (q, c). split; [reflexivity|]. apply filter_In. cbn. rewrite Z.eqb_refl. auto.
Qed.

Lemma cells_of_NoDup rec q : NoDup rec -> NoDup (cells_of rec q).
Proof.
  unfold cells_of. induction rec as [|(n, c) rec IH]; cbn; intro H; [constructor|].
  apply NoDup_cons_iff in H. destruct H as (H1 & H2). destruct (Z.eqb_spec n q) as [->|]; [|auto].
  cbn. constructor; [|auto]. intro H. apply cells_of_In in H. contradiction.
Qed.

Lemma nodes_of_In rec q : In q (nodes_of rec) <-> exists c, In (q, c) rec.
Proof.
  unfold nodes_of. rewrite nodup_In, in_map_iff. split.
  - intros ((n, c) & <- & H). eauto.
  - intros (c & H). exists (q, c). auto.
Qed.

Lemma indexed_length A (l : list A) : length (indexed l) = length l.
Proof. unfold indexed. rewrite combine_length, ranks_length. lia. Qed.

Lemma indexed_nth A (l : list A) k a : nth_error l k = Some a ->
  nth_error (indexed l) k = Some (Z.of_nat k, a).
Proof.
  intro H. unfold indexed. rewrite nth_error_combine, H, ranks_nth by (eapply nth_error_Some_lt; eauto). reflexivity.
Qed.

Lemma indexed_In A (l : list A) x : In x (indexed l) <->
  exists k a, nth_error l k = Some a /\ x = (Z.of_nat k, a).
Proof.
  split.
  - intro H. apply In_nth_error in H. destruct H as (k & H).
    destruct (nth_error_lt_Some _ l k) as (a & Ha).
    { apply nth_error_Some_lt in H. now rewrite indexed_length in H. }
    rewrite (indexed_nth _ _ _ _ Ha) in H. injection H as <-. eauto.
  - intros (k & a & H & ->). eapply nth_error_In. apply indexed_nth. exact H.
Qed.

Lemma noson_glob lens g r i : setMPIAlignBcast (map Z.of_nat lens) = Ok g -> (r < length lens)%nat ->
  (i < nth r lens 0)%nat ->
  IndexLocal2Global_NoSon g (Z.of_nat r) (Z.of_nat (nth r lens 0%nat)) (Z.of_nat i) = Ok (glob lens r i).
Proof.
  intros Hg Hr Hi. unfold IndexLocal2Global_NoSon. rewrite nonneg_not_unset by lia.
  destruct (Z.ltb_spec (Z.of_nat i) 0); [lia|].
  destruct (Z.ltb_spec (Z.of_nat i) (Z.of_nat (nth r lens 0%nat))); [|lia]. cbn [assert_ bind].
  apply align_inv in Hg. subst g. rewrite toGlobal_gom by (auto; lia). unfold glob. f_equal. lia.
Qed.

Section Local.
  Variables (nlens clens : list nat) (gn gc : gomap) (r : nat) (cells : list (list Z)).
  Hypothesis Hgn : setMPIAlignBcast (map Z.of_nat nlens) = Ok gn.
  Hypothesis Hgc : setMPIAlignBcast (map Z.of_nat clens) = Ok gc.
  Hypothesis Hr : (r < length clens)%nat.
  Hypothesis Hc : nth r clens 0%nat = length cells.

  Let step (ic : Z) (st : record * list Z) (iNode : Z) : res (record * list Z) :=
      match gsearch gn iNode with
      | None => Abort
      | Some (rank, _) =>
          do c <- IndexLocal2Global_NoSon gc (Z.of_nat r) (zlen cells) ic;
          Ok (record_insert (fst st) iNode c,
              if rank =? Z.of_nat r then snd st else snd st ++ [iNode])
      end.

  Lemma local_inner j (cell : list Z) : (j < length cells)%nat -> forall st st',
    foldM (step (Z.of_nat j)) st cell = Ok st' ->
    (NoDup (fst st) -> NoDup (fst st')) /\
    (forall q c, In (q, c) (fst st') <-> In (q, c) (fst st) \/ (In q cell /\ c = glob clens r j)) /\
    (forall q, In q (snd st') <-> In q (snd st) \/ (In q cell /\ ~ owned_by nlens r q)) /\
    (forall q, In q cell -> item_at nlens q <> None).
  Proof.
    intro Hj. induction cell as [|n cell IH]; intros st st' H.
    - cbn in H. injection H as <-. cbn. repeat split; try tauto; intros [|[[] _]]; auto.
    - cbn [foldM] in H. apply bind_Ok in H. destruct H as (st1 & H1 & H).
      unfold step in H1. rewrite (search_spec _ _ _ Hgn) in H1.
      destruct (item_at nlens n) as [[s v]|] eqn:E; [|discriminate].
      replace (zlen cells) with (Z.of_nat (nth r clens 0%nat)) in H1 by (unfold zlen; lia).
      rewrite (noson_glob clens gc r j Hgc Hr) in H1 by lia. cbn [bind] in H1. injection H1 as <-.
      destruct (IH _ _ H) as (A1 & A2 & A3 & A4). cbn [fst snd] in *.
      split; [intro N; apply A1; now apply record_insert_NoDup|].
      split; [|split].
      + intros q c. rewrite A2, record_insert_In. cbn [In]. intuition congruence.
      + assert (D : owned_by nlens r n <-> s = r).
        { unfold owned_by. rewrite E. split; [intros (w & Hw); congruence|intros ->; eauto]. }
        intro q. rewrite A3. cbn [In].
        destruct (Z.eqb_spec (Z.of_nat s) (Z.of_nat r)) as [Es|Es].
        * assert (s = r) by lia. split; [tauto|]. intros [|[[->|] ]]; try tauto.
        * rewrite in_app_iff. cbn [In]. assert (s <> r) by lia.
          split; [intros [[|[->|[]]]|]; tauto|]. intros [|[[->|] ]]; tauto.
      + intros q [<-|Hq]; [congruence|auto].
  Qed.

  Lemma local_spec rec gh : local_record gn gc (Z.of_nat r) cells = Ok (rec, gh) ->
    NoDup rec /\
    (forall q c, In (q, c) rec <-> exists j cell, nth_error cells j = Some cell /\ In q cell /\ c = glob clens r j) /\
    (forall q, In q gh <-> (exists cell, In cell cells /\ In q cell) /\ ~ owned_by nlens r q) /\
    (forall cell q, In cell cells -> In q cell -> item_at nlens q <> None).
  Proof.
    unfold local_record. fold step.
    assert (G : forall l, (forall x, In x l -> exists k a, (k < length cells)%nat /\ x = (Z.of_nat k, a)) ->
      forall st st', foldM (fun st ic => foldM (step (fst ic)) st (snd ic)) st l = Ok st' ->
      (NoDup (fst st) -> NoDup (fst st')) /\
      (forall q c, In (q, c) (fst st') <-> In (q, c) (fst st) \/
         exists j cell, In (Z.of_nat j, cell) l /\ In q cell /\ c = glob clens r j) /\
      (forall q, In q (snd st') <-> In q (snd st) \/
         (exists j cell, In (Z.of_nat j, cell) l /\ In q cell) /\ ~ owned_by nlens r q) /\
      (forall j cell q, In (Z.of_nat j, cell) l -> In q cell -> item_at nlens q <> None)).
    { induction l as [|x l IH]; intros Hl st st' H.
      - cbn in H. injection H as <-. split; [auto|]. split; [|split].
        + intros q c. split; [auto|]. intros [|(j & cell & [] & _)]; auto.
        + intros q. split; [auto|]. intros [|((j & cell & [] & _) & _)]; auto.
        + intros j cell q [].
      - cbn [foldM] in H. apply bind_Ok in H. destruct H as (st1 & H1 & H).
        destruct (Hl x (or_introl eq_refl)) as (k & a & Hk & ->). cbn [fst snd] in H1.
        destruct (local_inner k a Hk _ _ H1) as (A1 & A2 & A3 & A4).
        destruct (IH (fun y Hy => Hl y (or_intror Hy)) _ _ H) as (B1 & B2 & B3 & B4).
        split; [auto|]. split; [|split].
        + intros q c. rewrite B2, A2. split.
          * intros [[|[Hq ->]]|(j & cell & Hin & Hq & ->)]; [auto| |].
            -- right. exists k, a. split; [now left|auto].
            -- right. exists j, cell. split; [now right|auto].
          * intros [|(j & cell & [Hin|Hin] & Hq & ->)]; [auto| |].
            -- injection Hin as Hk' ->. apply Nat2Z.inj in Hk'. subst k. auto.
            -- right. eauto.
        + intros q. rewrite B3, A3. split.
          * intros [[|[Hq N]]|((j & cell & Hin & Hq) & N)]; [auto| |].
            -- right. split; [|auto]. exists k, a. split; [now left|auto].
            -- right. split; [|auto]. exists j, cell. split; [now right|auto].
          * intros [|((j & cell & [Hin|Hin] & Hq) & N)]; [auto| |].
            -- injection Hin as Hk' ->. auto.
            -- right. eauto.
        + intros j cell q [Hin|Hin] Hq.
          * injection Hin as Hk' ->. auto.
          * eauto. }
    intro H. destruct (G _ (fun x Hx => ltac:(apply indexed_In in Hx; destruct Hx as (k & a & H1 & ->);
      exists k, a; split; [eapply nth_error_Some_lt; eauto|reflexivity])) _ _ H) as (A1 & A2 & A3 & A4).
    cbn [fst snd] in *.
    assert (X : forall j cell, In (Z.of_nat j, cell) (indexed cells) <-> nth_error cells j = Some cell).
    { intros j cell. rewrite indexed_In. split.
      - intros (k & a & Hk & E). injection E as E ->. apply Nat2Z.inj in E. now subst.
      - intro Hj. eauto. }
    split; [apply A1; constructor|]. split; [|split].
    - intros q c. rewrite A2. split.
      + intros [[]|(j & cell & Hin & Hq)]. apply X in Hin. eauto.
      + intros (j & cell & Hj & Hq). right. exists j, cell. now rewrite X.
    - intros q. rewrite A3. split.
      + intros [[]|((j & cell & Hin & Hq) & N)]. apply X, nth_error_In in Hin. eauto.
      + intros ((cell & Hin & Hq) & N). right. split; [|auto]. apply In_nth_error in Hin. destruct Hin as (j & Hj).
        exists j, cell. now rewrite X.
    - intros cell q Hin Hq. apply In_nth_error in Hin. destruct Hin as (j & Hj). apply X in Hj. eauto.
  Qed.
End Local.

Lemma vset_Ok A (l : list A) k x l' : vset l (Z.of_nat k) x = Ok l' ->
  (k < length l)%nat /\ l' = upd k x l.
Proof.
  unfold vset. destruct ((Z.of_nat k <? 0) || (Z.of_nat (length l) <=? Z.of_nat k)) eqn:E; [discriminate|].
  intro H. injection H as <-. rewrite Nat2Z.id. split; [|reflexivity].
  apply orb_false_elim in E. destruct E as (_ & E). apply Z.leb_gt in E. lia.
Qed.

Lemma fill_son_spec ord lens pulls ms r m rec son :
  built lens pulls ms -> nth_error ms r = Some m ->
  (forall q, In q (nth r pulls []) -> ~ owned_by lens r q) ->
  (forall q, In q (nodes_of rec) -> In q (nth r pulls []) \/ owned_by lens r q) ->
  (forall q, In q (nth r pulls []) -> In q (nodes_of rec)) ->
  fill_son ord (Z.of_nat r) rec m = Ok son ->
  length son = length (ghostIndex m) /\
  forall k q, nth_error (ghostIndex m) k = Some q ->
    nth_error son k = Some (ord 0%nat (Z.of_nat r) q (cells_of rec q)).
Proof.
  intros B Hm D1 D2 D3 H.
  destruct (built_nth _ _ _ _ _ B Hm) as (Hr & Em & Hv & Hl).
  assert (SA : sasc (ghostIndex m)) by (subst m; apply gi_sasc; auto).
  assert (Inj : forall i j q, nth_error (ghostIndex m) i = Some q -> nth_error (ghostIndex m) j = Some q -> i = j).
  { intros i j q Hi Hj. destruct (lt_eq_lt_dec i j) as [[L|]|L]; auto; exfalso.
    - pose proof (SA _ _ _ _ L Hi Hj). lia.
    - pose proof (SA _ _ _ _ L Hj Hi). lia. }
  unfold fill_son in H.
  assert (G : forall ks, (forall q, In q ks -> In q (nth r pulls []) \/ owned_by lens r q) ->
    forall s s', length s = length (ghostIndex m) ->
    foldM (fun son k => do o <- search m k;
      match o with None => Abort | Some (rank, val) =>
        if 0 <=? rank then vset son val (ord 0%nat (Z.of_nat r) k (cells_of rec k)) else Ok son end) s ks = Ok s' ->
    length s' = length (ghostIndex m) /\
    forall k q, nth_error (ghostIndex m) k = Some q ->
      (In q ks -> nth_error s' k = Some (ord 0%nat (Z.of_nat r) q (cells_of rec q))) /\
      (~ In q ks -> nth_error s' k = nth_error s k)).
  { clear H. induction ks as [|n ks IH]; intros Hks s s' Ls H.
    - cbn in H. injection H as <-. split; [auto|]. intros k q _. split; [intros []|auto].
    - cbn [foldM] in H. apply bind_Ok in H. destruct H as (s1 & H1 & H).
      apply bind_Ok in H1. destruct H1 as (o & Ho & H1).
      assert (C : (exists v, In n (nth r pulls []) /\ nth_error (ghostIndex m) v = Some n /\
                    s1 = upd v (ord 0%nat (Z.of_nat r) n (cells_of rec n)) s /\ (v < length s)%nat)
                  \/ owned_by lens r n /\ s1 = s).
      { destruct (Hks n (or_introl eq_refl)) as [Hn|Hn].
        - left. assert (V : valid lens n).
          { rewrite Forall_forall in Hv. specialize (Hv (nth r pulls []) ltac:(apply nth_In; lia)).
            rewrite Forall_forall in Hv. auto. }
          unfold valid in V. destruct (item_at lens n) as [[sr v]|] eqn:E; [|contradiction].
          assert (sr <> r) by (intros ->; apply (D1 n Hn); exists v; auto).
          destruct (lookup_ghost lens pulls ms r m (nth r pulls []) n sr v B Hm) as (k & kr & K1 & K2 & _); auto.
          { apply nth_error_nth'. lia. }
          rewrite K2 in Ho. injection Ho as <-.
          destruct (Z.leb_spec 0 (Z.of_nat sr)); [|lia]. apply vset_Ok in H1. destruct H1 as (Hk & ->). eauto.
        - right. split; [auto|]. destruct Hn as (v & Hv').
          destruct (lookup_main lens pulls ms r m n v B Hm Hv') as (K & _).
          rewrite K in Ho. injection Ho as <-. cbn in H1. now injection H1. }
      assert (L1 : length s1 = length (ghostIndex m)).
      { destruct C as [(v & _ & _ & -> & _)|(_ & ->)]; [now rewrite upd_length|auto]. }
      destruct (IH (fun q Hq => Hks q (or_intror Hq)) _ _ L1 H) as (L2 & I2). split; [exact L2|].
      intros k q Hk. destruct (I2 k q Hk) as (J1 & J2).
      assert (HR : In q (nth r pulls [])) by (rewrite Em in Hk; apply nth_error_In in Hk; now apply gi_In in Hk).
      split.
      + intro Hin. destruct (in_dec Z.eq_dec q ks) as [Hq|Hq]; [auto|]. rewrite J2 by auto.
        destruct Hin as [<-|Hin]; [|contradiction].
        destruct C as [(v & _ & Hv' & -> & Lv)|(Ow & _)]; [|exfalso; apply (D1 n); auto].
        assert (v = k) by (eapply Inj; eauto). subst v. apply nth_error_upd_same. auto.
      + intro Hin. cbn [In] in Hin. rewrite J2 by tauto.
        destruct C as [(v & _ & Hv' & -> & Lv)|(_ & ->)]; [|auto].
        apply nth_error_upd_other. intros ->. apply Hin. left. congruence. }
  destruct (G _ D2 _ _ (repeat_length _ _) H) as (L & K). split; [exact L|].
  intros k q Hk. destruct (K k q Hk) as (K1 & _). apply K1. apply D3.
  rewrite Em in Hk. apply nth_error_In in Hk. now apply gi_In in Hk.
Qed.

Lemma add_cells n cs rec q d :
  In (q, d) (fold_left (fun rec c => record_insert rec n c) cs rec) <-> In (q, d) rec \/ (q = n /\ In d cs).
Proof.
  revert rec. induction cs as [|c cs IH]; intro rec; cbn [fold_left In].
  - intuition.
  - rewrite IH, record_insert_In. intuition congruence.
Qed.
Lemma add_cells_NoDup n cs rec : NoDup rec ->
  NoDup (fold_left (fun rec c => record_insert rec n c) cs rec).
Proof. revert rec. induction cs; intros rec H; cbn; auto using record_insert_NoDup. Qed.

Lemma add_past_spec rec m past rec' : add_past rec m past = Ok rec' -> NoDup rec ->
  NoDup rec' /\ forall q c, In (q, c) rec' <-> In (q, c) rec \/
    exists row, In (q, row) (combine (pushingIndexGlobal m) past) /\ In c row.
Proof.
  unfold add_past. intros H N. apply bind_Ok in H. destruct H as (u & _ & H). injection H as <-.
  revert rec N. generalize (combine (pushingIndexGlobal m) past). induction l as [|(n, row) l IH]; intros rec N.
  - cbn [fold_left In]. split; [auto|]. intros q c. split; [auto|]. intros [|(row & [] & _)]; auto.
  - cbn [fold_left fst snd In]. destruct (IH _ (add_cells_NoDup n row rec N)) as (A & B). split; [exact A|].
    intros q c. rewrite B, add_cells. split.
    + intros [[|[-> Hc]]|(row' & H & Hc)]; [auto| |].
      * right. exists row. auto.
      * right. exists row'. auto.
    + intros [|(row' & [H|H] & Hc)]; [auto| |].
      * injection H as -> ->. auto.
      * right. eauto.
Qed.

(** ** The whole inversion *)

Lemma zlens_map A (rows : list (list A)) : map zlen rows = map Z.of_nat (map (@length A) rows).
Proof. now rewrite map_map. Qed.

Lemma mapM_indexed A B (f : Z * A -> res B) l out : mapM f (indexed l) = Ok out ->
  length out = length l /\
  forall k a, nth_error l k = Some a -> exists b, f (Z.of_nat k, a) = Ok b /\ nth_error out k = Some b.
Proof.
  intro H. apply mapM_nth in H. destruct H as (L & H). rewrite indexed_length in L. split; [exact L|].
  intros k a Ha. apply (H k (Z.of_nat k, a)). now apply indexed_nth.
Qed.

Lemma has_node_iff c2n c q : has_node c2n c q <->
  exists s j cell, nth_error (nth s c2n []) j = Some cell /\ In q cell /\
    c = glob (map (@length (list Z)) c2n) s j.
Proof.
  unfold has_node, row_of. split.
  - intros (cell & H & Hq). destruct (item_at (map (@length (list Z)) c2n) c) as [[s j]|] eqn:E; [|discriminate].
    exists s, j, cell. split; [exact H|]. split; [exact Hq|]. apply item_at_spec in E. destruct E as (_ & ->).
    unfold glob. lia.
  - intros (s & j & cell & H & Hq & ->). exists cell. split; [|exact Hq].
    assert (Hs : (s < length c2n)%nat).
    { destruct (le_lt_dec (length c2n) s) as [L|L]; [|exact L]. rewrite nth_overflow in H by exact L. destruct j; discriminate. }
    rewrite glob_item; [exact H|now rewrite map_length|].
    change 0%nat with (@length (list Z) []). rewrite map_nth. eapply nth_error_Some_lt; eauto.
Qed.

Lemma inversion_spec ord nlens c2n n2c : any_order ord -> length nlens = length c2n ->
  GeneralCell2NodeToNode2Cell ord (map Z.of_nat nlens) c2n = Ok n2c ->
  inverse_of c2n n2c nlens.
Proof.
  intros HO Hn H. unfold GeneralCell2NodeToNode2Cell in H.
  apply bind_Ok in H. destruct H as (gn & Hgn & H).
  apply bind_Ok in H. destruct H as (gc & Hgc & H). rewrite zlens_map in Hgc.
  set (clens := map (@length (list Z)) c2n) in *.
  assert (Lc : length clens = length c2n) by (unfold clens; apply map_length).
  assert (Nc : forall s, nth s clens 0%nat = length (nth s c2n [])).
  { intro s. unfold clens. change 0%nat with (@length (list Z) []). now rewrite map_nth. }
  apply bind_Ok in H. destruct H as (loc & Hloc & H).
  apply mapM_indexed in Hloc. destruct Hloc as (Ll & Hloc). cbn [fst snd] in Hloc.
  apply bind_Ok in H. destruct H as ((g & ms) & Hs & H). cbn [fst snd] in H.
  set (pulls := map snd loc) in *.
  assert (B : built nlens pulls ms).
  { split; [unfold pulls; rewrite map_length; lia|eauto]. }
  assert (Lm : length ms = length nlens) by (destruct (built_inv _ _ _ B) as (_ & _ & ->); now rewrite map_length, seq_length).
  apply bind_Ok in H. destruct H as (sons & Hsons & H).
  apply mapM_indexed in Hsons. destruct Hsons as (Lsons & Hsons). cbn [fst snd] in Hsons.
  rewrite combine_length in Lsons.
  apply bind_Ok in H. destruct H as ((gp & mps) & Hp & H). cbn [fst snd] in H.
  apply bind_Ok in H. destruct H as (pasts & Hpasts & H). apply mapM_nth in Hpasts. destruct Hpasts as (Lp & Hpasts).
  apply bind_Ok in H. destruct H as (recs & Hrecs & H). apply mapM_nth in Hrecs. destruct Hrecs as (Lrecs & Hrecs).
  apply mapM_indexed in H. destruct H as (Lo & Hout). cbn [fst snd] in Hout.
  assert (Ge : forall r, (r < length c2n)%nat -> exists rec gh m son,
    nth_error loc r = Some (rec, gh) /\ nth_error ms r = Some m /\ nth_error sons r = Some son /\
    local_record gn gc (Z.of_nat r) (nth r c2n []) = Ok (rec, gh) /\ nth r pulls [] = gh /\
    fill_son ord (Z.of_nat r) rec m = Ok son).
  { intros r Hr. destruct (nth_error_lt_Some _ c2n r Hr) as (cells & Hcells).
    destruct (Hloc r cells Hcells) as ((rec, gh) & E1 & E2). cbn [fst snd] in E1.
    destruct (nth_error_lt_Some _ ms r ltac:(lia)) as (m & Em).
    destruct (Hsons r ((rec, gh), m)) as (son & F1 & F2).
    { rewrite nth_error_combine, E2, Em. reflexivity. }
    cbn [fst snd] in F1. exists rec, gh, m, son. rewrite (nth_error_nth _ _ _ Hcells).
    do 4 (split; [assumption|]). split; [|assumption].
    apply nth_error_nth. unfold pulls. rewrite nth_error_map_, E2. reflexivity. }
  assert (Son : forall r rec gh m son, (r < length c2n)%nat -> nth_error ms r = Some m ->
     local_record gn gc (Z.of_nat r) (nth r c2n []) = Ok (rec, gh) -> nth r pulls [] = gh ->
     fill_son ord (Z.of_nat r) rec m = Ok son ->
     length son = length (ghostIndex m) /\
     forall k q, nth_error (ghostIndex m) k = Some q ->
       nth_error son k = Some (ord 0%nat (Z.of_nat r) q (cells_of rec q))).
  { intros r rec gh m son Hr Em Hl Hg Hf.
    destruct (local_spec nlens clens gn gc r (nth r c2n []) Hgn Hgc ltac:(lia) (Nc r) rec gh Hl) as (N & R1 & R2 & R3).
    eapply fill_son_spec; eauto; rewrite Hg.
    - intros q Hq. now apply R2 in Hq.
    - intros q Hq. apply nodes_of_In in Hq. destruct Hq as (c & Hc). apply R1 in Hc.
      destruct Hc as (j & cell & Hj & Hq & _). pose proof (R3 cell q (nth_error_In _ _ Hj) Hq) as V.
      destruct (item_at nlens q) as [[s v]|] eqn:E; [|contradiction].
      destruct (Nat.eq_dec s r) as [->|Ns]; [right; exists v; auto|left]. apply R2.
      split; [exists cell; split; [eapply nth_error_In; eauto|auto]|].
      intros (w & Hw). rewrite E in Hw. injection Hw as <- _. contradiction.
    - intros q Hq. apply R2 in Hq. destruct Hq as ((cell & Hcell & Hq) & _). apply nodes_of_In.
      apply In_nth_error in Hcell. destruct Hcell as (j & Hj). exists (glob clens r j). apply R1. eauto. }
  assert (Hrows : map zlen sons = map (fun m => zlen (ghostIndex m)) ms).
  { apply nth_error_ext. intro r. rewrite !nth_error_map_. destruct (le_lt_dec (length c2n) r) as [L|L].
    - assert (nth_error sons r = None) as -> by (apply nth_error_None; lia).
      assert (nth_error ms r = None) as -> by (apply nth_error_None; lia). reflexivity.
    - destruct (Ge r L) as (rec & gh & m & son & _ & Em & Es & El & Eg & Ef). rewrite Em, Es. cbn. f_equal.
      destruct (Son _ _ _ _ _ L Em El Eg Ef) as (E & _). unfold zlen. lia. }
  assert (Lmp : length mps = length nlens).
  { pose proof Hp as Hp'. rewrite (back_sizes sons) in Hp'.
    rewrite (back_L nlens pulls ms B sons Hrows) in Hp'.
    apply setup_push_inv in Hp'; [|eapply back_ok; eauto]. rewrite Hp', map_length, seq_length, map_length. lia. }
  rewrite combine_length, combine_length in Lrecs.
  assert (Rec : forall r, (r < length c2n)%nat -> exists rec', nth_error recs r = Some rec' /\ NoDup rec' /\
     forall q c, owned_by nlens r q -> (In (q, c) rec' <-> has_node c2n c q)).
  { intros r Hr. destruct (Ge r Hr) as (rec & gh & m & son & E1 & Em & Es & El & Eg & Ef).
    destruct (nth_error_lt_Some _ mps r ltac:(lia)) as (mp & Emp).
    destruct (Hpasts r mp Emp) as (past & P1 & P2).
    destruct (Hrecs r ((rec, gh), (m, past))) as (rec' & A1 & A2).
    { rewrite !nth_error_combine, E1, Em, P2. reflexivity. }
    cbn [fst snd] in A1.
    destruct (local_spec nlens clens gn gc r (nth r c2n []) Hgn Hgc ltac:(lia) (Nc r) rec gh El) as (N & R1 & R2 & R3).
    destruct (add_past_spec _ _ _ _ A1 N) as (N' & I). exists rec'. split; [exact A2|]. split; [exact N'|].
    intros q c Hq. rewrite I, has_node_iff. fold clens. split.
    - intros [Hl|(row & Hrow & Hc)].
      + apply R1 in Hl. destruct Hl as (j & cell & Hj & Hin & ->). exists r, j, cell. auto.
      + apply (back_pairs nlens pulls ms B sons Hrows gp mps Hp r m mp past q row Em Emp P1) in Hrow.
        destruct Hrow as (_ & s & m' & k & Em' & Hk & Hrow).
        assert (Hs' : (s < length c2n)%nat) by (apply nth_error_Some_lt in Em'; lia).
        destruct (Ge s Hs') as (rec2 & gh2 & m2 & son2 & _ & Em2 & Es2 & El2 & Eg2 & Ef2).
        assert (m2 = m') by congruence. subst m2.
        destruct (Son _ _ _ _ _ Hs' Em' El2 Eg2 Ef2) as (_ & Sk). specialize (Sk k q Hk).
        rewrite (nth_error_nth _ _ _ Es2) in Hrow. rewrite Sk in Hrow. injection Hrow as <-.
        apply (Permutation_in _ (HO _ _ _ _)) in Hc. apply cells_of_In in Hc.
        destruct (local_spec nlens clens gn gc s (nth s c2n []) Hgn Hgc ltac:(lia) (Nc s) rec2 gh2 El2) as (_ & S1 & _).
        apply S1 in Hc. destruct Hc as (j & cell & Hj & Hin & ->). exists s, j, cell. auto.
    - intros (s & j & cell & Hj & Hin & ->). destruct (Nat.eq_dec s r) as [->|Ns].
      + left. apply R1. eauto.
      + right. assert (Hs' : (s < length c2n)%nat).
        { destruct (le_lt_dec (length c2n) s) as [L|L]; [|exact L]. rewrite nth_overflow in Hj by exact L. destruct j; discriminate. }
        destruct (Ge s Hs') as (rec2 & gh2 & m2 & son2 & _ & Em2 & Es2 & El2 & Eg2 & Ef2).
        destruct (local_spec nlens clens gn gc s (nth s c2n []) Hgn Hgc ltac:(lia) (Nc s) rec2 gh2 El2) as (_ & S1 & S2 & _).
        assert (Hg2 : In q gh2).
        { apply S2. split; [exists cell; split; [eapply nth_error_In; eauto|auto]|].
          intros (w & Hw). destruct Hq as (w' & Hw'). congruence. }
        destruct (built_nth _ _ _ _ _ B Em2) as (_ & Eme & Hv & Hl).
        assert (Hgi : In q (ghostIndex m2)).
        { rewrite Eme. apply gi_In; auto; [lia|]. now rewrite Eg2. }
        apply In_nth_error in Hgi. destruct Hgi as (k & Hk).
        destruct (Son _ _ _ _ _ Hs' Em2 El2 Eg2 Ef2) as (_ & Sk). specialize (Sk k q Hk).
        exists (ord 0%nat (Z.of_nat s) q (cells_of rec2 q)). split.
        * apply (back_pairs nlens pulls ms B sons Hrows gp mps Hp r m mp past q _ Em Emp P1).
          split; [exact Hq|]. exists s, m2, k. split; [exact Em2|]. split; [exact Hk|].
          now rewrite (nth_error_nth _ _ _ Es2).
        * apply (Permutation_in _ (Permutation_sym (HO _ _ _ _))). apply cells_of_In. apply S1. eauto. }
  rewrite combine_length, map_length in Lo.
  assert (Out : forall r, (r < length c2n)%nat -> exists rec' rows, nth_error recs r = Some rec' /\
     nth_error n2c r = Some rows /\ length rows = nth r nlens 0%nat /\
     forall i, (i < nth r nlens 0)%nat -> nth_error rows i =
       Some (ord 1%nat (Z.of_nat r) (glob nlens r i) (cells_of rec' (glob nlens r i)))).
  { intros r Hr. destruct (Rec r Hr) as (rec' & E & _). exists rec'.
    destruct (nth_error_lt_Some _ nlens r ltac:(lia)) as (n & En).
    destruct (Hout r (Z.of_nat n, rec')) as (rows & F1 & F2).
    { rewrite nth_error_combine, nth_error_map_, En, E. reflexivity. }
    exists rows. split; [exact E|]. split; [exact F2|]. cbn [fst snd] in F1. unfold fill_father in F1.
    rewrite Nat2Z.id in F1. apply mapM_nth in F1. destruct F1 as (Lr & F1). rewrite ranks_length in Lr.
    rewrite (nth_error_nth _ _ _ En). split; [exact Lr|]. intros i Hi.
    destruct (F1 i (Z.of_nat i)) as (row & G1 & G2); [now rewrite ranks_nth|].
    pose proof (noson_glob nlens gn r i Hgn ltac:(lia) ltac:(rewrite (nth_error_nth _ _ _ En); exact Hi)) as NG.
    rewrite (nth_error_nth _ _ _ En) in NG. rewrite NG in G1. cbn [bind] in G1. injection G1 as <-. exact G2. }
  assert (Lens : map (@length (list Z)) n2c = nlens).
  { apply nth_error_ext. intro r. rewrite nth_error_map_. destruct (le_lt_dec (length c2n) r) as [L|L].
    - assert (nth_error n2c r = None) as -> by (apply nth_error_None; lia).
      assert (nth_error nlens r = None) as -> by (apply nth_error_None; lia). reflexivity.
    - destruct (Out r L) as (_ & rows & _ & -> & E & _). cbn. rewrite E. symmetry. apply nth_error_nth'. lia. }
  split; [exact Lens|]. intros q row Hrow. unfold row_of in Hrow. rewrite Lens in Hrow.
  destruct (item_at nlens q) as [[r i]|] eqn:E; [|discriminate].
  assert (Ow : owned_by nlens r q) by (exists i; exact E).
  pose proof E as E0. apply item_at_spec in E. destruct E as ((l & Hl & Hi) & Eq).
  assert (Hr : (r < length c2n)%nat) by (apply nth_error_Some_lt in Hl; lia).
  assert (Eg : q = glob nlens r i) by (unfold glob; lia).
  destruct (Out r Hr) as (rec' & rows & R1 & R2 & R3 & R4). rewrite (nth_error_nth _ _ _ R2) in Hrow.
  rewrite (nth_error_nth _ _ _ Hl) in R4. rewrite (R4 i Hi), <- Eg in Hrow. injection Hrow as <-.
  destruct (Rec r Hr) as (rec2 & R1' & ND & I). assert (rec2 = rec') by congruence. subst rec2.
  split.
  - apply (Permutation_NoDup (Permutation_sym (HO _ _ _ _))). now apply cells_of_NoDup.
  - intro c. rewrite <- (I q c Ow), <- cells_of_In. split; apply Permutation_in; [|apply Permutation_sym]; apply HO.
Qed.
