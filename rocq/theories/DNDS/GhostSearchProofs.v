(** Lookups in pull-built ghost mappings (C02, C03). *)
From Coq Require Import List ZArith Lia Bool Arith.
From Verif Require Import Base.Prelude Base.PreludeFacts Base.MPIModel Base.MPIFacts
  DNDS.DefinesModel DNDS.DefinesProofs DNDS.IndexMappingModel DNDS.IndexMappingSpec
  DNDS.IndexMappingProofs DNDS.GhostPullProofs.
Import ListNotations.
Local Open Scope Z_scope.

Lemma zlensl_zlens : forall A (ss : list (list A)), zlensl ss = zlens (map (@length A) ss).
Proof. intros. unfold zlensl, zlens. rewrite map_map. reflexivity. Qed.

Lemma length_concat_firstn : forall A (ss : list (list A)) i,
  length (concat (firstn i ss)) = list_sum (firstn i (map (@length A) ss)).
Proof.
  induction ss; destruct i; simpl; auto. rewrite app_length, IHss. reflexivity.
Qed.

(** a position of a concatenation is in exactly one part *)
Lemma concat_pos : forall A (ss : list (list A)) k x,
  nth_error (concat ss) k = Some x ->
  exists s v row, item_at (map (@length A) ss) (Z.of_nat k) = Some (s, v) /\
    nth_error ss s = Some row /\ nth_error row v = Some x /\
    k = (length (concat (firstn s ss)) + v)%nat.
Proof.
  intros A ss k x H.
  destruct (item_at (map (@length A) ss) (Z.of_nat k)) as [[s v]|] eqn:E.
  - pose proof E as E0. apply item_at_spec in E. destruct E as [[l [Hl Hv]] Hk].
    rewrite nth_error_map_ in Hl. destruct (nth_error ss s) as [row|] eqn:Er; [|discriminate].
    simpl in Hl. injection Hl as <-.
    assert (Hk' : k = (length (concat (firstn s ss)) + v)%nat)
      by (rewrite length_concat_firstn; lia).
    exists s, v, row. repeat split; auto.
    rewrite Hk', (nth_error_concat _ _ _ _ _ Er Hv) in H. auto.
  - apply item_at_None in E. exfalso. apply nth_error_Some_lt in H.
    rewrite <- (firstn_all ss) in H. rewrite length_concat_firstn in H.
    rewrite firstn_all2 in H by (rewrite map_length; lia). lia.
Qed.

Lemma rsegs_length : forall lens pull, length (rsegs lens pull) = length lens.
Proof. intros. unfold rsegs. rewrite map_length, seq_length. auto. Qed.

Lemma rsegs_nth : forall lens pull s, (s < length lens)%nat ->
  nth_error (rsegs lens pull) s = Some (reqs lens pull s).
Proof.
  intros. unfold rsegs. rewrite nth_error_map_, nth_error_seq.
  destruct (Nat.ltb_spec s (length lens)); [reflexivity|lia].
Qed.

Section One.
  Variables (lens : list nat) (mains : list (Z * Z)) (pulls : list (list Z)) (r : nat).
  Hypothesis Hv : Forall (Forall (valid lens)) pulls.
  Hypothesis Hp : length pulls = length lens.
  Hypothesis Hr : (r < length lens)%nat.
  Let pull := nth r pulls [].
  Let m := expected lens mains pulls r.

  Lemma pull_valid : Forall (valid lens) pull.
  Proof.
    rewrite Forall_forall in Hv. apply Hv. apply nth_In. lia.
  Qed.

  Lemma distinct_valid : Forall (valid lens) (distinct pull).
  Proof.
    apply Forall_forall. intros x Hx. apply (proj1 (Forall_forall _ _) pull_valid).
    apply distinct_In. auto.
  Qed.

  Lemma gi_distinct : ghostIndex m = distinct pull.
  Proof. simpl. symmetry. apply distinct_concat. apply distinct_valid. Qed.

  Lemma gi_sasc : sasc (ghostIndex m).
  Proof. rewrite gi_distinct. apply distinct_sasc. Qed.

  Lemma gi_In : forall q, In q (ghostIndex m) <-> In q pull.
  Proof. intro. rewrite gi_distinct. apply distinct_In. Qed.

  Lemma gs_nth : forall i, (i <= length lens)%nat ->
    nth_error (ghostStart m) i = Some (zlen (concat (firstn i (rsegs lens pull)))).
  Proof. intros. simpl. apply zlensl_psums_nth. fold pull. rewrite rsegs_length. auto. Qed.

  Lemma searchInAllGhost_found : forall q, In q pull ->
    exists k v, nth_error (ghostIndex m) k = Some q /\
      searchInAllGhost m q = Ok (Some (Z.of_nat (owner lens q), Z.of_nat k)) /\
      nth_error (reqs lens pull (owner lens q)) v = Some q /\
      Z.of_nat k = zlen (concat (firstn (owner lens q) (rsegs lens pull))) + Z.of_nat v.
  Proof.
    intros q Hq. apply gi_In in Hq. apply In_nth_error in Hq. destruct Hq as [k Hk].
    pose proof Hk as Hk0.
    change (ghostIndex m) with (concat (rsegs lens pull)) in Hk0.
    destruct (concat_pos _ _ _ _ Hk0) as [s [v [row [Hit [Hrow [Hx Hkv]]]]]].
    assert (Hs : (s < length lens)%nat).
    { apply nth_error_Some_lt in Hrow. rewrite rsegs_length in Hrow. auto. }
    rewrite rsegs_nth in Hrow by auto. injection Hrow as <-.
    assert (Ho : owner lens q = s).
    { apply nth_error_In in Hx. unfold reqs in Hx. apply filter_In in Hx.
      destruct Hx as [_ Hx]. apply Nat.eqb_eq; auto. }
    exists k, v. rewrite Ho. split; auto. split.
    - unfold searchInAllGhost. rewrite (lb_lt_sasc_found _ _ _ gi_sasc Hk), Hk, Z.eqb_refl.
      cbv zeta.
      change (ghostStart m) with (psums 0 (zlensl (rsegs lens pull))).
      rewrite zlensl_zlens, (lb_le_offsets _ _ _ _ Hit), psums_length, zlens_length, map_length, rsegs_length.
      destruct (Nat.eqb_spec (S s) (S (length lens))); [lia|].
      cbn [negb andb Nat.ltb Nat.leb assert_ bind]. do 3 f_equal. lia.
    - split; auto. unfold zlen. lia.
  Qed.

  Lemma searchInAllGhost_none : forall q, ~ In q pull -> searchInAllGhost m q = Ok None.
  Proof.
    intros q Hq. unfold searchInAllGhost.
    destruct (nth_error (ghostIndex m) (lb_lt (ghostIndex m) q)) as [x|] eqn:E; auto.
    destruct (Z.eqb_spec x q); auto. subst. exfalso. apply Hq, gi_In.
    eapply nth_error_In; eauto.
  Qed.
End One.

Lemma main_ranges_nth : forall lens r, (r < length lens)%nat ->
  nth r (main_ranges lens) (0, 0) = main_range lens r.
Proof.
  intros. apply nth_error_nth. unfold main_ranges. rewrite nth_error_map_, nth_error_seq.
  destruct (Nat.ltb_spec r (length lens)); [reflexivity|lia].
Qed.

Lemma searchInMain_spec : forall lens pulls r q, (r < length lens)%nat ->
  searchInMain (expected lens (main_ranges lens) pulls r) q =
  match item_at lens q with
  | Some (s, v) => if (s =? r)%nat then Some (Z.of_nat v) else None
  | None => None
  end.
Proof.
  intros lens pulls r q Hr. unfold searchInMain, expected. cbn [mainOffset mainSize].
  rewrite main_ranges_nth by auto. unfold main_range. cbn [fst snd].
  destruct (nth_error_lt_Some _ lens r Hr) as [l Hl]. rewrite (nth_error_nth _ _ 0%nat Hl).
  destruct (item_at lens q) as [[s v]|] eqn:E.
  - apply item_at_spec in E. destruct E as [[l' [Hl' Hv]] Hq].
    destruct (Nat.eqb_spec s r).
    + subst s. assert (l' = l) by congruence. subst l'.
      destruct (Z.leb_spec (Z.of_nat (list_sum (firstn r lens))) q); [|lia].
      destruct (Z.ltb_spec q (Z.of_nat l + Z.of_nat (list_sum (firstn r lens)))); [|lia].
      simpl. f_equal. lia.
    + destruct (Z.leb_spec (Z.of_nat (list_sum (firstn r lens))) q); [|reflexivity].
      destruct (Z.ltb_spec q (Z.of_nat l + Z.of_nat (list_sum (firstn r lens)))); [|reflexivity].
      exfalso. destruct (le_lt_dec s r).
      * pose proof (list_sum_firstn_mono lens (S s) r ltac:(lia)) as M.
        rewrite (list_sum_firstn_S _ _ _ Hl') in M. lia.
      * pose proof (list_sum_firstn_mono lens (S r) s ltac:(lia)) as M.
        rewrite (list_sum_firstn_S _ _ _ Hl) in M. lia.
  - apply item_at_None in E.
    destruct (Z.leb_spec (Z.of_nat (list_sum (firstn r lens))) q); [|reflexivity].
    destruct (Z.ltb_spec q (Z.of_nat l + Z.of_nat (list_sum (firstn r lens)))); [|reflexivity].
    exfalso. pose proof (list_sum_firstn_le lens (S r)) as M.
    rewrite (list_sum_firstn_S _ _ _ Hl) in M. lia.
Qed.

Lemma owned_by_owner : forall lens q s, valid lens q -> (owned_by lens s q <-> owner lens q = s).
Proof.
  intros. unfold owned_by, owner, valid in *.
  destruct (item_at lens q) as [[r v]|]; [|congruence].
  split; [intros [w E]; congruence | intros ->; eauto].
Qed.

Lemma own_ranges_gom : forall lens,
  own_ranges (gom lens) (map Z.of_nat lens) = Ok (main_ranges lens).
Proof.
  intros. unfold own_ranges, main_ranges. apply mapM_intro.
  - rewrite combine_length, ranks_length, !map_length, seq_length. lia.
  - intros i [x1 x2] y Hx Hy. rewrite nth_error_combine in Hx. rewrite map_length in Hx.
    rewrite nth_error_map_, nth_error_seq in Hy.
    destruct (Nat.ltb_spec i (length lens)); [|discriminate]. simpl in Hy. injection Hy as <-.
    rewrite ranks_nth in Hx by auto. rewrite nth_error_map_ in Hx.
    destruct (nth_error lens i) as [l|] eqn:E; [|discriminate]. simpl in Hx. injection Hx as <- <-.
    cbn [fst snd]. change 0 with (Z.of_nat 0). rewrite toGlobal_gom by lia. cbn [bind].
    unfold main_range. rewrite (nth_error_nth _ _ 0%nat E). f_equal. f_equal. lia.
Qed.

(** hypotheses shared by the top-level statements *)
Definition built lens pulls ms : Prop :=
  length pulls = length lens /\ exists g, setup_pull (map Z.of_nat lens) pulls = Ok (g, ms).

Lemma built_inv : forall lens pulls ms, built lens pulls ms ->
  length pulls = length lens /\ Forall (Forall (valid lens)) pulls /\
  ms = map (expected lens (main_ranges lens) pulls) (seq 0 (length lens)).
Proof.
  intros lens pulls ms [Hl [g H]]. unfold setup_pull in H.
  apply bind_Ok in H. destruct H as [g' [Hg H]]. apply align_inv in Hg. subst g'.
  rewrite own_ranges_gom in H. cbn [bind] in H.
  apply bind_Ok in H. destruct H as [ms' [H E]]. injection E as _ ->.
  assert (Hm : length (main_ranges lens) = length lens)
    by (unfold main_ranges; rewrite map_length, seq_length; auto).
  destruct (construct_pull_inv _ _ _ _ Hl Hm H). auto.
Qed.

Lemma built_nth : forall lens pulls ms r m, built lens pulls ms -> nth_error ms r = Some m ->
  (r < length lens)%nat /\ m = expected lens (main_ranges lens) pulls r /\
  Forall (Forall (valid lens)) pulls /\ length pulls = length lens.
Proof.
  intros lens pulls ms r m H Hm. apply built_inv in H. destruct H as [Hl [Hv ->]].
  rewrite nth_error_map_, nth_error_seq in Hm.
  destruct (Nat.ltb_spec r (length lens)); [|discriminate]. simpl in Hm.
  injection Hm as <-. auto.
Qed.

Lemma lookup_main : forall lens pulls ms r m q v,
  built lens pulls ms -> nth_error ms r = Some m -> item_at lens q = Some (r, v) ->
  search m q = Ok (Some (-1, Z.of_nat v)) /\
  search_indexAppend m q = Ok (Some (-1, Z.of_nat v)) /\
  search_indexRank m q = Ok (Some (-1, Z.of_nat v)) /\
  mapIndex m (-1) (Z.of_nat v) = Ok q.
Proof.
  intros lens pulls ms r m q v H Hm Hq. destruct (built_nth _ _ _ _ _ H Hm) as [Hr [-> [Hv Hp]]].
  unfold search, search_indexAppend, search_indexRank.
  rewrite searchInMain_spec, Hq, Nat.eqb_refl by auto. repeat split.
  apply item_at_spec in Hq. destruct Hq as [[l [Hl Hlt]] ->].
  unfold mapIndex. simpl. rewrite main_ranges_nth by auto. unfold main_range. cbn [fst snd].
  rewrite (nth_error_nth _ _ 0%nat Hl).
  destruct (Z.leb_spec 0 (Z.of_nat v)); [|lia]. simpl.
  destruct (Z.ltb_spec (Z.of_nat v) (Z.of_nat l)); [|lia]. f_equal. lia.
Qed.

Lemma lookup_ghost_exp : forall lens pulls r pull q s v,
  length pulls = length lens -> Forall (Forall (valid lens)) pulls -> (r < length lens)%nat ->
  nth_error pulls r = Some pull -> In q pull -> item_at lens q = Some (s, v) -> s <> r ->
  let m := expected lens (main_ranges lens) pulls r in
  exists k kr, nth_error (ghostIndex m) k = Some q /\
    search m q = Ok (Some (Z.of_nat s, Z.of_nat k)) /\
    search_indexAppend m q = Ok (Some (Z.of_nat s, Z.of_nat (nth r lens O + k))) /\
    search_indexRank m q = Ok (Some (Z.of_nat s, Z.of_nat kr)) /\
    mapIndex m (-1) (Z.of_nat (nth r lens O + k)) = Ok q /\
    mapIndex m (Z.of_nat s) (Z.of_nat kr) = Ok q.
Proof.
  intros lens pulls r pull q s v Hp Hv Hr Hpl Hin Hq Hsr m. unfold m. clear m.
  assert (Hpull : nth r pulls [] = pull) by (apply nth_error_nth; auto).
  destruct (searchInAllGhost_found lens (main_ranges lens) pulls r Hv Hp Hr q) as [k [kr [Hk [Hs [Hkr Hkk]]]]].
  { rewrite Hpull; auto. }
  assert (Ho : owner lens q = s) by (unfold owner; rewrite Hq; auto). rewrite Ho in *.
  assert (Hslt : (s < length lens)%nat).
  { apply item_at_spec in Hq. destruct Hq as [[l [Hl _]] _]. eapply nth_error_Some_lt; eauto. }
  exists k, kr. split; auto.
  unfold search, search_indexAppend, search_indexRank.
  rewrite searchInMain_spec by auto. rewrite Hq.
  destruct (Nat.eqb_spec s r); [congruence|]. rewrite Hs. cbn [bind].
  split; [reflexivity|]. split.
  { simpl. rewrite main_ranges_nth by auto. unfold main_range. cbn [snd].
    do 3 f_equal. lia. }
  split.
  { rewrite (vget_of_nat _ _ _ _ (gs_nth lens (main_ranges lens) pulls r s ltac:(lia))).
    cbn [bind]. do 3 f_equal. lia. }
  split.
  - unfold mapIndex. cbn [Z.eqb]. simpl Z.eqb. cbv iota.
    destruct (Z.leb_spec 0 (Z.of_nat (nth r lens O + k))); [|lia]. cbn [assert_ bind].
    assert (Hms : mainSize (expected lens (main_ranges lens) pulls r) = Z.of_nat (nth r lens O)).
    { simpl. rewrite main_ranges_nth by auto. reflexivity. }
    rewrite Hms. destruct (Z.ltb_spec (Z.of_nat (nth r lens O + k)) (Z.of_nat (nth r lens O))); [lia|].
    assert (Hlast : last (ghostStart (expected lens (main_ranges lens) pulls r)) 0 =
      zlen (ghostIndex (expected lens (main_ranges lens) pulls r))).
    { simpl. rewrite last_psums, zsum_zlensl. lia. }
    rewrite Hlast. replace (Z.of_nat (nth r lens O + k) - Z.of_nat (nth r lens O)) with (Z.of_nat k) by lia.
    pose proof (nth_error_Some_lt _ _ _ _ Hk). unfold zlen.
    destruct (Z.ltb_spec (Z.of_nat k) (Z.of_nat (length (ghostIndex (expected lens (main_ranges lens) pulls r))))); [|lia].
    cbn [assert_ bind]. apply vat_of_nat; auto.
  - unfold mapIndex. destruct (Z.eqb_spec (Z.of_nat s) (-1)); [lia|].
    assert (Hgl : zlen (ghostStart (expected lens (main_ranges lens) pulls r)) = Z.of_nat (length lens) + 1).
    { unfold zlen. simpl. rewrite psums_length. unfold zlensl. rewrite map_length, rsegs_length. lia. }
    rewrite Hgl. destruct (Z.leb_spec 0 (Z.of_nat s)); [|lia].
    destruct (Z.ltb_spec (Z.of_nat s) (Z.of_nat (length lens) + 1 - 1)); [|lia]. cbn [andb assert_ bind].
    replace (Z.of_nat s + 1) with (Z.of_nat (S s)) by lia.
    rewrite (vget_of_nat _ _ _ _ (gs_nth lens (main_ranges lens) pulls r (S s) ltac:(lia))). cbn [bind].
    rewrite (vget_of_nat _ _ _ _ (gs_nth lens (main_ranges lens) pulls r s ltac:(lia))). cbn [bind].
    rewrite (concat_firstn_S _ _ _ _ (rsegs_nth lens (nth r pulls []) s Hslt)).
    pose proof (nth_error_Some_lt _ _ _ _ Hkr). unfold zlen at 1. rewrite app_length.
    destruct (Z.leb_spec 0 (Z.of_nat kr)); [|lia].
    match goal with |- context [Z.of_nat kr <? ?b] => destruct (Z.ltb_spec (Z.of_nat kr) b) end;
      [|unfold zlen in *; lia].
    cbn [andb assert_ bind]. rewrite <- Hkk. apply vget_of_nat; auto.
Qed.

Lemma lookup_ghost : forall lens pulls ms r m pull q s v,
  built lens pulls ms -> nth_error ms r = Some m -> nth_error pulls r = Some pull ->
  In q pull -> item_at lens q = Some (s, v) -> s <> r ->
  exists k kr, nth_error (ghostIndex m) k = Some q /\
    search m q = Ok (Some (Z.of_nat s, Z.of_nat k)) /\
    search_indexAppend m q = Ok (Some (Z.of_nat s, Z.of_nat (nth r lens O + k))) /\
    search_indexRank m q = Ok (Some (Z.of_nat s, Z.of_nat kr)) /\
    mapIndex m (-1) (Z.of_nat (nth r lens O + k)) = Ok q /\
    mapIndex m (Z.of_nat s) (Z.of_nat kr) = Ok q.
Proof.
  intros lens pulls ms r m pull q s v H Hm Hpl Hin Hq Hsr.
  destruct (built_nth _ _ _ _ _ H Hm) as [Hr [-> [Hv Hp]]].
  eapply lookup_ghost_exp; eauto.
Qed.

Lemma lookup_none : forall lens pulls ms r m pull q,
  built lens pulls ms -> nth_error ms r = Some m -> nth_error pulls r = Some pull ->
  ~ In q pull -> ~ owned_by lens r q ->
  search m q = Ok None /\ search_indexAppend m q = Ok None /\ search_indexRank m q = Ok None.
Proof.
  intros lens pulls ms r m pull q H Hm Hpl Hin Hq.
  destruct (built_nth _ _ _ _ _ H Hm) as [Hr [-> [Hv Hp]]].
  assert (Hpull : nth r pulls [] = pull) by (apply nth_error_nth; auto).
  unfold search, search_indexAppend, search_indexRank.
  rewrite searchInMain_spec by auto.
  assert (E : match item_at lens q with
     | Some (s, v) => if (s =? r)%nat then Some (Z.of_nat v) else None
     | None => None end = None).
  { destruct (item_at lens q) as [[s v]|] eqn:E; auto.
    destruct (Nat.eqb_spec s r); auto. subst. exfalso. apply Hq. exists v. auto. }
  rewrite E, searchInAllGhost_none; auto. rewrite Hpull. auto.
Qed.

Lemma filter_sasc : forall f l, sasc l -> sasc (filter f l).
Proof.
  induction l as [|x l IH]; intros H; simpl; auto. apply sasc_cons in H. destruct H as [H1 H2].
  destruct (f x); auto. apply sasc_cons. split; auto. intros y Hy. apply filter_In in Hy. apply H2; tauto.
Qed.

Lemma reqs_ascending : forall lens pull s, Forall (valid lens) pull ->
  ascending_list_of (owned_by lens s) pull (reqs lens pull s).
Proof.
  intros. split.
  - apply filter_sasc, distinct_sasc.
  - intro x. unfold reqs. rewrite filter_In, distinct_In, Nat.eqb_eq.
    rewrite Forall_forall in H. split; intros [H1 H2]; split; auto.
    all: apply owned_by_owner; auto.
Qed.

Lemma part_concat : forall A (ss : list (list A)) s row, nth_error ss s = Some row ->
  part (psums 0 (zlensl ss)) (concat ss) s = Some row.
Proof.
  intros. unfold part. pose proof (nth_error_Some_lt _ _ _ _ H).
  rewrite !zlensl_psums_nth by lia. rewrite (concat_firstn_S _ _ _ _ H).
  f_equal. unfold zlen. rewrite app_length, Nat2Z.id.
  replace (Z.to_nat _) with (length row) by lia.
  rewrite (concat_split _ _ _ _ H), skipn_length_app, firstn_length_app. reflexivity.
Qed.

Lemma slots_all : forall lens pulls ms r m pull,
  built lens pulls ms -> nth_error ms r = Some m -> nth_error pulls r = Some pull ->
  ascending_list_of (fun _ => True) pull (ghostIndex m) /\
  (forall s, (s < length lens)%nat -> exists l,
     part (ghostStart m) (ghostIndex m) s = Some l /\
     ascending_list_of (owned_by lens s) pull l) /\
  last (ghostStart m) 0 = zlen (ghostIndex m).
Proof.
  intros lens pulls ms r m pull H Hm Hpl.
  destruct (built_nth _ _ _ _ _ H Hm) as [Hr [-> [Hv Hp]]].
  assert (Hpull : nth r pulls [] = pull) by (apply nth_error_nth; auto).
  split; [|split].
  - rewrite gi_distinct by auto. rewrite Hpull. split; [apply distinct_sasc|].
    intro; rewrite distinct_In; tauto.
  - intros s Hs. exists (reqs lens pull s). split.
    + simpl. rewrite Hpull. apply part_concat. rewrite <- Hpull. apply rsegs_nth; auto.
    + apply reqs_ascending. rewrite Forall_forall in Hv. apply Hv. eapply nth_error_In; eauto.
  - simpl. rewrite last_psums, zsum_zlensl. lia.
Qed.

Lemma dual_parts : forall lens pulls ms r s mr msnd pull,
  built lens pulls ms -> nth_error ms r = Some mr -> nth_error ms s = Some msnd ->
  nth_error pulls r = Some pull ->
  exists l, ascending_list_of (owned_by lens s) pull l /\
    part (ghostStart mr) (ghostIndex mr) s = Some l /\
    part (pushIndexStarts msnd) (pushingIndexGlobal msnd) r = Some l /\
    nth_error (ghostSizes mr) s = Some (zlen l) /\
    nth_error (pushIndexSizes msnd) r = Some (zlen l).
Proof.
  intros lens pulls ms r s mr msnd pull H Hmr Hms Hpl.
  destruct (built_nth _ _ _ _ _ H Hmr) as [Hr [-> [Hv Hp]]].
  destruct (built_nth _ _ _ _ _ H Hms) as [Hs [-> _]].
  assert (Hpull : nth r pulls [] = pull) by (apply nth_error_nth; auto).
  exists (reqs lens pull s).
  assert (Hps : nth_error (psegs lens pulls s) r = Some (reqs lens pull s)).
  { unfold psegs. rewrite nth_error_map_, nth_error_seq.
    destruct (Nat.ltb_spec r (length lens)); [|lia]. simpl. rewrite Hpull. reflexivity. }
  split; [|split; [|split; [|split]]].
  - apply reqs_ascending. rewrite Forall_forall in Hv. apply Hv. eapply nth_error_In; eauto.
  - simpl. rewrite Hpull. apply part_concat. rewrite <- Hpull. apply rsegs_nth; auto.
  - simpl. apply part_concat; auto.
  - simpl. rewrite Hpull. unfold zlensl. rewrite nth_error_map_.
    rewrite <- Hpull, rsegs_nth by auto. reflexivity.
  - simpl. unfold zlensl. rewrite nth_error_map_, Hps. reflexivity.
Qed.

Lemma push_total : forall lens pulls ms s msnd,
  built lens pulls ms -> nth_error ms s = Some msnd ->
  last (pushIndexStarts msnd) 0 = zlen (pushingIndexGlobal msnd) /\
  length (pushIndexStarts msnd) = S (length lens) /\
  Forall (owned_by lens s) (pushingIndexGlobal msnd).
Proof.
  intros lens pulls ms s msnd H Hm.
  destruct (built_nth _ _ _ _ _ H Hm) as [Hs [-> [Hv Hp]]]. split; [|split].
  - simpl. rewrite last_psums, zsum_zlensl. lia.
  - simpl. rewrite psums_length. unfold zlensl, psegs. rewrite !map_length, seq_length. auto.
  - apply Forall_forall. intros x Hx. simpl in Hx. apply in_concat in Hx.
    destruct Hx as [l [Hl Hx]]. unfold psegs in Hl. apply in_map_iff in Hl.
    destruct Hl as [r [<- Hr]]. apply in_seq in Hr.
    assert (Hin : In (nth r pulls []) pulls) by (apply nth_In; lia).
    rewrite Forall_forall in Hv. pose proof (reqs_ascending lens _ s (Hv _ Hin)) as [_ Ha].
    apply Ha in Hx. tauto.
Qed.

(** *** totality *)
Lemma accumulate_ok32 : forall l, Forall (fun x => 0 <= x) l -> zsum l <= int32_max ->
  AccumulateRowSize int32_min int32_max l = Ok (psums 0 l).
Proof.
  intros. unfold AccumulateRowSize. rewrite accumulate_nonneg.
  - rewrite Z.add_0_l. destruct (Z.leb_spec (zsum l) int32_max); [reflexivity|lia].
  - unfold int32_min, int32_max; lia.
  - unfold int32_min, int32_max; lia.
  - lia.
  - revert H0. induction H; intros Hs; constructor.
    + unfold zsum in Hs; simpl in Hs. fold (zsum l) in Hs.
      pose proof (zsum_nonneg _ H0). lia.
    + apply IHForall. unfold zsum in *; simpl in Hs. lia.
  - unfold int32_max; lia.
Qed.

Lemma zlensl_nonneg : forall A (ss : list (list A)), Forall (fun x => 0 <= x) (zlensl ss).
Proof. intros. unfold zlensl. apply Forall_forall. intros x Hx. apply in_map_iff in Hx.
  destruct Hx as [l [<- _]]. unfold zlen. lia. Qed.

Lemma distinct_le : forall l, (length (distinct l) <= length l)%nat.
Proof.
  intros. apply NoDup_incl_length.
  - apply sasc_NoDup, distinct_sasc.
  - intros x Hx. apply distinct_In; auto.
Qed.

Lemma filter_le : forall A (f : A -> bool) l, (length (filter f l) <= length l)%nat.
Proof. induction l; simpl; auto. destruct (f a); simpl; lia. Qed.

Lemma nth_le_concat : forall A (ll : list (list A)) r, (length (nth r ll []) <= length (concat ll))%nat.
Proof.
  induction ll; destruct r; simpl; try lia; rewrite app_length; [lia|]. specialize (IHll r). lia.
Qed.

Lemma pull_local_ok : forall lens pull, Forall (valid lens) pull -> zlen pull <= int32_max ->
  exists t, pull_local (gom lens) (length lens) pull = Ok t.
Proof.
  intros lens pull Hv Hb. unfold pull_local. fold (distinct pull).
  assert (Hvd : Forall (valid lens) (distinct pull)).
  { apply Forall_forall. intros x Hx. rewrite Forall_forall in Hv. apply Hv, distinct_In; auto. }
  destruct (count_owners_ok lens (distinct pull) (repeat 0 (length lens)) Hvd (repeat_length _ _)) as [st Hst].
  change (foldM (cstep lens) (repeat 0 (length lens)) (distinct pull))
    with (count_owners (gom lens) (length lens) (distinct pull)) in Hst.
  rewrite Hst. cbn [bind]. apply count_owners_eq in Hst. destruct Hst as [_ ->].
  assert (E : map (count lens (distinct pull)) (seq 0 (length lens)) = zlensl (rsegs lens pull)).
  { unfold zlensl, rsegs. rewrite map_map. reflexivity. }
  rewrite E, accumulate_ok32.
  - cbn [bind]. rewrite (mapM_map _ _ _ (fun i => i)).
    + cbn [bind]. eauto.
    + intros x Hx. rewrite gsearch_gom. rewrite Forall_forall in Hvd. specialize (Hvd _ Hx).
      unfold valid in Hvd. destruct (item_at lens x) as [[? ?]|]; congruence.
  - apply zlensl_nonneg.
  - rewrite zsum_zlensl, <- distinct_concat by auto. pose proof (distinct_le pull).
    unfold zlen in *. lia.
Qed.

Lemma construct_pull_ok : forall lens mains pulls,
  length pulls = length lens -> Forall (Forall (valid lens)) pulls ->
  zlen (concat pulls) <= int32_max ->
  exists ms, construct_pull (gom lens) mains pulls = Ok ms.
Proof.
  intros lens mains pulls Hp Hv Hb. unfold construct_pull. rewrite Hp.
  set (P := length lens) in *.
  assert (Hloc : mapM (pull_local (gom lens) P) pulls =
    Ok (map (fun r => let gs := rsegs lens (nth r pulls []) in
              (zlensl gs, psums 0 (zlensl gs), concat gs)) (seq 0 P))).
  { apply mapM_intro; [rewrite map_length, seq_length; auto|].
    intros i x y Hx Hy. rewrite nth_error_map_, nth_error_seq in Hy.
    destruct (Nat.ltb_spec i P); [|discriminate]. simpl in Hy. injection Hy as <-.
    rewrite (nth_error_nth _ _ _ Hx).
    destruct (pull_local_ok lens x) as [t Ht].
    - rewrite Forall_forall in Hv. apply Hv. eapply nth_error_In; eauto.
    - pose proof (nth_le_concat _ pulls i) as Hn. rewrite (nth_error_nth _ _ _ Hx) in Hn.
      unfold zlen in *. lia.
    - unfold P. rewrite Ht. apply pull_local_inv in Ht. destruct Ht as [_ ->]. reflexivity. }
  rewrite Hloc. cbn [bind]. rewrite !map_map. cbn [fst snd].
  assert (Esz : map (fun r => zlensl (rsegs lens (nth r pulls []))) (seq 0 P) =
     map (fun s => map (fun r => zlen (reqs lens (nth s pulls []) r)) (seq 0 P)) (seq 0 P)).
  { apply map_ext. intro r. unfold zlensl, rsegs. rewrite map_map. reflexivity. }
  rewrite Esz, alltoall_spec. cbn [bind].
  assert (Epsz : map (fun r => map (fun s => zlen (reqs lens (nth s pulls []) r)) (seq 0 P)) (seq 0 P) =
     map (fun r => zlensl (psegs lens pulls r)) (seq 0 P)).
  { apply map_ext. intro r. unfold zlensl, psegs. rewrite map_map. reflexivity. }
  rewrite Epsz.
  assert (Hpst : mapM (AccumulateRowSize int32_min int32_max)
      (map (fun r => zlensl (psegs lens pulls r)) (seq 0 P)) =
      Ok (map (fun r => psums 0 (zlensl (psegs lens pulls r))) (seq 0 P))).
  { apply mapM_intro; [rewrite !map_length; auto|].
    intros s x y Hx Hy. rewrite nth_error_map_, nth_error_seq in Hx, Hy.
    destruct (Nat.ltb_spec s P); [|discriminate]. simpl in Hx, Hy.
    injection Hx as <-. injection Hy as <-. apply accumulate_ok32; [apply zlensl_nonneg|].
    rewrite zsum_zlensl. etransitivity; [|exact Hb]. unfold zlen. apply inj_le.
    unfold psegs. fold P. rewrite <- Hp. clear. 
    assert (G : forall n k, (length (concat (map (fun r => reqs lens (nth r pulls []) s) (seq k n)))
       <= length (concat (map (fun r => nth r pulls []) (seq k n))))%nat).
    { induction n; intros k; simpl; auto. rewrite !app_length. specialize (IHn (S k)).
      assert (length (reqs lens (nth k pulls []) s) <= length (nth k pulls []))%nat; [|lia].
      unfold reqs. etransitivity; [apply filter_le|apply distinct_le]. }
    specialize (G (length pulls) O). rewrite <- map_nth_seq in G. auto. }
  rewrite Hpst. cbn [bind]. rewrite combine_map_seq, map_map. cbn [fst snd].
  rewrite (alltoallv_spec Z P (fun s r => reqs lens (nth s pulls []) r)).
  - cbn [bind]. eauto.
  - rewrite map_length, seq_length. reflexivity.
  - rewrite map_length, seq_length. reflexivity.
  - intros s x Hx. rewrite nth_error_map_, nth_error_seq in Hx.
    destruct (Nat.ltb_spec s P); [|discriminate]. simpl in Hx. injection Hx as <-. simpl. auto.
  - intros r w Hw. rewrite nth_error_map_, nth_error_seq in Hw.
    destruct (Nat.ltb_spec r P); [|discriminate]. simpl in Hw. injection Hw as <-. simpl.
    rewrite repeat_length, last_psums, zsum_zlensl, Z.add_0_l. unfold zlen. rewrite Nat2Z.id. auto.
Qed.

Lemma setup_pull_total : forall lens pulls,
  length pulls = length lens -> Z.of_nat (list_sum lens) <= int64_max ->
  (forall pull q, In pull pulls -> In q pull -> 0 <= q < Z.of_nat (list_sum lens)) ->
  zlen (concat pulls) <= int32_max ->
  exists g ms, setup_pull (map Z.of_nat lens) pulls = Ok (g, ms).
Proof.
  intros lens pulls Hp Hs Hq Hb. unfold setup_pull. fold (zlens lens).
  rewrite align_Ok by auto. cbn [bind]. unfold zlens. rewrite own_ranges_gom. cbn [bind].
  destruct (construct_pull_ok lens (main_ranges lens) pulls Hp) as [ms Hms]; auto.
  - apply Forall_forall. intros pull Hin. apply Forall_forall. intros q Hqq.
    specialize (Hq _ _ Hin Hqq). unfold valid. rewrite item_at_None. lia.
  - rewrite Hms. cbn [bind]. eauto.
Qed.

Lemma setup_pull_rejects : forall lens pulls pull q g ms,
  length pulls = length lens -> In pull pulls -> In q pull -> item_at lens q = None ->
  setup_pull (map Z.of_nat lens) pulls <> Ok (g, ms).
Proof.
  intros lens pulls pull q g ms Hl Hp Hq Hn H.
  assert (B : built lens pulls ms) by (split; eauto).
  apply built_inv in B. destruct B as [_ [Hv _]].
  rewrite Forall_forall in Hv. specialize (Hv _ Hp). rewrite Forall_forall in Hv.
  apply (Hv _ Hq). auto.
Qed.

Lemma search_in_rank : forall lens pulls ms r m pull q s,
  built lens pulls ms ->
  nth_error ms r = Some m -> nth_error pulls r = Some pull -> (s < length lens)%nat ->
  (In q pull /\ owned_by lens s q ->
     exists k, searchInGhost m q (Z.of_nat s) = Ok (Some (Z.of_nat k)) /\
               mapIndex m (Z.of_nat s) (Z.of_nat k) = Ok q) /\
  (~ (In q pull /\ owned_by lens s q) -> searchInGhost m q (Z.of_nat s) = Ok None).
Proof.
  intros lens pulls ms r m pull q s H Hm Hpl Hslt.
  destruct (built_nth _ _ _ _ _ H Hm) as [Hr [-> [Hv Hp]]].
  assert (Hpull : nth r pulls [] = pull) by (apply nth_error_nth; auto).
  assert (Hvp : Forall (valid lens) pull).
  { rewrite Forall_forall in Hv. apply Hv. eapply nth_error_In; eauto. }
  destruct (reqs_ascending lens pull s Hvp) as [Has Hin].
  set (m := expected lens (main_ranges lens) pulls r).
  assert (Hgl : zlen (ghostStart m) = Z.of_nat (length lens) + 1).
  { unfold zlen, m. simpl. rewrite psums_length. unfold zlensl. rewrite map_length, rsegs_length. lia. }
  assert (Eseg : slice (ghostIndex m) (zlen (concat (firstn s (rsegs lens pull)))) (zlen (reqs lens pull s))
       = Ok (reqs lens pull s)).
  { unfold m. simpl. rewrite Hpull. apply slice_concat. apply rsegs_nth; auto. }
  assert (E : searchInGhost m q (Z.of_nat s) =
     (if zlen (reqs lens pull s) =? 0 then Ok None else
      match nth_error (reqs lens pull s) (lb_lt (reqs lens pull s) q) with
      | Some x => if x =? q then Ok (Some (Z.of_nat (lb_lt (reqs lens pull s) q))) else Ok None
      | None => Ok None end)).
  { unfold searchInGhost. rewrite Hgl. destruct (Z.leb_spec 0 (Z.of_nat s)); [|lia].
    destruct (Z.ltb_spec (Z.of_nat s) (Z.of_nat (length lens) + 1 - 1)); [|lia]. cbn [andb assert_ bind].
    replace (Z.of_nat s + 1) with (Z.of_nat (S s)) by lia. unfold m.
    rewrite (vget_of_nat _ _ _ _ (gs_nth lens (main_ranges lens) pulls r (S s) ltac:(lia))). cbn [bind].
    rewrite (vget_of_nat _ _ _ _ (gs_nth lens (main_ranges lens) pulls r s ltac:(lia))). cbn [bind].
    rewrite (concat_firstn_S _ _ _ _ (rsegs_nth lens (nth r pulls []) s Hslt)).
    rewrite Hpull.
    replace (zlen (concat (firstn s (rsegs lens pull)) ++ reqs lens pull s) -
       zlen (concat (firstn s (rsegs lens pull)))) with (zlen (reqs lens pull s))
      by (unfold zlen; rewrite app_length; lia).
    fold m. destruct (zlen (reqs lens pull s) =? 0); auto. rewrite Eseg. reflexivity. }
  split.
  - intro Hq. apply Hin in Hq. apply In_nth_error in Hq. destruct Hq as [k Hk]. exists k.
    rewrite E. pose proof (nth_error_Some_lt _ _ _ _ Hk) as Hlt.
    destruct (Z.eqb_spec (zlen (reqs lens pull s)) 0); [unfold zlen in *; lia|].
    rewrite (lb_lt_sasc_found _ _ _ Has Hk), Hk, Z.eqb_refl. split; auto.
    unfold mapIndex. destruct (Z.eqb_spec (Z.of_nat s) (-1)); [lia|]. rewrite Hgl.
    destruct (Z.leb_spec 0 (Z.of_nat s)); [|lia].
    destruct (Z.ltb_spec (Z.of_nat s) (Z.of_nat (length lens) + 1 - 1)); [|lia]. cbn [andb assert_ bind].
    replace (Z.of_nat s + 1) with (Z.of_nat (S s)) by lia. unfold m.
    rewrite (vget_of_nat _ _ _ _ (gs_nth lens (main_ranges lens) pulls r (S s) ltac:(lia))). cbn [bind].
    rewrite (vget_of_nat _ _ _ _ (gs_nth lens (main_ranges lens) pulls r s ltac:(lia))). cbn [bind].
    rewrite (concat_firstn_S _ _ _ _ (rsegs_nth lens (nth r pulls []) s Hslt)). rewrite Hpull.
    replace (zlen (concat (firstn s (rsegs lens pull)) ++ reqs lens pull s) -
       zlen (concat (firstn s (rsegs lens pull)))) with (zlen (reqs lens pull s))
      by (unfold zlen; rewrite app_length; lia).
    destruct (Z.leb_spec 0 (Z.of_nat k)); [|lia]. unfold zlen at 1.
    destruct (Z.ltb_spec (Z.of_nat k) (Z.of_nat (length (reqs lens pull s)))); [|lia].
    cbn [andb assert_ bind]. unfold zlen. rewrite <- Nat2Z.inj_add. apply vget_of_nat.
    simpl. rewrite Hpull. rewrite (nth_error_concat _ _ _ _ _ (rsegs_nth lens pull s Hslt) Hlt). auto.
  - intro Hq. rewrite E. destruct (zlen (reqs lens pull s) =? 0); auto.
    destruct (nth_error (reqs lens pull s) (lb_lt (reqs lens pull s) q)) as [x|] eqn:En; auto.
    destruct (Z.eqb_spec x q); auto. subst. exfalso. apply Hq, Hin. eapply nth_error_In; eauto.
Qed.
