(** Both kinds of ghost mapping as a table of rows to send (C04, C05, C07). *)
From Coq Require Import List ZArith Lia Bool Arith.
From Verif Require Import Base.Prelude Base.PreludeFacts Base.MPIModel Base.MPIFacts
  DNDS.DefinesModel DNDS.IndexMappingModel DNDS.IndexMappingSpec
  DNDS.IndexMappingProofs DNDS.GhostPullProofs DNDS.GhostSearchProofs DNDS.GhostPushProofs
  DNDS.ArrayModel DNDS.ArraySpec DNDS.ExchangeModel DNDS.ExchangeSpec.
Import ListNotations.
Local Open Scope Z_scope.

(** [G s r]: the local rows of [s] to send to [r]; [ghosts]: the (owner, row) of
    each ghost of [r]. *)
Definition ghosts (P : nat) (G : nat -> nat -> list nat) (r : nat) : list (nat * nat) :=
  concat (map (fun s => map (pair s) (G s r)) (seq 0 P)).
Definition outs (P : nat) (G : nat -> nat -> list nat) (s : nat) : list (list nat) :=
  map (G s) (seq 0 P).
Definition ins (P : nat) (G : nat -> nat -> list nat) (r : nat) : list (list nat) :=
  map (fun s => G s r) (seq 0 P).

Record plan (lens : list nat) (ms : list ghostmap) (G : nat -> nat -> list nat) : Prop := {
  pl_len : length ms = length lens;
  pl_valid : forall s r i, (s < length lens)%nat -> In i (G s r) -> (i < nth s lens 0)%nat;
  pl_push : forall r m, nth_error ms r = Some m ->
    pushIndexSizes m = zlensl (outs (length lens) G r) /\
    pushIndexStarts m = psums 0 (zlensl (outs (length lens) G r)) /\
    pushingIndexGlobal m = map (glob lens r) (concat (outs (length lens) G r));
  pl_pull : forall r m, nth_error ms r = Some m ->
    ghostSizes m = zlensl (ins (length lens) G r) /\
    ghostStart m = psums 0 (zlensl (ins (length lens) G r)) /\
    ghostIndex m = map (fun si => glob lens (fst si) (snd si)) (ghosts (length lens) G r);
  pl_search : forall r m i, nth_error ms r = Some m -> (i < nth r lens 0)%nat ->
    search m (glob lens r i) = Ok (Some (-1, Z.of_nat i))
}.

Lemma zlensl_ext : forall A B (l : list (list A)) (l' : list (list B)),
  map (@length A) l = map (@length B) l' -> zlensl l = zlensl l'.
Proof.
  intros. unfold zlensl, zlen.
  rewrite <- (map_map (@length A) Z.of_nat l), <- (map_map (@length B) Z.of_nat l'). congruence.
Qed.

Lemma mains_search : forall lens m r i, (r < length lens)%nat -> (i < nth r lens 0)%nat ->
  mainOffset m = fst (main_range lens r) -> mainSize m = snd (main_range lens r) ->
  search m (glob lens r i) = Ok (Some (-1, Z.of_nat i)).
Proof.
  intros lens m r i Hr Hi H1 H2. unfold search, searchInMain. rewrite H1, H2. unfold main_range, glob.
  cbn [fst snd].
  destruct (Z.leb_spec (Z.of_nat (list_sum (firstn r lens))) (Z.of_nat (list_sum (firstn r lens)) + Z.of_nat i)); [|lia].
  destruct (Z.ltb_spec (Z.of_nat (list_sum (firstn r lens)) + Z.of_nat i)
    (Z.of_nat (nth r lens 0%nat) + Z.of_nat (list_sum (firstn r lens)))); [|lia].
  cbn [andb]. do 3 f_equal. lia.
Qed.

Definition local_of (lens : list nat) (q : Z) : nat :=
  match item_at lens q with Some (_, v) => v | None => O end.

Lemma plan_exists : forall lens ms, mapped lens ms -> exists G, plan lens ms G.
Proof.
  intros lens ms [[pulls [g [Hl H]]]|[L [g [HL H]]]].
  - assert (B : built lens pulls ms) by (split; eauto).
    destruct (built_inv _ _ _ B) as [_ [Hv Hms]].
    set (G := fun s r => map (local_of lens) (reqs lens (nth r pulls []) s)).
    assert (HG : forall s r, (r < length lens)%nat -> map (glob lens s) (G s r) = reqs lens (nth r pulls []) s).
    { intros s r Hr. unfold G. rewrite map_map. rewrite <- (map_id (reqs lens (nth r pulls []) s)) at 2.
      apply map_ext_in. intros q Hq. apply filter_In in Hq. destruct Hq as [Hq Ho].
      apply Nat.eqb_eq in Ho. apply (proj1 (zsort_uniq_In _ _)) in Hq.
      rewrite Forall_forall in Hv. assert (Hrp : (r < length pulls)%nat) by lia; specialize (Hv (nth r pulls []) (nth_In pulls [] Hrp)).
      rewrite Forall_forall in Hv. specialize (Hv _ Hq).
      unfold valid, owner, local_of in *. destruct (item_at lens q) as [[s' v]|] eqn:E; [|congruence].
      subst s'. apply item_at_spec in E. destruct E as [_ ->]. unfold glob. lia. }
    exists G. constructor.
    + rewrite Hms, map_length, seq_length. reflexivity.
    + intros s r i Hs Hi. unfold G in Hi. apply in_map_iff in Hi. destruct Hi as [q [<- Hq]].
      apply filter_In in Hq. destruct Hq as [Hq Ho]. apply Nat.eqb_eq in Ho. apply (proj1 (zsort_uniq_In _ _)) in Hq.
      destruct (le_lt_dec (length pulls) r).
      { rewrite nth_overflow in Hq by auto. contradiction. }
      rewrite Forall_forall in Hv. assert (Hrp : (r < length pulls)%nat) by lia; specialize (Hv (nth r pulls []) (nth_In pulls [] Hrp)).
      rewrite Forall_forall in Hv. specialize (Hv _ Hq).
      unfold valid, owner, local_of in *. destruct (item_at lens q) as [[s' v]|] eqn:E; [|congruence].
      subst s'. apply item_at_spec in E. destruct E as [[len [E1 E2]] _].
      rewrite (nth_error_nth _ _ 0%nat E1). auto.
    + intros r m Hm. destruct (built_nth _ _ _ _ _ B Hm) as [Hr [-> _]].
      unfold expected. cbn [pushIndexSizes pushIndexStarts pushingIndexGlobal].
      assert (E : zlensl (psegs lens pulls r) = zlensl (outs (length lens) G r)).
      { apply zlensl_ext. unfold psegs, outs, G. rewrite !map_map. apply map_ext. intro.
        rewrite map_length. reflexivity. }
      rewrite E. split; [reflexivity|]. split; [reflexivity|].
      unfold psegs, outs. rewrite <- concat_map_map, map_map. f_equal. apply map_ext_in.
      intros d Hd. apply in_seq in Hd. symmetry. apply HG. lia.
    + intros r m Hm. destruct (built_nth _ _ _ _ _ B Hm) as [Hr [-> _]].
      unfold expected. cbn [ghostSizes ghostStart ghostIndex].
      assert (E : zlensl (rsegs lens (nth r pulls [])) = zlensl (ins (length lens) G r)).
      { apply zlensl_ext. unfold rsegs, ins, G. rewrite !map_map. apply map_ext. intro.
        rewrite map_length. reflexivity. }
      rewrite E. split; [reflexivity|]. split; [reflexivity|].
      unfold rsegs, ghosts. rewrite <- concat_map_map, map_map. f_equal. apply map_ext_in.
      intros s Hs. rewrite map_map. cbn [fst snd]. symmetry. apply HG. auto.
    + intros r m i Hm Hi. destruct (built_nth _ _ _ _ _ B Hm) as [Hr [-> _]].
      apply mains_search; auto; unfold expected; cbn [mainOffset mainSize]; rewrite main_ranges_nth; auto.
  - pose proof (setup_push_inv _ _ _ _ HL H) as Hms.
    assert (Hn : forall r m, nth_error ms r = Some m -> (r < length lens)%nat /\ m = pexpected lens L r).
    { intros r m Hm. rewrite Hms, nth_error_map_, nth_error_seq in Hm.
      destruct (Nat.ltb_spec r (length lens)); [|discriminate]. cbn [option_map] in Hm.
      injection Hm as <-. auto. }
    exists (seg_of L). constructor.
    + rewrite Hms, map_length, seq_length. reflexivity.
    + intros s r i Hs Hi. eapply seg_of_valid; eauto.
    + intros r m Hm. destruct (Hn _ _ Hm) as [Hr ->].
      unfold pexpected. cbn [pushIndexSizes pushIndexStarts pushingIndexGlobal].
      match goal with |- zlensl ?x = _ /\ _ => assert (E : zlensl x = zlensl (outs (length lens) (seg_of L) r)) end.
      { apply zlensl_ext. unfold outs. rewrite !map_map. apply map_ext. intro.
        rewrite map_length. reflexivity. }
      rewrite E. split; [reflexivity|]. split; [reflexivity|].
      unfold outs. rewrite <- concat_map_map, map_map. reflexivity.
    + intros r m Hm. destruct (Hn _ _ Hm) as [Hr ->].
      unfold pexpected. cbn [ghostSizes ghostStart ghostIndex].
      match goal with |- zlensl ?x = _ /\ _ => assert (E : zlensl x = zlensl (ins (length lens) (seg_of L) r)) end.
      { apply zlensl_ext. unfold ins. rewrite !map_map. apply map_ext. intro.
        rewrite map_length. reflexivity. }
      rewrite E. split; [reflexivity|]. split; [reflexivity|].
      unfold ghosts. rewrite <- concat_map_map, map_map. f_equal. apply map_ext.
      intros s. rewrite map_map. reflexivity.
    + intros r m i Hm Hi. destruct (Hn _ _ Hm) as [Hr ->]. apply mains_search; auto.
Qed.

Lemma ghosts_valid : forall lens ms G r k s i, plan lens ms G ->
  nth_error (ghosts (length lens) G r) k = Some (s, i) ->
  (s < length lens)%nat /\ (i < nth s lens 0)%nat /\ In i (G s r).
Proof.
  intros lens ms G r k s i HP H. apply nth_error_In in H. unfold ghosts in H.
  apply in_concat in H. destruct H as [l [Hl Hi]]. apply in_map_iff in Hl. destruct Hl as [s' [<- Hs]].
  apply in_seq in Hs. apply in_map_iff in Hi. destruct Hi as [i' [E Hi]]. injection E as -> ->.
  split; [lia|]. split; auto. eapply pl_valid; eauto. lia.
Qed.

Lemma plan_ghost_of : forall lens ms G r k s i, plan lens ms G -> (r < length lens)%nat ->
  ghost_of lens ms r k s i <-> nth_error (ghosts (length lens) G r) k = Some (s, i).
Proof.
  intros lens ms G r k s i HP Hr. split.
  - intros [m [q [Hm [Hq Hi]]]]. destruct (pl_pull _ _ _ HP _ _ Hm) as [_ [_ E]].
    rewrite E, nth_error_map_ in Hq. destruct (nth_error (ghosts _ G r) k) as [[s' i']|] eqn:Eg; [|discriminate].
    cbn in Hq. injection Hq as <-. destruct (ghosts_valid _ _ _ _ _ _ _ HP Eg) as [A [B _]].
    rewrite glob_item in Hi by auto. congruence.
  - intro H. destruct (ghosts_valid _ _ _ _ _ _ _ HP H) as [A [B _]].
    destruct (nth_error_lt_Some _ ms r) as [m Hm]; [rewrite (pl_len _ _ _ HP); auto|].
    destruct (pl_pull _ _ _ HP _ _ Hm) as [_ [_ E]]. exists m, (glob lens s i). split; auto.
    split; [|apply glob_item; auto]. rewrite E, nth_error_map_, H. reflexivity.
Qed.

Lemma ghost_of_rank : forall lens ms G r k s i, plan lens ms G -> ghost_of lens ms r k s i -> (r < length lens)%nat.
Proof.
  intros lens ms G r k s i HP [m [q [Hm _]]]. rewrite <- (pl_len _ _ _ HP). eapply nth_error_Some_lt; eauto.
Qed.
