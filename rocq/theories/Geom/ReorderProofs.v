(** The reordering of the cells (C40). *)
From Coq Require Import List ZArith Lia Bool Arith Permutation.
From Verif Require Import Base.Prelude Base.PreludeFacts Base.MPIModel Base.MPIFacts
  DNDS.DefinesModel DNDS.DefinesProofs DNDS.IndexMappingModel DNDS.IndexMappingSpec
  DNDS.IndexMappingProofs DNDS.GhostPullProofs DNDS.GhostSearchProofs DNDS.GhostPushProofs DNDS.ExchangeSpec
  Geom.AdjModel Geom.AdjSpec Geom.AdjProofs Geom.NodeCellModel Geom.NodeCellSpec Geom.NodeCellProofs
  Geom.PartModel Geom.PartSpec Geom.PartProofs Geom.ReorderModel Geom.ReorderSpec.
Import ListNotations.
Local Open Scope Z_scope.

Lemma mapM_ranks B (f : Z -> res B) P out : mapM f (ranks P) = Ok out ->
  length out = P /\ forall r, (r < P)%nat -> exists b, f (Z.of_nat r) = Ok b /\ nth_error out r = Some b.
Proof.
  intro H. apply mapM_nth in H. destruct H as (L & H). rewrite ranks_length in L. split; [exact L|].
  intros r Hr. apply (H r (Z.of_nat r)). now apply ranks_nth.
Qed.

Lemma per_rank_spec A B (f : Z -> A -> res B) l P out : per_rank f l P = Ok out ->
  length out = P /\ forall r, (r < P)%nat ->
    exists x b, nth_error l r = Some x /\ f (Z.of_nat r) x = Ok b /\ nth_error out r = Some b.
Proof.
  intro H. apply mapM_ranks in H. destruct H as (L & H). split; [exact L|]. intros r Hr.
  destruct (H r Hr) as (b & Hb & E). apply bind_Ok in Hb. destruct Hb as (x & Hx & Hb).
  apply vget_Ok in Hx. rewrite Nat2Z.id in Hx. exists x, b. tauto.
Qed.

(** ** The permutation *)

Section Perm.
  Variables (lens : list nat) (perm : list (list Z)).
  Hypothesis HP : permutations lens perm.

  Lemma perm_nth s i : (s < length lens)%nat -> (i < nth s lens 0)%nat ->
    exists j, nth_error (nth s perm []) i = Some (Z.of_nat j) /\ (j < nth s lens 0)%nat.
  Proof.
    intros Hs Hi. destruct HP as (L & H). destruct (nth_error_lt_Some _ perm s ltac:(lia)) as (p & Ep).
    specialize (H s p Ep). rewrite (nth_error_nth _ _ _ Ep).
    destruct (nth_error_lt_Some _ p i) as (x & Hx).
    { rewrite (Permutation_length H), map_length, seq_length. exact Hi. }
    pose proof (Permutation_in _ H (nth_error_In _ _ Hx)) as Q. apply in_map_iff in Q. destruct Q as (j & <- & Hj).
    apply in_seq in Hj. exists j. split; [exact Hx|lia].
  Qed.

  Lemma perm_inj s i i' x : nth_error (nth s perm []) i = Some x -> nth_error (nth s perm []) i' = Some x -> i = i'.
  Proof.
    intros H1 H2. destruct (nth_error perm s) as [p|] eqn:Ep.
    - rewrite (nth_error_nth _ _ _ Ep) in *. destruct HP as (_ & H). specialize (H s p Ep).
      assert (ND : NoDup p).
      { apply (Permutation_NoDup (Permutation_sym H)). apply FinFun.Injective_map_NoDup; [intros a b; apply Nat2Z.inj|apply seq_NoDup]. }
      eapply NoDup_nth_error; [exact ND|eapply nth_error_Some_lt; eauto|congruence].
    - rewrite nth_overflow in H1 by (now apply nth_error_None). destruct i; discriminate.
  Qed.

  Lemma perm_onto s j : (s < length lens)%nat -> (j < nth s lens 0)%nat ->
    exists i, nth_error (nth s perm []) i = Some (Z.of_nat j) /\ (i < nth s lens 0)%nat.
  Proof.
    intros Hs Hj. destruct HP as (L & H). destruct (nth_error_lt_Some _ perm s ltac:(lia)) as (p & Ep).
    specialize (H s p Ep). rewrite (nth_error_nth _ _ _ Ep).
    assert (Q : In (Z.of_nat j) p).
    { apply (Permutation_in _ (Permutation_sym H)). apply in_map, in_seq. lia. }
    apply In_nth_error in Q. destruct Q as (i & Hi). exists i. split; [exact Hi|].
    apply nth_error_Some_lt in Hi. now rewrite (Permutation_length H), map_length, seq_length in Hi.
  Qed.

  Lemma item_lt c s i : item_at lens c = Some (s, i) -> (s < length lens)%nat /\ (i < nth s lens 0)%nat /\ c = glob lens s i.
  Proof.
    intro H. apply item_at_spec in H. destruct H as ((l & Hl & Hi) & ->). split; [eapply nth_error_Some_lt; eauto|].
    rewrite (nth_error_nth _ _ _ Hl). split; [exact Hi|]. unfold glob. lia.
  Qed.

  Lemma item_unique c d x : item_at lens c = Some x -> item_at lens d = Some x -> c = d.
  Proof. destruct x as (s, i). intros H1 H2. apply item_lt in H1. apply item_lt in H2. destruct H1 as (_ & _ & ->). symmetry. tauto. Qed.

  Lemma reordered_bijection :
    (forall c, item_at lens c <> None -> exists d, reordered lens perm c d) /\
    (forall d, item_at lens d <> None -> exists c, reordered lens perm c d) /\
    (forall c d c' d', reordered lens perm c d -> reordered lens perm c' d' -> (c = c' <-> d = d')).
  Proof.
    repeat split.
    - intros c H. destruct (item_at lens c) as [[s i]|] eqn:E; [|congruence]. destruct (item_lt _ _ _ E) as (Hs & Hi & _).
      destruct (perm_nth s i Hs Hi) as (j & Hj & Lj). exists (glob lens s j), s, i, j.
      split; [exact E|]. split; [exact Hj|now apply glob_item].
    - intros d H. destruct (item_at lens d) as [[s j]|] eqn:E; [|congruence]. destruct (item_lt _ _ _ E) as (Hs & Hj & _).
      destruct (perm_onto s j Hs Hj) as (i & Hi & Li). exists (glob lens s i), s, i, j.
      split; [now apply glob_item|]. split; [exact Hi|exact E].
    - intros <-. destruct H as (s & i & j & A & B & C). destruct H0 as (s' & i' & j' & A' & B' & C').
      rewrite A in A'. injection A' as <- <-. rewrite B in B'. injection B' as E. assert (j = j') by lia. subst j'.
      eapply item_unique; eauto.
    - intros <-. destruct H as (s & i & j & A & B & C). destruct H0 as (s' & i' & j' & A' & B' & C').
      rewrite C in C'. injection C' as <- <-. pose proof (perm_inj _ _ _ _ B B'). subst i'.
      eapply item_unique; eauto.
  Qed.

  (** ** The numbers of the new places *)

  Variable g : gomap.
  Hypothesis Hg : setMPIAlignBcast (map Z.of_nat lens) = Ok g.

  Lemma own_spec r p own : (r < length lens)%nat -> nth_error perm r = Some p ->
    old_to_new g (Z.of_nat r) (nth r lens 0%nat) p = Ok own ->
    length own = nth r lens 0%nat /\
    forall i j, nth_error p i = Some (Z.of_nat j) -> nth_error own i = Some (glob lens r j).
  Proof.
    intros Hr Ep H. apply mapM_ranks in H. destruct H as (L & H). split; [exact L|]. intros i j Hj.
    assert (Hi : (i < nth r lens 0)%nat).
    { destruct HP as (_ & X). specialize (X r p Ep). apply nth_error_Some_lt in Hj.
      now rewrite (Permutation_length X), map_length, seq_length in Hj. }
    destruct (H i Hi) as (b & Hb & Eb). rewrite (vat_of_nat _ _ _ _ Hj) in Hb. cbn [bind] in Hb.
    destruct (perm_nth r i Hr Hi) as (j' & Hj' & Lj). rewrite (nth_error_nth _ _ _ Ep), Hj in Hj'. injection Hj' as Ej.
    assert (j = j') by lia. subst j'.
    rewrite noson_glob in Hb by auto. injection Hb as <-. exact Eb.
  Qed.

  Lemma place_spec A r p own (tmp out : list A) : (r < length lens)%nat -> nth_error perm r = Some p ->
    length tmp = nth r lens 0%nat ->
    (forall i j, nth_error p i = Some (Z.of_nat j) -> nth_error own i = Some (glob lens r j)) ->
    place_rows g (Z.of_nat r) own tmp = Ok out ->
    length out = length tmp /\
    forall i j, nth_error p i = Some (Z.of_nat j) -> nth_error out j = nth_error tmp i.
  Proof.
    intros Hr Ep Hl Hown H. unfold place_rows in H.
    assert (G : forall a b out, tmp = a ++ b ->
      foldM (fun rows x => do o <- vget own (fst x); do j <- IndexGlobal2Local_NoSon g (Z.of_nat r) o; vset rows j (snd x)) tmp (indexed a) = Ok out ->
      length out = length tmp /\ forall i j, (i < length a)%nat -> nth_error p i = Some (Z.of_nat j) -> nth_error out j = nth_error tmp i).
    { clear H out. induction a as [|x a IH] using rev_ind; intros b out E H.
      - cbn in H. injection H as <-. split; [reflexivity|]. intros i j Hi. cbn in Hi. lia.
      - rewrite indexed_snoc, foldM_snoc in H. apply bind_Ok in H. destruct H as (st & Hst & H). cbn [fst snd] in H.
        rewrite <- app_assoc in E. destruct (IH _ _ E Hst) as (L & N). clear IH.
        assert (Ha : (length a < nth r lens 0)%nat) by (rewrite <- Hl, E, app_length; cbn; lia).
        destruct (perm_nth r (length a) Hr Ha) as (j & Hj & Lj). rewrite (nth_error_nth _ _ _ Ep) in Hj.
        unfold zlen in H. rewrite (vget_of_nat _ _ _ _ (Hown _ _ Hj)) in H. cbn [bind] in H.
        unfold IndexGlobal2Local_NoSon in H.
        assert ((glob lens r j =? UnInitIndex) = false) as X by (apply nonneg_not_unset; unfold glob; lia). rewrite X in H.
        rewrite (search_spec _ _ _ Hg), glob_item, Z.eqb_refl in H by auto. cbn [bind] in H.
        apply vset_Ok in H. destruct H as (Hst2 & ->). split; [now rewrite upd_length|].
        intros i k Hi Hk. rewrite app_length in Hi. cbn in Hi.
        destruct (Nat.eq_dec i (length a)) as [->|Ni].
        + assert (k = j) by (rewrite Hj in Hk; injection Hk; lia). subst k. rewrite nth_error_upd_same by exact Hst2.
          rewrite E, nth_error_app2, Nat.sub_diag by lia. reflexivity.
        + rewrite nth_error_upd_other; [apply N; [lia|exact Hk]|]. intros ->. apply Ni.
          apply (perm_inj r i (length a) (Z.of_nat k)); rewrite (nth_error_nth _ _ _ Ep); auto. }
    destruct (G tmp [] out (eq_sym (app_nil_r tmp)) H) as (L & N). split; [exact L|]. intros i j Hj. apply N; [|exact Hj].
    rewrite Hl. destruct HP as (_ & X). specialize (X r p Ep). apply nth_error_Some_lt in Hj.
    now rewrite (Permutation_length X), map_length, seq_length in Hj.
  Qed.

  (** ** Replacement of entries *)

  Lemma replace_spec pulls ms r m owns own son v w :
    length pulls = length lens -> setup_pull (map Z.of_nat lens) pulls = Ok (g, ms) -> nth_error ms r = Some m ->
    map (@length Z) owns = lens -> nth_error owns r = Some own -> pull_rows g owns m = Ok son ->
    (v <> UnInitIndex -> item_at lens v <> None /\ (~ owned_by lens r v -> In v (nth r pulls []))) ->
    replace_cell m own son v = Ok w ->
    (v = UnInitIndex /\ w = UnInitIndex) \/ (v <> UnInitIndex /\ row_of owns v = Some w).
  Proof.
    intros Hp Hs Hm Hl Ho Hson Hv H. unfold replace_cell in H.
    destruct (Z.eqb_spec v UnInitIndex) as [->|Nv]; [left; split; congruence|]. right. split; [exact Nv|].
    destruct (Hv Nv) as (Hi & Hin). unfold row_of. rewrite Hl.
    pose proof (conj Hp (ex_intro _ g Hs) : built lens pulls ms) as B.
    assert (Lo : length own = nth r lens 0%nat).
    { rewrite <- Hl, lens_nth, (nth_error_nth _ _ _ Ho). reflexivity. }
    destruct (item_at lens v) as [[s i]|] eqn:E; [|congruence]. destruct (Nat.eq_dec s r) as [->|N].
    - destruct (lookup_main _ _ _ _ _ _ _ B Hm E) as (_ & X & _). rewrite X in H. cbn [bind] in H.
      apply vget_Ok in H. rewrite Nat2Z.id in H. destruct H as (_ & H).
      destruct (item_lt _ _ _ E) as (_ & Hir & _). rewrite nth_error_app1 in H by lia.
      rewrite (nth_error_nth _ _ _ Ho). exact H.
    - assert (Hin' : In v (nth r pulls [])) by (apply Hin; intros (k & Hk); congruence).
      destruct (nth_error_lt_Some _ pulls r) as (pull & Epull).
      { destruct (built_nth _ _ _ _ _ B Hm) as (Hr & _). lia. }
      rewrite (nth_error_nth _ _ _ Epull) in Hin'.
      destruct (lookup_ghost _ _ _ _ _ _ _ _ _ B Hm Epull Hin' E N) as (k & kr & Hk & _ & X & _). rewrite X in H. cbn [bind] in H.
      apply vget_Ok in H. rewrite Nat2Z.id in H. destruct H as (_ & H).
      rewrite nth_error_app2 in H by lia. rewrite Lo in H. replace (nth r lens 0 + k - nth r lens 0)%nat with k in H by lia.
      unfold pull_rows in Hson. apply mapM_nth in Hson. destruct Hson as (_ & Hson). destruct (Hson k v Hk) as (y & Hy & Ey).
      rewrite H in Ey. injection Ey as <-.
      rewrite (search_spec _ _ _ Hg), E in Hy. apply bind_Ok in Hy. destruct Hy as (l & H1 & H2).
      apply vget_Ok in H1. apply vget_Ok in H2. rewrite !Nat2Z.id in *. destruct H1 as (_ & H1). destruct H2 as (_ & H2).
      now rewrite (nth_error_nth _ _ [] H1).
  Qed.

  Lemma own_row_reordered owns v w : map (@length Z) owns = lens ->
    (forall r p own, nth_error perm r = Some p -> nth_error owns r = Some own ->
       forall i j, nth_error p i = Some (Z.of_nat j) -> nth_error own i = Some (glob lens r j)) ->
    row_of owns v = Some w -> reordered lens perm v w.
  Proof.
    intros Hl Hown H. unfold row_of in H. rewrite Hl in H.
    destruct (item_at lens v) as [[s i]|] eqn:E; [|discriminate]. destruct (item_lt _ _ _ E) as (Hs & Hi & _).
    destruct (perm_nth s i Hs Hi) as (j & Hj & Lj). exists s, i, j. split; [exact E|]. split; [exact Hj|].
    assert (Lp : length perm = length lens) by apply HP.
    destruct (nth_error_lt_Some _ perm s ltac:(lia)) as (p & Ep).
    destruct (nth_error_lt_Some _ owns s) as (own & Eo). { rewrite <- Hl, map_length in Hs. exact Hs. }
    rewrite (nth_error_nth _ _ _ Ep) in Hj. rewrite (nth_error_nth _ _ _ Eo) in H.
    rewrite (Hown s p own Ep Eo i j Hj) in H. injection H as <-. now apply glob_item.
  Qed.
End Perm.

Lemma record_spec lens g r i l : setMPIAlignBcast (map Z.of_nat lens) = Ok g ->
  record_nonlocal g (Z.of_nat r) i = Ok l ->
  (i <> UnInitIndex -> item_at lens i <> None /\ (~ owned_by lens r i -> In i l)) /\
  (forall q, In q l -> item_at lens q <> None).
Proof.
  intros Hg H. unfold record_nonlocal in H. rewrite (search_spec _ _ _ Hg) in H.
  destruct ((0 <=? i) && (i <? globalSize g)) eqn:E.
  - destruct (item_at lens i) as [[s k]|] eqn:Ei; [|discriminate].
    destruct (Z.eqb_spec (Z.of_nat s) (Z.of_nat r)) as [X|X]; injection H as <-.
    + assert (s = r) by lia. subst s. split; [|intros q []]. intros _. split; [congruence|]. intro N. exfalso. apply N. exists k. exact Ei.
    + split; [|intros q [<-|[]]; congruence]. intros _. split; [congruence|]. intros _. now left.
  - apply bind_Ok in H. destruct H as (u & Hu & H). apply assert_Ok in Hu. apply Z.eqb_eq in Hu. injection H as <-.
    split; [contradiction|intros q []].
Qed.

Lemma nonlocal_spec lens g r entries ghost out : setMPIAlignBcast (map Z.of_nat lens) = Ok g ->
  nonlocal g (Z.of_nat r) entries ghost = Ok out ->
  (forall v, In v entries -> v <> UnInitIndex -> item_at lens v <> None /\ (~ owned_by lens r v -> In v out)) /\
  (forall v, In v ghost -> In v out).
Proof.
  intros Hg H. unfold nonlocal in H. apply bind_Ok in H. destruct H as (l & Hl & E). injection E as <-.
  split.
  - intros v Hv Nv. apply In_nth_error in Hv. destruct Hv as (k & Hk). apply mapM_nth in Hl. destruct Hl as (_ & Hl).
    destruct (Hl k v Hk) as (y & Hy & Ey). destruct (record_spec _ _ _ _ _ Hg Hy) as (A & _).
    destruct (A Nv) as (A1 & A2). split; [exact A1|]. intro N. apply zsort_uniq_In. apply in_app_iff. left.
    apply in_concat. exists y. split; [eapply nth_error_In; eauto|auto].
  - intros v Hv. apply zsort_uniq_In. apply in_app_iff. now right.
Qed.

Lemma convert_Forall2 (f : Z -> res Z) (R : Z -> Z -> Prop) rows out :
  convert f rows = Ok out -> (forall v w, In v (concat rows) -> f v = Ok w -> R v w) -> Forall2 (Forall2 R) rows out.
Proof.
  intros H HR. unfold convert in H. apply mapM_Forall2 with (1 := H). intros row row' Hin Hrow.
  apply mapM_Forall2 with (1 := Hrow). intros v w Hv Hw. apply HR; [|exact Hw]. apply in_concat. eauto.
Qed.

Lemma Forall2_of_nth A B (R : A -> B -> Prop) l l' : length l = length l' ->
  (forall r a b, nth_error l r = Some a -> nth_error l' r = Some b -> R a b) -> Forall2 R l l'.
Proof.
  revert l'. induction l as [|a l IH]; intros [|b l'] L H; try discriminate; constructor.
  - exact (H 0%nat a b eq_refl eq_refl).
  - apply IH; [now injection L|]. intros r. exact (H (S r)).
Qed.

Lemma ghost_rows_spec A lens g (rows : list (list A)) ms sons :
  setMPIAlignBcast (map Z.of_nat lens) = Ok g -> map (@length A) rows = lens ->
  mapM (pull_rows g rows) ms = Ok sons -> ghost_rows rows (map ghostIndex ms) sons.
Proof.
  intros Hg Hl H. unfold ghost_rows. revert sons H. induction ms as [|m ms IH]; cbn [mapM map]; intros sons H.
  - injection H as <-. constructor.
  - apply bind_Ok in H. destruct H as (x & Hx & H). apply bind_Ok in H. destruct H as (y & Hy & E). injection E as <-.
    constructor; [|now apply IH]. unfold pull_rows in Hx. apply mapM_Forall2 with (1 := Hx).
    intros q a _ Hq. rewrite (search_spec _ _ _ Hg) in Hq. unfold row_of. rewrite Hl.
    destruct (item_at lens q) as [[s i]|]; [|discriminate]. apply bind_Ok in Hq. destruct Hq as (l & H1 & H2).
    apply vget_Ok in H1. apply vget_Ok in H2. rewrite !Nat2Z.id in *. destruct H1 as (_ & H1). destruct H2 as (_ & H2).
    now rewrite (nth_error_nth _ _ [] H1).
Qed.

Section Whole.
  Variables (I : Type) (perm : list (list Z)) (m : cmesh I).
  Let lens := map (@length (list Z)) (m_c2n m).
  Let P := length (m_c2n m).
  Hypothesis HP : permutations lens perm.
  Variables (g : gomap) (own : list (list Z)).
  Hypothesis Hg : setMPIAlignBcast (map Z.of_nat lens) = Ok g.
  Hypothesis Hown : per_rank (fun r p => do rows <- vget (m_c2n m) r; old_to_new g r (length rows) p) perm P = Ok own.

  Lemma lens_P : length lens = P.
  Proof. unfold lens, P. now rewrite map_length. Qed.

  Lemma own_facts : map (@length Z) own = lens /\
    forall r p o, nth_error perm r = Some p -> nth_error own r = Some o ->
       forall i j, nth_error p i = Some (Z.of_nat j) -> nth_error o i = Some (glob lens r j).
  Proof.
    pose proof (per_rank_spec _ _ _ _ _ _ Hown) as (L & H).
    assert (K : forall r p o, nth_error perm r = Some p -> nth_error own r = Some o ->
      length o = nth r lens 0%nat /\ forall i j, nth_error p i = Some (Z.of_nat j) -> nth_error o i = Some (glob lens r j)).
    { intros r p o Ep Eo. assert (Hr : (r < P)%nat) by (rewrite <- L; eapply nth_error_Some_lt; eauto).
      destruct (H r Hr) as (p' & o' & E1 & E2 & E3). assert (p' = p) by congruence. assert (o' = o) by congruence. subst p' o'.
      apply bind_Ok in E2. destruct E2 as (rows & H1 & H2). apply vget_Ok in H1. rewrite Nat2Z.id in H1. destruct H1 as (_ & H1).
      assert (El : length rows = nth r lens 0%nat). { unfold lens. rewrite lens_nth, (nth_error_nth _ _ _ H1). reflexivity. }
      rewrite El in H2. apply (own_spec lens perm HP g Hg r p o); auto. now rewrite lens_P. }
    split; [|intros r p o Ep Eo; exact (proj2 (K r p o Ep Eo))].
    apply nth_error_ext. intro r. rewrite nth_error_map_. destruct (nth_error own r) as [o|] eqn:Eo.
    - assert (Hr : (r < P)%nat) by (rewrite <- L; eapply nth_error_Some_lt; eauto).
      destruct (nth_error_lt_Some _ perm r) as (p & Ep).
      { assert (length perm = length lens) by apply HP. rewrite lens_P in *. lia. }
      destruct (K r p o Ep Eo) as (Ko & _). cbn [option_map]. rewrite Ko. symmetry. apply nth_error_nth'. now rewrite lens_P.
    - cbn [option_map]. symmetry. apply nth_error_None. rewrite lens_P, <- L. now apply nth_error_None.
  Qed.

  Lemma placed A (x y : list (list A)) : map (@length A) x = lens ->
    per_rank (fun r (rows : list A) => do o <- vget own r; place_rows g r o rows) x P = Ok y ->
    rows_reordered lens perm eq x y.
  Proof.
    intros Hx H. apply per_rank_spec in H. destruct H as (L & H). destruct own_facts as (Lo & Fo).
    assert (K : forall r p a b, nth_error perm r = Some p -> nth_error x r = Some a -> nth_error y r = Some b ->
      length b = length a /\ forall i j, nth_error p i = Some (Z.of_nat j) -> nth_error b j = nth_error a i).
    { intros r p a b Ep Ea Eb. assert (Hr : (r < P)%nat) by (rewrite <- L; eapply nth_error_Some_lt; eauto).
      destruct (H r Hr) as (a' & b' & E1 & E2 & E3). assert (a' = a) by congruence. assert (b' = b) by congruence. subst a' b'.
      apply bind_Ok in E2. destruct E2 as (o & H1 & H2). apply vget_Ok in H1. rewrite Nat2Z.id in H1. destruct H1 as (_ & H1).
      apply (place_spec lens perm HP g Hg A r p o a b); auto.
      - now rewrite lens_P.
      - rewrite <- Hx, lens_nth, (nth_error_nth _ _ _ Ea). reflexivity.
      - exact (Fo r p o Ep H1). }
    assert (Lp : length perm = P) by (rewrite <- lens_P; apply HP).
    assert (Lx : length x = P) by (apply (f_equal (@length nat)) in Hx; rewrite map_length, lens_P in Hx; exact Hx).
    assert (ML : map (@length A) y = map (@length A) x).
    { apply nth_error_ext. intro r. rewrite !nth_error_map_. destruct (nth_error y r) as [b|] eqn:Eb.
      - assert (Hr : (r < P)%nat) by (rewrite <- L; eapply nth_error_Some_lt; eauto).
        destruct (nth_error_lt_Some _ perm r ltac:(lia)) as (p & Ep). destruct (nth_error_lt_Some _ x r ltac:(lia)) as (a & Ea).
        rewrite Ea. cbn [option_map]. f_equal. exact (proj1 (K r p a b Ep Ea Eb)).
      - apply nth_error_None in Eb. assert (nth_error x r = None) as -> by (apply nth_error_None; lia). reflexivity. }
    split; [exact ML|]. intros c d a (s & i & j & A1 & A2 & A3) Hc. exists a. split; [|reflexivity].
    unfold row_of in *. rewrite ML. rewrite Hx in *. rewrite A1 in Hc. rewrite A3.
    destruct (item_lt lens _ _ _ A1) as (Hs & _). rewrite lens_P in Hs.
    destruct (nth_error_lt_Some _ perm s ltac:(lia)) as (p & Ep). destruct (nth_error_lt_Some _ x s ltac:(lia)) as (xa & Ea).
    destruct (nth_error_lt_Some _ y s ltac:(lia)) as (yb & Eb).
    rewrite (nth_error_nth _ _ _ Ep) in A2. rewrite (nth_error_nth _ _ _ Ea) in Hc. rewrite (nth_error_nth _ _ _ Eb).
    rewrite (proj2 (K s p xa yb Ep Ea Eb) i j A2). exact Hc.
  Qed.

  Variables (nl : list (list Z)) (ms : list ghostmap) (sons : list (list Z)).
  Hypothesis Hnl : per_rank (fun r gh =>
      do f <- vget (m_f2c m) r; do n <- vget (m_n2c m) r;
      do c <- vget (m_c2c m) r; do b <- vget (m_b2c m) r;
      nonlocal g r (concat f ++ concat n ++ concat c ++ concat b) gh) (m_ghost m) P = Ok nl.
  Hypothesis Hpull : setup_pull (map Z.of_nat lens) nl = Ok (g, ms).
  Hypothesis Hsons : mapM (pull_rows g own) ms = Ok sons.
  Let rep r v := do mp <- vget ms r; do o <- vget own r; do s <- vget sons r; replace_cell mp o s v.

  Lemma nl_length : length nl = length lens.
  Proof. pose proof (per_rank_spec _ _ _ _ _ _ Hnl) as (L & _). now rewrite lens_P. Qed.

  Lemma rep_spec r v w : (r < P)%nat -> rep (Z.of_nat r) v = Ok w ->
    (v <> UnInitIndex -> item_at lens v <> None /\ (~ owned_by lens r v -> In v (nth r nl []))) ->
    new_entry lens perm v w.
  Proof.
    intros Hr H Hv. unfold rep in H. apply bind_Ok in H. destruct H as (mp & H1 & H). apply bind_Ok in H. destruct H as (o & H2 & H).
    apply bind_Ok in H. destruct H as (s & H3 & H). apply vget_Ok in H1, H2, H3. rewrite !Nat2Z.id in *.
    destruct H1 as (_ & H1). destruct H2 as (_ & H2). destruct H3 as (_ & H3).
    destruct own_facts as (Lo & Fo).
    assert (Hs : pull_rows g own mp = Ok s).
    { pose proof Hsons as X. apply mapM_nth in X. destruct X as (_ & X). destruct (X r mp H1) as (y & Hy & Ey). congruence. }
    destruct (replace_spec lens g Hg nl ms r mp own o s v w nl_length Hpull H1 Lo H2 Hs Hv H) as [X|(N & X)].
    - left. exact X.
    - right. split; [exact N|]. exact (own_row_reordered lens perm HP own v w Lo Fo X).
  Qed.

  Lemma nl_spec r : (r < P)%nat -> exists f n c b gh,
    nth_error (m_f2c m) r = Some f /\ nth_error (m_n2c m) r = Some n /\ nth_error (m_c2c m) r = Some c /\
    nth_error (m_b2c m) r = Some b /\ nth_error (m_ghost m) r = Some gh /\
    (forall v, In v (concat f ++ concat n ++ concat c ++ concat b) -> v <> UnInitIndex ->
       item_at lens v <> None /\ (~ owned_by lens r v -> In v (nth r nl []))) /\
    (forall v, In v gh -> item_at lens v <> None /\ In v (nth r nl [])).
  Proof.
    intro Hr. pose proof (per_rank_spec _ _ _ _ _ _ Hnl) as (L & H). destruct (H r Hr) as (gh & out & E1 & E2 & E3).
    apply bind_Ok in E2. destruct E2 as (f & F1 & E2). apply bind_Ok in E2. destruct E2 as (n & F2 & E2).
    apply bind_Ok in E2. destruct E2 as (c & F3 & E2). apply bind_Ok in E2. destruct E2 as (b & F4 & E2).
    apply vget_Ok in F1, F2, F3, F4. rewrite !Nat2Z.id in *.
    exists f, n, c, b, gh. do 5 (split; [tauto|]).
    destruct (nonlocal_spec lens g r _ _ _ Hg E2) as (N1 & N2). rewrite (nth_error_nth _ _ _ E3). split; [exact N1|].
    intros v Hv. split; [|now apply N2].
    destruct (built_inv lens nl ms (conj nl_length (ex_intro _ g Hpull))) as (_ & V & _).
    rewrite Forall_forall in V. specialize (V out (nth_error_In _ _ E3)). rewrite Forall_forall in V.
    exact (V v (N2 v Hv)).
  Qed.

  Lemma converted (x y : list (list (list Z))) : length x = P ->
    (forall r f n c b rows v, nth_error (m_f2c m) r = Some f -> nth_error (m_n2c m) r = Some n ->
      nth_error (m_c2c m) r = Some c -> nth_error (m_b2c m) r = Some b -> nth_error x r = Some rows ->
      In v (concat rows) -> In v (concat f ++ concat n ++ concat c ++ concat b)) ->
    per_rank (fun r => convert (rep r)) x P = Ok y ->
    Forall2 (Forall2 (Forall2 (new_entry lens perm))) x y.
  Proof.
    intros Lx Hin H. apply per_rank_spec in H. destruct H as (L & H). apply Forall2_of_nth; [congruence|].
    intros r a b Ea Eb. assert (Hr : (r < P)%nat) by (rewrite <- L; eapply nth_error_Some_lt; eauto).
    destruct (H r Hr) as (a' & b' & E1 & E2 & E3). assert (a' = a) by congruence. assert (b' = b) by congruence. subst a' b'.
    destruct (nl_spec r Hr) as (f & n & c & bb & gh & F1 & F2 & F3 & F4 & F5 & F6 & F7).
    apply convert_Forall2 with (1 := E2). intros v w Hv Hw. apply (rep_spec r v w Hr Hw). intro N.
    apply F6; [|exact N]. eapply Hin; eauto.
  Qed.

  Lemma ghosts_converted gh : per_rank (fun r => mapM (rep r)) (m_ghost m) P = Ok gh ->
    length gh = P /\
    forall r l l', nth_error (m_ghost m) r = Some l -> nth_error gh r = Some l' -> Forall2 (reordered lens perm) l l'.
  Proof.
    intro H. apply per_rank_spec in H. destruct H as (L & H). split; [exact L|]. intros r l l' El El'.
    assert (Hr : (r < P)%nat) by (rewrite <- L; eapply nth_error_Some_lt; eauto).
    destruct (H r Hr) as (a' & b' & E1 & E2 & E3). assert (a' = l) by congruence. assert (b' = l') by congruence. subst a' b'.
    destruct (nl_spec r Hr) as (f & n & c & bb & gh' & F1 & F2 & F3 & F4 & F5 & F6 & F7).
    assert (gh' = l) by congruence. subst gh'.
    apply mapM_Forall2 with (1 := E2). intros v w Hv Hw. destruct (F7 v Hv) as (V1 & V2).
    destruct (rep_spec r v w Hr Hw) as [(X & _)|(_ & X)]; [intros _; auto| |exact X].
    exfalso. subst v. assert (~ (UnInitIndex < 0 \/ Z.of_nat (list_sum lens) <= UnInitIndex)) by (now rewrite <- item_at_None).
    unfold UnInitIndex, int64_min in *. lia.
  Qed.
End Whole.

(** ** The whole *)

Lemma rows_compose (lens : list nat) perm (R : list Z -> list Z -> Prop) (x y z : list (list (list Z))) :
  Forall2 (Forall2 R) x y -> rows_reordered lens perm eq y z -> rows_reordered lens perm R x z.
Proof.
  intros F (L & H). split; [rewrite L; symmetry; exact (Forall2_lens _ _ _ _ _ F)|].
  intros c d a Hcd Ha. destruct (row_of_Forall2 _ _ _ _ _ _ _ F Ha) as (b & Hb & Rab).
  destruct (H c d b Hcd Hb) as (b' & Hb' & <-). eauto.
Qed.

Lemma reorder_spec I perm (m m' : cmesh I) gs :
  let lens := map (@length (list Z)) (m_c2n m) in
  permutations lens perm -> same_sizes m -> ReorderLocalCells perm m = Ok (m', gs) ->
  rows_reordered lens perm eq (m_c2n m) (m_c2n m') /\
  rows_reordered lens perm eq (m_info m) (m_info m') /\
  match m_c2f m, m_c2f m' with
  | Some x, Some y => rows_reordered lens perm eq x y
  | None, None => True
  | _, _ => False
  end /\
  rows_reordered lens perm (Forall2 (new_entry lens perm)) (m_c2c m) (m_c2c m') /\
  Forall2 (Forall2 (Forall2 (new_entry lens perm))) (m_b2c m) (m_b2c m') /\
  Forall2 (Forall2 (Forall2 (new_entry lens perm))) (m_f2c m) (m_f2c m') /\
  Forall2 (Forall2 (Forall2 (new_entry lens perm))) (m_n2c m) (m_n2c m') /\
  Forall2 (fun l l' => forall d, In d l' <-> exists c, In c l /\ reordered lens perm c d) (m_ghost m) (m_ghost m') /\
  map ghostIndex (g_maps gs) = m_ghost m' /\
  (exists pulls g, length pulls = length lens /\ setup_pull (map Z.of_nat lens) pulls = Ok (g, g_maps gs)) /\
  ghost_rows (m_c2n m') (m_ghost m') (g_c2n gs) /\
  ghost_rows (m_c2c m') (m_ghost m') (g_c2c gs) /\
  ghost_rows (m_info m') (m_ghost m') (g_info gs) /\
  match m_c2f m', g_c2f gs with
  | Some x, Some y => ghost_rows x (m_ghost m') y
  | None, None => True
  | _, _ => False
  end.
Proof.
  intros lens HP (S1 & S2 & S3 & S4 & S5 & S6 & S7) H. fold lens in S1, S2, S3, S4, S5, S6, S7.
  unfold ReorderLocalCells in H. rewrite zlens_map in H. fold lens in H.
  apply bind_Ok in H. destruct H as (g & Hg & H). apply bind_Ok in H. destruct H as (own & Hown & H).
  apply bind_Ok in H. destruct H as (nl & Hnl & H). apply bind_Ok in H. destruct H as ((g', ms) & Hpull & H).
  cbn [fst snd] in H. assert (g' = g) by (apply setup_align in Hpull; congruence). subst g'.
  apply bind_Ok in H. destruct H as (sons & Hsons & H).
  apply bind_Ok in H. destruct H as (f2c & C1 & H). apply bind_Ok in H. destruct H as (n2c & C2 & H).
  apply bind_Ok in H. destruct H as (c2c & C3 & H). apply bind_Ok in H. destruct H as (b2c & C4 & H).
  apply bind_Ok in H. destruct H as (c2n' & P1 & H). apply bind_Ok in H. destruct H as (c2c' & P2 & H).
  apply bind_Ok in H. destruct H as (c2f' & P3 & H). apply bind_Ok in H. destruct H as (info' & P4 & H).
  apply bind_Ok in H. destruct H as (gh & Hgh & H). apply bind_Ok in H. destruct H as ((g', ms') & Hpull' & H).
  cbn [fst snd] in H. assert (g' = g) by (apply setup_align in Hpull'; congruence). subst g'.
  apply bind_Ok in H. destruct H as (s1 & G1 & H). apply bind_Ok in H. destruct H as (s2 & G2 & H).
  apply bind_Ok in H. destruct H as (s3 & G3 & H). apply bind_Ok in H. destruct H as (s4 & G4 & H).
  injection H as <- <-.
  cbn [m_c2n m_c2c m_c2f m_info m_b2c m_f2c m_n2c m_ghost g_maps g_c2n g_c2c g_c2f g_info].
  assert (LP : length lens = length (m_c2n m)) by (unfold lens; now rewrite map_length).
  assert (Lc2c : length (m_c2c m) = length (m_c2n m)) by (apply (f_equal (@length nat)) in S1; rewrite map_length in S1; congruence).
  pose proof (placed I perm m HP g own Hg Hown) as PL.
  pose proof (converted I perm m HP g own Hg Hown nl ms sons Hnl Hpull Hsons) as CV.
  apply CV in C1; [|congruence|intros r f n c b rows v F1 F2 F3 F4 F5 Hv; apply in_app_iff; left; congruence].
  apply CV in C2; [|congruence|intros r f n c b rows v F1 F2 F3 F4 F5 Hv; apply in_app_iff; right; apply in_app_iff; left; congruence].
  apply CV in C3; [|congruence|intros r f n c b rows v F1 F2 F3 F4 F5 Hv; apply in_app_iff; right; apply in_app_iff; right; apply in_app_iff; left; congruence].
  apply CV in C4; [|congruence|intros r f n c b rows v F1 F2 F3 F4 F5 Hv; apply in_app_iff; right; apply in_app_iff; right; apply in_app_iff; right; congruence].
  fold lens in PL, C1, C2, C3, C4.
  assert (L3 : map (@length _) c2c = lens) by (rewrite <- S1; symmetry; exact (Forall2_lens _ _ _ _ _ C3)).
  pose proof (PL _ _ _ eq_refl P1) as Q1. pose proof (PL _ _ _ L3 P2) as Q2. pose proof (PL _ _ _ S2 P4) as Q4.
  assert (Q3 : match m_c2f m, c2f' with Some x, Some y => rows_reordered lens perm eq x y | None, None => True | _, _ => False end).
  { destruct (m_c2f m) as [x|]; cbn [on_option] in P3.
    - apply bind_Ok in P3. destruct P3 as (y & Py & E). injection E as <-. exact (PL _ _ _ (S3 x eq_refl) Py).
    - injection P3 as <-. exact Logic.I. }
  split; [exact Q1|]. split; [exact Q4|]. split; [exact Q3|]. split; [exact (rows_compose _ _ _ _ _ _ C3 Q2)|].
  split; [exact C4|]. split; [exact C1|]. split; [exact C2|].
  destruct (ghosts_converted I perm m HP g own Hg Hown nl ms sons Hnl Hpull Hsons gh Hgh) as (Lgh & Fgh). fold lens in Fgh.
  assert (Lg' : length gh = length lens) by congruence.
  pose proof (conj Lg' (ex_intro _ g Hpull') : built lens gh ms') as B.
  split.
  { apply Forall2_of_nth.
    - rewrite map_length. destruct (built_inv _ _ _ B) as (_ & _ & ->). rewrite map_length, seq_length. congruence.
    - intros r l l' El El'. rewrite nth_error_map_ in El'. destruct (nth_error ms' r) as [mr|] eqn:Em; [|discriminate].
      cbn [option_map] in El'. assert (Ei : ghostIndex mr = l') by congruence. subst l'. clear El'. destruct (built_nth _ _ _ _ _ B Em) as (Hr & -> & V & _).
      intro d. destruct (nth_error_lt_Some _ gh r ltac:(lia)) as (l' & El').
      rewrite gi_In by auto. rewrite (nth_error_nth _ _ _ El').
      pose proof (Fgh r l l' El El') as F. clear - F. induction F as [|a b l l' Hab _ IH].
      + split; [contradiction|intros (c & [] & _)].
      + split.
        * intros [<-|Hd]; [exists a; split; [now left|exact Hab]|]. apply IH in Hd. destruct Hd as (c & Hc & Hcd). exists c. split; [now right|exact Hcd].
        * intros (c & [<-|Hc] & Hcd); [|right; apply IH; eauto]. left.
          destruct Hab as (s & i & j & A1 & A2 & A3). destruct Hcd as (s' & i' & j' & B1 & B2 & B3).
          rewrite A1 in B1. injection B1 as <- <-. rewrite A2 in B2. injection B2 as E. assert (j = j') by lia. subst j'.
          eapply item_unique; eauto. }
  split; [reflexivity|]. split; [exists gh, g; auto|].
  assert (GR : forall A (rows : list (list A)) son, map (@length A) rows = lens -> mapM (pull_rows g rows) ms' = Ok son ->
    ghost_rows rows (map ghostIndex ms') son) by (intros; eapply ghost_rows_spec; eauto).
  split; [apply GR; [exact (proj1 Q1)|exact G1]|].
  split; [apply GR; [rewrite (proj1 Q2); exact L3|exact G2]|].
  split; [apply GR; [rewrite (proj1 Q4); exact S2|exact G4]|].
  destruct c2f' as [x|]; cbn [on_option] in G3.
  - apply bind_Ok in G3. destruct G3 as (y & Py & E). injection E as <-. apply GR; [|exact Py].
    destruct (m_c2f m) as [z|] eqn:Ez; [|contradiction]. rewrite (proj1 Q3). exact (S3 z eq_refl).
  - injection G3 as <-. exact Logic.I.
Qed.
