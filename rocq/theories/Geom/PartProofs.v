(** The redistribution of the mesh (C34). *)
From Coq Require Import List ZArith Lia Bool Arith Permutation.
From Verif Require Import Base.Prelude Base.PreludeFacts Base.MPIModel Base.MPIFacts
  DNDS.DefinesModel DNDS.DefinesProofs DNDS.IndexMappingModel DNDS.IndexMappingSpec
  DNDS.IndexMappingProofs DNDS.GhostPullProofs DNDS.GhostSearchProofs DNDS.GhostPushProofs DNDS.ExchangeSpec
  Geom.AdjModel Geom.AdjSpec Geom.AdjProofs Geom.NodeCellModel Geom.NodeCellSpec Geom.NodeCellProofs
  Geom.PartModel Geom.PartSpec.
Import ListNotations.
Local Open Scope Z_scope.

(** ** Positions *)

Lemma positions_snoc l x r :
  positions (l ++ [x]) r = positions l r ++ (if x =? Z.of_nat r then [length l] else []).
Proof.
  unfold positions. rewrite app_length. cbn [length]. rewrite Nat.add_1_r, seq_S, filter_app. f_equal.
  - apply filter_ext_in. intros i Hi. apply in_seq in Hi. rewrite app_nth1 by lia. reflexivity.
  - cbn [filter Nat.add]. rewrite app_nth2, Nat.sub_diag by lia. reflexivity.
Qed.

Lemma positions_In l r i : In i (positions l r) <-> nth_error l i = Some (Z.of_nat r).
Proof.
  unfold positions. rewrite filter_In, in_seq. split.
  - intros [H E]. apply Z.eqb_eq in E. rewrite <- E. apply nth_error_nth'. lia.
  - intro H. pose proof (nth_error_Some_lt _ _ _ _ H). split; [lia|]. rewrite (nth_error_nth _ _ _ H). apply Z.eqb_refl.
Qed.

Lemma positions_NoDup l r : NoDup (positions l r).
Proof. apply NoDup_filter, seq_NoDup. Qed.

Lemma positions_app a b r : exists t, positions (a ++ b) r = positions a r ++ t.
Proof.
  induction b as [|x b (t & IH)] using rev_ind.
  - exists []. now rewrite !app_nil_r.
  - rewrite app_assoc, positions_snoc, IH. eexists. rewrite <- app_assoc. reflexivity.
Qed.

Lemma firstn_snoc A (l : list A) i x : nth_error l i = Some x -> firstn (S i) l = firstn i l ++ [x].
Proof.
  revert i. induction l as [|y l IH]; intros [|i] H; try discriminate.
  - injection H as ->. reflexivity.
  - cbn [firstn app]. f_equal. now apply IH.
Qed.

(** the place of an item among those with the same destination *)
Definition place (l : list Z) (i r : nat) : nat := length (positions (firstn i l) r).

Lemma place_nth l i r : nth_error l i = Some (Z.of_nat r) -> nth_error (positions l r) (place l i r) = Some i.
Proof.
  intro H. pose proof (nth_error_Some_lt _ _ _ _ H).
  destruct (positions_app (firstn (S i) l) (skipn (S i) l) r) as (t & E). rewrite firstn_skipn in E. rewrite E.
  rewrite (firstn_snoc _ _ _ _ H), positions_snoc, Z.eqb_refl, firstn_length_le by lia.
  unfold place. rewrite <- app_assoc, nth_error_app2, Nat.sub_diag by lia. reflexivity.
Qed.

Lemma place_lt l i r : nth_error l i = Some (Z.of_nat r) -> (place l i r < length (positions l r))%nat.
Proof. intro H. eapply nth_error_Some_lt. now apply place_nth. Qed.

Lemma place_inv l r k i : nth_error (positions l r) k = Some i ->
  nth_error l i = Some (Z.of_nat r) /\ k = place l i r.
Proof.
  intro H. assert (E : nth_error l i = Some (Z.of_nat r)) by (apply positions_In; eapply nth_error_In; eauto).
  split; [exact E|]. eapply NoDup_nth_error; [apply (positions_NoDup l r)|eapply nth_error_Some_lt; eauto|].
  rewrite H. symmetry. now apply place_nth.
Qed.

(** ** Counting *)

Lemma foldM_snoc A B (f : A -> B -> res A) s l x : foldM f s (l ++ [x]) = bind (foldM f s l) (fun s' => f s' x).
Proof.
  revert s. induction l as [|y l IH]; intro s; cbn [app foldM].
  - cbn [bind]. destruct (f s x); reflexivity.
  - destruct (f s y); cbn [bind]; [apply IH|reflexivity|reflexivity].
Qed.

Definition counts (size : nat) (l : list Z) : list Z := map (fun r => zlen (positions l r)) (seq 0 size).

Lemma counts_nth size l r : (r < size)%nat -> nth_error (counts size l) r = Some (zlen (positions l r)).
Proof. intro H. unfold counts. rewrite nth_error_map_, nth_error_seq. destruct (Nat.ltb_spec r size); [reflexivity|lia]. Qed.

Lemma counts_nil size : counts size [] = repeat 0 size.
Proof.
  unfold counts. generalize 0%nat. induction size as [|n IH]; intro p; [reflexivity|].
  cbn [seq map repeat]. f_equal. apply IH.
Qed.

Lemma counts_snoc size l r : (r < size)%nat ->
  counts size (l ++ [Z.of_nat r]) = upd r (zlen (positions l r) + 1) (counts size l).
Proof.
  intro H. apply nth_error_ext. intro k. unfold counts. rewrite nth_error_upd, !nth_error_map_, nth_error_seq, map_length, seq_length.
  destruct (Nat.ltb_spec k size) as [L|L]; cbn [option_map Nat.add].
  - rewrite positions_snoc. destruct (Nat.eqb_spec r k) as [E|E]; cbn [andb].
    + subst k. rewrite Z.eqb_refl. destruct (Nat.ltb_spec r size); [|lia].
      f_equal. unfold zlen. rewrite app_length. cbn [length]. lia.
    + destruct (Z.eqb_spec (Z.of_nat r) (Z.of_nat k)); [lia|]. now rewrite app_nil_r.
  - destruct (Nat.eqb_spec r k); [lia|reflexivity].
Qed.

Lemma counts_length size l : length (counts size l) = size.
Proof. unfold counts. now rewrite map_length, seq_length. Qed.

Lemma vget_counts size l p c : vget (counts size l) p = Ok c ->
  exists r, p = Z.of_nat r /\ (r < size)%nat /\ c = zlen (positions l r).
Proof.
  intro H. apply vget_Ok in H. destruct H as (H0 & H). pose proof (nth_error_Some_lt _ _ _ _ H) as L.
  rewrite counts_length in L. exists (Z.to_nat p). split; [lia|]. split; [exact L|].
  rewrite counts_nth in H by exact L. congruence.
Qed.

Definition in_range (size : nat) (l : list Z) := Forall (fun p => 0 <= p < Z.of_nat size) l.

Lemma count_spec chk size l out : count_parts chk size l = Ok out -> in_range size l /\ out = counts size l.
Proof.
  unfold count_parts. revert out. induction l as [|x l IH] using rev_ind; intros out H.
  - cbn in H. injection H as <-. split; [constructor|]. now rewrite counts_nil.
  - rewrite foldM_snoc in H. apply bind_Ok in H. destruct H as (st & H & Hx).
    destruct (IH _ H) as (IR & ->). apply bind_Ok in Hx. destruct Hx as (u & _ & Hx).
    apply bind_Ok in Hx. destruct Hx as (c & Hc & Hx). apply vget_counts in Hc. destruct Hc as (r & -> & Hr & ->).
    apply vset_Ok in Hx. destruct Hx as (_ & ->). split.
    + apply Forall_app. split; [exact IR|]. constructor; [lia|constructor].
    + symmetry. now apply counts_snoc.
Qed.

Lemma count_total chk size l : in_range size l -> count_parts chk size l = Ok (counts size l).
Proof.
  unfold count_parts. induction l as [|x l IH] using rev_ind; intro H.
  - cbn. now rewrite counts_nil.
  - apply Forall_app in H. destruct H as (H & Hx). apply Forall_cons_iff in Hx. destruct Hx as (Hx & _).
    rewrite foldM_snoc, IH by exact H. cbn [bind].
    assert ((if chk then x <? Z.of_nat size else true) = true) as ->.
    { destruct chk; [|reflexivity]. apply Z.ltb_lt. lia. }
    cbn [assert_ bind]. replace x with (Z.of_nat (Z.to_nat x)) by lia.
    assert (L : (Z.to_nat x < size)%nat) by lia.
    rewrite (vget_of_nat _ _ _ _ (counts_nth size l _ L)). cbn [bind].
    unfold vset. destruct (Z.ltb_spec (Z.of_nat (Z.to_nat x)) 0); [lia|]. rewrite counts_length.
    destruct (Z.leb_spec (Z.of_nat size) (Z.of_nat (Z.to_nat x))); [lia|]. cbn [orb].
    rewrite Nat2Z.id. f_equal. symmetry. now apply counts_snoc.
Qed.

(** ** Partition2LocalIdx *)

Definition dests (size : nat) (l : list Z) : list (list nat) := map (positions l) (seq 0 size).

Lemma counts_dests size l : counts size l = zlensl (dests size l).
Proof. unfold counts, dests, zlensl. now rewrite map_map. Qed.

Lemma dests_nth size l r : (r < size)%nat -> nth_error (dests size l) r = Some (positions l r).
Proof. intro H. unfold dests. rewrite nth_error_map_, nth_error_seq. destruct (Nat.ltb_spec r size); [reflexivity|lia]. Qed.

Lemma dests_length size l : length (dests size l) = size.
Proof. unfold dests. now rewrite map_length, seq_length. Qed.

Definition start (size : nat) (l : list Z) (r : nat) : nat := length (concat (firstn r (dests size l))).

Lemma starts_nth size l r : (r <= size)%nat ->
  nth_error (psums 0 (counts size l)) r = Some (Z.of_nat (start size l r)).
Proof. intro H. rewrite counts_dests, zlensl_psums_nth by (now rewrite dests_length). reflexivity. Qed.

Lemma start_inj size l r k r' k' : (r < size)%nat -> (r' < size)%nat ->
  (k < length (positions l r))%nat -> (k' < length (positions l r'))%nat ->
  (start size l r + k = start size l r' + k')%nat -> r = r' /\ k = k'.
Proof.
  intros Hr Hr' Hk Hk' E. unfold start in E. rewrite !length_concat_firstn in E.
  set (ls := map (@length nat) (dests size l)) in *.
  assert (N : forall r, (r < size)%nat -> nth_error ls r = Some (length (positions l r))).
  { intros r0 H. unfold ls. rewrite nth_error_map_, dests_nth by exact H. reflexivity. }
  assert (A : item_at ls (Z.of_nat (list_sum (firstn r ls) + k)) = Some (r, k)) by (apply item_at_spec; eauto).
  assert (B : item_at ls (Z.of_nat (list_sum (firstn r' ls) + k')) = Some (r', k')) by (apply item_at_spec; eauto).
  rewrite E, B in A. injection A as -> ->. auto.
Qed.

Lemma counts_nonneg size l : Forall (fun x => 0 <= x) (counts size l).
Proof. rewrite counts_dests. apply zlensl_nonneg. Qed.

Lemma accumulate_counts size l st : AccumulateRowSize int64_min int64_max (counts size l) = Ok st ->
  st = psums 0 (counts size l).
Proof.
  intro H. unfold AccumulateRowSize in H. exact (accumulate_Ok _ _ _ _ _ H).
Qed.

Lemma indexed_snoc A (l : list A) x : indexed (l ++ [x]) = indexed l ++ [(zlen l, x)].
Proof.
  apply nth_error_ext. intro k. unfold indexed. rewrite nth_error_combine.
  destruct (lt_eq_lt_dec k (length l)) as [[H|H]|H].
  - rewrite !nth_error_app1 by (try exact H; rewrite combine_length, ranks_length; lia).
    rewrite nth_error_combine, !ranks_nth by (rewrite ?app_length; lia). reflexivity.
  - subst k. rewrite ranks_nth by (rewrite app_length; cbn; lia).
    rewrite !nth_error_app2 by (rewrite ?combine_length, ?ranks_length; lia).
    rewrite combine_length, ranks_length, Nat.min_id, Nat.sub_diag. reflexivity.
  - assert (nth_error (l ++ [x]) k = None) as -> by (apply nth_error_None; rewrite app_length; cbn; lia).
    destruct (nth_error (ranks (length (l ++ [x]))) k); symmetry; apply nth_error_None;
      rewrite app_length, combine_length, ranks_length; cbn; lia.
Qed.

Section Fill.
  Variables (size : nat) (l : list Z).
  Let starts := psums 0 (counts size l).
  Let total := length (concat (dests size l)).
  Let step (st : list Z * list Z) (ip : Z * Z) : res (list Z * list Z) :=
      let (i, p) := (ip : Z * Z) in
      do a <- vget starts p;
      do c <- vget (snd st) p;
      do push' <- vset (fst st) (a + c) i;
      do sizes' <- vset (snd st) p (c + 1);
      Ok (push', sizes').

  Lemma start_total r k : (r < size)%nat -> (k < length (positions l r))%nat -> (start size l r + k < total)%nat.
  Proof.
    intros Hr Hk. assert (X : nth_error (concat (dests size l)) (start size l r + k) <> None).
    { unfold start. rewrite (nth_error_concat _ _ _ _ _ (dests_nth size l r Hr) Hk). now apply nth_error_Some. }
    now apply nth_error_Some in X.
  Qed.

  Lemma fill_spec a b : l = a ++ b -> in_range size l ->
    exists push, foldM step (repeat 0 total, repeat 0 size) (indexed a) = Ok (push, counts size a) /\
      length push = total /\
      forall r k, (r < size)%nat -> (k < length (positions a r))%nat ->
        nth_error push (start size l r + k) = option_map Z.of_nat (nth_error (positions a r) k).
  Proof.
    revert b. induction a as [|x a IH] using rev_ind; intros b E IR.
    - exists (repeat 0 total). cbn [indexed combine foldM ranks map seq length]. rewrite counts_nil.
      split; [reflexivity|]. split; [apply repeat_length|]. intros r k _ Hk. cbn in Hk. lia.
    - rewrite <- app_assoc in E. destruct (IH _ E IR) as (push & F & L & N). clear IH.
      assert (Hx : 0 <= x < Z.of_nat size).
      { unfold in_range in IR. rewrite E in IR. apply Forall_app in IR. destruct IR as (_ & IR).
        apply Forall_cons_iff in IR. tauto. }
      rewrite indexed_snoc, foldM_snoc, F. cbn [bind step fst snd].
      set (p := Z.to_nat x). assert (Ex : x = Z.of_nat p) by lia. assert (Hp : (p < size)%nat) by lia.
      clearbody p. rewrite Ex. unfold starts. rewrite (vget_of_nat _ _ _ _ (starts_nth size l p ltac:(lia))).
      cbn [bind]. rewrite (vget_of_nat _ _ _ _ (counts_nth size a p Hp)). cbn [bind].
      assert (Hpl : (length (positions a p) < length (positions l p))%nat).
      { rewrite E, Ex. destruct (positions_app (a ++ [Z.of_nat p]) b p) as (t & Et).
        rewrite <- app_assoc in Et. cbn [app] in Et. cbn [app]. rewrite Et, app_length, positions_snoc, Z.eqb_refl, app_length.
        cbn [length]. lia. }
      pose proof (start_total p _ Hp Hpl) as Hst.
      unfold zlen at 1. rewrite <- Nat2Z.inj_add.
      unfold vset at 1. destruct (Z.ltb_spec (Z.of_nat (start size l p + length (positions a p))) 0); [lia|].
      destruct (Z.leb_spec (Z.of_nat (length push)) (Z.of_nat (start size l p + length (positions a p)))); [lia|].
      cbn [orb bind]. rewrite Nat2Z.id.
      unfold vset. destruct (Z.ltb_spec (Z.of_nat p) 0); [lia|]. rewrite counts_length.
      destruct (Z.leb_spec (Z.of_nat size) (Z.of_nat p)); [lia|]. cbn [orb bind]. rewrite Nat2Z.id.
      eexists. split; [rewrite <- counts_snoc by exact Hp; reflexivity|]. split; [now rewrite upd_length|].
      intros r k Hr Hk. rewrite positions_snoc in Hk |- *.
      destruct (Z.eqb_spec (Z.of_nat p) (Z.of_nat r)) as [Er|Er].
      + assert (p = r) by lia. subst r. rewrite app_length in Hk. cbn [length] in Hk.
        destruct (Nat.eq_dec k (length (positions a p))) as [->|Nk].
        * rewrite nth_error_upd_same by lia. rewrite nth_error_app2, Nat.sub_diag by lia. reflexivity.
        * rewrite nth_error_upd_other by lia. rewrite nth_error_app1 by lia. apply N; [exact Hp|lia].
      + rewrite app_nil_r in Hk |- *. rewrite nth_error_upd_other; [apply N; auto|].
        intro X. assert (Hkl : (k < length (positions l r))%nat).
        { rewrite E. destruct (positions_app a ([x] ++ b) r) as (t & ->). rewrite app_length. lia. }
        destruct (start_inj size l p (length (positions a p)) r k Hp Hr Hpl Hkl) as (Y & _); lia.
  Qed.

  Lemma filled push : length push = total ->
    (forall r k, (r < size)%nat -> (k < length (positions l r))%nat ->
        nth_error push (start size l r + k) = option_map Z.of_nat (nth_error (positions l r) k)) ->
    push = map Z.of_nat (concat (dests size l)).
  Proof.
    intros L N. apply nth_error_ext. intro j. rewrite nth_error_map_.
    destruct (nth_error (concat (dests size l)) j) as [i|] eqn:E.
    - destruct (concat_pos _ _ _ _ E) as (r & k & row & _ & Hrow & Hk & Ej).
      assert (Hr : (r < size)%nat) by (apply nth_error_Some_lt in Hrow; now rewrite dests_length in Hrow).
      rewrite dests_nth in Hrow by exact Hr. injection Hrow as <-.
      rewrite Ej. change (length (concat (firstn r (dests size l)))) with (start size l r).
      rewrite N; [now rewrite Hk|exact Hr|eapply nth_error_Some_lt; eauto].
    - apply nth_error_None in E. cbn [option_map]. apply nth_error_None. unfold total in L. lia.
  Qed.
End Fill.

Lemma local_idx_spec size l pa : Partition2LocalIdx size l = Ok pa ->
  in_range size l /\ pa = push_args (dests size l).
Proof.
  intro H. unfold Partition2LocalIdx in H. apply bind_Ok in H. destruct H as (sizes & Hc & H).
  apply count_spec in Hc. destruct Hc as (IR & ->). split; [exact IR|].
  apply bind_Ok in H. destruct H as (starts & Hs & H). apply accumulate_counts in Hs. subst starts.
  rewrite (vget_of_nat _ _ _ _ (starts_nth size l size ltac:(lia))) in H. cbn [bind] in H.
  rewrite Nat2Z.id in H. apply bind_Ok in H. destruct H as (u & _ & H).
  apply bind_Ok in H. destruct H as (st & H & E). injection E as <-.
  destruct (fill_spec size l l [] (eq_sym (app_nil_r l)) IR) as (push & F & L & N).
  assert (Et : start size l size = length (concat (dests size l))).
  { unfold start. rewrite firstn_all2; [reflexivity|]. rewrite dests_length. lia. }
  rewrite Et in H. rewrite F in H. injection H as <-. cbn [fst].
  unfold push_args. rewrite starts_psums, <- counts_dests. f_equal. now apply filled.
Qed.

Lemma dests_total size l : in_range size l -> length (concat (dests size l)) = length l.
Proof.
  intro H. assert (P : Permutation (concat (dests size l)) (seq 0 (length l))).
  { apply NoDup_Permutation.
    - clear H. assert (X : forall rs, NoDup rs -> NoDup (concat (map (positions l) rs))).
      { induction rs as [|r rs IH]; intro ND; [constructor|]. apply NoDup_cons_iff in ND. destruct ND as (Nr & ND).
        cbn [map concat]. assert (D : forall i, In i (positions l r) -> ~ In i (concat (map (positions l) rs))).
        { intros i Hi Hin. apply in_concat in Hin. destruct Hin as (x & Hx & Hi2). apply in_map_iff in Hx.
          destruct Hx as (r' & <- & Hr'). apply positions_In in Hi. apply positions_In in Hi2.
          rewrite Hi in Hi2. injection Hi2 as E. assert (r = r') by lia. subst. contradiction. }
        revert D. generalize (positions_NoDup l r). generalize (positions l r). intro a.
        induction a as [|i a IHa]; intros Na D; [exact (IH ND)|]. cbn [app]. apply NoDup_cons_iff in Na.
        constructor; [rewrite in_app_iff; intros [X|X]; [tauto|exact (D i (or_introl eq_refl) X)]|].
        apply IHa; [tauto|]. intros j Hj. apply D. now right. }
      apply X, seq_NoDup.
    - apply seq_NoDup.
    - intro i. rewrite in_concat, in_seq. split.
      + intros (x & Hx & Hi). apply in_map_iff in Hx. destruct Hx as (r & <- & _).
        apply positions_In in Hi. apply nth_error_Some_lt in Hi. lia.
      + intro Hi. destruct (nth_error_lt_Some _ l i ltac:(lia)) as (p & Hp).
        unfold in_range in H. rewrite Forall_forall in H. pose proof (H p (nth_error_In _ _ Hp)).
        exists (positions l (Z.to_nat p)). split.
        * apply in_map_iff. exists (Z.to_nat p). split; [reflexivity|]. apply in_seq. lia.
        * apply positions_In. rewrite Hp. f_equal. lia. }
  rewrite (Permutation_length P). apply seq_length.
Qed.

Lemma local_idx_total size l : in_range size l -> zlen l <= int64_max ->
  Partition2LocalIdx size l = Ok (push_args (dests size l)).
Proof.
  intros IR HL. unfold Partition2LocalIdx. rewrite count_total by exact IR. cbn [bind].
  assert (EA : AccumulateRowSize int64_min int64_max (counts size l) = Ok (psums 0 (counts size l))).
  { unfold AccumulateRowSize. rewrite accumulate_nonneg; try (unfold int64_min, int64_max; lia).
    - assert (zsum (counts size l) = zlen l) as ->.
      { rewrite counts_dests, zsum_zlensl. unfold zlen. now rewrite dests_total. }
      destruct (Z.leb_spec (0 + zlen l) int64_max); [reflexivity|lia].
    - apply Forall_forall. intros x Hx. rewrite counts_dests in Hx. apply in_map_iff in Hx.
      destruct Hx as (d & <- & Hd). pose proof (concat_le _ _ _ Hd) as X. unfold zlen in *.
      rewrite dests_total in X by exact IR. lia. }
  rewrite EA. cbn [bind]. rewrite (vget_of_nat _ _ _ _ (starts_nth size l size ltac:(lia))). cbn [bind].
  rewrite Nat2Z.id.
  assert (Et : start size l size = length (concat (dests size l))).
  { unfold start. rewrite firstn_all2; [reflexivity|]. rewrite dests_length. lia. }
  rewrite Et. unfold zlen. rewrite repeat_length, dests_total, Z.eqb_refl by exact IR. cbn [assert_ bind].
  rewrite <- (dests_total size l IR).
  destruct (fill_spec size l l [] (eq_sym (app_nil_r l)) IR) as (push & F & L & N). rewrite F. cbn [bind fst].
  unfold push_args. rewrite starts_psums, <- counts_dests. f_equal. f_equal. now apply filled.
Qed.

(** ** Numbers *)

Definition cnt (parts : list (list Z)) (r : nat) : nat := length (concat (map (fun l => positions l r) parts)).
Definition newlens (size : nat) (parts : list (list Z)) : list nat := map (cnt parts) (seq 0 size).
Definition slot (parts : list (list Z)) (s i r : nat) : nat :=
  (cnt (firstn s parts) r + place (nth s parts []) i r)%nat.
Definition number (size : nat) (parts : list (list Z)) (s i r : nat) : Z := glob (newlens size parts) r (slot parts s i r).

Lemma newlens_length size parts : length (newlens size parts) = size.
Proof. unfold newlens. now rewrite map_length, seq_length. Qed.

Lemma newlens_nth size parts r : (r < size)%nat -> nth_error (newlens size parts) r = Some (cnt parts r).
Proof. intro H. unfold newlens. rewrite nth_error_map_, nth_error_seq. destruct (Nat.ltb_spec r size); [reflexivity|lia]. Qed.

Lemma cnt_app a b r : cnt (a ++ b) r = (cnt a r + cnt b r)%nat.
Proof. unfold cnt. now rewrite map_app, concat_app, app_length. Qed.

Lemma cnt_zsum parts r : zsum (map (fun l => zlen (positions l r)) parts) = Z.of_nat (cnt parts r).
Proof.
  unfold cnt. rewrite <- (map_map (fun l => positions l r) (@zlen nat)).
  change (map (@zlen nat) (map (fun l => positions l r) parts)) with (zlensl (map (fun l => positions l r) parts)).
  rewrite zsum_zlensl. reflexivity.
Qed.

Lemma columns size parts : column_sums size (map (counts size) parts) = Ok (zlens (newlens size parts)).
Proof.
  unfold column_sums. rewrite ranks_spec.
  assert (X : forall rs, (forall r, In r rs -> (r < size)%nat) ->
    mapM (fun r => do l <- mapM (fun row => vget row r) (map (counts size) parts); Ok (zsum l)) (map Z.of_nat rs)
    = Ok (map (fun r => Z.of_nat (cnt parts r)) rs)).
  { induction rs as [|r rs IH]; intro H; [reflexivity|]. cbn [map mapM]. rewrite IH by (intros; apply H; now right).
    assert (E : mapM (fun row => vget row (Z.of_nat r)) (map (counts size) parts) = Ok (map (fun l => zlen (positions l r)) parts)).
    { clear IH. assert (Hr : (r < size)%nat) by (apply H; now left). clear H rs. induction parts as [|l parts IH]; [reflexivity|].
      cbn [map mapM]. rewrite (vget_of_nat _ _ _ _ (counts_nth size l r Hr)), IH. reflexivity. }
    rewrite E. cbn [bind]. rewrite cnt_zsum. reflexivity. }
  rewrite X by (intros r Hr; apply in_seq in Hr; lia). unfold zlens, newlens. now rewrite map_map.
Qed.

Lemma psums_newlens size parts r : (r <= size)%nat ->
  nth_error (psums 0 (zlens (newlens size parts))) r = Some (Z.of_nat (list_sum (firstn r (newlens size parts)))).
Proof.
  intro H. set (ss := map (fun n => repeat 0 n) (newlens size parts)).
  assert (E : newlens size parts = map (@length Z) ss).
  { unfold ss. rewrite map_map. symmetry. rewrite (map_ext _ (fun x => x)); [apply map_id|]. intro. apply repeat_length. }
  rewrite E, <- zlensl_zlens, zlensl_psums_nth.
  - unfold zlen. now rewrite length_concat_firstn.
  - unfold ss. rewrite map_length, newlens_length. exact H.
Qed.

Section Number.
  Variables (size : nat) (parts : list (list Z)) (s : nat) (part : list Z).
  Hypothesis Hs : nth_error parts s = Some part.
  Let plc := psums 0 (zlens (newlens size parts)).
  Let prev := map (fun p => fst p - snd p)
     (combine (zlens (newlens size (firstn (S s) parts))) (counts size part)).

  Lemma prev_nth r : (r < size)%nat -> nth_error prev r = Some (Z.of_nat (cnt (firstn s parts) r)).
  Proof.
    intro Hr. unfold prev. rewrite nth_error_map_, nth_error_combine. unfold zlens.
    rewrite nth_error_map_, newlens_nth, counts_nth by exact Hr. cbn [option_map fst snd]. f_equal.
    rewrite (firstn_snoc _ _ _ _ Hs), cnt_app. unfold cnt at 2. cbn [map concat]. rewrite app_nil_r. unfold zlen. lia.
  Qed.

  Definition num (i : nat) (p : Z) : Z := number size parts s i (Z.to_nat p).

  Lemma number_prefix a b : part = a ++ b -> in_range size a ->
    foldM (fun st r =>
      do c <- vget (fst st) r;
      do a <- vget plc r;
      do b <- vget prev r;
      do cs <- vset (fst st) r (c + 1);
      Ok (cs, snd st ++ [c + a + b])) (repeat 0 size, []) a =
    Ok (counts size a, map (fun x => num (Z.to_nat (fst x)) (snd x)) (indexed a)).
  Proof.
    revert b. induction a as [|x a IH] using rev_ind; intros b E IR.
    - cbn. now rewrite counts_nil.
    - rewrite <- app_assoc in E. apply Forall_app in IR. destruct IR as (IR & Hx). apply Forall_cons_iff in Hx.
      destruct Hx as (Hx & _). rewrite foldM_snoc, (IH _ E IR). cbn [bind fst snd].
      set (p := Z.to_nat x). assert (Ex : x = Z.of_nat p) by lia. assert (Hp : (p < size)%nat) by lia.
      clearbody p. subst x. rewrite (vget_of_nat _ _ _ _ (counts_nth size a p Hp)). cbn [bind].
      unfold plc. rewrite (vget_of_nat _ _ _ _ (psums_newlens size parts p ltac:(lia))). cbn [bind].
      rewrite (vget_of_nat _ _ _ _ (prev_nth p Hp)). cbn [bind].
      unfold vset. destruct (Z.ltb_spec (Z.of_nat p) 0); [lia|]. rewrite counts_length.
      destruct (Z.leb_spec (Z.of_nat size) (Z.of_nat p)); [lia|]. cbn [orb bind]. rewrite Nat2Z.id.
      rewrite counts_snoc by exact Hp. f_equal. f_equal. rewrite indexed_snoc, map_app. f_equal.
      cbn [map fst snd]. f_equal. unfold num, number, glob, slot, zlen. rewrite !Nat2Z.id.
      rewrite (nth_error_nth _ _ _ Hs). unfold place. rewrite E at 1.
      rewrite firstn_app, firstn_all, Nat.sub_diag. cbn [firstn]. rewrite app_nil_r. lia.
  Qed.

  Lemma number_items_total : in_range size part ->
    number_items plc prev size part = Ok (map (fun x => num (Z.to_nat (fst x)) (snd x)) (indexed part)).
  Proof.
    intro IR. unfold number_items. rewrite (number_prefix part []) by (now rewrite ?app_nil_r). reflexivity.
  Qed.
End Number.

Definition numbers (size : nat) (parts : list (list Z)) : list (list Z) :=
  map (fun y => map (fun x => num size parts (Z.to_nat (fst y)) (Z.to_nat (fst x)) (snd x)) (indexed (snd y))) (indexed parts).

Lemma mapM_counts chk size parts locals : mapM (count_parts chk size) parts = Ok locals ->
  Forall (in_range size) parts /\ locals = map (counts size) parts.
Proof.
  revert locals. induction parts as [|l parts IH]; cbn [mapM map]; intros locals H.
  - injection H as <-. split; [constructor|reflexivity].
  - apply bind_Ok in H. destruct H as (c & Hc & H). apply bind_Ok in H. destruct H as (cs & Hcs & E).
    injection E as <-. apply count_spec in Hc. destruct Hc as (IR & ->). destruct (IH _ Hcs) as (F & ->). split; auto.
Qed.

Lemma mapM_counts_total chk size parts : Forall (in_range size) parts ->
  mapM (count_parts chk size) parts = Ok (map (counts size) parts).
Proof.
  induction 1 as [|l parts H _ IH]; [reflexivity|]. cbn [mapM map]. rewrite count_total, IH by exact H. reflexivity.
Qed.

Lemma numbers_total size parts : Forall (in_range size) parts ->
  Partition2Serial2Global size parts = Ok (numbers size parts).
Proof.
  intro F. unfold Partition2Serial2Global. rewrite mapM_counts_total by exact F. cbn [bind].
  rewrite columns. cbn [bind]. unfold numbers.
  set (f := fun y : Z * list Z => map (fun x => num size parts (Z.to_nat (fst y)) (Z.to_nat (fst x)) (snd x)) (indexed (snd y))).
  assert (X : forall xs : list (Z * list Z), (forall s part, In (s, part) xs -> exists k, s = Z.of_nat k /\ nth_error parts k = Some part) ->
    mapM (fun x => let '(s, (part, local)) := x in
      do scan <- column_sums size (firstn (S (Z.to_nat s)) (map (counts size) parts));
      number_items (psums 0 (zlens (newlens size parts)))
        (map (fun p => fst p - snd p) (combine scan local)) size part)
      (map (fun y => (fst y, (snd y, counts size (snd y)))) xs) = Ok (map f xs)).
  { induction xs as [|(s, part) xs IH]; intro H; [reflexivity|]. cbn [map mapM fst snd].
    destruct (H s part (or_introl eq_refl)) as (k & -> & Hk). rewrite Nat2Z.id, firstn_map, columns. cbn [bind].
    rewrite (number_items_total size parts k part Hk).
    - cbn [bind]. rewrite IH by (intros; apply H; now right). cbn [bind]. unfold f at 2. cbn [fst snd]. rewrite Nat2Z.id. reflexivity.
    - rewrite Forall_forall in F. apply F. eapply nth_error_In; eauto. }
  rewrite <- X.
  - f_equal. apply nth_error_ext. intro k. rewrite nth_error_map_. unfold indexed.
    rewrite !nth_error_combine, nth_error_map_, combine_length, map_length, Nat.min_id.
    destruct (nth_error (ranks (length parts)) k); [|reflexivity]. destruct (nth_error parts k); reflexivity.
  - intros s part H. apply indexed_In in H. destruct H as (k & a & Ha & E). injection E as -> ->. eauto.
Qed.

Lemma numbers_spec size parts s2g : Partition2Serial2Global size parts = Ok s2g ->
  Forall (in_range size) parts /\ s2g = numbers size parts.
Proof.
  intro H. assert (F : Forall (in_range size) parts).
  { unfold Partition2Serial2Global in H. apply bind_Ok in H. destruct H as (locals & Hl & _). now apply mapM_counts in Hl. }
  split; [exact F|]. rewrite numbers_total in H by exact F. congruence.
Qed.

Lemma numbers_nth size parts s i r : assigned parts s i r ->
  nth_error (nth s (numbers size parts) []) i = Some (number size parts s i r).
Proof.
  intro A. unfold assigned in A. destruct (nth_error parts s) as [part|] eqn:E.
  - rewrite (nth_error_nth _ _ _ E) in A. unfold numbers.
    rewrite (nth_error_nth _ s (x := map (fun x => num size parts s (Z.to_nat (fst x)) (snd x)) (indexed part))).
    + rewrite nth_error_map_, (indexed_nth _ _ _ _ A). cbn [option_map fst snd]. unfold num. now rewrite !Nat2Z.id.
    + rewrite nth_error_map_, (indexed_nth _ _ _ _ E). cbn [option_map fst snd]. now rewrite Nat2Z.id.
  - rewrite nth_overflow in A by (now apply nth_error_None). destruct i; discriminate.
Qed.

Lemma numbers_lens size parts : map (@length Z) (numbers size parts) = map (@length Z) parts.
Proof.
  apply nth_error_ext. intro s. unfold numbers. rewrite map_map, !nth_error_map_.
  destruct (nth_error parts s) as [part|] eqn:E.
  - rewrite (indexed_nth _ _ _ _ E). cbn [option_map snd]. now rewrite map_length, indexed_length.
  - assert (nth_error (indexed parts) s = None) as ->; [|reflexivity].
    apply nth_error_None. rewrite indexed_length. now apply nth_error_None.
Qed.

(** ** Landing *)

Lemma cnt_firstn_lt parts s i r : assigned parts s i r -> (slot parts s i r < cnt parts r)%nat.
Proof.
  unfold assigned, slot. intro A. destruct (nth_error parts s) as [part|] eqn:E.
  - rewrite (nth_error_nth _ _ _ E) in *. pose proof (place_lt _ _ _ A).
    rewrite <- (firstn_skipn (S s) parts) at 2. rewrite cnt_app, (firstn_snoc _ _ _ _ E), cnt_app.
    unfold cnt at 3. cbn [map concat]. rewrite app_nil_r. lia.
  - rewrite nth_overflow in A by (now apply nth_error_None). destruct i; discriminate.
Qed.

Lemma assigned_range size parts s i r : Forall (in_range size) parts -> assigned parts s i r -> (r < size)%nat.
Proof.
  unfold assigned. intros F A. destruct (nth_error parts s) as [part|] eqn:E.
  - rewrite (nth_error_nth _ _ _ E) in *. rewrite Forall_forall in F. specialize (F _ (nth_error_In _ _ E)).
    unfold in_range in F. rewrite Forall_forall in F. specialize (F _ (nth_error_In _ _ A)). lia.
  - rewrite nth_overflow in A by (now apply nth_error_None). destruct i; discriminate.
Qed.

Lemma number_item size parts s i r : Forall (in_range size) parts -> assigned parts s i r ->
  item_at (newlens size parts) (number size parts s i r) = Some (r, slot parts s i r).
Proof.
  intros F A. pose proof (assigned_range _ _ _ _ _ F A) as Hr. unfold number. apply glob_item.
  - now rewrite newlens_length.
  - rewrite (nth_error_nth _ _ _ (newlens_nth size parts r Hr)). now apply cnt_firstn_lt.
Qed.

(** every place is taken *)
Lemma slot_onto parts r k : (k < cnt parts r)%nat -> exists s i, assigned parts s i r /\ k = slot parts s i r.
Proof.
  intro H. unfold cnt in H. destruct (nth_error_lt_Some _ _ _ H) as (i & Hi).
  destruct (concat_pos _ _ _ _ Hi) as (s & v & row & _ & Hrow & Hv & Ek). rewrite nth_error_map_ in Hrow.
  destruct (nth_error parts s) as [part|] eqn:E; [|discriminate]. cbn in Hrow. injection Hrow as <-.
  destruct (place_inv _ _ _ _ Hv) as (A & Ev). exists s, i. unfold assigned, slot. rewrite (nth_error_nth _ _ _ E).
  split; [exact A|]. rewrite firstn_map in Ek. unfold cnt. lia.
Qed.

Lemma newlens_total size parts : Forall (in_range size) parts ->
  list_sum (newlens size parts) = list_sum (map (@length Z) parts).
Proof.
  induction 1 as [|l parts H _ IH].
  - unfold newlens, cnt. cbn. induction (seq 0 size); [reflexivity|]. cbn. assumption.
  - cbn [map list_sum fold_right]. change (fold_right Nat.add 0%nat (map (@length Z) parts)) with (list_sum (map (@length Z) parts)).
    rewrite <- IH, <- (dests_total size l H). clear. unfold newlens, dests.
    induction (seq 0 size) as [|r rs IHr]; [reflexivity|]. cbn [map concat]. rewrite app_length.
    change (list_sum (cnt (l :: parts) r :: map (cnt (l :: parts)) rs)) with (cnt (l :: parts) r + list_sum (map (cnt (l :: parts)) rs))%nat.
    change (list_sum (cnt parts r :: map (cnt parts) rs)) with (cnt parts r + list_sum (map (cnt parts) rs))%nat.
    rewrite IHr. unfold cnt at 1. cbn [map concat]. rewrite app_length. fold (cnt parts r). lia.
Qed.

Lemma concat_nth_In A (ll : list (list A)) s i x : nth_error (nth s ll []) i = Some x -> In x (concat ll).
Proof.
  intro H. apply in_concat. destruct (nth_error ll s) as [l|] eqn:E.
  - rewrite (nth_error_nth _ _ _ E) in H. exists l. split; eapply nth_error_In; eauto.
  - rewrite nth_overflow in H by (now apply nth_error_None). destruct i; discriminate.
Qed.

Lemma list_sum_concat A (ll : list (list A)) : length (concat ll) = list_sum (map (@length A) ll).
Proof. induction ll as [|a ll IH]; cbn; [reflexivity|]. rewrite app_length, IH. reflexivity. Qed.

Lemma bijection size parts s2g : Partition2Serial2Global size parts = Ok s2g ->
  Permutation (concat s2g) (map Z.of_nat (seq 0 (length (concat parts)))).
Proof.
  intro H. apply numbers_spec in H. destruct H as (F & ->). symmetry. apply NoDup_Permutation_bis.
  - apply FinFun.Injective_map_NoDup; [intros a b; apply Nat2Z.inj|apply seq_NoDup].
  - rewrite map_length, seq_length, !list_sum_concat, numbers_lens. lia.
  - intros q Hq. apply in_map_iff in Hq. destruct Hq as (n & <- & Hn). apply in_seq in Hn.
    rewrite list_sum_concat, <- (newlens_total size) in Hn by exact F.
    destruct (item_at (newlens size parts) (Z.of_nat n)) as [[r k]|] eqn:E.
    + apply item_at_spec in E. destruct E as ((l & Hl & Hk) & En).
      assert (Hr : (r < size)%nat) by (apply nth_error_Some_lt in Hl; now rewrite newlens_length in Hl).
      rewrite newlens_nth in Hl by exact Hr. injection Hl as <-.
      destruct (slot_onto parts r k Hk) as (s & i & A & ->). apply concat_nth_In with (s := s) (i := i).
      rewrite (numbers_nth size parts s i r A). f_equal. unfold number, glob. lia.
    + apply item_at_None in E. lia.
Qed.

Lemma push_rows_spec A lens L g ms r m (rows : list (list A)) new : pushes_ok lens L ->
  setup_push (map Z.of_nat lens) (map push_args L) = Ok (g, ms) -> map (@length A) rows = lens ->
  nth_error ms r = Some m -> pull_rows g rows m = Ok new ->
  (r < length lens)%nat /\
  map Some new = concat (map (fun s => map (nth_error (nth s rows [])) (seg_of L s r)) (seq 0 (length lens))).
Proof.
  intros HL Hp Hrows Hm H.
  assert (Hg : setMPIAlignBcast (map Z.of_nat lens) = Ok g).
  { pose proof Hp as X. unfold setup_push in X. inv_bind. subst. auto. }
  apply setup_push_inv in Hp; [|exact HL]. subst ms. rewrite nth_error_map_, nth_error_seq in Hm.
  destruct (Nat.ltb_spec r (length lens)) as [Hr|]; [|discriminate]. cbn [option_map Nat.add] in Hm.
  injection Hm as <-. split; [exact Hr|]. unfold pull_rows in H. cbn [pexpected ghostIndex] in H.
  assert (Hin : forall s, In s (seq 0 (length lens)) -> (s < length lens)%nat) by (intros s X; apply in_seq in X; lia).
  revert new H Hin. generalize (seq 0 (length lens)). intro l.
  induction l as [|s l IH]; intros new H Hin.
  - cbn in H. injection H as <-. reflexivity.
  - cbn [map concat] in H |- *.
    assert (S1 : forall i, In i (seg_of L s r) -> gsearch g (glob lens s i) = Some (Z.of_nat s, Z.of_nat i)).
    { intros i Hi. rewrite (search_spec _ _ _ Hg).
      rewrite glob_item; [reflexivity|apply Hin; now left|].
      exact (seg_of_valid lens L s r i HL (Hin s (or_introl eq_refl)) Hi). }
    revert new H S1. generalize (seg_of L s r). intro seg. induction seg as [|i seg IHs]; intros new H S1.
    + cbn [map app] in H |- *. apply IH; [exact H|intros; apply Hin; now right].
    + cbn [map app mapM] in H |- *. rewrite (S1 i (or_introl eq_refl)) in H.
      apply bind_Ok in H. destruct H as (x & Hx & H). apply bind_Ok in H. destruct H as (t & Ht & E).
      injection E as <-. cbn [map]. f_equal.
      * apply bind_Ok in Hx. destruct Hx as (l0 & Hl0 & Hx).
        apply vget_Ok in Hl0. destruct Hl0 as (_ & Hl0). rewrite Nat2Z.id in Hl0.
        apply vget_Ok in Hx. destruct Hx as (_ & Hx). rewrite Nat2Z.id in Hx.
        rewrite (nth_error_nth _ _ _ Hl0). congruence.
      * apply IHs; [exact Ht|intros; apply S1; now right].
Qed.

Lemma seg_dests size parts s r : (r < size)%nat -> seg_of (map (dests size) parts) s r = positions (nth s parts []) r.
Proof.
  intro Hr. unfold seg_of. destruct (nth_error parts s) as [part|] eqn:E.
  - rewrite (nth_error_nth _ _ _ E). rewrite (nth_error_nth (map (dests size) parts) s (x := dests size part)).
    + apply nth_error_nth. now apply dests_nth.
    + now rewrite nth_error_map_, E.
  - apply nth_error_None in E. rewrite (nth_overflow (map (dests size) parts)) by (now rewrite map_length).
    rewrite (nth_overflow parts) by exact E. destruct r; reflexivity.
Qed.

Lemma dests_ok size parts lens : length parts = size -> map (@length Z) parts = lens ->
  pushes_ok lens (map (dests size) parts).
Proof.
  intros Hs <-. split; [now rewrite !map_length|]. intros s d H. rewrite nth_error_map_ in H.
  destruct (nth_error parts s) as [part|] eqn:E; [|discriminate]. cbn in H. injection H as <-.
  split; [rewrite dests_length, map_length; auto|]. apply Forall_forall. intros l Hl. apply in_map_iff in Hl.
  destruct Hl as (r & <- & _). apply Forall_forall. intros i Hi. apply positions_In in Hi.
  change 0%nat with (@length Z []). rewrite map_nth, (nth_error_nth _ _ _ E). eapply nth_error_Some_lt; eauto.
Qed.

Lemma mapM_local_idx size parts pushes : mapM (Partition2LocalIdx size) parts = Ok pushes ->
  Forall (in_range size) parts /\ pushes = map push_args (map (dests size) parts).
Proof.
  revert pushes. induction parts as [|l parts IH]; cbn [mapM map]; intros pushes H.
  - injection H as <-. split; [constructor|reflexivity].
  - apply bind_Ok in H. destruct H as (c & Hc & H). apply bind_Ok in H. destruct H as (cs & Hcs & E).
    injection E as <-. apply local_idx_spec in Hc. destruct Hc as (IR & ->). destruct (IH _ Hcs) as (F & ->). split; auto.
Qed.

Lemma transfer_rank A size parts pushes (rows new : list (list A)) : length parts = size ->
  map (@length A) rows = map (@length Z) parts ->
  mapM (Partition2LocalIdx size) parts = Ok pushes -> TransferDataSerial2Global rows pushes = Ok new ->
  length new = size /\
  forall r l, nth_error new r = Some l ->
    map Some l = concat (map (fun s => map (nth_error (nth s rows [])) (positions (nth s parts []) r)) (seq 0 size)).
Proof.
  intros Hs Hlen Hp H. apply mapM_local_idx in Hp. destruct Hp as (F & ->).
  unfold TransferDataSerial2Global in H. apply bind_Ok in H. destruct H as ((g, ms) & Hg & H). cbn [fst snd] in H.
  rewrite zlens_map, Hlen in Hg. apply mapM_nth in H. destruct H as (L & H).
  pose proof (dests_ok size parts _ Hs eq_refl) as OK.
  assert (Lm : length ms = size).
  { rewrite (setup_push_inv _ _ _ _ OK Hg), map_length, seq_length, map_length. exact Hs. }
  split; [congruence|]. intros r l Hl.
  destruct (nth_error_lt_Some _ ms r) as (m & Hm). { rewrite <- L. eapply nth_error_Some_lt; eauto. }
  destruct (H r m Hm) as (y & Hy & Ey). assert (y = l) by congruence. subst y.
  destruct (push_rows_spec _ _ _ _ _ _ _ _ _ OK Hg Hlen Hm Hy) as (Hr & ->). rewrite map_length in *. rewrite Hs in *.
  f_equal. apply map_ext. intro s. now rewrite seg_dests.
Qed.

Lemma nth_seq_map A B (f : A -> B) (d : A) l : map (fun s => f (nth s l d)) (seq 0 (length l)) = map f l.
Proof.
  apply nth_error_ext. intro k. rewrite !nth_error_map_, nth_error_seq. destruct (Nat.ltb_spec k (length l)) as [H|H].
  - destruct (nth_error_lt_Some _ l k H) as (a & Ha). rewrite Ha. cbn. now rewrite (nth_error_nth _ _ _ Ha).
  - assert (nth_error l k = None) as -> by (now apply nth_error_None). reflexivity.
Qed.

Lemma transfer_lens A size parts pushes (rows new : list (list A)) : length parts = size ->
  map (@length A) rows = map (@length Z) parts ->
  mapM (Partition2LocalIdx size) parts = Ok pushes -> TransferDataSerial2Global rows pushes = Ok new ->
  map (@length A) new = newlens size parts.
Proof.
  intros Hs Hlen Hp H. destruct (transfer_rank _ _ _ _ _ _ Hs Hlen Hp H) as (L & N).
  apply nth_error_ext. intro r. rewrite nth_error_map_. destruct (nth_error new r) as [l|] eqn:E.
  - assert (Hr : (r < size)%nat) by (rewrite <- L; eapply nth_error_Some_lt; eauto).
    rewrite newlens_nth by exact Hr. cbn [option_map]. f_equal. specialize (N r l E).
    apply (f_equal (@length _)) in N. rewrite map_length in N. rewrite N. unfold cnt.
    rewrite !list_sum_concat, !map_map. f_equal.
    rewrite <- Hs. rewrite (map_ext _ (fun s => length (positions (nth s parts []) r))) by (intro; now rewrite map_length).
    exact (nth_seq_map _ _ (fun l0 => length (positions l0 r)) [] parts).
  - symmetry. apply nth_error_None. rewrite newlens_length, <- L. now apply nth_error_None.
Qed.

Lemma landing A size parts pushes s2g (rows new : list (list A)) s i r x : length parts = size ->
  map (@length A) rows = map (@length Z) parts ->
  mapM (Partition2LocalIdx size) parts = Ok pushes -> Partition2Serial2Global size parts = Ok s2g ->
  TransferDataSerial2Global rows pushes = Ok new ->
  assigned parts s i r -> nth_error (nth s rows []) i = Some x ->
  exists q k, nth_error (nth s s2g []) i = Some q /\ item_at (map (@length A) new) q = Some (r, k) /\
    nth_error (nth r new []) k = Some x.
Proof.
  intros Hs Hlen Hp Hn H Ha Hx. pose proof (transfer_lens _ _ _ _ _ _ Hs Hlen Hp H) as EL.
  destruct (transfer_rank _ _ _ _ _ _ Hs Hlen Hp H) as (L & N).
  apply numbers_spec in Hn. destruct Hn as (F & ->). rewrite EL.
  exists (number size parts s i r), (slot parts s i r). split; [now apply numbers_nth|].
  split; [now apply number_item|].
  pose proof (assigned_range _ _ _ _ _ F Ha) as Hr.
  destruct (nth_error_lt_Some _ new r ltac:(lia)) as (l & El). rewrite (nth_error_nth _ _ _ El).
  specialize (N r l El). assert (E : nth_error (map Some l) (slot parts s i r) = Some (Some x)).
  { rewrite N. unfold slot.
    assert (Hss : (s < size)%nat).
    { destruct (le_lt_dec size s) as [X|X]; [|exact X]. unfold assigned in Ha. rewrite nth_overflow in Ha by lia. destruct i; discriminate. }
    set (ss := map (fun s0 => map (nth_error (nth s0 rows [])) (positions (nth s0 parts []) r)) (seq 0 size)).
    assert (Er : nth_error ss s = Some (map (nth_error (nth s rows [])) (positions (nth s parts []) r))).
    { unfold ss. rewrite nth_error_map_, nth_error_seq. destruct (Nat.ltb_spec s size); [reflexivity|lia]. }
    pose proof (place_lt _ _ _ Ha) as Pl.
    replace (cnt (firstn s parts) r) with (length (concat (firstn s ss))).
    - rewrite (nth_error_concat _ _ _ _ _ Er) by (now rewrite map_length).
      rewrite nth_error_map_, (place_nth _ _ _ Ha). cbn [option_map]. now rewrite Hx.
    - rewrite length_concat_firstn. unfold cnt. rewrite list_sum_concat, map_map, <- firstn_map. f_equal. f_equal.
      unfold ss. rewrite map_map, <- Hs.
      rewrite (map_ext _ (fun s0 => length (positions (nth s0 parts []) r))) by (intro; now rewrite map_length).
      exact (nth_seq_map _ _ (fun l0 => length (positions l0 r)) [] parts). }
  rewrite nth_error_map_ in E. destruct (nth_error l (slot parts s i r)); [|discriminate]. cbn in E. congruence.
Qed.

(** ** Conversion of relations *)

Lemma lens_nth A (rows : list (list A)) s : nth s (map (@length A) rows) 0%nat = length (nth s rows []).
Proof. change 0%nat with (@length A []). now rewrite map_nth. Qed.

Lemma new_number_spec lens pulls g ms r m (s2g : list (list Z)) own ghost v w :
  map (@length Z) s2g = lens -> length pulls = length lens ->
  setup_pull (map Z.of_nat lens) pulls = Ok (g, ms) -> nth_error ms r = Some m ->
  nth_error s2g r = Some own -> pull_rows g s2g m = Ok ghost ->
  item_at lens v <> None -> (~ owned_by lens r v -> In v (nth r pulls [])) ->
  new_number m own ghost v = Ok w -> row_of s2g v = Some w.
Proof.
  intros Hl Hp Hs Hm Ho Hg Hv Hin H. unfold row_of. rewrite Hl. unfold new_number in H.
  pose proof (conj Hp (ex_intro _ g Hs) : built lens pulls ms) as B.
  destruct (item_at lens v) as [[s i]|] eqn:E; [|contradiction]. destruct (Nat.eq_dec s r) as [->|N].
  - destruct (lookup_main _ _ _ _ _ _ _ B Hm E) as (X & _). rewrite X in H. cbn [bind] in H.
    change (-1 =? -1) with true in H. cbn iota in H. apply vget_Ok in H. rewrite Nat2Z.id in H.
    rewrite (nth_error_nth _ _ _ Ho). tauto.
  - assert (Hin' : In v (nth r pulls [])) by (apply Hin; intros (k & Hk); congruence).
    destruct (nth_error_lt_Some _ pulls r) as (pull & Epull).
    { destruct (built_nth _ _ _ _ _ B Hm) as (Hr & _). lia. }
    rewrite (nth_error_nth _ _ _ Epull) in Hin'.
    destruct (lookup_ghost _ _ _ _ _ _ _ _ _ B Hm Epull Hin' E N) as (k & kr & Hk & X & _). rewrite X in H. cbn [bind] in H.
    destruct (Z.eqb_spec (Z.of_nat s) (-1)); [lia|]. apply vget_Ok in H. rewrite Nat2Z.id in H. destruct H as (_ & H).
    unfold pull_rows in Hg. apply mapM_nth in Hg. destruct Hg as (_ & Hg). destruct (Hg k v Hk) as (y & Hy & Ey).
    rewrite H in Ey. injection Ey as <-.
    rewrite (search_spec _ _ _ (setup_align _ _ _ _ Hs)), E in Hy. apply bind_Ok in Hy. destruct Hy as (l & H1 & H2).
    apply vget_Ok in H1. apply vget_Ok in H2. rewrite !Nat2Z.id in *. destruct H1 as (_ & H1). destruct H2 as (_ & H2).
    now rewrite (nth_error_nth _ _ [] H1).
Qed.

Lemma convert_row_spec (f : Z -> res Z) s2g row out :
  (forall v w, In v (live row) -> f v = Ok w -> row_of s2g v = Some w) ->
  convert_row f row = Ok out -> renumbered s2g row out.
Proof.
  revert out. induction row as [|v t IH]; cbn [live convert_row]; intros out Hf H.
  - injection H as <-. constructor.
  - destruct (Z.eqb_spec v UnInitIndex) as [->|N].
    + injection H as <-. constructor.
    + apply bind_Ok in H. destruct H as (x & Hx & H). apply bind_Ok in H. destruct H as (y & Hy & E). injection E as <-.
      constructor; [exact N|apply Hf; [now left|exact Hx]|apply IH; [intros; apply Hf; [now right|auto]|exact Hy]].
Qed.

Lemma mapM_Forall2 A B (f : A -> res B) (R : A -> B -> Prop) l out :
  mapM f l = Ok out -> (forall a b, In a l -> f a = Ok b -> R a b) -> Forall2 R l out.
Proof.
  revert out. induction l as [|a l IH]; cbn [mapM]; intros out H HR.
  - injection H as <-. constructor.
  - apply bind_Ok in H. destruct H as (x & Hx & H). apply bind_Ok in H. destruct H as (y & Hy & E). injection E as <-.
    constructor; [apply HR; [now left|exact Hx]|apply IH; [exact Hy|intros; apply HR; [now right|auto]]].
Qed.

Lemma convert_spec adj s2g out : length adj = length s2g -> ConvertAdjSerial2Global adj s2g = Ok out ->
  Forall2 (Forall2 (renumbered s2g)) adj out.
Proof.
  intros HL H. unfold ConvertAdjSerial2Global in H. rewrite zlens_map in H.
  apply bind_Ok in H. destruct H as (g & Hg & H). apply bind_Ok in H. destruct H as (qs & Hq & H).
  apply bind_Ok in H. destruct H as ((g', ms) & Hs & H). cbn [fst snd] in H.
  apply bind_Ok in H. destruct H as (ghosts & Hgh & H).
  assert (g' = g). { apply setup_align in Hs. congruence. } subst g'.
  apply mapM_indexed in Hq. destruct Hq as (Lq & Hq). apply mapM_nth in Hgh. destruct Hgh as (Lg & Hgh).
  set (lens := map (@length Z) s2g) in *.
  assert (Lp : length qs = length lens) by (unfold lens; rewrite map_length; congruence).
  pose proof (conj Lp (ex_intro _ g Hs) : built lens qs ms) as B.
  assert (Lm : length ms = length s2g).
  { destruct (built_inv _ _ _ B) as (_ & _ & ->). rewrite map_length, seq_length. unfold lens. now rewrite map_length. }
  assert (LC : length (combine adj (combine ms (combine s2g ghosts))) = length adj).
  { rewrite !combine_length. lia. }
  assert (G : forall r rows rows', nth_error adj r = Some rows -> nth_error out r = Some rows' -> Forall2 (renumbered s2g) rows rows').
  { intros r rows rows' Hr Hr'. assert (Rl : (r < length adj)%nat) by (eapply nth_error_Some_lt; eauto).
    destruct (nth_error_lt_Some _ ms r ltac:(lia)) as (m & Em).
    destruct (nth_error_lt_Some _ s2g r ltac:(lia)) as (own & Eo).
    destruct (Hgh r m Em) as (gh & Hpull & Egh).
    destruct (Hq r rows Hr) as (q & Ho & Eq). cbn [fst snd] in Ho.
    destruct (others_spec lens g r _ q Hg Ho) as (V & O).
    apply mapM_nth in H. destruct H as (_ & H).
    destruct (H r (rows, (m, (own, gh)))) as (y & Hy & Ey).
    { rewrite !nth_error_combine, Hr, Em, Eo, Egh. reflexivity. }
    assert (y = rows') by congruence. subst y. apply mapM_Forall2 with (1 := Hy). intros row row' Hin Hc.
    apply convert_row_spec with (2 := Hc). intros v w Hv Hw.
    assert (Hv' : In v (concat (map live rows))) by (apply in_concat; exists (live row); split; [now apply in_map|exact Hv]).
    apply (new_number_spec lens qs g ms r m s2g own gh v w); auto.
    intro N. rewrite (nth_error_nth _ _ _ Eq). apply O. auto. }
  assert (Lo : length out = length adj) by (apply mapM_nth in H; lia).
  clear - G Lo. revert out G Lo. induction adj as [|a adj IH]; intros [|b out] G L; try discriminate; constructor.
  - exact (G 0%nat a b eq_refl eq_refl).
  - apply IH; [|now injection L]. intros r. exact (G (S r)).
Qed.

Lemma Forall2_nth A B (R : A -> B -> Prop) l l' : Forall2 R l l' -> length l = length l' /\
  forall k a, nth_error l k = Some a -> exists b, nth_error l' k = Some b /\ R a b.
Proof.
  induction 1 as [|a b l l' H _ (L & IH)]; [split; [reflexivity|intros [|k] a E; discriminate]|].
  split; [cbn; congruence|]. intros [|k] x E; [injection E as <-; exists b; auto|]. now apply IH.
Qed.

Lemma Forall2_lens A B (R : A -> B -> Prop) l l' : Forall2 (Forall2 R) l l' -> map (@length A) l = map (@length B) l'.
Proof.
  induction 1 as [|a b l l' H _ IH]; [reflexivity|]. cbn [map]. f_equal; [|exact IH]. now apply Forall2_nth in H.
Qed.

Lemma row_of_Forall2 A B (R : A -> B -> Prop) l l' c a : Forall2 (Forall2 R) l l' -> row_of l c = Some a ->
  exists b, row_of l' c = Some b /\ R a b.
Proof.
  intros H E. unfold row_of in *. rewrite <- (Forall2_lens _ _ _ _ _ H).
  destruct (item_at (map (@length A) l) c) as [[s j]|]; [|discriminate].
  apply Forall2_nth in H. destruct H as (_ & H). destruct (nth_error l s) as [x|] eqn:Es.
  - destruct (H s x Es) as (y & Ey & Hxy). rewrite (nth_error_nth _ _ _ Es) in E. rewrite (nth_error_nth _ _ _ Ey).
    apply Forall2_nth in Hxy. destruct Hxy as (_ & Hxy). now apply Hxy.
  - rewrite nth_overflow in E by (now apply nth_error_None). destruct j; discriminate.
Qed.

(** ** Movement *)

Lemma moved_transfer A size parts pushes s2g (rows new : list (list A)) : length parts = size ->
  map (@length A) rows = map (@length Z) parts ->
  mapM (Partition2LocalIdx size) parts = Ok pushes -> Partition2Serial2Global size parts = Ok s2g ->
  TransferDataSerial2Global rows pushes = Ok new -> moved s2g eq rows new.
Proof.
  intros Hs Hlen Hp Hn H. split.
  - rewrite !list_sum_concat, (transfer_lens _ _ _ _ _ _ Hs Hlen Hp H), newlens_total, Hlen; [reflexivity|].
    now apply mapM_local_idx in Hp.
  - intros c a Hc. unfold row_of in *. pose proof Hn as Hn'. apply numbers_spec in Hn. destruct Hn as (F & En).
    assert (Ls : map (@length Z) s2g = map (@length A) rows) by (rewrite En, numbers_lens; auto).
    destruct (item_at (map (@length A) rows) c) as [[s i]|] eqn:E; [|discriminate].
    assert (Hass : exists r, assigned parts s i r).
    { apply item_at_spec in E. destruct E as ((l & El & Hi) & _). rewrite Hlen, nth_error_map_ in El.
      destruct (nth_error parts s) as [part|] eqn:Ep; [|discriminate]. cbn in El. injection El as <-.
      destruct (nth_error_lt_Some _ _ _ Hi) as (p & Hpi). exists (Z.to_nat p). unfold assigned.
      rewrite (nth_error_nth _ _ _ Ep), Hpi. f_equal. rewrite Forall_forall in F. specialize (F _ (nth_error_In _ _ Ep)).
      unfold in_range in F. rewrite Forall_forall in F. specialize (F _ (nth_error_In _ _ Hpi)). lia. }
    destruct Hass as (r & Ha). destruct (landing _ _ _ _ _ _ _ _ _ _ _ Hs Hlen Hp Hn' H Ha Hc) as (q & k & H1 & H2 & H3).
    exists q, a. rewrite Ls, E, H2. auto.
Qed.

Lemma moved_convert R s2g adj conv (new : list (list (list Z))) :
  Forall2 (Forall2 R) adj conv -> moved s2g eq conv new -> moved s2g R adj new.
Proof.
  intros F (L & M). split.
  - rewrite <- L, !list_sum_concat. now rewrite (Forall2_lens _ _ _ _ _ F).
  - intros c a Hc. destruct (row_of_Forall2 _ _ _ _ _ _ _ F Hc) as (b & Hb & Rab).
    destruct (M c b Hb) as (d & b' & H1 & H2 & <-). eauto.
Qed.

Lemma mesh_moved C I size cp np bp cs ns bs (m m' : serial_mesh C I) :
  length cp = size -> length np = size -> length bp = size ->
  map (@length _) (s_coords m) = map (@length Z) np ->
  map (@length _) (s_cellInfo m) = map (@length Z) cp ->
  map (@length _) (s_cell2cell m) = map (@length Z) cp ->
  map (@length _) (s_cell2node m) = map (@length Z) cp ->
  map (@length _) (s_bndInfo m) = map (@length Z) bp ->
  map (@length _) (s_bnd2cell m) = map (@length Z) bp ->
  map (@length _) (s_bnd2node m) = map (@length Z) bp ->
  Partition2Serial2Global size cp = Ok cs -> Partition2Serial2Global size np = Ok ns ->
  Partition2Serial2Global size bp = Ok bs ->
  PartitionReorder size cp np bp m = Ok m' ->
  moved ns eq (s_coords m) (s_coords m') /\
  moved cs eq (s_cellInfo m) (s_cellInfo m') /\
  moved cs (renumbered ns) (s_cell2node m) (s_cell2node m') /\
  moved cs (renumbered cs) (s_cell2cell m) (s_cell2cell m') /\
  moved bs eq (s_bndInfo m) (s_bndInfo m') /\
  moved bs (renumbered ns) (s_bnd2node m) (s_bnd2node m') /\
  moved bs (renumbered cs) (s_bnd2cell m) (s_bnd2cell m').
Proof.
  intros Hc Hn Hb E1 E2 E3 E4 E5 E6 E7 Hcs Hns Hbs H. unfold PartitionReorder in H.
  apply bind_Ok in H. destruct H as (cpu & Hcp & H). apply bind_Ok in H. destruct H as (npu & Hnp & H).
  apply bind_Ok in H. destruct H as (bpu & Hbp & H). rewrite Hcs in H. cbn [bind] in H. rewrite Hns in H. cbn [bind] in H.
  apply bind_Ok in H. destruct H as (c2n & Q1 & H). apply bind_Ok in H. destruct H as (c2c & Q2 & H).
  apply bind_Ok in H. destruct H as (b2n & Q3 & H). apply bind_Ok in H. destruct H as (b2c & Q4 & H).
  apply bind_Ok in H. destruct H as (x1 & T1 & H). apply bind_Ok in H. destruct H as (x2 & T2 & H).
  apply bind_Ok in H. destruct H as (x3 & T3 & H). apply bind_Ok in H. destruct H as (x4 & T4 & H).
  apply bind_Ok in H. destruct H as (x5 & T5 & H). apply bind_Ok in H. destruct H as (x6 & T6 & H).
  apply bind_Ok in H. destruct H as (x7 & T7 & H). injection H as <-.
  cbn [s_coords s_cellInfo s_bndInfo s_cell2cell s_cell2node s_bnd2cell s_bnd2node].
  assert (Lcs : length cs = size).
  { apply numbers_spec in Hcs. destruct Hcs as (_ & ->). pose proof (f_equal (@length nat) (numbers_lens size cp)) as X. rewrite !map_length in X. congruence. }
  assert (Lns : length ns = size).
  { apply numbers_spec in Hns. destruct Hns as (_ & ->). pose proof (f_equal (@length nat) (numbers_lens size np)) as X. rewrite !map_length in X. congruence. }
  assert (LL : forall A (x : list (list A)) p, map (@length _) x = map (@length Z) p -> length x = length p).
  { intros A x p X. apply (f_equal (@length nat)) in X. now rewrite !map_length in X. }
  apply convert_spec in Q1; [|rewrite (LL _ _ _ E4); congruence].
  apply convert_spec in Q2; [|rewrite (LL _ _ _ E3); congruence].
  apply convert_spec in Q3; [|rewrite (LL _ _ _ E7); congruence].
  apply convert_spec in Q4; [|rewrite (LL _ _ _ E6); congruence].
  split; [exact (moved_transfer _ _ _ _ _ _ _ Hn E1 Hnp Hns T1)|].
  split; [exact (moved_transfer _ _ _ _ _ _ _ Hc E2 Hcp Hcs T4)|].
  assert (K : forall R s2g parts pu (adj conv new : list (list (list Z))), length parts = size ->
     Partition2Serial2Global size parts = Ok s2g -> mapM (Partition2LocalIdx size) parts = Ok pu ->
     map (@length _) adj = map (@length Z) parts -> Forall2 (Forall2 R) adj conv ->
     TransferDataSerial2Global conv pu = Ok new -> moved s2g R adj new).
  { intros R s2g parts pu adj conv new X1 X2 X3 X4 X5 X6. apply moved_convert with (1 := X5).
    apply (moved_transfer _ size parts pu s2g conv new X1); auto. rewrite <- X4. symmetry. exact (Forall2_lens _ _ _ _ _ X5). }
  split; [exact (K _ _ _ _ _ _ _ Hc Hcs Hcp E4 Q1 T3)|].
  split; [exact (K _ _ _ _ _ _ _ Hc Hcs Hcp E3 Q2 T2)|].
  split; [exact (moved_transfer _ _ _ _ _ _ _ Hb E5 Hbp Hbs T7)|].
  split; [exact (K _ _ _ _ _ _ _ Hb Hbs Hbp E7 Q3 T6)|].
  exact (K _ _ _ _ _ _ _ Hb Hbs Hbp E6 Q4 T5).
Qed.

(** ** Success *)

Lemma in_range_parts size parts : partition_ok size parts -> length parts = size /\ Forall (in_range size) parts.
Proof. intros (A & B). split; [exact A|exact B]. Qed.

Lemma redistribution_total A size parts (rows : list (list A)) : partition_ok size parts ->
  map (@length A) rows = map (@length Z) parts -> Z.of_nat (length (concat parts)) <= int32_max ->
  exists pushes s2g new, mapM (Partition2LocalIdx size) parts = Ok pushes /\
    Partition2Serial2Global size parts = Ok s2g /\ TransferDataSerial2Global rows pushes = Ok new.
Proof.
  intros H Hlen HB. apply in_range_parts in H. destruct H as (Hs & F).
  assert (Hp : mapM (Partition2LocalIdx size) parts = Ok (map push_args (map (dests size) parts))).
  { rewrite map_map. apply mapM_map. intros l Hl. apply local_idx_total; [rewrite Forall_forall in F; auto|].
    assert (zlen l <= zlen (concat parts)) by (now apply concat_le). unfold zlen in *. unfold int32_max, int64_max in *. lia. }
  exists (map push_args (map (dests size) parts)), (numbers size parts).
  pose proof (dests_ok size parts _ Hs eq_refl) as OK.
  destruct (setup_push_total _ _ OK) as (g & ms & Hg).
  { rewrite <- list_sum_concat. unfold int32_max, int64_max in *. lia. }
  { assert (E : length (concat (concat (map (dests size) parts))) = length (concat parts)).
    { clear - F. induction F as [|l parts H _ IH]; [reflexivity|]. cbn [map concat].
      rewrite concat_app, !app_length, IH, dests_total by exact H. reflexivity. }
    unfold zlen. rewrite E. exact HB. }
  unfold TransferDataSerial2Global. rewrite zlens_map, Hlen, Hg. cbn [bind fst snd].
  assert (X : exists new, mapM (pull_rows g rows) ms = Ok new).
  { apply mapM_Ok_ex. intros m Hm. apply In_nth_error in Hm. destruct Hm as (r & Hm).
    pose proof (setup_push_inv _ _ _ _ OK Hg) as E. rewrite E, nth_error_map_, nth_error_seq in Hm.
    destruct (Nat.ltb_spec r (length (map (@length Z) parts))) as [Hr|]; [|discriminate]. cbn in Hm. injection Hm as <-.
    unfold pull_rows. cbn [pexpected ghostIndex]. apply mapM_Ok_ex. intros q Hq. apply in_concat in Hq.
    destruct Hq as (l & Hl & Hq). apply in_map_iff in Hl. destruct Hl as (s & <- & Hsq). apply in_seq in Hsq.
    apply in_map_iff in Hq. destruct Hq as (i & <- & Hi).
    assert (Hv : (i < nth s (map (@length Z) parts) 0)%nat).
    { refine (seg_of_valid _ _ s r i OK _ Hi). lia. }
    assert (Hal : setMPIAlignBcast (map Z.of_nat (map (@length Z) parts)) = Ok g).
    { pose proof Hg as Y. unfold setup_push in Y. inv_bind. subst. auto. }
    rewrite (search_spec _ _ _ Hal), glob_item by (auto; lia).
    rewrite <- Hlen, lens_nth in Hv.
    destruct (nth_error rows s) as [row|] eqn:Er.
    - rewrite (vget_of_nat _ _ _ _ Er). cbn [bind]. rewrite (nth_error_nth _ _ _ Er) in Hv.
      destruct (nth_error_lt_Some _ _ _ Hv) as (x & Hx). exists x. now apply vget_of_nat.
    - rewrite nth_overflow in Hv by (now apply nth_error_None). cbn in Hv. lia. }
  destruct X as (new & X). exists new. split; [exact Hp|]. split; [now apply numbers_total|exact X].
Qed.

(** ** Partition of the nodes *)

Lemma node_inner cp c p (cell : list Z) : nth_error cp c = Some p -> forall np out,
  foldM (fun np q => do a <- vget np q; do p <- vat cp (Z.of_nat c); vset np q (Z.min a p)) np cell = Ok out ->
  length out = length np /\
  forall q a, nth_error np q = Some a ->
    nth_error out q = Some (if existsb (Z.eqb (Z.of_nat q)) cell then Z.min a p else a).
Proof.
  intro Hc. induction cell as [|v cell IH]; cbn [foldM existsb]; intros np out H.
  - injection H as <-. auto.
  - apply bind_Ok in H. destruct H as (np' & Hv & H). apply bind_Ok in Hv. destruct Hv as (a & Ha & Hv).
    rewrite (vat_of_nat _ _ _ _ Hc) in Hv. cbn [bind] in Hv.
    apply vget_Ok in Ha. destruct Ha as (Ha0 & Ha). set (k := Z.to_nat v) in *. assert (Ev : v = Z.of_nat k) by lia.
    clearbody k. subst v. apply vset_Ok in Hv. destruct Hv as (Hk & ->). destruct (IH _ _ H) as (L & N).
    rewrite upd_length in L. split; [exact L|]. intros q b Hb. destruct (Nat.eq_dec k q) as [->|Nq].
    + rewrite Z.eqb_refl. cbn [orb]. specialize (N q (Z.min a p)). rewrite nth_error_upd_same in N by exact Hk.
      specialize (N eq_refl). rewrite N. assert (a = b) by congruence. subst b.
      destruct (existsb _ cell); f_equal; lia.
    + destruct (Z.eqb_spec (Z.of_nat q) (Z.of_nat k)); [lia|]. cbn [orb]. apply N. rewrite nth_error_upd_other by congruence. exact Hb.
Qed.

Lemma node_partition_spec n cells cp out : node_partition n cells cp = Ok out ->
  length out = n /\
  forall q p, nth_error out q = Some p ->
    (forall c cell pc, nth_error cells c = Some cell -> In (Z.of_nat q) cell -> nth_error cp c = Some pc -> p <= pc) /\
    (p = int32_max \/ exists c cell, nth_error cells c = Some cell /\ In (Z.of_nat q) cell /\ nth_error cp c = Some p).
Proof.
  unfold node_partition. revert out. induction cells as [|cell cells IH] using rev_ind; intros out H.
  - cbn in H. injection H as <-. split; [apply repeat_length|]. intros q p Hp. split; [intros [|c]; discriminate|].
    left. apply nth_error_In in Hp. now apply repeat_spec in Hp.
  - rewrite indexed_snoc, foldM_snoc in H. apply bind_Ok in H. destruct H as (np & Hnp & H). cbn [fst snd] in H.
    destruct (IH _ Hnp) as (L & N). clear IH Hnp. unfold zlen in H.
    destruct cell as [|v0 cell0].
    { cbn in H. injection H as <-. split; [exact L|]. intros q p Hp. destruct (N q p Hp) as (N1 & N2). split.
      - intros c cell pc Hcell Hin. destruct (lt_eq_lt_dec c (length cells)) as [[X|X]|X].
        + rewrite nth_error_app1 in Hcell by exact X. eauto.
        + subst c. rewrite nth_error_app2, Nat.sub_diag in Hcell by lia. injection Hcell as <-. contradiction.
        + apply nth_error_Some_lt in Hcell. rewrite app_length in Hcell. cbn in Hcell. lia.
      - destruct N2 as [N2|(c & cell & Hcell & Hin & Hpc)]; [auto|]. right. exists c, cell. split; [|auto].
        rewrite nth_error_app1 by (eapply nth_error_Some_lt; eauto). exact Hcell. }
    assert (Hc : exists p0, nth_error cp (length cells) = Some p0).
    { cbn [foldM] in H. apply bind_Ok in H. destruct H as (x & Hx & _). apply bind_Ok in Hx. destruct Hx as (a & _ & Hx).
      apply bind_Ok in Hx. destruct Hx as (p0 & Hp0 & _). unfold vat in Hp0.
      destruct (Z.ltb_spec (Z.of_nat (length cells)) 0); [lia|].
      rewrite Nat2Z.id in Hp0. destruct (nth_error cp (length cells)); [eauto|discriminate]. }
    destruct Hc as (p0 & Hc). set (cell := v0 :: cell0) in *. clearbody cell.
    destruct (node_inner cp (length cells) p0 cell Hc np out H) as (L' & N'). split; [congruence|].
    intros q p Hp. destruct (nth_error_lt_Some _ np q) as (a & Ha).
    { rewrite <- L'. eapply nth_error_Some_lt; eauto. }
    rewrite (N' q a Ha) in Hp. injection Hp as <-. destruct (N q a Ha) as (N1 & N2). split.
    + intros c cell' pc Hcell Hin Hpc. destruct (lt_eq_lt_dec c (length cells)) as [[X|X]|X].
      * rewrite nth_error_app1 in Hcell by exact X. specialize (N1 c cell' pc Hcell Hin Hpc).
        destruct (existsb (Z.eqb (Z.of_nat q)) cell); lia.
      * subst c. rewrite nth_error_app2, Nat.sub_diag in Hcell by lia. injection Hcell as <-.
        assert (existsb (Z.eqb (Z.of_nat q)) cell = true) as ->. { apply existsb_exists. exists (Z.of_nat q). split; [exact Hin|apply Z.eqb_refl]. }
        assert (pc = p0) by congruence. lia.
      * apply nth_error_Some_lt in Hcell. rewrite app_length in Hcell. cbn in Hcell. lia.
    + assert (K : a = int32_max \/ (exists c cell', nth_error (cells ++ [cell]) c = Some cell' /\ In (Z.of_nat q) cell' /\ nth_error cp c = Some a)).
      { destruct N2 as [N2|(c & cell' & Hcell & Hin & Hpc)]; [auto|]. right. exists c, cell'. split; [|auto].
        rewrite nth_error_app1 by (eapply nth_error_Some_lt; eauto). exact Hcell. }
      destruct (existsb (Z.eqb (Z.of_nat q)) cell) eqn:Ex; [|exact K].
      destruct (Z.min_spec a p0) as [(_ & ->)|(_ & ->)]; [exact K|]. right. exists (length cells), cell.
      rewrite nth_error_app2, Nat.sub_diag by lia. split; [reflexivity|]. split; [|exact Hc].
      apply existsb_exists in Ex. destruct Ex as (y & Hy & E). apply Z.eqb_eq in E. now subst y.
Qed.

Lemma bnd_partition_spec : forall b2c cp out, bnd_partition b2c cp = Ok out ->
  Forall2 (fun row p => exists c t, row = c :: t /\ 0 <= c /\ nth_error cp (Z.to_nat c) = Some p) b2c out.
Proof.
  intros b2c cp. unfold bnd_partition. induction b2c as [|row b2c IH]; intros out H; cbn [mapM] in H; [inversion H; constructor|].
  apply bind_Ok in H. destruct H as (p & Hp & H). apply bind_Ok in H. destruct H as (ps & Hps & H). inversion H; subst.
  constructor; [|apply IH; auto]. apply bind_Ok in Hp. destruct Hp as (c & Hc & Hp).
  unfold vget in Hc, Hp. destruct row as [|c' t]; [discriminate|]. cbn in Hc. inversion Hc; subst c'.
  exists c, t. destruct (Z.ltb_spec c 0); [discriminate|]. destruct (nth_error cp (Z.to_nat c)) eqn:E; [|discriminate]. inversion Hp; subst. auto.
Qed.
