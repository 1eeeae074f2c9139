(** createMPITypes (C04, C05, C07). *)
From Coq Require Import List ZArith Lia Bool Arith Permutation.
From Verif Require Import Base.Prelude Base.PreludeFacts Base.MPIModel Base.MPIFacts
  DNDS.IndexMappingModel DNDS.IndexMappingSpec DNDS.IndexMappingProofs DNDS.GhostPullProofs
  DNDS.GhostSearchProofs DNDS.GhostPushProofs
  DNDS.ArrayModel DNDS.ArraySpec DNDS.ArrayProofs DNDS.ExchangeModel DNDS.ExchangeSpec
  DNDS.ExchangePlanProofs DNDS.TransferProofs DNDS.MessageProofs DNDS.ExchangeProofs.
Import ListNotations.
Local Open Scope Z_scope.

Section Create.
Variable T : Type.
Variable dflt : T.
Notation arr := (arr T).
Notation sarr := (sarr T).
Notation rep := (rep T). Notation wrep := (wrep T). Notation flat_mode := (flat_mode T).

(** *** facts about one array *)

(** number of elements a row is exchanged with *)
Definition psz (s : sarr) (i : nat) : nat :=
  if is_max (slay s) then nth i (used s) 0%nat else clen (cells s) i.

Definition rowp (s : sarr) (k : nat) : rowptr :=
  if is_csr (slay s) && (length (cells s) =? 0)%nat then PNull else PData (Z.of_nat (off (cells s) k)).

Lemma rep_row_flat : forall h a (s : sarr) k, rep h a s -> flat_mode s = true -> (k <= length (cells s))%nat ->
  row_ h a (Z.of_nat k) = Ok (rowp s k).
Proof.
  intros h a s k R F Hk. unfold row_, rowp. rewrite (r_size _ _ _ _ R), (r_lay _ _ _ _ R). unfold zlen.
  destruct (Z.leb_spec (Z.of_nat k) (Z.of_nat (length (cells s)))); [|lia].
  destruct (Z.leb_spec 0 (Z.of_nat k)); [|lia]. cbn [andb assert_ bind].
  pose proof (r_width _ _ _ _ R) as Hw. pose proof (r_start _ _ _ _ R) as Hp.
  unfold ArrayProofs.flat_mode in F.
  destruct (slay s) eqn:El; cbn [is_csr negb orb andb] in *;
    try (destruct (Hw eq_refl) as [H1 [H2 _]]; rewrite H1; unfold off; rewrite (concat_widths _ _ _ H2) by lia;
         do 2 f_equal; lia).
  rewrite F in Hp. destruct Hp as [p [Hp1 Hp2]].
  unfold IfCompressed. rewrite (r_lay _ _ _ _ R), El, (r_size _ _ _ _ R), Hp1. unfold zlen. cbn [bind].
  destruct (Nat.eqb_spec (length (cells s)) 0).
  - rewrite e. reflexivity.
  - destruct (Z.ltb_spec 0 (Z.of_nat (length (cells s)))); [|lia]. cbn [andb deref]. rewrite Hp2. cbn [bind].
    rewrite (vat_of_nat _ _ _ _ (zlensl_psums_nth _ (cells s) k ltac:(lia))). reflexivity.
Qed.

Lemma rep_row_any : forall h a (s : sarr) k, rep h a s -> (k < length (cells s) \/ k = 0)%nat ->
  exists p, row_ h a (Z.of_nat k) = Ok p.
Proof.
  intros h a s k R Hk. destruct (flat_mode s) eqn:F.
  - eexists. apply rep_row_flat; eauto. lia.
  - unfold row_. rewrite (r_size _ _ _ _ R), (r_lay _ _ _ _ R). unfold zlen.
    destruct (Z.leb_spec (Z.of_nat k) (Z.of_nat (length (cells s)))); [|lia].
    destruct (Z.leb_spec 0 (Z.of_nat k)); [|lia]. cbn [andb assert_ bind].
    pose proof (r_start _ _ _ _ R) as Hp. pose proof (r_unc _ _ _ _ R) as Hu. rewrite F in Hu.
    unfold ArrayProofs.flat_mode in F.
    destruct (slay s) eqn:El; try discriminate. cbn [is_csr negb orb andb] in *. rewrite F in Hp.
    unfold IfCompressed. rewrite (r_lay _ _ _ _ R), El, Hp, andb_false_r. cbn [bind].
    destruct (Z.eqb_spec (Z.of_nat (length (cells s))) 0); [eauto|].
    destruct (Z.ltb_spec (Z.of_nat k) (Z.of_nat (length (cells s)))); [|lia]. cbn [assert_ bind].
    destruct (nth_error_lt_Some _ (cells s) k) as [row Hrow]; [lia|].
    rewrite Hu, (vat_of_nat _ _ _ _ Hrow). cbn [bind]. eauto.
Qed.

Lemma clen_width : forall h a (s : sarr) k, rep h a s -> is_csr (slay s) = false ->
  (k < length (cells s))%nat -> clen (cells s) k = width s.
Proof.
  intros h a s k R Hc Hk. destruct (r_width _ _ _ _ R Hc) as [_ [H _]]. rewrite Forall_forall in H.
  unfold clen. apply H. apply nth_In. auto.
Qed.

Lemma rep_push_size : forall h a (s : sarr) k, rep h a s -> (k < length (cells s))%nat ->
  push_row_size h a (Z.of_nat k) = Ok (Z.of_nat (psz s k)) /\ (psz s k <= clen (cells s) k)%nat.
Proof.
  intros h a s k R Hk. unfold push_row_size, psz. rewrite (r_lay _ _ _ _ R).
  destruct (rep_rowsize _ _ _ _ _ R Hk) as [r [row [H1 [H2 [H3 [H4 H5]]]]]].
  unfold clen. rewrite (nth_error_nth _ _ [] H3).
  pose proof (r_sizes _ _ _ _ R) as Hs. pose proof (fun H => clen_width _ _ _ k R H Hk) as Hw.
  unfold clen in Hw. rewrite (nth_error_nth _ _ [] H3) in Hw. pose proof (r_width _ _ _ _ R) as Hst.
  unfold srow in H1. rewrite H3 in H1.
  assert (M : is_max (slay s) = true -> length r = nth k (used s) 0%nat).
  { intro M. rewrite M in *. destruct Hs as [A [B _]]. destruct (nth_error_lt_Some _ (used s) k ltac:(lia)) as [u Hu].
    rewrite Hu in H1. cbn in H1. injection H1 as <-. rewrite (nth_error_nth _ _ 0%nat Hu).
    rewrite firstn_length. rewrite Forall_forall in B. specialize (B u (nth_error_In _ _ Hu)).
    assert (is_csr (slay s) = false) by (destruct (slay s); auto; discriminate). rewrite Hw by auto. lia. }
  destruct (slay s) eqn:El; cbn [is_max is_csr] in *.
  - split; [|lia]. unfold RowSizeField0, RowSize0. rewrite (r_lay _ _ _ _ R), El. rewrite Hw by auto.
    pose proof (r_static _ _ _ _ R) as X. rewrite El in X. rewrite X. reflexivity.
  - split; [|lia]. unfold RowSizeField0, RowSize0. rewrite (r_lay _ _ _ _ R), El. rewrite Hw by auto.
    destruct (Hst eq_refl) as [X _]. unfold stride in X. rewrite (r_lay _ _ _ _ R), El in X. rewrite X. reflexivity.
  - rewrite H2. unfold zlen. rewrite M by auto. split; [auto|]. rewrite <- M by auto. lia.
  - rewrite H2. unfold zlen. rewrite M by auto. split; [auto|]. rewrite <- M by auto. lia.
  - injection H1 as <-. unfold RowSizeField. rewrite (r_lay _ _ _ _ R), El, H2. auto.
Qed.

Lemma rep_cells : forall h a (s : sarr) k, rep h a s -> (k < length (cells s))%nat ->
  row_cells h a k = Ok (Z.of_nat (clen (cells s) k)).
Proof.
  intros h a s k R Hk. unfold row_cells. rewrite (r_lay _ _ _ _ R).
  destruct (rep_push_size _ _ _ _ R Hk) as [E _]. unfold push_row_size, psz in E. rewrite (r_lay _ _ _ _ R) in E.
  pose proof (fun H => clen_width _ _ _ k R H Hk) as Hw. pose proof (r_width _ _ _ _ R) as Hst.
  destruct (slay s) eqn:El; cbn [is_max is_csr] in *; auto.
  - unfold RowSizeField0, RowSizeMax. rewrite (r_lay _ _ _ _ R), El. rewrite Hw by auto.
    destruct (Hst eq_refl) as [X _]. unfold stride in X. rewrite (r_lay _ _ _ _ R), El in X. rewrite X. reflexivity.
  - unfold RowSizeField0, RowSizeMax. rewrite (r_lay _ _ _ _ R), El. rewrite Hw by auto.
    pose proof (r_static _ _ _ _ R) as X. rewrite El in X. rewrite X. reflexivity.
  - unfold RowSizeField in E. rewrite (r_lay _ _ _ _ R), El in E. auto.
Qed.

(** *** layouts do not change *)
Lemma upd_In : forall A n (x y : A) l, In y (upd n x l) -> y = x \/ In y l.
Proof.
  induction n; destruct l; simpl; intros; auto; intuition. destruct (IHn x y l H0); auto.
Qed.

Lemma allowed1_lay : forall (s s' : sarr) c, In s' (allowed1 dflt s c) -> slay s' = slay s.
Proof.
  intros s s' c H.
  assert (TR : forall n wd, In s' (table_resize dflt s n wd) -> slay s' = slay s).
  { intros n wd HT. unfold table_resize in HT. destruct (is_max (slay s)); cbn in HT.
    - destruct HT as [<-|[<-|[]]]; reflexivity.
    - destruct HT as [<-|[]]; reflexivity. }
  destruct c; cbn [allowed1] in H;
  repeat match type of H with
         | In _ (table_resize _ _ _ _) => apply TR in H; congruence
         | In _ [] => destruct H
         | In _ [_] => destruct H as [<-|[]]; try destruct (is_csr (slay s)); cbn [slay with_cells with_comp]; congruence
         | In _ (match ?x with _ => _ end) => destruct x eqn:?
         end.
Qed.

Lemma allowed_lay : forall l (ss ss' : list sarr) id c, Forall (fun s => slay s = l) ss ->
  In ss' (allowed dflt ss id c) -> Forall (fun s => slay s = l) ss' /\ length ss' = length ss.
Proof.
  intros l ss ss' id c H Hin. unfold allowed in Hin. destruct (nth_error ss id) as [s|] eqn:Es; [|destruct Hin].
  assert (Hs : slay s = l) by (rewrite Forall_forall in H; apply H; eapply nth_error_In; eauto).
  assert (U : forall n x (tt : list sarr), Forall (fun s => slay s = l) tt -> slay x = l -> Forall (fun s => slay s = l) (upd n x tt)).
  { intros n x tt Ht Hx. apply Forall_forall. intros y Hy. apply upd_In in Hy. destruct Hy; [subst; auto|].
    rewrite Forall_forall in Ht; auto. }
  destruct c; try (apply in_map_iff in Hin; destruct Hin as [s1 [<- Hin]]; apply allowed1_lay in Hin;
                   split; [apply U; congruence|apply upd_length]).
  - destruct (nth_error ss other) as [t|] eqn:Et; [|destruct Hin]. destruct Hin as [<-|[]].
    split; [apply U; auto|apply upd_length]. rewrite Forall_forall in H; apply H; eapply nth_error_In; eauto.
  - destruct (nth_error ss other) as [t|] eqn:Et; [|destruct Hin].
    match type of Hin with In _ (if ?b then _ else _) => destruct b end; [|destruct Hin]. destruct Hin as [<-|[]].
    split; [|rewrite !upd_length; reflexivity]. apply U; auto. apply U; auto.
    rewrite Forall_forall in H; apply H; eapply nth_error_In; eauto.
Qed.

Lemma history_lay : forall l (ss ss' : list sarr) cs, history dflt ss cs ss' ->
  Forall (fun s => slay s = l) ss -> Forall (fun s => slay s = l) ss' /\ length ss' = length ss.
Proof.
  intros l ss ss' cs H. induction H as [ss|ss id c cs s1 s2 Hin Hh IH]; intros HF; auto.
  destruct (allowed_lay _ _ _ _ _ HF Hin). destruct IH; auto. split; congruence.
Qed.

End Create.
