(** createMPITypes on all ranks (C04, C05, C07). *)
From Coq Require Import List ZArith Lia Bool Arith Permutation.
From Verif Require Import Base.Prelude Base.PreludeFacts Base.MPIModel Base.MPIFacts
  DNDS.IndexMappingModel DNDS.IndexMappingSpec DNDS.IndexMappingProofs DNDS.GhostPullProofs
  DNDS.GhostSearchProofs DNDS.GhostPushProofs
  DNDS.ArrayModel DNDS.ArraySpec DNDS.ArrayProofs DNDS.ExchangeModel DNDS.ExchangeSpec
  DNDS.ExchangePlanProofs DNDS.TransferProofs DNDS.MessageProofs DNDS.ExchangeProofs
  DNDS.CreateTypesProofs.
Import ListNotations.
Local Open Scope Z_scope.

Lemma choice_lt : forall A (d : A) (Q : nat -> A -> Prop) P,
  (forall r, (r < P)%nat -> exists x, Q r x) -> exists f, forall r, (r < P)%nat -> Q r (f r).
Proof.
  intros A d Q P. induction P as [|P IH]; intros H.
  - exists (fun _ => d). intros; lia.
  - destruct IH as [f Hf]; [intros; apply H; lia|]. destruct (H P ltac:(lia)) as [x Hx].
    exists (fun r => if Nat.eqb r P then x else f r). intros r Hr. destruct (Nat.eqb_spec r P).
    + subst. auto.
    + apply Hf. lia.
Qed.

Lemma zsum_map_of_nat : forall l, zsum (map Z.of_nat l) = Z.of_nat (list_sum l).
Proof.
  induction l; auto. change (zsum (map Z.of_nat (a :: l))) with (Z.of_nat a + zsum (map Z.of_nat l)).
  change (list_sum (a :: l)) with (a + list_sum l)%nat. lia.
Qed.

Lemma list_sum_In : forall l x, In x l -> (x <= list_sum l)%nat.
Proof.
  induction l; intros x []; change (list_sum (a :: l)) with (a + list_sum l)%nat; [lia|]. specialize (IHl x H). lia.
Qed.

Section Create2.
Variable T : Type.
Variable dflt : T.
Notation arr := (arr T).
Notation sarr := (sarr T).
Notation rep := (rep T). Notation wrep := (wrep T). Notation flat_mode := (flat_mode T).
Notation psz := (psz T).

Lemma call_ok : forall w ss id c, wrep w ss -> covered ss id c -> allowed dflt ss id c <> [] ->
  exists w' ss', do_call dflt w id c = Ok w' /\ In ss' (allowed dflt ss id c) /\ wrep w' ss'.
Proof.
  intros w ss id c W Hc Hn. pose proof (step_refines T dflt w ss id c W Hc) as Gd. unfold good in Gd.
  destruct (do_call dflt w id c); [|congruence|destruct Gd]. destruct Gd as [ss' [A B]]. eauto.
Qed.

Lemma two_arrs : forall w (f s : sarr), wrep w [f; s] ->
  exists fa sa, arrs w = [fa; sa] /\ rep (hp w) fa f /\ rep (hp w) sa s.
Proof.
  intros w f s [Hl [Hr _]]. simpl in Hl. destruct (arrs w) as [|fa [|sa [|? ?]]] eqn:E; try discriminate.
  exists fa, sa. split; auto. split; [apply (Hr 0%nat)|apply (Hr 1%nat)]; reflexivity.
Qed.

Lemma on_son_1 : forall w fa sa n, arrs w = [fa; sa] ->
  on_son w (fun h u s => Resize1 dflt h u s (Z.of_nat n)) = do_call dflt w son (CResize n).
Proof. intros w fa sa n E. unfold on_son, get_arr, do_call. rewrite E. reflexivity. Qed.
Lemma on_son_2 : forall w fa sa n rd, arrs w = [fa; sa] ->
  on_son w (fun h u s => Resize2 dflt h u s (Z.of_nat n) (Z.of_nat rd)) = do_call dflt w son (CResize2 n rd).
Proof. intros w fa sa n rd E. unfold on_son, get_arr, do_call. rewrite E. reflexivity. Qed.
Lemma on_son_F : forall w fa sa ns, arrs w = [fa; sa] ->
  on_son w (fun h u s => ResizeF dflt h s (map Z.of_nat ns)) = do_call dflt w son (CResizeF ns).
Proof. intros w fa sa ns E. unfold on_son, get_arr, do_call. rewrite E. reflexivity. Qed.
Lemma on_son_R : forall w fa sa i n, arrs w = [fa; sa] ->
  on_son w (fun h u s => ResizeRow dflt h u s i (Z.of_nat n)) = do_call dflt w son (CResizeRow i n).
Proof. intros w fa sa i n E. unfold on_son, get_arr, do_call. rewrite E. reflexivity. Qed.

(** a call on the son *)
Lemma son_call : forall w f s c, wrep w [f; s] -> covered [f; s] son c ->
  match c with CCopyFrom _ | CSwapWith _ => False | _ => True end ->
  allowed1 dflt s c <> [] ->
  exists w' s', do_call dflt w son c = Ok w' /\ In s' (allowed1 dflt s c) /\ wrep w' [f; s'].
Proof.
  intros w f s c W Hc Hk Hn.
  assert (E : allowed dflt [f; s] son c = map (fun s' => [f; s']) (allowed1 dflt s c)) by (destruct c; try reflexivity; contradiction).
  destruct (call_ok w [f; s] son c W Hc) as [w' [ss' [A [B C]]]].
  - rewrite E. destruct (allowed1 dflt s c); [congruence|discriminate].
  - rewrite E in B. apply in_map_iff in B. destruct B as [s' [<- B]]. eauto.
Qed.

Lemma rep_stride : forall h a (s : sarr), rep h a s ->
  match slay s with
  | Fixed => RowSize0 a = Ok (Z.of_nat (width s))
  | Max => RowSizeMax a = Ok (Z.of_nat (width s))
  | StaticFixed w | StaticMax w => width s = w
  | CSR => True
  end.
Proof.
  intros h a s R. pose proof (r_width _ _ _ _ R) as Hw. pose proof (r_static _ _ _ _ R) as Hs.
  unfold RowSize0, RowSizeMax. rewrite (r_lay _ _ _ _ R). unfold stride in Hw. rewrite (r_lay _ _ _ _ R) in Hw.
  destruct (slay s); auto; destruct (Hw eq_refl) as [-> _]; auto.
Qed.

(** a table after it was resized to [n] rows of the same width *)
Definition sized (n wd : nat) (l : layout) (s : sarr) : Prop :=
  slay s = l /\ comp s = false /\ width s = wd /\ length (cells s) = n /\
  Forall (fun c => length c = wd) (cells s) /\
  (is_max l = true -> length (used s) = n /\ Forall (fun k => (k <= wd)%nat) (used s)).

Lemma fit_Forall : forall A (Q : A -> Prop) x n l, Q x -> Forall Q l -> Forall Q (fit x n l).
Proof.
  intros A Q x n l Hx Hl. unfold fit. apply Forall_app. split.
  - rewrite Forall_forall in *. intros y Hy. apply Hl. rewrite <- (firstn_skipn n l). apply in_or_app; auto.
  - apply Forall_forall. intros y Hy. apply repeat_spec in Hy. subst; auto.
Qed.

Lemma resize_table : forall w f s n wd, wrep w [f; s] -> is_csr (slay s) = false ->
  (is_max (slay s) = true -> Forall (fun k => (k <= wd)%nat) (used s)) ->
  match slay s with StaticFixed v | StaticMax v => v = wd | _ => True end ->
  exists w' s',
    match slay s with
    | StaticFixed _ | StaticMax _ => do_call dflt w son (CResize n)
    | _ => do_call dflt w son (CResize2 n wd)
    end = Ok w' /\ wrep w' [f; s'] /\ sized n wd (slay s) s'.
Proof.
  intros w f s n wd W Hc Hu Hst.
  assert (Hcomp : comp s = false).
  { destruct (two_arrs _ _ _ W) as [fa [sa [_ [_ R]]]]. apply (r_width _ _ _ _ R Hc). }
  assert (TS : forall s', In s' (table_resize dflt s n wd) -> sized n wd (slay s) s').
  { intros s' Hin.
    assert (L : length (regroup dflt (repeat wd n) (concat (cells s))) = n) by (rewrite regroup_length, repeat_length; auto).
    pose proof (regroup_widths T dflt wd n (concat (cells s))) as Wd.
    unfold table_resize in Hin. unfold sized. destruct (is_max (slay s)) eqn:M.
    - destruct Hin as [<-|[<-|[]]]; cbn [slay comp width cells used]; repeat (split; auto).
      + apply repeat_length.
      + apply Forall_forall. intros y Hy. apply repeat_spec in Hy. lia.
      + apply fit_length.
      + apply fit_Forall; auto. lia.
    - destruct Hin as [<-|[]]; cbn [slay comp width cells used]; repeat (split; auto); discriminate. }
  assert (TN : table_resize dflt s n wd <> []) by (unfold table_resize; destruct (is_max (slay s)); discriminate).
  destruct (slay s) eqn:El; try discriminate; subst.
  - destruct (son_call w f s (CResize n) W) as [w' [s' [A [B C]]]]; cbn [allowed1]; rewrite ?El; auto.
    + exists s. split; auto. cbn. rewrite El. intros [X _]; discriminate.
    + cbn [allowed1] in B. rewrite El in B. exists w', s'. auto.
  - destruct (son_call w f s (CResize2 n wd) W) as [w' [s' [A [B C]]]]; cbn [allowed1]; rewrite ?El; auto.
    + exists s. split; auto. cbn. rewrite El. split; [intros [X _]; discriminate|discriminate].
    + cbn [allowed1] in B. rewrite El in B. exists w', s'. auto.
  - destruct (son_call w f s (CResize2 n wd) W) as [w' [s' [A [B C]]]]; cbn [allowed1]; rewrite ?El; auto.
    + exists s. split; auto. cbn. rewrite El. split; [intros [X _]; discriminate|intros _].
      specialize (Hu eq_refl). rewrite Forall_forall in *. intros y Hy. apply Hu.
      rewrite <- (firstn_skipn n (used s)). apply in_or_app; auto.
    + cbn [allowed1] in B. rewrite El in B. exists w', s'. auto.
  - destruct (son_call w f s (CResize n) W) as [w' [s' [A [B C]]]]; cbn [allowed1]; rewrite ?El; auto.
    + exists s. split; auto. cbn. rewrite El. intros [X _]; discriminate.
    + cbn [allowed1] in B. rewrite El in B. exists w', s'. auto.
Qed.

(** setting the row sizes one by one *)
Lemma resize_rows : forall ns m w f s wd (l : layout), wrep w [f; s] -> is_max l = true ->
  sized (length ns) wd l s -> Forall (fun n => small n /\ (n <= wd)%nat) ns ->
  (m <= length ns)%nat -> firstn (length ns - m) (used s) = firstn (length ns - m) ns ->
  exists w' s',
    foldM (fun w i => do sz <- vget (map Z.of_nat ns) i;
             on_son w (fun h u s => ResizeRow dflt h u s i sz)) w
          (map Z.of_nat (seq (length ns - m) m)) = Ok w' /\
    wrep w' [f; s'] /\ sized (length ns) wd l s' /\ used s' = ns.
Proof.
  intros ns m. induction m as [|m IH]; intros w f s wd l W M Z1 Hn Hm Hf.
  - exists w, s. split; [reflexivity|]. split; auto. split; auto.
    destruct Z1 as (_&_&_&_&_&Z1). destruct (Z1 M) as [Zl _].
    rewrite Nat.sub_0_r in Hf. rewrite firstn_all in Hf. rewrite <- Zl in Hf at 1. rewrite firstn_all in Hf. auto.
  - set (k := (length ns - S m)%nat) in *. assert (Hk : (k < length ns)%nat) by lia.
    destruct (nth_error_lt_Some _ ns k Hk) as [n Hnk].
    rewrite Forall_forall in Hn. destruct (Hn n (nth_error_In _ _ Hnk)) as [Sn Ln].
    destruct Z1 as (Y1&Y2&Y3&Y4&Y5&Y6). destruct (Y6 M) as [Y7 Y8].
    destruct (two_arrs _ _ _ W) as [fa [sa [E _]]].
    assert (Al : allowed1 dflt s (CResizeRow (Z.of_nat k) n) =
                 [ {| slay := slay s; comp := comp s; width := width s; cells := cells s; used := upd k n (used s) |} ]).
    { cbn [allowed1]. rewrite in_range_nat by lia. rewrite Y1. destruct (Nat.leb_spec n (width s)); [|lia].
      destruct l; try discriminate; auto. }
    destruct (son_call w f s (CResizeRow (Z.of_nat k) n) W) as [w' [s' [A [B C]]]]; auto.
    { exists s. split; auto. }
    { rewrite Al. discriminate. }
    rewrite Al in B. destruct B as [<-|[]].
    cbn [seq map foldM]. rewrite (vget_of_nat _ _ _ (Z.of_nat n)) by (rewrite nth_error_map_, Hnk; reflexivity).
    cbn [bind]. rewrite (on_son_R w fa sa) by auto. rewrite A. cbn [bind].
    destruct (IH w' f _ wd l C M) as [w2 [s2 [I1 [I2 [I3 I4]]]]].
    + unfold sized. cbn [slay comp width cells used]. repeat (split; auto).
      * rewrite upd_length; auto.
      * apply Forall_forall. intros y Hy. apply upd_In in Hy. destruct Hy; [lia|]. rewrite Forall_forall in Y8; auto.
    + rewrite Forall_forall. auto.
    + lia.
    + cbn [used]. apply nth_error_ext. intro i. rewrite !nth_error_firstn.
      replace (length ns - m)%nat with (S k) by lia.
      destruct (Nat.ltb_spec i (S k)); auto. destruct (Nat.eq_dec i k) as [->|Ne].
      * rewrite nth_error_upd_same by lia. auto.
      * rewrite nth_error_upd_other by auto. apply (f_equal (fun l => nth_error l i)) in Hf.
        rewrite !nth_error_firstn in Hf. destruct (Nat.ltb_spec i k); [auto|lia].
    + exists w2, s2. replace (S k) with (length ns - m)%nat by lia. auto.
Qed.


(** *** one rank *)
Variables (lens : list nat) (ms : list ghostmap) (G : nat -> nat -> list nat).
Hypothesis HP : plan lens ms G.
Notation P := (length lens).

(** the father after the datatypes are made *)
Definition packed (st : strategy) (f : sarr) : sarr :=
  match st with
  | HIndexed => if is_csr (slay f) then with_comp f true else f
  | InSituPack => f
  end.

Lemma packed_cells : forall st f, cells (packed st f) = cells f /\ slay (packed st f) = slay f /\
  used (packed st f) = used f /\ width (packed st f) = width f.
Proof. intros [] f; cbn; [destruct (is_csr (slay f))|]; auto. Qed.

Lemma packed_flat : forall h a f, rep h a f -> flat_mode (packed HIndexed f) = true.
Proof.
  intros h a f R. unfold packed, ArrayProofs.flat_mode. destruct (is_csr (slay f)) eqn:E; cbn [with_comp slay comp].
  - apply orb_true_r.
  - rewrite E. reflexivity.
Qed.

Lemma psz_packed : forall st f i, psz (packed st f) i = psz f i.
Proof. intros st f i. unfold CreateTypesProofs.psz. destruct (packed_cells st f) as (->&->&->&_). reflexivity. Qed.

Definition push_row (st : strategy) (f : sarr) (i : nat) : Z * Z * Z :=
  (Z.of_nat i, Z.of_nat (psz f i), match st with HIndexed => Z.of_nat (off (cells f) i) | InSituPack => 0 end).

Lemma push_rows_ok : forall st w f s m r, wrep w [f; s] -> nth_error ms r = Some m ->
  (r < P)%nat -> length (cells f) = nth r lens 0%nat ->
  exists w1, push_rows dflt st w m = Ok (w1, map (push_row st f) (concat (outs P G r))) /\
    wrep w1 [packed st f; s].
Proof.
  intros st w f s m r W Hm Hr Hf.
  assert (S1 : exists w1, match st with HIndexed => do_call dflt w father CCompress | InSituPack => Ok w end = Ok w1 /\
                          wrep w1 [packed st f; s]).
  { destruct st; [|exists w; auto].
    destruct (call_ok w [f; s] father CCompress W) as [w1 [ss' [A [B C]]]].
    - exists f. auto.
    - discriminate.
    - exists w1. split; auto. cbn in B. destruct B as [<-|[]]. exact C. }
  destruct S1 as [w1 [E1 W1]]. exists w1. split; [|exact W1].
  unfold push_rows. rewrite E1. cbn [bind]. destruct (two_arrs _ _ _ W1) as [fa [sa [E [R1 R2]]]].
  unfold get_arr. rewrite E. cbn [father son nth_error bind].
  destruct (rep_row_any T (hp w1) fa (packed st f) 0%nat R1 ltac:(auto)) as [p0 Hp0].
  change 0 with (Z.of_nat 0) at 1. rewrite Hp0. cbn [bind].
  destruct (pl_push _ _ _ HP _ _ Hm) as [_ [_ Eg]]. rewrite Eg.
  destruct (packed_cells st f) as (Pc&Pl&Pu&Pw).
  match goal with |- bind ?x _ = _ => assert (X : x = Ok (map (push_row st f) (concat (outs P G r)))) end.
  { apply mapM_intro; [rewrite !map_length; reflexivity|].
    intros k q y Hq Hy. rewrite nth_error_map_ in Hq, Hy.
    destruct (nth_error (concat (outs P G r)) k) as [i|] eqn:Ek; [|discriminate]. cbn in Hq, Hy.
    injection Hq as <-. injection Hy as <-.
    assert (Hi : (i < nth r lens 0)%nat).
    { apply nth_error_In in Ek. apply in_concat in Ek. destruct Ek as [l [Hl Hin]]. unfold outs in Hl.
      apply in_map_iff in Hl. destruct Hl as [d [<- _]]. eapply (pl_valid _ _ _ HP); eauto. }
    rewrite (pl_search _ _ _ HP _ _ _ Hm Hi). cbn [bind assert_ Z.eqb Pos.eqb].
    assert (Hc : (i < length (cells (packed st f)))%nat) by (rewrite Pc; lia).
    destruct (rep_push_size T (hp w1) fa _ i R1 Hc) as [Es _]. rewrite psz_packed in Es.
    destruct (rep_row_any T (hp w1) fa (packed st f) i R1 ltac:(auto)) as [p Hp]. rewrite Hp. cbn [bind].
    destruct st; cbn [bind].
    - assert (F : flat_mode (packed HIndexed f) = true).
      { unfold packed, ArrayProofs.flat_mode. destruct (is_csr (slay f)) eqn:Ec; cbn [with_comp slay comp]; [apply orb_true_r|rewrite Ec; reflexivity]. }
      rewrite (rep_row_flat T (hp w1) fa _ 0%nat R1 F) in Hp0 by lia.
      rewrite (rep_row_flat T (hp w1) fa _ i R1 F) in Hp by lia.
      apply (f_equal (fun x => match x with Ok y => y | _ => PNull end)) in Hp0, Hp. cbv beta iota in Hp0, Hp.
      rewrite <- Hp0, <- Hp. unfold rowp.
      assert (N : (length (cells (packed HIndexed f)) =? 0)%nat = false) by (apply Nat.eqb_neq; lia).
      rewrite N, andb_false_r. cbn [ptr_diff bind]. rewrite Es. cbn [bind]. unfold push_row. rewrite Pc.
      rewrite off_0. do 2 f_equal. lia.
    - rewrite Es. reflexivity. }
  rewrite X. reflexivity.
Qed.

Lemma ghost_total : forall r m, nth_error ms r = Some m ->
  vget (ghostStart m) (zlen (ghostStart m) - 1) = Ok (Z.of_nat (length (ghosts P G r))) /\
  zlen (ghostStart m) = Z.of_nat P + 1 /\ last (ghostStart m) 0 = Z.of_nat (length (ghosts P G r)).
Proof.
  intros r m Hm. destruct (pl_pull _ _ _ HP _ _ Hm) as [_ [E _]].
  assert (L : length (zlensl (ins P G r)) = P) by (unfold zlensl, ins; rewrite !map_length, seq_length; auto).
  assert (LZ : zlen (ghostStart m) = Z.of_nat P + 1) by (unfold zlen; rewrite E, psums_length, L; lia).
  assert (X : Z.of_nat (length (ghosts P G r)) = zlen (concat (ins P G r))) by (rewrite ghosts_length; reflexivity).
  split; [|split; auto].
  - rewrite LZ. replace (Z.of_nat P + 1 - 1) with (Z.of_nat P) by lia. apply vget_of_nat.
    rewrite E, psums_nth by lia. rewrite <- L at 1. rewrite firstn_all, zsum_zlensl. f_equal. lia.
  - rewrite E, last_psums, zsum_zlensl. lia.
Qed.

Lemma resize_son1_ok : forall w f s m r, wrep w [f; s] -> nth_error ms r = Some m ->
  slay s = slay f -> (slay f = Max -> Forall (fun k => (k <= width f)%nat) (used s)) ->
  exists w2 s2, resize_son1 dflt P w m = Ok w2 /\ wrep w2 [f; s2] /\
    if is_csr (slay f) then s2 = s else sized (length (ghosts P G r)) (width f) (slay f) s2.
Proof.
  intros w f s m r W Hm El Hu. destruct (ghost_total _ _ Hm) as [E1 [E2 _]].
  destruct (two_arrs _ _ _ W) as [fa [sa [E [R1 R2]]]].
  unfold resize_son1. rewrite E1. cbn [bind]. rewrite E2. replace (Z.of_nat P + 1 - 1) with (Z.of_nat P) by lia.
  rewrite Z.eqb_refl. cbn [assert_ bind]. unfold get_arr at 1. rewrite E. cbn [father nth_error bind].
  rewrite (r_lay _ _ _ _ R1). pose proof (rep_stride _ _ _ R1) as Hst. pose proof (rep_stride _ _ _ R2) as Hst2.
  pose proof (r_sizes _ _ _ _ R2) as Hsz.
  destruct (is_csr (slay f)) eqn:Hc.
  - destruct (slay f); try discriminate. exists w, s. auto.
  - destruct (resize_table w f s (length (ghosts P G r)) (width f) W) as [w2 [s2 [A [B C]]]].
    + congruence.
    + intro M. rewrite M in Hsz. destruct Hsz as [_ [Hsz _]]. rewrite El in *.
      destruct (slay f); try discriminate; auto. rewrite Hst, <- Hst2. auto.
    + rewrite El. destruct (slay f); auto.
    + exists w2, s2. rewrite El in *. split; [|auto].
      destruct (slay f); try discriminate.
      * rewrite (on_son_1 w fa sa) by auto. auto.
      * rewrite Hst. cbn [bind]. rewrite (on_son_2 w fa sa) by auto. auto.
      * rewrite Hst. cbn [bind]. rewrite (on_son_2 w fa sa) by auto. auto.
      * rewrite (on_son_1 w fa sa) by auto. auto.
Qed.

(** the son after the datatypes are made; [ns] are the received sizes *)
Definition son_made (f : sarr) (ns : list nat) (s : sarr) : Prop :=
  slay s = slay f /\ flat_mode s = true /\ length (cells s) = length ns /\
  (forall k n, nth_error ns k = Some n -> clen (cells s) k = if is_csr (slay f) then n else width f) /\
  (is_max (slay f) = true -> used s = ns /\ width s = width f).

Lemma sized_clen : forall n wd l (s : sarr) k, sized n wd l s -> (k < n)%nat -> clen (cells s) k = wd.
Proof.
  intros n wd l s k (_&_&_&H1&H2&_) Hk. rewrite Forall_forall in H2. unfold clen. apply H2. apply nth_In. lia.
Qed.

Lemma resize_son2_ok : forall w f s m r ns, wrep w [f; s] -> nth_error ms r = Some m ->
  slay s = slay f -> length ns = length (ghosts P G r) ->
  (is_csr (slay f) = false -> sized (length ns) (width f) (slay f) s) ->
  Forall small ns -> (is_max (slay f) = true -> Forall (fun n => (n <= width f)%nat) ns) ->
  exists w3 s3, resize_son2 dflt w m (map Z.of_nat ns) = Ok w3 /\ wrep w3 [f; s3] /\ son_made f ns s3.
Proof.
  intros w f s m r ns W Hm El Hn Hsd Hsm Hmx. destruct (ghost_total _ _ Hm) as [E1 _].
  destruct (two_arrs _ _ _ W) as [fa [sa [E [R1 R2]]]].
  unfold resize_son2. rewrite E1. cbn [bind]. unfold get_arr at 1. rewrite E. cbn [father nth_error bind].
  rewrite (r_lay _ _ _ _ R1). pose proof (rep_stride _ _ _ R1) as Hst. rewrite <- Hn.
  assert (FIX : is_max (slay f) = false -> is_csr (slay f) = false -> son_made f ns s).
  { intros M C. specialize (Hsd C). unfold son_made. rewrite C, M. split; [auto|]. split; [|split; [|split]].
    - unfold ArrayProofs.flat_mode. rewrite El, C. reflexivity.
    - apply Hsd.
    - intros k n Hk. eapply sized_clen; eauto. eapply nth_error_Some_lt; eauto.
    - discriminate. }
  assert (MX : is_max (slay f) = true -> exists w3 s3,
     (do w' <- match slay s with
               | StaticFixed _ | StaticMax _ => do_call dflt w son (CResize (length ns))
               | _ => do_call dflt w son (CResize2 (length ns) (width f))
               end;
      do s0 <- get_arr w' son;
      foldM (fun w i => do sz <- vget (map Z.of_nat ns) i;
             on_son w (fun h u s => ResizeRow dflt h u s i sz)) w' (ranks (Z.to_nat (size s0)))) = Ok w3 /\
     wrep w3 [f; s3] /\ son_made f ns s3).
  { intro M. assert (C : is_csr (slay f) = false) by (destruct (slay f); auto; discriminate).
    specialize (Hsd C). pose proof Hsd as (Y1&Y2&Y3&Y4&Y5&Y6). destruct (Y6 M) as [Y7 Y8].
    destruct (resize_table w f s (length ns) (width f) W) as [w' [s' [A1 [A2 A3]]]].
    - congruence.
    - auto.
    - rewrite El. destruct (slay f); auto.
    - rewrite A1. cbn [bind]. destruct (two_arrs _ _ _ A2) as [fa' [sa' [E' [R1' R2']]]].
      unfold get_arr at 1. rewrite E'. cbn [son nth_error bind]. rewrite El in A3.
      destruct A3 as (B1&B2&B3&B4&B5&B6).
      rewrite (r_size _ _ _ _ R2'). unfold zlen. rewrite Nat2Z.id, B4.
      destruct (resize_rows ns (length ns) w' f s' (width f) (slay f) A2 M) as [w3 [s3 [D1 [D2 [D3 D4]]]]].
      + unfold sized; auto 10.
      + specialize (Hmx M). rewrite Forall_forall in *. intros n Hin. split; auto.
      + lia.
      + rewrite Nat.sub_diag. reflexivity.
      + exists w3, s3. rewrite Nat.sub_diag in D1. unfold ranks. rewrite D1. split; auto. split; auto.
        unfold son_made. rewrite C. destruct D3 as (K1&K2&K3&K4&K5&K6).
        split; [auto|]. split; [|split; [auto|split; [|auto]]].
        * unfold ArrayProofs.flat_mode. rewrite K1, C. reflexivity.
        * intros k n Hk. apply (sized_clen (length ns) _ (slay f)); [unfold sized; auto 10|eapply nth_error_Some_lt; eauto]. }
  destruct (slay f) eqn:Ef.
  - exists w, s. rewrite <- Ef in *. rewrite Ef in *. auto.
  - exists w, s. auto.
  - rewrite Hst. cbn [bind]. rewrite (on_son_2 w fa sa) by auto. rewrite El in MX. apply MX. reflexivity.
  - rewrite (on_son_1 w fa sa) by auto. rewrite El in MX. apply MX. reflexivity.
  - rewrite (on_son_F w fa sa) by auto.
    destruct (son_call w f s (CResizeF ns) W) as [w3 [s3 [A [B C]]]]; auto.
    + exists s. auto.
    + cbn [allowed1]. rewrite El. discriminate.
    + exists w3, s3. split; auto. split; auto. cbn [allowed1] in B. rewrite El in B. destruct B as [<-|[]].
      unfold son_made. rewrite Ef. cbn [slay comp cells used is_csr is_max ArrayProofs.flat_mode].
      split; [auto|]. split; [auto|]. split; [apply regroup_length|]. split; [|discriminate].
      intros k n Hk. unfold clen.
      pose proof (regroup_lengths T dflt ns (if comp s then concat (cells s) else [])) as RL.
      rewrite <- RL, nth_error_map_ in Hk.
      destruct (nth_error _ k) as [row|] eqn:Er in Hk; [|discriminate]. rewrite (nth_error_nth _ _ _ Er). cbn in Hk. congruence.
Qed.

End Create2.
