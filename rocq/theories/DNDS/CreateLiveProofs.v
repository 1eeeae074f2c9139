(** createMPITypes leads to a state in which exchanges work (C04, C05, C07). *)
From Coq Require Import List ZArith Lia Bool Arith Permutation.
From Verif Require Import Base.Prelude Base.PreludeFacts Base.MPIModel Base.MPIFacts
  DNDS.IndexMappingModel DNDS.IndexMappingSpec DNDS.IndexMappingProofs DNDS.GhostPullProofs
  DNDS.GhostSearchProofs DNDS.GhostPushProofs
  DNDS.ArrayModel DNDS.ArraySpec DNDS.ArrayProofs DNDS.ExchangeModel DNDS.ExchangeSpec
  DNDS.ExchangePlanProofs DNDS.TransferProofs DNDS.MessageProofs DNDS.ExchangeProofs
  DNDS.CreateTypesProofs DNDS.CreateProofs.
Import ListNotations.
Local Open Scope Z_scope.

Lemma slice_map_concat : forall A B (g : A -> B) (ss : list (list A)) i x, nth_error ss i = Some x ->
  slice (map g (concat ss)) (zlen (concat (firstn i ss))) (zlen x) = Ok (map g x).
Proof.
  intros A B g ss i x H. rewrite <- concat_map_map.
  assert (E : zlen (concat (firstn i ss)) = zlen (concat (firstn i (map (map g) ss)))).
  { unfold zlen. rewrite firstn_map, concat_map_map, map_length. reflexivity. }
  replace (zlen x) with (zlen (map g x)) by (unfold zlen; rewrite map_length; auto).
  rewrite E. apply slice_concat. rewrite nth_error_map_, H. reflexivity.
Qed.

Section CreateLive.
Variable T : Type.
Variable dflt : T.
Notation arr := (arr T).
Notation sarr := (sarr T).
Notation rep := (rep T). Notation wrep := (wrep T). Notation flat_mode := (flat_mode T).
Notation psz := (psz T).
Variables (lens : list nat) (ms : list ghostmap) (G : nat -> nat -> list nat).
Hypothesis HP : plan lens ms G.
Notation P := (length lens).

Lemma ghostStart_nth : forall r m s, nth_error ms r = Some m -> (s <= P)%nat ->
  vget (ghostStart m) (Z.of_nat s) = Ok (Z.of_nat (base P G s r)).
Proof.
  intros r m s Hm Hs. destruct (pl_pull _ _ _ HP _ _ Hm) as [_ [E _]]. apply vget_of_nat. rewrite E.
  rewrite zlensl_psums_nth by (unfold ins; rewrite map_length, seq_length; auto). reflexivity.
Qed.

Lemma span_ok : forall w f s3 m r s, wrep w [f; s3] -> nth_error ms r = Some m -> (s < P)%nat ->
  flat_mode s3 = true -> length (cells s3) = length (ghosts P G r) ->
  ghost_span w m (Z.of_nat s) = Ok (Z.of_nat (off (cells s3) (base P G s r)),
    Z.of_nat (off (cells s3) (base P G (S s) r) - off (cells s3) (base P G s r))).
Proof.
  intros w f s3 m r s W Hm Hs F Hl. destruct (two_arrs _ _ _ _ W) as [fa [sa [E [R1 R2]]]].
  unfold ghost_span, get_arr. rewrite E. cbn [son nth_error bind].
  replace (Z.of_nat s + 1) with (Z.of_nat (S s)) by lia.
  rewrite !(ghostStart_nth r m) by (auto; lia). cbn [bind].
  pose proof (base_bound P G s r Hs) as Hb. pose proof (base_S P G s r Hs) as HS.
  change (row_ (hp w) sa 0) with (row_ (hp w) sa (Z.of_nat 0)).
  rewrite !(rep_row_flat T (hp w) sa s3) by (auto; lia). cbn [bind]. unfold rowp.
  pose proof (off_mono T (cells s3) (length (G s r)) (base P G s r)) as Hm1. rewrite <- HS in Hm1.
  destruct (is_csr (slay s3) && (length (cells s3) =? 0)%nat) eqn:N; cbn [ptr_diff bind].
  - apply andb_true_iff in N. destruct N as [_ N]. apply Nat.eqb_eq in N.
    assert (cells s3 = []) as -> by (destruct (cells s3); auto; discriminate).
    unfold off. rewrite !firstn_nil. reflexivity.
  - rewrite off_0. f_equal. f_equal; lia.
Qed.

Lemma pull_types_ok : forall w f CS m r, wrep w [f; CS r] -> nth_error ms r = Some m ->
  flat_mode (CS r) = true -> length (cells (CS r)) = length (ghosts P G r) ->
  Z.of_nat (length (concat (cells (CS r)))) < int32_max ->
  pull_types w m P = Ok (pull_types_of T P G (cellsF T CS) r).
Proof.
  intros w f CS m r W Hm F Hl Ht. unfold pull_types, pull_types_of, types_of.
  match goal with |- bind ?x _ = _ => assert (X : x = Ok (map (fun d => if some_elems T P G (cellsF T CS) d r then [(Z.of_nat d, in_block T P G (cellsF T CS) d r)] else []) (seq 0 P))) end.
  { unfold ranks. apply mapM_seq. intros s Hs. rewrite (span_ok w f (CS r) m r s) by auto. cbn [bind fst snd].
    pose proof (off_le T (cells (CS r)) (base P G s r)) as O1.
    pose proof (off_le T (cells (CS r)) (base P G (S s) r)) as O2.
    match goal with |- context [assert_ (?a && ?b)] => replace (a && b) with true end.
    - reflexivity.
    - symmetry. apply andb_true_iff. split; apply Z.ltb_lt; lia. }
  rewrite X. reflexivity.
Qed.

Lemma zsum_pos : forall l, (0 <? zsum (map Z.of_nat l)) = (0 <? Z.of_nat (list_sum l)).
Proof. intros. rewrite zsum_map_of_nat. reflexivity. Qed.

Lemma push_types_ok : forall w SF SS m s, wrep w [SF s; SS s] -> nth_error ms s = Some m -> (s < P)%nat ->
  slay (SS s) = slay (SF s) -> length (cells (SF s)) = nth s lens 0%nat ->
  (is_max (slay (SF s)) = true -> width (SS s) = width (SF s)) ->
  (forall s r i k, (s < P)%nat -> (r < P)%nat -> In (i, k) (linkl P G s r) ->
     clen (cells (SS r)) k = clen (cells (SF s)) i) ->
  push_types w m (map (push_row T HIndexed (SF s)) (concat (outs P G s))) P =
    Ok (push_types_of T P G (cellsF T SF) (cellsF T SS) s).
Proof.
  intros w SF SS m s W Hm Hs El Hl Hw Sh. destruct (two_arrs _ _ _ _ W) as [fa [sa [E [R1 R2]]]].
  unfold push_types. unfold get_arr. rewrite E. cbn [son nth_error bind].
  assert (Hin : forall i, In i (concat (outs P G s)) -> (i < length (cells (SF s)))%nat).
  { intros i Hi. apply in_concat in Hi. destruct Hi as [l [Hi1 Hi2]]. unfold outs in Hi1.
    apply in_map_iff in Hi1. destruct Hi1 as [d [<- _]]. rewrite Hl. eapply (pl_valid _ _ _ HP); eauto. }
  match goal with |- bind ?x _ = _ => assert (X : x = Ok (map (fun i => Z.of_nat (clen (cells (SF s)) i)) (concat (outs P G s)))) end.
  { rewrite (r_lay _ _ _ _ R2), El.
    assert (NM : is_max (slay (SF s)) = false -> Ok (map (fun r => snd (fst r)) (map (push_row T HIndexed (SF s)) (concat (outs P G s)))) = Ok (map (fun i => Z.of_nat (clen (cells (SF s)) i)) (concat (outs P G s)))).
    { intro M. f_equal. rewrite map_map. apply map_ext_in. intros i Hi. unfold push_row. cbn [fst snd].
      unfold CreateTypesProofs.psz. rewrite M. reflexivity. }
    assert (YM : is_max (slay (SF s)) = true -> mapM (fun _ : Z * Z * Z => RowSizeField0 sa) (map (push_row T HIndexed (SF s)) (concat (outs P G s))) = Ok (map (fun i => Z.of_nat (clen (cells (SF s)) i)) (concat (outs P G s)))).
    { intro M. apply mapM_intro; [rewrite !map_length; reflexivity|].
      intros k x y Hx Hy. rewrite nth_error_map_ in Hy. destruct (nth_error (concat (outs P G s)) k) as [i|] eqn:Ek; [|discriminate].
      cbn in Hy. injection Hy as <-. apply nth_error_In in Ek. specialize (Hin i Ek).
      assert (NC : is_csr (slay (SF s)) = false) by (destruct (slay (SF s)); auto; discriminate).
      rewrite (clen_width T _ _ _ _ R1) by auto. rewrite <- Hw by auto.
      pose proof (rep_stride _ _ _ _ R2) as Hst. unfold RowSizeField0, RowSizeMax in *. rewrite (r_lay _ _ _ _ R2) in *.
      rewrite El in *. destruct (slay (SF s)); try discriminate; auto. rewrite Hst. reflexivity. }
    destruct (slay (SF s)); try (apply NM; reflexivity); apply YM; reflexivity. }
  rewrite X. cbn [bind]. rewrite map_map. cbn [snd push_row].
  match goal with |- bind ?x _ = _ => assert (Y : x = Ok (map (fun d => if some_elems T P G (cellsF T SS) s d then [(Z.of_nat d, out_blocks T G (cellsF T SF) s d)] else []) (seq 0 P))) end.
  { unfold ranks. apply mapM_seq. intros r Hr.
    destruct (pl_push _ _ _ HP _ _ Hm) as [Ea [Eb _]].
    assert (No : nth_error (outs P G s) r = Some (G s r)) by (unfold outs; apply nth_error_map_seq_lt; auto).
    rewrite (vget_of_nat _ _ _ (zlen (G s r))) by (rewrite Ea; unfold zlensl; rewrite nth_error_map_, No; reflexivity).
    cbn [bind].
    rewrite (vget_of_nat _ _ _ (zlen (concat (firstn r (outs P G s))))) by
      (rewrite Eb; apply zlensl_psums_nth; unfold outs; rewrite map_length, seq_length; lia).
    cbn [bind]. rewrite (slice_map_concat _ _ _ _ _ _ No). cbn [bind].
    rewrite (slice_map_concat _ _ _ _ _ _ No). cbn [bind]. rewrite combine_map2.
    assert (Q : (0 <? zsum (map (fun i => Z.of_nat (clen (cells (SF s)) i)) (G s r))) = some_elems T P G (cellsF T SS) s r).
    { rewrite <- (map_map (clen (cells (SF s))) Z.of_nat), zsum_pos. unfold some_elems.
      rewrite (span_blocks T P G (cellsF T SF) (cellsF T SS)) by auto. rewrite (expand_out T P G (cellsF T SF) (cellsF T SS) Sh).
      rewrite map_length. unfold cellsF. f_equal. f_equal.
      clear; induction (G s r) as [|i l IH]; auto. cbn [map concat]. rewrite app_length, seq_length, <- IH. reflexivity. }
    rewrite Q. reflexivity. }
  rewrite Y. reflexivity.
Qed.


(** *** what [ready] states are *)
Record prep (l : layout) (SF SS : nat -> sarr) (ws : list (world T)) : Prop := {
  pp_len : length ws = P;
  pp_rep : forall r w, nth_error ws r = Some w -> wrep w [SF r; SS r];
  pp_lay : forall r, (r < P)%nat -> slay (SF r) = l /\ slay (SS r) = l;
  pp_size : forall r, (r < P)%nat -> length (cells (SF r)) = nth r lens 0%nat;
  pp_width : forall r s, (r < P)%nat -> (s < P)%nat -> is_csr l = false -> width (SF r) = width (SF s);
  pp_used : forall r, (r < P)%nat -> l = Max -> Forall (fun k => (k <= width (SF r))%nat) (used (SS r));
  pp_total : forall r, (r < P)%nat ->
    Z.of_nat (list_sum (map (fun si => clen (cells (SF (fst si))) (snd si)) (ghosts P G r))) < int32_max
}.

Lemma ready_prep : forall l ws, ready dflt lens ms l ws -> exists SF SS, prep l SF SS ws.
Proof.
  intros l ws [R1 R2 R3 R4 R5].
  assert (EX : exists SS2 : nat -> sarr * sarr, forall r, (r < P)%nat ->
     slay (fst (SS2 r)) = l /\ slay (snd (SS2 r)) = l /\
     exists w, nth_error ws r = Some w /\ wrep w [fst (SS2 r); snd (SS2 r)]).
  { apply (choice_lt _ (snew l, snew l) (fun r x => slay (fst x) = l /\ slay (snd x) = l /\
       exists w, nth_error ws r = Some w /\ wrep w [fst x; snd x])).
    intros r Hr. destruct (nth_error_lt_Some _ ws r ltac:(lia)) as [w Hw].
    destruct (R2 r w Hw) as [cs [Hc Hrun]].
    pose proof (run_refines T dflt cs _ _ (wrep_new T [] [l; l]) Hc) as RR. rewrite Hrun in RR.
    destruct RR as [ss' [Hh W]].
    destruct (history_lay T dflt l _ _ _ Hh) as [HF HL]; [repeat constructor|].
    simpl in HL. destruct ss' as [|f [|s [|? ?]]]; try discriminate.
    inversion HF as [|? ? F1 F2]; subst. inversion F2 as [|? ? F3 _]; subst.
    exists (f, s). cbn [fst snd]. split; auto. split; auto. exists w. auto. }
  destruct EX as [SS2 EX].
  assert (WR : forall r w, nth_error ws r = Some w -> wrep w [fst (SS2 r); snd (SS2 r)]).
  { intros r w Hw. assert (Hr : (r < P)%nat) by (rewrite <- R1; eapply nth_error_Some_lt; eauto).
    destruct (EX r Hr) as [_ [_ [w' [Hw' W]]]]. congruence. }
  assert (AR : forall r, (r < P)%nat -> exists h fa sa, array_of ws r father h fa /\ array_of ws r son h sa /\
     rep h fa (fst (SS2 r)) /\ rep h sa (snd (SS2 r))).
  { intros r Hr. destruct (EX r Hr) as [_ [_ [w [Hw W]]]]. destruct (two_arrs _ _ _ _ W) as [fa [sa [E [Ra Rb]]]].
    exists (hp w), fa, sa. split; [exists w; rewrite E; auto|]. split; [exists w; rewrite E; auto|auto]. }
  assert (SZ : forall r, (r < P)%nat -> length (cells (fst (SS2 r))) = nth r lens 0%nat).
  { intros r Hr. destruct (AR r Hr) as [h [fa [sa [A1 [A2 [A3 A4]]]]]]. pose proof (R3 r h fa A1) as E.
    rewrite (r_size _ _ _ _ A3) in E. unfold zlen in E. lia. }
  assert (WD : exists wd, forall r, (r < P)%nat -> is_csr l = false -> width (fst (SS2 r)) = wd /\
     (l = Max -> Forall (fun k => (k <= wd)%nat) (used (snd (SS2 r))))).
  { destruct R4 as [wd R4].
    exists (match l with StaticFixed v | StaticMax v => v | _ => Z.to_nat wd end).
    intros r Hr NC. destruct (AR r Hr) as [h [fa [sa [A1 [A2 [A3 A4]]]]]].
    specialize (R4 r h fa sa A1 A2). pose proof (rep_stride _ _ _ _ A3) as St. destruct (EX r Hr) as [L1 [L2 _]].
    rewrite L1 in St. destruct l; try discriminate.
    - split; [auto|discriminate].
    - rewrite R4 in St. injection St as ->. split; [lia|discriminate].
    - destruct R4 as [R4 R4']. rewrite R4 in St. injection St as ->. split; [lia|intros _].
      rewrite Nat2Z.id. apply Forall_forall. intros u Hu. apply In_nth_error in Hu. destruct Hu as [k Hk].
      pose proof (r_sizes _ _ _ _ A4) as Sz. rewrite L2 in Sz. cbn [is_max] in Sz. destruct Sz as [Sl [Sf _]].
      assert (Hk' : (k < length (cells (snd (SS2 r))))%nat) by (rewrite <- Sl; eapply nth_error_Some_lt; eauto).
      destruct (rep_rowsize _ _ _ _ _ A4 Hk') as [row [row' [Q1 [Q2 [Q3 _]]]]]. specialize (R4' _ _ Q2).
      unfold srow in Q1. rewrite Q3, L2 in Q1. cbn [is_max] in Q1. rewrite Hk in Q1. cbn in Q1. injection Q1 as <-.
      pose proof (clen_width T _ _ _ k A4) as CW. rewrite L2 in CW. specialize (CW eq_refl Hk').
      unfold clen in CW. rewrite (nth_error_nth _ _ _ Q3) in CW. rewrite Forall_forall in Sf.
      specialize (Sf u (nth_error_In _ _ Hk)). unfold zlen in R4'. rewrite firstn_length in R4'. lia.
    - split; [auto|discriminate]. }
  destruct WD as [wd WD].
  exists (fun r => fst (SS2 r)), (fun r => snd (SS2 r)). constructor.
  - exact R1.
  - exact WR.
  - intros r Hr. destruct (EX r Hr) as [A [B _]]. auto.
  - exact SZ.
  - intros r s Hr Hs NC. destruct (WD r Hr NC) as [-> _]. destruct (WD s Hs NC) as [-> _]. auto.
  - intros r Hr EM. assert (NC : is_csr l = false) by (rewrite EM; reflexivity).
    destruct (WD r Hr NC) as [-> X]. auto.
  - intros r Hr. destruct (nth_error_lt_Some _ ms r) as [m Hm]; [rewrite (pl_len _ _ _ HP); auto|].
    destruct (R5 r m Hm) as [ns [HF HS]].
    destruct (pl_pull _ _ _ HP _ _ Hm) as [_ [_ Eg]]. rewrite Eg in HF.
    assert (E : ns = map Z.of_nat (map (fun si => clen (cells (fst (SS2 (fst si)))) (snd si)) (ghosts P G r))).
    { assert (GV : forall si, In si (ghosts P G r) -> (fst si < P)%nat /\ (snd si < nth (fst si) lens 0)%nat).
      { intros [s i] Hin. apply In_nth_error in Hin. destruct Hin as [k Hk].
        destruct (ghosts_valid _ _ _ _ _ _ _ HP Hk) as [A [B _]]. auto. }
      clear HS Eg. revert ns HF. induction (ghosts P G r) as [|[s i] gl IH]; intros ns HF.
      - inversion HF. reflexivity.
      - cbn [map] in HF. inversion HF as [|? n ? ns' H1 H2]; subst. cbn [map]. f_equal.
        + destruct H1 as [s' [i' [h [f [I1 [I2 I3]]]]]]. destruct (GV (s, i) ltac:(left; auto)) as [V1 V2].
          cbn [fst snd] in *. rewrite glob_item in I1 by auto. injection I1 as <- <-.
          destruct I2 as [w [Hw [-> Hf]]]. pose proof (WR _ _ Hw) as W.
          destruct (two_arrs _ _ _ _ W) as [fa [sa [E [Ra Rb]]]]. rewrite E in Hf. cbn in Hf. injection Hf as <-.
          rewrite (rep_cells T _ _ _ _ Ra) in I3 by (rewrite SZ; auto). congruence.
        + apply IH; auto. intros; apply GV; right; auto. }
    rewrite E, zsum_map_of_nat in HS. exact HS.
Qed.

(** *** all ranks *)
Definition gm0 : ghostmap := {| mainOffset := 0; mainSize := 0; ghostSizes := []; ghostIndex := [];
  ghostStart := []; pushIndexSizes := []; pushIndexStarts := []; pushingIndexGlobal := [] |}.
Definition w0 : world T := {| hp := []; arrs := [] |}.
Definition mp (r : nat) : ghostmap := nth r ms gm0.

Lemma mp_nth : forall r, (r < P)%nat -> nth_error ms r = Some (mp r).
Proof. intros. apply nth_error_nth'. rewrite (pl_len _ _ _ HP). auto. Qed.

(** the received sizes *)
Definition recv_sizes (SF : nat -> sarr) (r : nat) : list nat :=
  map (fun si => psz (SF (fst si)) (snd si)) (ghosts P G r).

Lemma recv_sizes_concat : forall SF r,
  concat (map (fun s => map (fun i => Z.of_nat (psz (SF s) i)) (G s r)) (seq 0 P)) = map Z.of_nat (recv_sizes SF r).
Proof.
  intros. unfold recv_sizes, ghosts. rewrite map_map, concat_map, map_map. f_equal. apply map_ext. intro s.
  rewrite map_map. reflexivity.
Qed.

Definition made (st : strategy) (SF SS : nat -> sarr) (W : nat -> world T) (r : nat) : trans T :=
  {| tw := W r; tm := mp r; tloc := map Z.of_nat (concat (outs P G r));
     pushTypes := match st with HIndexed => push_types_of T P G (cellsF T SF) (cellsF T SS) r | InSituPack => [] end;
     pullTypes := match st with HIndexed => pull_types_of T P G (cellsF T SS) r | InSituPack => [] end |}.

Definition flat_father (st : strategy) : bool := match st with HIndexed => true | InSituPack => false end.

Lemma create_ok : forall st l SF SS ws, prep l SF SS ws ->
  exists SS3 W3, createMPITypes dflt st ws ms = Ok (map (made st SF SS3 W3) (seq 0 P)) /\
    live T lens G (flat_father st) (fun r => packed T st (SF r)) SS3 (map W3 (seq 0 P)) /\
    (forall r, (r < P)%nat -> Z.of_nat (length (concat (cells (SS3 r)))) < int32_max).
Proof.
  intros st l SF SS ws [Q1 Q2 Q3 Q4 Q5 Q6 Q7].
  set (SP := fun r => packed T st (SF r)).
  assert (PC : forall r, cells (SP r) = cells (SF r) /\ slay (SP r) = slay (SF r) /\ used (SP r) = used (SF r) /\ width (SP r) = width (SF r))
    by (intro r; apply packed_cells).
  assert (Ews : ws = map (fun r => nth r ws w0) (seq 0 P)) by (apply as_map_seq; auto).
  assert (Ems : ms = map mp (seq 0 P)) by (apply as_map_seq; apply (pl_len _ _ _ HP)).
  assert (HW : forall r, (r < P)%nat -> wrep (nth r ws w0) [SF r; SS r]).
  { intros r Hr. apply Q2. apply nth_error_nth'. lia. }
  (* 1 *)
  destruct (mapM_seq_ex _ _ (w0, []) (fun wm => push_rows dflt st (fst wm) (snd wm)) (fun r => (nth r ws w0, mp r))
     (fun r b => snd b = map (push_row T st (SF r)) (concat (outs P G r)) /\ wrep (fst b) [SP r; SS r]) P) as [pr [Epr Hpr]].
  { intros r Hr. cbn [fst snd].
    destruct (push_rows_ok T dflt lens ms G HP st (nth r ws w0) (SF r) (SS r) (mp r) r) as [w1 [A B]]; auto.
    - apply mp_nth; auto.
    - exists (w1, map (push_row T st (SF r)) (concat (outs P G r))). auto. }
  (* 2 *)
  destruct (mapM_seq_ex _ _ w0 (fun wm => resize_son1 dflt P (fst wm) (snd wm)) (fun r => (fst (pr r), mp r))
     (fun r b => exists s2, wrep b [SP r; s2] /\ slay s2 = l /\
         (is_csr l = false -> sized T (length (ghosts P G r)) (width (SF r)) l s2)) P) as [W2 [E2 H2]].
  { intros r Hr. cbn [fst snd]. destruct (Hpr r Hr) as [_ W1]. destruct (Q3 r Hr) as [L1 L2].
    destruct (PC r) as (PC1&PC2&PC3&PC4).
    destruct (resize_son1_ok T dflt lens ms G HP (fst (pr r)) (SP r) (SS r) (mp r) r W1) as [w2 [s2 [A [B C]]]].
    - apply mp_nth; auto.
    - congruence.
    - rewrite PC2, PC4, L1. auto.
    - exists w2. split; auto. exists s2. split; auto. rewrite PC2, PC4, L1 in C.
      destruct (is_csr l) eqn:NC.
      + subst s2. split; auto. discriminate.
      + split; auto. apply C. }
  (* 3 *)
  assert (SM : forall r n, (r < P)%nat -> In n (recv_sizes SF r) -> small n).
  { intros r n Hr Hin. unfold recv_sizes in Hin. apply in_map_iff in Hin. destruct Hin as [[s i] [<- Hin]]. cbn [fst snd].
    pose proof Hin as Hin'. apply In_nth_error in Hin'. destruct Hin' as [k Hk].
    destruct (ghosts_valid _ _ _ _ _ _ _ HP Hk) as [V1 [V2 _]].
    destruct (two_arrs _ _ _ _ (HW s V1)) as [fa [sa [E [Ra _]]]].
    destruct (rep_push_size T _ _ _ i Ra ltac:(rewrite Q4; auto)) as [_ Le].
    specialize (Q7 r Hr).
    pose proof (list_sum_In (map (fun si => clen (cells (SF (fst si))) (snd si)) (ghosts P G r)) (clen (cells (SF s)) i)) as LI.
    assert (In (clen (cells (SF s)) i) (map (fun si => clen (cells (SF (fst si))) (snd si)) (ghosts P G r))).
    { apply in_map_iff. exists (s, i). auto. }
    specialize (LI H). unfold small. lia. }
  assert (E3 : alltoallv
     (map (fun sm => {| sv_buf := fst sm; sv_cnt := pushIndexSizes (snd sm);
                        sv_dis := pushIndexStarts (snd sm) |})
          (combine (map (fun p => map (fun r => snd (fst r)) (snd p)) (map pr (seq 0 P))) (map mp (seq 0 P))))
     (map (fun m => {| rv_buf := repeat 0 (Z.to_nat (last (ghostStart m) 0));
                       rv_cnt := ghostSizes m; rv_dis := ghostStart m |}) (map mp (seq 0 P))) =
     Ok (map (fun r => map Z.of_nat (recv_sizes SF r)) (seq 0 P))).
  { set (seg := fun s r => map (fun i => Z.of_nat (psz (SF s) i)) (G s r)).
    assert (SS1 : forall s, zlensl (send_segs _ P seg s) = zlensl (outs P G s)).
    { intro s. apply zlensl_ext. unfold send_segs, outs, seg. rewrite !map_map. apply map_ext. intro. apply map_length. }
    assert (RS1 : forall s, zlensl (recv_segs _ P seg s) = zlensl (ins P G s)).
    { intro s. apply zlensl_ext. unfold recv_segs, ins, seg. rewrite !map_map. apply map_ext. intro. apply map_length. }
    rewrite (alltoallv_spec _ P seg).
    - f_equal. apply map_ext. intro r. unfold recv_segs, seg. apply recv_sizes_concat.
    - rewrite !map_map, combine_map2, !map_length, seq_length. reflexivity.
    - rewrite !map_length, seq_length. reflexivity.
    - intros s x Hx. rewrite !map_map, combine_map2, map_map in Hx. apply nth_error_map_seq in Hx. destruct Hx as [Hs ->].
      cbn [sv_buf sv_cnt sv_dis fst snd]. destruct (pl_push _ _ _ HP _ _ (mp_nth s Hs)) as [Ea [Eb _]].
      destruct (Hpr s Hs) as [-> _]. rewrite SS1. split; [|auto].
      unfold send_segs, seg, outs. rewrite map_map. cbn [fst snd push_row].
      rewrite concat_map, map_map. reflexivity.
    - intros r x Hx. rewrite map_map in Hx. apply nth_error_map_seq in Hx. destruct Hx as [Hr ->].
      cbn [rv_buf rv_cnt rv_dis]. destruct (pl_pull _ _ _ HP _ _ (mp_nth r Hr)) as [Ea [Eb _]].
      destruct (ghost_total lens ms G HP _ _ (mp_nth r Hr)) as [_ [_ EL]].
      rewrite RS1. split; [|auto]. rewrite repeat_length, EL, Nat2Z.id.
      unfold recv_segs, seg. rewrite recv_sizes_concat, map_length. unfold recv_sizes. rewrite map_length. reflexivity. }
  (* 4 *)
  destruct (mapM_seq_ex _ _ w0 (fun wmz => resize_son2 dflt (fst wmz) (fst (snd wmz)) (snd (snd wmz)))
     (fun r => (W2 r, (mp r, map Z.of_nat (recv_sizes SF r))))
     (fun r b => exists s3, wrep b [SP r; s3] /\ son_made T (SP r) (recv_sizes SF r) s3) P) as [W3 [E4 H4]].
  { intros r Hr. cbn [fst snd]. destruct (H2 r Hr) as [s2 [W [Ls Sz]]]. destruct (PC r) as (PC1&PC2&PC3&PC4).
    destruct (Q3 r Hr) as [L1 L2].
    assert (Ln : length (recv_sizes SF r) = length (ghosts P G r)) by (unfold recv_sizes; apply map_length).
    destruct (resize_son2_ok T dflt lens ms G HP (W2 r) (SP r) s2 (mp r) r (recv_sizes SF r) W) as [w3 [s3 [A [B C]]]].
    - apply mp_nth; auto.
    - congruence.
    - auto.
    - rewrite PC2, PC4, L1, Ln. auto.
    - apply Forall_forall. intros n Hn. eapply SM; eauto.
    - rewrite PC2, PC4, L1. intro M. apply Forall_forall. intros n Hn. unfold recv_sizes in Hn.
      apply in_map_iff in Hn. destruct Hn as [[s i] [<- Hin]]. cbn [fst snd]. apply In_nth_error in Hin. destruct Hin as [k Hk].
      destruct (ghosts_valid _ _ _ _ _ _ _ HP Hk) as [V1 [V2 _]].
      destruct (two_arrs _ _ _ _ (HW s V1)) as [fa [sa [E [Ra _]]]].
      destruct (rep_push_size T _ _ _ i Ra ltac:(rewrite Q4; auto)) as [_ Le].
      assert (NC : is_csr l = false) by (destruct l; auto; discriminate).
      rewrite (clen_width T _ _ _ _ Ra) in Le; [rewrite (Q5 r s); auto| |rewrite Q4; auto].
      destruct (Q3 s V1) as [-> _]. auto.
    - exists w3. split; auto. exists s3. auto. }
  destruct (choice_lt _ (snew l) (fun r s3 => wrep (W3 r) [SP r; s3] /\ son_made T (SP r) (recv_sizes SF r) s3) P H4) as [SS3 H5].
  assert (SH : forall s r i k, (s < P)%nat -> (r < P)%nat -> In (i, k) (linkl P G s r) ->
     clen (cells (SS3 r)) k = clen (cells (SF s)) i /\
     (is_max l = true -> nth_error (used (SS3 r)) k = nth_error (used (SF s)) i)).
  { intros s r i k Hs Hr Hin. apply linkl_In in Hin; auto.
    destruct (H5 r Hr) as [_ (M1&M2&M3&M4&M5)]. destruct (PC r) as (PC1&PC2&PC3&PC4).
    destruct (Q3 r Hr) as [L1 L2]. destruct (Q3 s Hs) as [L3 L4]. rewrite PC2, PC4, L1 in *.
    destruct (ghosts_valid _ _ _ _ _ _ _ HP Hin) as [V1 [V2 _]].
    destruct (two_arrs _ _ _ _ (HW s V1)) as [fa [sa [E [Ra _]]]].
    assert (Nk : nth_error (recv_sizes SF r) k = Some (psz (SF s) i)).
    { unfold recv_sizes. rewrite nth_error_map_, Hin. reflexivity. }
    split.
    - rewrite (M4 _ _ Nk). destruct (is_csr l) eqn:NC.
      + unfold CreateTypesProofs.psz. rewrite L3. destruct l; try discriminate. reflexivity.
      + rewrite (clen_width T _ _ _ _ Ra) by (rewrite ?L3, ?Q4; auto). apply Q5; auto.
    - intro M. destruct (M5 M) as [-> _]. rewrite Nk. unfold CreateTypesProofs.psz. rewrite L3, M.
      pose proof (r_sizes _ _ _ _ Ra) as Sz. rewrite L3, M in Sz. destruct Sz as [Sl _].
      symmetry. apply nth_error_nth'. rewrite Sl, Q4; auto. }
  assert (TOT : forall r, (r < P)%nat -> Z.of_nat (length (concat (cells (SS3 r)))) < int32_max).
  { intros r Hr. specialize (Q7 r Hr). rewrite length_concat_sum.
    assert (EQ : map (@length T) (cells (SS3 r)) = map (fun si => clen (cells (SF (fst si))) (snd si)) (ghosts P G r)).
    { destruct (H5 r Hr) as [_ (M1&M2&M3&_)]. unfold recv_sizes in M3. rewrite map_length in M3.
      apply nth_error_ext. intro k. rewrite !nth_error_map_.
      destruct (nth_error (ghosts P G r) k) as [[s i]|] eqn:Hk.
      - destruct (ghosts_valid _ _ _ _ _ _ _ HP Hk) as [V1 [V2 _]].
        assert (Hin : In (i, k) (linkl P G s r)) by (apply linkl_In; auto).
        destruct (SH s r i k V1 Hr Hin) as [X _]. unfold clen at 1 in X.
        rewrite (nth_error_nth' _ []) by (rewrite M3; eapply nth_error_Some_lt; eauto). cbn [option_map fst snd]. congruence.
      - apply nth_error_None in Hk. rewrite (proj2 (nth_error_None _ _)) by lia. reflexivity. }
    rewrite EQ. auto. }
  exists SS3, W3. split; [|split; [|exact TOT]].
  - unfold createMPITypes. rewrite (pl_len _ _ _ HP). rewrite Ews, Ems, combine_map2, Epr. cbn [bind].
    rewrite map_map, combine_map2, E2. cbn [bind]. rewrite E3. cbn [bind].
    rewrite !combine_map2, E4. cbn [bind]. rewrite !combine_map2. apply mapM_seq. intros r Hr. cbn beta iota.
    destruct (Hpr r Hr) as [-> _]. destruct (H5 r Hr) as [Wr (M1&M2&M3&M4&M5)].
    destruct (PC r) as (PC1&PC2&PC3&PC4). destruct (Q3 r Hr) as [L1 L2].
    assert (TL : map (fun x : Z * Z * Z => fst (fst x)) (map (push_row T st (SF r)) (concat (outs P G r))) = map Z.of_nat (concat (outs P G r)))
      by (rewrite map_map; reflexivity).
    rewrite TL. unfold made. destruct st; cbn [bind fst snd]; [|reflexivity].
    assert (PR : map (push_row T HIndexed (SF r)) (concat (outs P G r)) = map (push_row T HIndexed (SP r)) (concat (outs P G r))).
    { apply map_ext. intro i. unfold push_row. rewrite PC1. unfold SP. rewrite psz_packed. reflexivity. }
    rewrite PR. rewrite (push_types_ok (W3 r) SP SS3 (mp r) r); auto.
    + cbn [bind]. rewrite (pull_types_ok (W3 r) (SP r) SS3 (mp r) r); auto.
      * cbn [bind fst snd]. f_equal. f_equal. unfold push_types_of. f_equal.
        assert (EC : forall r, cellsF T SP r = cellsF T SF r) by (intro; unfold cellsF; apply PC).
        unfold out_blocks. rewrite EC. reflexivity.
      * apply mp_nth; auto.
      * unfold recv_sizes in M3. rewrite map_length in M3. auto.
    + apply mp_nth; auto.
    + rewrite PC1. auto.
    + intro M. apply M5. auto.
    + intros s d i k Hs Hd Hin. destruct (PC s) as (->&_). apply SH; auto.
  - constructor.
    + rewrite map_length, seq_length. auto.
    + intros r w Hw. apply nth_error_map_seq in Hw. destruct Hw as [Hr ->]. apply H5; auto.
    + intros r Hr. destruct (H5 r Hr) as [Wr (M1&M2&_)]. split; [|auto]. destruct st; [|discriminate].
      intros _. destruct (two_arrs _ _ _ _ (HW r Hr)) as [fa [sa [_ [Ra _]]]]. eapply packed_flat; eauto.
    + intros r Hr. destruct (PC r) as (PC1&_). fold (SP r). rewrite PC1. split; auto.
      destruct (H5 r Hr) as [_ (_&_&M3&_)]. unfold recv_sizes in M3. rewrite map_length in M3. auto.
    + intros r Hr. fold (SP r). fold (SP 0%nat). destruct (PC r) as (_&->&_). destruct (PC 0%nat) as (_&->&_).
      destruct (H5 r Hr) as [_ (M1&_)]. rewrite M1. destruct (PC r) as (_&->&_).
      destruct (Q3 r Hr) as [-> _]. destruct (Q3 0%nat ltac:(lia)) as [-> _]. auto.
    + intros s r i k Hs Hr Hin. fold (SP s). destruct (PC s) as (->&->&->&_). destruct (Q3 s Hs) as [-> _]. apply SH; auto.
Qed.

End CreateLive.
