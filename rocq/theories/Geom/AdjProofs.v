(** Proofs about the conversion between global and local numbers. *)
From Coq Require Import List ZArith Lia Bool Arith.
From Verif Require Import Base.Prelude Base.PreludeFacts Base.MPIModel Base.MPIFacts DNDS.DefinesModel
  DNDS.IndexMappingModel DNDS.IndexMappingSpec DNDS.IndexMappingProofs DNDS.GhostPullProofs
  DNDS.GhostSearchProofs DNDS.GhostPushProofs DNDS.ArrayModel DNDS.ExchangeSpec
  Geom.AdjModel Geom.AdjSpec.
Import ListNotations.
Local Open Scope Z_scope.

(** ** Mappings in general *)

Definition good (lens : list nat) (r : nat) (m : ghostmap) : Prop :=
  (r < length lens)%nat /\ mainOffset m = fst (main_range lens r) /\
  mainSize m = snd (main_range lens r) /\
  exists gs, ghostIndex m = concat gs /\ ghostStart m = psums 0 (zlensl gs).

Lemma mapped_good lens ms r m : mapped lens ms -> nth_error ms r = Some m -> good lens r m.
Proof.
  intros [(pulls & g & Hl & H)|(L & g & HL & H)] Hm.
  - destruct (built_nth lens pulls ms r m (conj Hl (ex_intro _ g H)) Hm) as (Hr & -> & _).
    unfold good, expected. cbn [mainOffset mainSize ghostIndex ghostStart].
    rewrite main_ranges_nth by exact Hr. repeat split; auto. eexists; split; reflexivity.
  - apply setup_push_inv in H; [|exact HL]. subst ms.
    rewrite nth_error_map_, nth_error_seq in Hm.
    destruct (Nat.ltb_spec r (length lens)) as [Hr|]; [|discriminate]. cbn in Hm.
    injection Hm as <-. unfold good, pexpected.
    cbn [mainOffset mainSize ghostIndex ghostStart]. repeat split; auto.
    eexists; split; reflexivity.
Qed.

Lemma psums_asc l : Forall (fun x => 0 <= x) l -> asc (psums 0 l).
Proof.
  intros H i j x y Hij Hx Hy.
  pose proof (nth_error_Some_lt _ _ _ _ Hx). pose proof (nth_error_Some_lt _ _ _ _ Hy).
  rewrite psums_length in *. rewrite psums_nth in Hx, Hy by lia.
  injection Hx as <-. injection Hy as <-. pose proof (zsum_firstn_mono l i j H Hij). lia.
Qed.

Lemma all_ghost_total lens r m q : good lens r m ->
  exists o, searchInAllGhost m q = Ok o /\
    match o with
    | Some (_, v) => exists k, v = Z.of_nat k /\ nth_error (ghostIndex m) k = Some q
    | None => True
    end.
Proof.
  intros (_ & _ & _ & gs & Ei & Es). unfold searchInAllGhost.
  destruct (nth_error (ghostIndex m) (lb_lt (ghostIndex m) q)) as [x|] eqn:E; [|eexists; split; [reflexivity|exact I]].
  destruct (Z.eqb_spec x q) as [->|]; [|eexists; split; [reflexivity|exact I]].
  set (k := lb_lt (ghostIndex m) q) in *.
  assert (A : asc (ghostStart m)) by (rewrite Es; apply psums_asc, zlensl_nonneg).
  destruct (lb_le_asc_spec (ghostStart m) (Z.of_nat k) A) as (L1 & L2 & L3).
  set (p := lb_le (ghostStart m) (Z.of_nat k)) in *.
  assert (P0 : (0 < p)%nat).
  { destruct p; [|lia]. exfalso. specialize (L3 0%nat 0).
    rewrite Es, psums_nth in L3 by lia. cbn in L3. specialize (L3 eq_refl ltac:(lia)). lia. }
  assert (PN : p <> length (ghostStart m)).
  { intro EP. pose proof (nth_error_Some_lt _ _ _ _ E) as Hk.
    rewrite Es, psums_length in EP.
    specialize (L2 (length (zlensl gs))). rewrite Es, psums_nth, firstn_all in L2 by lia.
    specialize (L2 _ eq_refl ltac:(lia)). rewrite zsum_zlensl, <- Ei in L2. unfold zlen in L2. lia. }
  destruct (Nat.eqb_spec p (length (ghostStart m))) as [|_]; [contradiction|].
  destruct (Nat.ltb_spec 0 p); [|lia]. cbn. eexists. split; [reflexivity|]. exists k. auto.
Qed.

Lemma all_ghost_complete lens r m q : good lens r m -> ghosts_ascend m -> In q (ghostIndex m) ->
  searchInAllGhost m q <> Ok None.
Proof.
  intros G A I. apply In_nth_error in I. destruct I as (k & Hk).
  destruct (all_ghost_total lens r m q G) as (o & E & _). rewrite E. intro N. injection N as ->.
  unfold searchInAllGhost in E. rewrite (lb_lt_sasc_found _ _ _ A Hk), Hk, Z.eqb_refl in E.
  destruct (assert_ _); discriminate E.
Qed.

Lemma main_item lens r m q x : good lens r m -> searchInMain m q = Some x ->
  exists k, x = Z.of_nat k /\ (k < nth r lens 0%nat)%nat /\ q = Z.of_nat (list_sum (firstn r lens) + k).
Proof.
  intros (Hr & Eo & Es & _) H. unfold searchInMain in H. rewrite Eo, Es in H.
  unfold main_range in H. cbn [fst snd] in H.
  destruct (Z.leb_spec (Z.of_nat (list_sum (firstn r lens))) q); [|discriminate].
  destruct (Z.ltb_spec q (Z.of_nat (nth r lens 0%nat) + Z.of_nat (list_sum (firstn r lens)))); [|discriminate].
  cbn in H. injection H as <-.
  exists (Z.to_nat (q - Z.of_nat (list_sum (firstn r lens)))). lia.
Qed.

Lemma map_local lens r m x v : good lens r m -> local_item lens r m x = Some v ->
  mapIndex m (-1) (Z.of_nat x) = Ok v.
Proof.
  intros (Hr & Eo & Es & gs & Ei & Eg) H. unfold local_item in H. unfold mapIndex. change (-1 =? -1) with true. cbn iota.
  destruct (Z.leb_spec 0 (Z.of_nat x)); [|lia]. cbn [assert_ bind].
  rewrite Es, Eo. unfold main_range. cbn [fst snd].
  destruct (Nat.ltb_spec x (nth r lens 0%nat)) as [L|L].
  - injection H as <-. destruct (Z.ltb_spec (Z.of_nat x) (Z.of_nat (nth r lens 0%nat))); [|lia].
    f_equal. lia.
  - destruct (Z.ltb_spec (Z.of_nat x) (Z.of_nat (nth r lens 0%nat))); [lia|].
    pose proof (nth_error_Some_lt _ _ _ _ H) as Hk. rewrite Eg, last_psums, zsum_zlensl, <- Ei.
    destruct (Z.ltb_spec (Z.of_nat x - Z.of_nat (nth r lens 0%nat)) (0 + zlen (ghostIndex m)))
      as [|N]; [|unfold zlen in N; lia].
    cbn [assert_ bind]. rewrite <- Nat2Z.inj_sub by exact L. now apply vat_of_nat.
Qed.

Lemma append_total lens r m q : good lens r m ->
  exists o, search_indexAppend m q = Ok o /\
    match o with
    | Some (_, v) => exists x, v = Z.of_nat x /\ local_item lens r m x = Some q
    | None => searchInMain m q = None /\ searchInAllGhost m q = Ok None
    end.
Proof.
  intro G. unfold search_indexAppend. destruct (searchInMain m q) as [v|] eqn:E.
  - eexists. split; [reflexivity|]. destruct (main_item _ _ _ _ _ G E) as (k & -> & Hk & ->).
    exists k. split; [reflexivity|]. unfold local_item.
    destruct (Nat.ltb_spec k (nth r lens 0%nat)); [reflexivity|lia].
  - destruct (all_ghost_total lens r m q G) as ([(rk, v)|] & E2 & K); rewrite E2; cbn [bind].
    + eexists. split; [reflexivity|]. destruct K as (k & -> & Hk).
      destruct G as (Hr & _ & Es & _). exists (nth r lens 0%nat + k)%nat. rewrite Es.
      unfold main_range. cbn [snd]. split; [lia|]. unfold local_item.
      destruct (Nat.ltb_spec (nth r lens 0%nat + k) (nth r lens 0%nat)); [lia|].
      replace (nth r lens 0%nat + k - nth r lens 0%nat)%nat with k by lia. exact Hk.
    + eexists. split; [reflexivity|]. cbn. split; reflexivity.
Qed.

Lemma present_found lens r m q : good lens r m -> ghosts_ascend m -> present lens r m q ->
  exists x rk, search_indexAppend m q = Ok (Some (rk, Z.of_nat x)) /\ local_item lens r m x = Some q.
Proof.
  intros G A (x & Hx). destruct (append_total lens r m q G) as ([(rk, v)|] & E & K).
  - destruct K as (y & -> & Hy). exists y, rk. auto.
  - exfalso. destruct K as (K1 & K2). unfold local_item in Hx.
    destruct (Nat.ltb_spec x (nth r lens 0%nat)) as [L|L].
    + injection Hx as <-. destruct G as (Hr & Eo & Es & _).
      unfold searchInMain in K1. rewrite Eo, Es in K1. unfold main_range in K1. cbn [fst snd] in K1.
      destruct (Z.leb_spec (Z.of_nat (list_sum (firstn r lens))) (Z.of_nat (list_sum (firstn r lens) + x))); [|lia].
      destruct (Z.ltb_spec (Z.of_nat (list_sum (firstn r lens) + x))
                 (Z.of_nat (nth r lens 0%nat) + Z.of_nat (list_sum (firstn r lens)))); [discriminate|lia].
    + apply nth_error_In in Hx. exact (all_ghost_complete _ _ _ _ G A Hx K2).
Qed.

(** ** One entry *)

Lemma limits : int64_min = -9223372036854775808 /\ int64_max = 9223372036854775807.
Proof. split; reflexivity. Qed.

Lemma neg_ok v : 0 <= v <= int64_max -> tarith int64_min int64_max (-1 - v) = Ok (-1 - v).
Proof.
  intro H. unfold tarith. destruct limits as [E1 E2]. rewrite E1, E2 in *.
  destruct (Z.leb_spec (-9223372036854775808) (-1 - v)); [|lia].
  destruct (Z.leb_spec (-1 - v) 9223372036854775807); [reflexivity|lia].
Qed.
Lemma neg_neg v : 0 <= v < int64_max ->
  (-1 - v =? UnInitIndex) = false /\ (-1 - v <? 0) = true /\
  tarith int64_min int64_max (-1 - (-1 - v)) = Ok v.
Proof.
  intro H. unfold UnInitIndex, tarith. destruct limits as [E1 E2]. rewrite E1, E2 in *.
  repeat split.
  - apply Z.eqb_neq. lia.
  - apply Z.ltb_lt. lia.
  - replace (-1 - (-1 - v)) with v by lia.
    destruct (Z.leb_spec (-9223372036854775808) v); [|lia].
    destruct (Z.leb_spec v 9223372036854775807); [reflexivity|lia].
Qed.
Lemma nonneg_not_unset v : 0 <= v -> (v =? UnInitIndex) = false.
Proof. intro H. apply Z.eqb_neq. unfold UnInitIndex. destruct limits as [-> _]. lia. Qed.

Lemma entry_cases lens r m v : good lens r m -> entry_ok v ->
  (v = UnInitIndex /\ IndexGlobal2Local m v = Ok UnInitIndex)
  \/ (exists x, local_item lens r m x = Some v /\ IndexGlobal2Local m v = Ok (Z.of_nat x))
  \/ (0 <= v < int64_max /\ search_indexAppend m v = Ok None /\ IndexGlobal2Local m v = Ok (-1 - v)).
Proof.
  intros G [->|H].
  - left. split; [reflexivity|]. unfold IndexGlobal2Local. now rewrite Z.eqb_refl.
  - right. unfold IndexGlobal2Local. rewrite nonneg_not_unset by lia.
    destruct (append_total lens r m v G) as ([(rk, w)|] & E & K); rewrite E; cbn [bind].
    + left. destruct K as (x & -> & Hx). eauto.
    + right. rewrite neg_ok by lia. auto.
Qed.

Lemma back lens r m x v : good lens r m -> local_item lens r m x = Some v ->
  IndexLocal2Global m (Z.of_nat x) = Ok v.
Proof.
  intros G H. unfold IndexLocal2Global. rewrite nonneg_not_unset by lia.
  destruct (Z.ltb_spec (Z.of_nat x) 0); [lia|]. eapply map_local; eauto.
Qed.

Lemma entry_roundtrip_good lens r m v : good lens r m -> entry_ok v ->
  exists x, IndexGlobal2Local m v = Ok x /\ IndexLocal2Global m x = Ok v
            /\ (x = UnInitIndex <-> v = UnInitIndex).
Proof.
  intros G H. destruct (entry_cases lens r m v G H) as [(-> & E)|[(x & Hx & E)|(B & _ & E)]]; rewrite E.
  - eexists. split; [reflexivity|]. unfold IndexLocal2Global. rewrite Z.eqb_refl. tauto.
  - eexists. split; [reflexivity|]. split; [eapply back; eauto|].
    assert (v <> UnInitIndex).
    { intro N. destruct H as [H|H].
      - unfold IndexGlobal2Local in E. rewrite H, Z.eqb_refl in E. injection E as E.
        unfold UnInitIndex in E. destruct limits as [E1 _]. rewrite E1 in E. lia.
      - pose proof (nonneg_not_unset v ltac:(lia)) as Q. apply Z.eqb_neq in Q. contradiction. }
    split; intro N; [|contradiction]. exfalso.
    pose proof (nonneg_not_unset (Z.of_nat x) ltac:(lia)) as Q. apply Z.eqb_neq in Q. contradiction.
  - eexists. split; [reflexivity|]. destruct (neg_neg v B) as (N1 & N2 & N3).
    unfold IndexLocal2Global. rewrite N1, N2. split; [exact N3|].
    apply Z.eqb_neq in N1. pose proof (nonneg_not_unset v ltac:(lia)) as Q. apply Z.eqb_neq in Q. tauto.
Qed.

Lemma entry_roundtrip lens ms r m v :
  mapped lens ms -> nth_error ms r = Some m -> entry_ok v ->
  exists x, IndexGlobal2Local m v = Ok x /\ IndexLocal2Global m x = Ok v
            /\ (x = UnInitIndex <-> v = UnInitIndex).
Proof. intros M Hm. apply (entry_roundtrip_good lens r). eapply mapped_good; eauto. Qed.

Lemma local_item_lt lens r m x v : local_item lens r m x = Some v ->
  (x < nth r lens 0%nat + length (ghostIndex m))%nat.
Proof.
  unfold local_item. destruct (Nat.ltb_spec x (nth r lens 0%nat)); [lia|].
  intro E. apply nth_error_Some_lt in E. lia.
Qed.

Lemma entry_range lens ms r m v x :
  mapped lens ms -> nth_error ms r = Some m -> entry_ok v -> v <> UnInitIndex ->
  IndexGlobal2Local m v = Ok x ->
  (exists k, x = Z.of_nat k /\ (k < nth r lens 0%nat + length (ghostIndex m))%nat
             /\ local_item lens r m k = Some v)
  \/ (x = -1 - v /\ x < 0 /\ (ghosts_ascend m -> ~ present lens r m v)).
Proof.
  intros M Hm Ho Hv E. pose proof (mapped_good _ _ _ _ M Hm) as G.
  destruct (entry_cases lens r m v G Ho) as [(-> & _)|[(k & Hk & E')|(B & N & E')]].
  - contradiction.
  - left. rewrite E in E'. injection E' as ->. exists k. split; [reflexivity|].
    split; [eapply local_item_lt; eauto|exact Hk].
  - right. assert (x = -1 - v) by congruence. split; [assumption|]. split; [lia|].
    intros A P. destruct (present_found _ _ _ _ G A P) as (y & rk & F & _). congruence.
Qed.

Lemma local_roundtrip lens ms r m x v :
  mapped lens ms -> nth_error ms r = Some m -> ghosts_ascend m ->
  (forall q, In q (ghostIndex m) -> ~ owned_by lens r q) ->
  local_item lens r m x = Some v -> 0 <= v ->
  IndexLocal2Global m (Z.of_nat x) = Ok v /\ IndexGlobal2Local m v = Ok (Z.of_nat x).
Proof.
  intros M Hm A D Hx Hv. pose proof (mapped_good _ _ _ _ M Hm) as G.
  split; [eapply back; eauto|].
  destruct (present_found lens r m v G A (ex_intro _ x Hx)) as (y & rk & F & Hy).
  unfold IndexGlobal2Local. rewrite nonneg_not_unset, F by lia. cbn [bind]. f_equal. f_equal.
  unfold local_item in Hx, Hy.
  assert (O : forall k, (k < nth r lens 0%nat)%nat -> v = Z.of_nat (list_sum (firstn r lens) + k) -> owned_by lens r v).
  { intros k Hk ->. exists k. apply item_at_spec. split; [|reflexivity].
    destruct (nth_error_lt_Some _ lens r ltac:(destruct G; auto)) as (l & Hl). exists l.
    rewrite (nth_error_nth _ _ 0%nat Hl) in Hk. auto. }
  destruct (Nat.ltb_spec x (nth r lens 0%nat)), (Nat.ltb_spec y (nth r lens 0%nat)).
  - injection Hx as <-. injection Hy as Hy. lia.
  - exfalso. injection Hx as Hx. apply nth_error_In in Hy. apply (D _ Hy). eapply O; eauto.
  - exfalso. injection Hy as Hy. apply nth_error_In in Hx. apply (D _ Hx). eapply O; eauto.
  - assert (x - nth r lens 0%nat = y - nth r lens 0%nat)%nat; [|lia].
    destruct (lt_eq_lt_dec (x - nth r lens 0%nat) (y - nth r lens 0%nat)) as [[L|]|L]; auto; exfalso.
    + pose proof (A _ _ _ _ L Hx Hy). lia.
    + pose proof (A _ _ _ _ L Hy Hx). lia.
Qed.

(** ** Whole relations *)

Lemma mapM_inverse A (f h : A -> res A) l :
  (forall v, In v l -> exists x, f v = Ok x /\ h x = Ok v) ->
  exists l', mapM f l = Ok l' /\ mapM h l' = Ok l.
Proof.
  induction l as [|v l IH]; intro H; cbn; [eauto|].
  destruct (H v (or_introl eq_refl)) as (x & E1 & E2).
  destruct IH as (l' & F1 & F2); [intros; apply H; now right|].
  rewrite E1. cbn. rewrite F1. cbn. eexists. split; [reflexivity|]. cbn. rewrite E2. cbn. now rewrite F2.
Qed.

Lemma convert_inverse f h (P : Z -> Prop) rows :
  (forall v, P v -> exists x, f v = Ok x /\ h x = Ok v) -> Forall (Forall P) rows ->
  exists rows', convert f rows = Ok rows' /\ convert h rows' = Ok rows.
Proof.
  intros H F. apply mapM_inverse. intros row Hr. rewrite Forall_forall in F. specialize (F row Hr).
  apply mapM_inverse. intros v Hv. rewrite Forall_forall in F. auto.
Qed.

Lemma convert_first_inverse f h (P Q : Z -> Prop) rows :
  (forall v, P v -> exists x, f v = Ok x /\ h x = Ok v) ->
  (forall v, Q v -> exists x, inside f v = Ok x /\ inside h x = Ok v) ->
  Forall (Forall P) rows -> Forall (fun row => match row with [] => True | v :: _ => Q v end) rows ->
  exists rows', convert_first f rows = Ok rows' /\ convert_first h rows' = Ok rows.
Proof.
  intros H K F F0. apply mapM_inverse. intros row Hr.
  rewrite Forall_forall in F, F0. specialize (F row Hr). specialize (F0 row Hr).
  destruct row as [|v t]; [exists []; auto|].
  destruct (K v F0) as (x & E1 & E2).
  destruct (mapM_inverse _ f h t) as (t' & G1 & G2).
  { intros w Hw. apply H. apply (proj1 (Forall_forall _ _) F). now right. }
  rewrite E1. cbn [bind]. rewrite G1. cbn [bind]. eexists. split; [reflexivity|].
  cbn beta iota. rewrite E2. cbn [bind]. now rewrite G2.
Qed.

Section OneRank.
  Variables (lens : list nat) (r : nat) (m : ghostmap).
  Hypothesis G : good lens r m.

  Lemma conv_any v : entry_ok v -> exists x, IndexGlobal2Local m v = Ok x /\ IndexLocal2Global m x = Ok v.
  Proof. intro H. destruct (entry_roundtrip_good _ _ _ _ G H) as (x & A & B & _). eauto. Qed.

  Hypothesis A : ghosts_ascend m.

  Lemma conv_found v : present lens r m v -> exists x, found m v = Ok x /\ mapIndex m (-1) x = Ok v.
  Proof.
    intro H. destruct (present_found _ _ _ _ G A H) as (x & rk & E & Hx).
    unfold found. rewrite E. cbn [bind]. exists (Z.of_nat x). split; [reflexivity|].
    eapply map_local; eauto.
  Qed.

  Lemma conv_inside v : entry_ok v -> present lens r m v -> v <> UnInitIndex ->
    exists x, inside (IndexGlobal2Local m) v = Ok x /\ inside (IndexLocal2Global m) x = Ok v.
  Proof.
    intros Ho H N. destruct Ho as [|Ho]; [contradiction|].
    destruct (present_found _ _ _ _ G A H) as (x & rk & E & Hx).
    unfold inside at 1, IndexGlobal2Local. rewrite nonneg_not_unset, E by lia. cbn [bind].
    destruct (Z.leb_spec 0 (Z.of_nat x)); [|lia]. cbn [assert_ bind].
    exists (Z.of_nat x). split; [reflexivity|]. unfold inside.
    rewrite (back _ _ _ _ _ G Hx). cbn [bind]. destruct (Z.leb_spec 0 v); [reflexivity|lia].
  Qed.

  Lemma conv_unless v : v = UnInitIndex \/ (0 <= v /\ present lens r m v) ->
    exists x, unless_unset (found m) v = Ok x /\ unless_unset (mapIndex m (-1)) x = Ok v.
  Proof.
    intros [->|[P H]]; unfold unless_unset.
    - rewrite Z.eqb_refl. exists UnInitIndex. now rewrite Z.eqb_refl.
    - destruct (present_found _ _ _ _ G A H) as (x & rk & E & Hx).
      rewrite nonneg_not_unset by lia. unfold found. rewrite E. cbn [bind].
      exists (Z.of_nat x). split; [reflexivity|]. rewrite nonneg_not_unset by lia.
      eapply map_local; eauto.
  Qed.
End OneRank.

Lemma Forall_Forall_and (P Q : Z -> Prop) rows :
  Forall (Forall P) rows -> Forall (Forall Q) rows -> Forall (Forall (fun v => P v /\ Q v)) rows.
Proof.
  rewrite !Forall_forall. intros H K row Hr. specialize (H row Hr). specialize (K row Hr).
  rewrite Forall_forall in *. auto.
Qed.

Definition valid_entry v := 0 <= v < int64_max.
Lemma valid_entry_ok v : valid_entry v -> entry_ok v /\ v <> UnInitIndex.
Proof.
  intro H. split; [right; exact H|]. apply Z.eqb_neq, nonneg_not_unset. unfold valid_entry in H. lia.
Qed.

Lemma primary_roundtrip clens nlens cms nms r cm nm p :
  mapped clens cms -> mapped nlens nms ->
  nth_error cms r = Some cm -> nth_error nms r = Some nm ->
  ghosts_ascend cm -> ghosts_ascend nm ->
  entries_ok (cell2cell p) -> entries_ok (bnd2cell p) ->
  Forall (Forall (fun v => 0 <= v < int64_max)) (cell2node p) ->
  Forall (Forall (fun v => 0 <= v < int64_max)) (bnd2node p) ->
  Forall (fun row => match row with [] => True | v :: _ => 0 <= v < int64_max end) (bnd2cell p) ->
  first_present clens r cm (bnd2cell p) ->
  all_present nlens r nm (cell2node p) -> all_present nlens r nm (bnd2node p) ->
  exists p', AdjGlobal2LocalPrimary cm nm (Adj_PointToGlobal, p) = Ok (Adj_PointToLocal, p')
          /\ AdjLocal2GlobalPrimary cm nm (Adj_PointToLocal, p') = Ok (Adj_PointToGlobal, p).
Proof.
  intros Mc Mn Hcm Hnm Ac An O1 O2 O3 O4 O5 F1 F2 F3.
  pose proof (mapped_good _ _ _ _ Mc Hcm) as Gc. pose proof (mapped_good _ _ _ _ Mn Hnm) as Gn.
  assert (CI : forall lens m, good lens r m -> ghosts_ascend m -> forall v, valid_entry v /\ present lens r m v ->
     exists x, inside (IndexGlobal2Local m) v = Ok x /\ inside (IndexLocal2Global m) x = Ok v).
  { intros lens m G A v [V P]. apply valid_entry_ok in V. destruct V. eapply conv_inside; eauto. }
  destruct (convert_inverse _ _ entry_ok (cell2cell p) (conv_any _ _ _ Gc) O1) as (a & A1 & A2).
  destruct (convert_first_inverse _ _ entry_ok _ (bnd2cell p) (conv_any _ _ _ Gc) (CI _ _ Gc Ac) O2)
    as (b & B1 & B2).
  { unfold first_present in F1. rewrite Forall_forall in *. intros row Hr. specialize (O5 row Hr). specialize (F1 row Hr).
    destruct row; [exact I|]. split; assumption. }
  destruct (convert_inverse _ _ _ (cell2node p) (CI _ _ Gn An) (Forall_Forall_and _ _ _ O3 F2)) as (c & C1 & C2).
  destruct (convert_inverse _ _ _ (bnd2node p) (CI _ _ Gn An) (Forall_Forall_and _ _ _ O4 F3)) as (d & D1 & D2).
  unfold AdjGlobal2LocalPrimary, AdjLocal2GlobalPrimary. cbn [is_global is_local assert_ bind].
  rewrite A1. cbn [bind]. rewrite B1. cbn [bind]. rewrite C1. cbn [bind]. rewrite D1. cbn [bind].
  eexists. split; [reflexivity|]. cbn [cell2cell bnd2cell cell2node bnd2node].
  rewrite A2. cbn [bind]. rewrite B2. cbn [bind]. rewrite C2. cbn [bind]. rewrite D2. cbn [bind].
  destruct p; reflexivity.
Qed.

Lemma facial_roundtrip clens nlens cms nms r cm nm f2n f2c :
  mapped clens cms -> mapped nlens nms ->
  nth_error cms r = Some cm -> nth_error nms r = Some nm ->
  ghosts_ascend cm -> ghosts_ascend nm ->
  all_present nlens r nm f2n ->
  Forall (Forall (fun v => v = UnInitIndex \/ 0 <= v /\ present clens r cm v)) f2c ->
  exists q, AdjGlobal2LocalFacial cm nm (Adj_PointToGlobal, (f2n, f2c)) = Ok (Adj_PointToLocal, q)
         /\ AdjLocal2GlobalFacial cm nm (Adj_PointToLocal, q) = Ok (Adj_PointToGlobal, (f2n, f2c)).
Proof.
  intros Mc Mn Hcm Hnm Ac An F1 F2.
  pose proof (mapped_good _ _ _ _ Mc Hcm) as Gc. pose proof (mapped_good _ _ _ _ Mn Hnm) as Gn.
  destruct (convert_inverse _ _ _ f2n (conv_found _ _ _ Gn An) F1) as (a & A1 & A2).
  destruct (convert_inverse _ _ _ f2c (conv_unless _ _ _ Gc Ac) F2) as (b & B1 & B2).
  unfold AdjGlobal2LocalFacial, AdjLocal2GlobalFacial. cbn [is_global is_local assert_ bind].
  rewrite A1. cbn [bind]. rewrite B1. cbn [bind]. eexists. split; [reflexivity|].
  cbn beta iota. rewrite A2. cbn [bind]. now rewrite B2.
Qed.

Lemma c2f_roundtrip flens fms r fm c2f :
  mapped flens fms -> nth_error fms r = Some fm -> entries_ok c2f ->
  exists q, AdjGlobal2LocalC2F fm (Adj_PointToGlobal, c2f) = Ok (Adj_PointToLocal, q)
         /\ AdjLocal2GlobalC2F fm (Adj_PointToLocal, q) = Ok (Adj_PointToGlobal, c2f).
Proof.
  intros M Hm O. pose proof (mapped_good _ _ _ _ M Hm) as G.
  destruct (convert_inverse _ _ entry_ok c2f (conv_any _ _ _ G) O) as (a & A1 & A2).
  unfold AdjGlobal2LocalC2F, AdjLocal2GlobalC2F. cbn [fst snd is_global is_local assert_ bind].
  rewrite A1. cbn [bind]. eexists. split; [reflexivity|]. cbn [fst snd is_local assert_ bind]. now rewrite A2.
Qed.

Lemma noson_inverse blens g r : setMPIAlignBcast (map Z.of_nat blens) = Ok g -> (r < length blens)%nat ->
  Z.of_nat (list_sum blens) <= int64_max ->
  forall v, v = UnInitIndex \/ item_at blens v <> None ->
  exists x, IndexGlobal2Local_NoSon g (Z.of_nat r) v = Ok x
         /\ IndexLocal2Global_NoSon g (Z.of_nat r) (Z.of_nat (nth r blens 0%nat)) x = Ok v
         /\ (owned_by blens r v <-> exists k, x = Z.of_nat k /\ (k < nth r blens 0%nat)%nat).
Proof.
  intros Hg Hr Hs v [->|H].
  - unfold IndexGlobal2Local_NoSon. rewrite Z.eqb_refl. exists UnInitIndex. split; [reflexivity|].
    unfold IndexLocal2Global_NoSon. rewrite Z.eqb_refl. split; [reflexivity|].
    split.
    + intros (k & Hk). apply item_at_spec in Hk. destruct Hk as [_ Hk]. exfalso.
      unfold UnInitIndex in Hk. destruct limits as [E _]. rewrite E in Hk. lia.
    + intros (k & Hk & _). exfalso. unfold UnInitIndex in Hk. destruct limits as [E _]. rewrite E in Hk. lia.
  - destruct (item_at blens v) as [[s k]|] eqn:E; [clear H|contradiction].
    assert (V : 0 <= v < int64_max).
    { assert (~ (v < 0 \/ Z.of_nat (list_sum blens) <= v)) by (rewrite <- item_at_None, E; discriminate). lia. }
    unfold IndexGlobal2Local_NoSon. rewrite nonneg_not_unset by lia.
    rewrite (search_spec _ _ _ Hg), E.
    apply item_at_spec in E. destruct E as [(l & Hl & Hk) Ev].
    destruct (Z.eqb_spec (Z.of_nat s) (Z.of_nat r)) as [Es|Es].
    + assert (s = r) by lia. subst s. exists (Z.of_nat k). split; [reflexivity|].
      unfold IndexLocal2Global_NoSon. rewrite nonneg_not_unset by lia.
      destruct (Z.ltb_spec (Z.of_nat k) 0); [lia|].
      rewrite (nth_error_nth _ _ 0%nat Hl).
      destruct (Z.ltb_spec (Z.of_nat k) (Z.of_nat l)); [|lia]. cbn [assert_ bind].
      apply align_inv in Hg. subst g. rewrite toGlobal_gom by (try rewrite (nth_error_nth _ _ 0%nat Hl); lia).
      split; [now rewrite Ev|]. split; [eauto|].
      intros _. exists k. apply item_at_spec. split; eauto.
    + rewrite neg_ok by lia. exists (-1 - v). split; [reflexivity|].
      destruct (neg_neg v V) as (N1 & N2 & N3). unfold IndexLocal2Global_NoSon.
      rewrite N1, N2. split; [exact N3|]. split.
      * intros (k' & Hk'). exfalso. apply Es. f_equal.
        assert (item_at blens v = Some (s, k)) by (apply item_at_spec; split; eauto). congruence.
      * intros (k' & Hk' & _). lia.
Qed.

Lemma n2cb_roundtrip clens cms blens bg r cm n2c n2b :
  mapped clens cms -> nth_error cms r = Some cm ->
  setMPIAlignBcast (map Z.of_nat blens) = Ok bg -> (r < length blens)%nat ->
  Z.of_nat (list_sum blens) <= int64_max ->
  entries_ok n2c -> Forall (Forall (fun v => v = UnInitIndex \/ item_at blens v <> None)) n2b ->
  exists q, AdjGlobal2LocalN2CB cm bg (Z.of_nat r) (Adj_PointToGlobal, (n2c, n2b)) = Ok (Adj_PointToLocal, q)
         /\ AdjLocal2GlobalN2CB cm bg (Z.of_nat r) (Z.of_nat (nth r blens 0%nat)) (Adj_PointToLocal, q)
            = Ok (Adj_PointToGlobal, (n2c, n2b)).
Proof.
  intros Mc Hcm Hg Hr Hs O1 O2. pose proof (mapped_good _ _ _ _ Mc Hcm) as Gc.
  destruct (convert_inverse _ _ entry_ok n2c (conv_any _ _ _ Gc) O1) as (a & A1 & A2).
  destruct (convert_inverse (IndexGlobal2Local_NoSon bg (Z.of_nat r))
    (IndexLocal2Global_NoSon bg (Z.of_nat r) (Z.of_nat (nth r blens 0%nat))) _ n2b
    ltac:(intros v Hv; destruct (noson_inverse _ _ _ Hg Hr Hs v Hv) as (x & X1 & X2 & _); eauto) O2) as (b & B1 & B2).
  unfold AdjGlobal2LocalN2CB, AdjLocal2GlobalN2CB. cbn [is_global is_local assert_ bind].
  rewrite A1. cbn [bind]. rewrite B1. cbn [bind]. eexists. split; [reflexivity|].
  cbn beta iota. rewrite A2. cbn [bind]. now rewrite B2.
Qed.

(** Converting twice in the same direction is refused. *)
Lemma wrong_state cm nm p :
  AdjGlobal2LocalPrimary cm nm (Adj_PointToLocal, p) = Abort
  /\ AdjLocal2GlobalPrimary cm nm (Adj_PointToGlobal, p) = Abort.
Proof. split; reflexivity. Qed.

(** ** Ghost cells and nodes *)

Lemma others_spec lens g r l out : setMPIAlignBcast (map Z.of_nat lens) = Ok g ->
  others g (Z.of_nat r) l = Ok out ->
  (forall q, In q l -> item_at lens q <> None) /\
  (forall q, In q out <-> In q l /\ ~ owned_by lens r q).
Proof.
  intros Hg H. unfold others in H. apply bind_Ok in H. destruct H as (ll & H & E).
  injection E as <-. revert ll H. induction l as [|a l IH]; cbn; intros ll H.
  - injection H as <-. split; [tauto|]. cbn. tauto.
  - inv_bind. subst ll. rename H0 into Ha, H1 into Hl.
    destruct (IH _ Hl) as (IH1 & IH2). rewrite (search_spec _ _ _ Hg) in Ha.
    destruct (item_at lens a) as [[s k]|] eqn:E; [|discriminate]. injection Ha as <-.
    split.
    + intros q [<-|Hq]; [congruence|auto].
    + intro q. cbn [concat]. rewrite in_app_iff, IH2.
      assert (D : owned_by lens r a <-> s = r).
      { unfold owned_by. rewrite E. split; [intros (v & Hv); congruence|intros ->; eauto]. }
      destruct (Z.eqb_spec (Z.of_nat s) (Z.of_nat r)) as [Es|Es].
      * assert (s = r) by lia. cbn. split; [tauto|]. intros [[<-|Hq] N]; [tauto|tauto].
      * cbn. split.
        -- intros [[<-|[]]|[Hq N]]; [|tauto]. split; [tauto|]. rewrite D. lia.
        -- intros [[<-|Hq] N]; tauto.
Qed.

Lemma pull_rows_spec lens g (rows : list (list (list Z))) m son :
  setMPIAlignBcast (map Z.of_nat lens) = Ok g ->
  pull_rows g rows m = Ok son -> son_rows lens rows m son.
Proof.
  intros Hg H. unfold pull_rows in H. apply mapM_nth in H. destruct H as (Hl & Hn).
  split; [exact Hl|]. intros k q s i Hq Hi. destruct (Hn k q Hq) as (y & Hy & Hk).
  rewrite (search_spec _ _ _ Hg), Hi in Hy. apply bind_Ok in Hy. destruct Hy as (l & H1 & H2).
  apply vget_Ok in H1. apply vget_Ok in H2. rewrite !Nat2Z.id in *.
  rewrite Hk. destruct H1 as [_ H1]. destruct H2 as [_ H2]. rewrite (nth_error_nth _ _ [] H1). congruence.
Qed.

Lemma setup_align sizes pulls g ms : setup_pull sizes pulls = Ok (g, ms) -> setMPIAlignBcast sizes = Ok g.
Proof.
  unfold setup_pull. intro H. apply bind_Ok in H. destruct H as (g' & Hg & H).
  apply bind_Ok in H. destruct H as (mains & _ & H). apply bind_Ok in H. destruct H as (ms' & _ & E).
  congruence.
Qed.

Lemma own_present lens r m q : (r < length lens)%nat -> owned_by lens r q -> present lens r m q.
Proof.
  intros Hr (v & Hv). apply item_at_spec in Hv. destruct Hv as [(l & Hl & Hlt) ->].
  exists v. unfold local_item. rewrite (nth_error_nth _ _ 0%nat Hl).
  destruct (Nat.ltb_spec v l); [reflexivity|lia].
Qed.

Lemma ghost_present lens r m q : In q (ghostIndex m) -> present lens r m q.
Proof.
  intro H. apply In_nth_error in H. destruct H as (k & Hk). exists (nth r lens 0%nat + k)%nat.
  unfold local_item. destruct (Nat.ltb_spec (nth r lens 0%nat + k) (nth r lens 0%nat)); [lia|].
  now replace (nth r lens 0 + k - nth r lens 0)%nat with k by lia.
Qed.

Lemma pulls_present lens pulls g ms r m l :
  length pulls = length lens -> setup_pull (map Z.of_nat lens) pulls = Ok (g, ms) ->
  nth_error ms r = Some m -> others g (Z.of_nat r) l = Ok (nth r pulls []) ->
  (r < length lens)%nat ->
  ghosts_ascend m /\ (forall q, In q (ghostIndex m) -> ~ owned_by lens r q) /\
  Forall (present lens r m) l.
Proof.
  intros Hl Hs Hm Ho Hr. destruct (nth_error_lt_Some _ pulls r ltac:(lia)) as (pull & Hp).
  rewrite (nth_error_nth _ _ [] Hp) in Ho.
  destruct (slots_all lens pulls ms r m pull (conj Hl (ex_intro _ g Hs)) Hm Hp) as ((A & I) & _).
  destruct (others_spec lens g r l pull (setup_align _ _ _ _ Hs) Ho) as (V & O).
  split; [exact A|]. split.
  - intros q Hq. apply I in Hq. destruct Hq as [Hq _]. now apply O in Hq.
  - apply Forall_forall. intros q Hq. specialize (V q Hq).
    destruct (item_at lens q) as [[s v]|] eqn:E; [|contradiction].
    destruct (Nat.eq_dec s r) as [->|N].
    + apply own_present; [exact Hr|]. exists v. exact E.
    + apply ghost_present, I. split; [|exact Logic.I]. apply O. split; [exact Hq|].
      intros (v' & Hv'). congruence.
Qed.

Lemma mapM_combine_nth A B (f : Z * A -> res B) l out r x :
  mapM f (combine (ranks (length l)) l) = Ok out -> nth_error l r = Some x ->
  exists y, f (Z.of_nat r, x) = Ok y /\ nth_error out r = Some y.
Proof.
  intros H Hx. apply mapM_nth in H. destruct H as (_ & H). apply H.
  rewrite nth_error_combine, ranks_nth, Hx by (eapply nth_error_Some_lt; eauto). reflexivity.
Qed.

Lemma concat_Forall A (P : A -> Prop) ll : Forall P (concat ll) -> Forall (Forall P) ll.
Proof.
  induction ll as [|l ll IH]; cbn; intro H; [constructor|].
  apply Forall_app in H. destruct H. constructor; auto.
Qed.

Lemma ghosts_resolve nlens c2c c2n G :
  length nlens = length c2c ->
  BuildGhostPrimary (map Z.of_nat nlens) c2c c2n = Ok G ->
  let clens := map (@length (list Z)) c2c in
  mapped clens (cellMaps G) /\ mapped nlens (nodeMaps G) /\ map (@length (list Z)) c2n = clens /\
  forall r, (r < length c2c)%nat ->
    exists cm nm c2cs c2ns,
      nth_error (cellMaps G) r = Some cm /\ nth_error (nodeMaps G) r = Some nm /\
      nth_error (c2cSon G) r = Some c2cs /\ nth_error (c2nSon G) r = Some c2ns /\
      ghosts_ascend cm /\ ghosts_ascend nm /\
      (forall q, In q (ghostIndex cm) -> ~ owned_by clens r q) /\
      (forall q, In q (ghostIndex nm) -> ~ owned_by nlens r q) /\
      son_rows clens c2c cm c2cs /\ son_rows clens c2n cm c2ns /\
      all_present clens r cm (nth r c2c []) /\
      all_present nlens r nm (nth r c2n [] ++ c2ns).
Proof.
  intros Hn H clens. unfold BuildGhostPrimary in H.
  assert (Ez : map zlen c2c = map Z.of_nat clens) by (unfold clens; rewrite map_map; reflexivity).
  rewrite Ez in H.
  apply bind_Ok in H. destruct H as (g & Hg & H).
  apply bind_Ok in H. destruct H as (gc & Hgc & H).
  apply bind_Ok in H. destruct H as ((g2, cms) & Hs & H). cbn [fst snd] in H.
  apply bind_Ok in H. destruct H as (u & Ha & H). apply assert_Ok in Ha.
  destruct (list_eq_dec Z.eq_dec (map Z.of_nat clens) (map zlen c2n)) as [Ec|]; [clear Ha|discriminate].
  apply bind_Ok in H. destruct H as (c2cs & Hc & H).
  apply bind_Ok in H. destruct H as (c2ns & Hc2 & H).
  apply bind_Ok in H. destruct H as (gn & Hgn & H).
  apply bind_Ok in H. destruct H as (gns & Hgns & H).
  apply bind_Ok in H. destruct H as ((gn2, nms) & Hsn & H). cbn [fst snd] in H. injection H as <-.
  cbn [cellMaps nodeMaps c2cSon c2nSon].
  pose proof (setup_align _ _ _ _ Hs) as Hg2. pose proof (setup_align _ _ _ _ Hsn) as Hgn2.
  assert (g2 = g) by congruence. subst g2. assert (gn2 = gn) by congruence. subst gn2.
  assert (Lc : length clens = length c2c) by (unfold clens; apply map_length).
  assert (Ec' : map (@length (list Z)) c2n = clens).
  { clear - Ec. clearbody clens. revert clens Ec. clear c2c. induction c2n as [|l c2n IH]; intros [|n clens] Ec; try discriminate Ec; cbn in *; auto.
    injection Ec as E1 E2. unfold zlen in E1. apply Nat2Z.inj in E1. f_equal; auto. }
  assert (Ln : length c2n = length c2c) by (rewrite <- Lc, <- Ec', map_length; reflexivity).
  assert (Lgc : length gc = length clens).
  { apply mapM_nth in Hgc. destruct Hgc as (E & _).
    rewrite combine_length, ranks_length in E. lia. }
  assert (Bc : built clens gc cms) by (split; [exact Lgc|eauto]).
  assert (Lcm : length cms = length clens).
  { apply built_inv in Bc. destruct Bc as (_ & _ & ->). now rewrite map_length, seq_length. }
  assert (Lcs : length c2ns = length clens) by (apply mapM_nth in Hc2; destruct Hc2; lia).
  assert (Lgn : length gns = length nlens).
  { apply mapM_nth in Hgns. destruct Hgns as (E & _).
    rewrite !combine_length, ranks_length in E. lia. }
  assert (Bn : built nlens gns nms) by (split; [exact Lgn|eauto]).
  assert (Lnm : length nms = length nlens).
  { apply built_inv in Bn. destruct Bn as (_ & _ & ->). now rewrite map_length, seq_length. }
  split; [left; eauto|]. split; [left; eauto|]. split; [exact Ec'|].
  intros r Hr.
  destruct (nth_error_lt_Some _ cms r ltac:(lia)) as (cm & Hcm).
  destruct (nth_error_lt_Some _ nms r ltac:(lia)) as (nm & Hnm).
  destruct (nth_error_lt_Some _ c2c r ltac:(lia)) as (row & Hrow).
  destruct (nth_error_lt_Some _ c2n r ltac:(lia)) as (nrow & Hnrow).
  apply mapM_nth in Hc. destruct Hc as (_ & Hc). destruct (Hc r cm Hcm) as (cs & Hcs & Ncs).
  apply mapM_nth in Hc2. destruct Hc2 as (_ & Hc2). destruct (Hc2 r cm Hcm) as (ns & Hns & Nns).
  destruct (mapM_combine_nth _ _ _ _ _ _ _ Hgc Hrow) as (pc & Hpc & Npc). cbn [fst snd] in Hpc.
  assert (Hgns' : exists y, others gn (Z.of_nat r) (concat (nrow ++ ns)) = Ok y /\ nth_error gns r = Some y).
  { apply mapM_nth in Hgns. destruct Hgns as (_ & Hgns).
    apply (Hgns r (Z.of_nat r, (nrow, ns))).
    rewrite nth_error_combine, ranks_nth, nth_error_combine, Hnrow, Nns by lia. reflexivity. }
  destruct Hgns' as (pn & Hpn & Npn).
  rewrite <- (nth_error_nth _ _ [] Npc) in Hpc. rewrite <- (nth_error_nth _ _ [] Npn) in Hpn.
  destruct (pulls_present clens gc g cms r cm (concat row) Lgc Hs Hcm Hpc ltac:(lia)) as (A1 & A2 & A3).
  destruct (pulls_present nlens gns gn nms r nm (concat (nrow ++ ns)) Lgn Hsn Hnm Hpn ltac:(lia)) as (B1 & B2 & B3).
  exists cm, nm, cs, ns. do 8 (split; [assumption|]).
  split; [eapply pull_rows_spec; eauto|]. split; [eapply pull_rows_spec; eauto|].
  rewrite (nth_error_nth _ _ [] Hrow), (nth_error_nth _ _ [] Hnrow).
  split; apply concat_Forall; assumption.
Qed.

Lemma present_valid lens ms r m v : mapped lens ms -> nth_error ms r = Some m ->
  present lens r m v -> item_at lens v <> None.
Proof.
  intros M Hm (x & Hx). pose proof (mapped_good _ _ _ _ M Hm) as (Hr & _). unfold local_item in Hx.
  destruct (Nat.ltb_spec x (nth r lens 0%nat)).
  - injection Hx as <-. destruct (nth_error_lt_Some _ lens r Hr) as (l & Hl).
    rewrite (nth_error_nth _ _ 0%nat Hl) in *.
    assert (E : item_at lens (Z.of_nat (list_sum (firstn r lens) + x)) = Some (r, x)).
    { apply item_at_spec. split; eauto. }
    rewrite E. discriminate.
  - apply nth_error_In in Hx. destruct M as [(pulls & g & Hl & H1)|(L & g & HL & H1)].
    + destruct (built_nth _ _ _ _ _ (conj Hl (ex_intro _ g H1)) Hm) as (_ & -> & Hv & Hp).
      apply gi_In in Hx; auto. rewrite Forall_forall in Hv.
      specialize (Hv (nth r pulls []) ltac:(apply nth_In; lia)). rewrite Forall_forall in Hv.
      exact (Hv v Hx).
    + apply setup_push_inv in H1; [|exact HL]. subst ms.
      rewrite nth_error_map_, nth_error_seq in Hm.
      destruct (Nat.ltb_spec r (length lens)); [|discriminate]. injection Hm as <-.
      cbn [pexpected ghostIndex] in Hx. apply in_concat in Hx. destruct Hx as (l & Hin & Hv).
      apply in_map_iff in Hin. destruct Hin as (s & <- & Hs). apply in_seq in Hs.
      apply in_map_iff in Hv. destruct Hv as (i & <- & Hi).
      rewrite (glob_item lens s i); [discriminate|lia|].
      eapply seg_of_valid; eauto. lia.
Qed.

Lemma valid_lt lens v : Z.of_nat (list_sum lens) <= int64_max -> item_at lens v <> None -> 0 <= v < int64_max.
Proof.
  intros H N. assert (~ (v < 0 \/ Z.of_nat (list_sum lens) <= v)) by (now rewrite <- item_at_None). lia.
Qed.

Lemma son_rows_Forall (P : list Z -> Prop) lens ms r m rows son :
  mapped lens ms -> nth_error ms r = Some m -> son_rows lens rows m son ->
  (forall s i row, nth_error (nth s rows []) i = Some row -> P row) -> Forall P son.
Proof.
  intros M Hm (L & H) HP. apply Forall_forall. intros row Hrow. apply In_nth_error in Hrow.
  destruct Hrow as (k & Hk). destruct (nth_error_lt_Some _ (ghostIndex m) k) as (q & Hq).
  { rewrite <- L. eapply nth_error_Some_lt; eauto. }
  pose proof (present_valid lens ms r m q M Hm) as V.
  specialize (V (ghost_present lens r m q ltac:(eapply nth_error_In; eauto))).
  destruct (item_at lens q) as [[s i]|] eqn:E; [|contradiction].
  specialize (H k q s i Hq E). rewrite Hk in H. symmetry in H. eauto.
Qed.

Lemma primary_after_ghosts nlens c2c c2n G r b2c b2n :
  let clens := map (@length (list Z)) c2c in
  length nlens = length c2c ->
  Z.of_nat (list_sum clens) <= int64_max -> Z.of_nat (list_sum nlens) <= int64_max ->
  BuildGhostPrimary (map Z.of_nat nlens) c2c c2n = Ok G -> (r < length c2c)%nat ->
  Forall (fun row => match row with
                     | [] => False
                     | v :: t => owned_by clens r v /\ Forall (fun w => w = UnInitIndex \/ item_at clens w <> None) t
                     end) b2c ->
  Forall (Forall (fun q => exists cell, In cell (nth r c2n []) /\ In q cell)) b2n ->
  exists cm nm c2cs c2ns p',
    nth_error (cellMaps G) r = Some cm /\ nth_error (nodeMaps G) r = Some nm /\
    nth_error (c2cSon G) r = Some c2cs /\ nth_error (c2nSon G) r = Some c2ns /\
    let p := {| cell2cell := nth r c2c [] ++ c2cs; bnd2cell := b2c;
                cell2node := nth r c2n [] ++ c2ns; bnd2node := b2n |} in
    AdjGlobal2LocalPrimary cm nm (Adj_PointToGlobal, p) = Ok (Adj_PointToLocal, p') /\
    AdjLocal2GlobalPrimary cm nm (Adj_PointToLocal, p') = Ok (Adj_PointToGlobal, p) /\
    forall i j row x, (i < nth r clens 0)%nat ->
      nth_error (cell2cell p') i = Some row -> nth_error row j = Some x ->
      0 <= x < Z.of_nat (nth r clens 0%nat + length c2cs).
Proof.
  intros clens Hn Hcs Hns HG Hr Hb Hbn.
  destruct (ghosts_resolve _ _ _ _ Hn HG) as (Mc & Mn & El & H).
  fold clens in Mc, El, H.
  assert (VC : forall s i row, nth_error (nth s c2c []) i = Some row -> Forall (fun v => item_at clens v <> None) row).
  { intros s i row Hi. destruct (le_lt_dec (length c2c) s) as [L|L].
    - rewrite nth_overflow in Hi by exact L. destruct i; discriminate.
    - destruct (H s L) as (cm & _ & _ & _ & Hcm & _ & _ & _ & _ & _ & _ & _ & _ & _ & P & _).
      unfold all_present in P. rewrite Forall_forall in P. specialize (P row ltac:(eapply nth_error_In; eauto)).
      eapply Forall_impl; [|exact P]. intros v Hv. eapply present_valid; eauto. }
  destruct (H r Hr) as (cm & nm & c2cs & c2ns & Hcm & Hnm & Hc & Hc2 & Ac & An & Oc & On & S1 & S2 & P1 & P2).
  exists cm, nm, c2cs, c2ns.
  set (p := {| cell2cell := nth r c2c [] ++ c2cs; bnd2cell := b2c;
               cell2node := nth r c2n [] ++ c2ns; bnd2node := b2n |}).
  assert (EC : entries_ok (cell2cell p)).
  { unfold entries_ok, p. cbn [cell2cell]. apply Forall_app. split.
    - apply Forall_forall. intros row Hrow. apply In_nth_error in Hrow. destruct Hrow as (i & Hi).
      eapply Forall_impl; [|exact (VC _ _ _ Hi)]. intros v Hv. right. exact (valid_lt _ _ Hcs Hv).
    - eapply son_rows_Forall; [exact Mc|exact Hcm|exact S1|]. intros s i row Hi.
      eapply Forall_impl; [|exact (VC _ _ _ Hi)]. intros v Hv. right. exact (valid_lt _ _ Hcs Hv). }
  assert (PV : forall rows, all_present nlens r nm rows -> Forall (Forall (fun v => 0 <= v < int64_max)) rows).
  { intros rows P. eapply Forall_impl; [|exact P]. intros row Q. eapply Forall_impl; [|exact Q].
    intros v Hv. eapply valid_lt; [exact Hns|]. eapply present_valid; eauto. }
  assert (PB : all_present nlens r nm b2n).
  { unfold all_present. eapply Forall_impl; [|exact Hbn]. intros row Q. eapply Forall_impl; [|exact Q].
    intros v (cell & Hcell & Hv). unfold all_present in P2. rewrite Forall_forall in P2.
    specialize (P2 cell ltac:(apply in_or_app; now left)). rewrite Forall_forall in P2. auto. }
  assert (OV : forall v, owned_by clens r v -> 0 <= v < int64_max).
  { intros v (k & Hk). eapply valid_lt; [exact Hcs|]. congruence. }
  destruct (primary_roundtrip clens nlens (cellMaps G) (nodeMaps G) r cm nm p) as (p' & R1 & R2); auto.
  - unfold entries_ok, p. cbn [bnd2cell]. eapply Forall_impl; [|exact Hb].
    intros [|v t]; [contradiction|]. intros [Hv Ht]. constructor.
    + right. auto.
    + eapply Forall_impl; [|exact Ht]. intros w [->|Hw]; [now left|right]. exact (valid_lt _ _ Hcs Hw).
  - unfold p. cbn [bnd2cell]. eapply Forall_impl; [|exact Hb]. intros [|v t]; [trivial|]. intros [Hv _]. auto.
  - unfold first_present, p. cbn [bnd2cell]. eapply Forall_impl; [|exact Hb]. intros [|v t]; [trivial|].
    intros [Hv _]. apply own_present; [|exact Hv]. unfold clens. now rewrite map_length.
  - exists p'. do 4 (split; [assumption|]). cbv zeta. split; [exact R1|]. split; [exact R2|].
    intros i j row x Hi Hrow Hx.
    unfold AdjGlobal2LocalPrimary in R1. cbn [is_global assert_ bind] in R1.
    apply bind_Ok in R1. destruct R1 as (c2c' & E1 & R1).
    apply bind_Ok in R1. destruct R1 as (b2c' & _ & R1). apply bind_Ok in R1. destruct R1 as (c2n' & _ & R1).
    apply bind_Ok in R1. destruct R1 as (b2n' & _ & R1). injection R1 as <-. cbn [cell2cell] in Hrow.
    unfold p in E1. cbn [cell2cell] in E1. apply mapM_nth in E1. destruct E1 as (_ & E1).
    assert (Lr : length (nth r c2c []) = nth r clens 0%nat).
    { unfold clens. change 0%nat with (@length (list Z) []). now rewrite map_nth. }
    destruct (nth_error_lt_Some _ (nth r c2c []) i ltac:(lia)) as (row0 & Hrow0).
    destruct (E1 i row0) as (y & Ey & Ny); [rewrite nth_error_app1 by lia; exact Hrow0|].
    assert (y = row) by congruence. subst y.
    pose proof Ey as Ey'. apply mapM_nth in Ey. destruct Ey as (Ly & Ey).
    destruct (nth_error_lt_Some _ row0 j) as (v & Hv).
    { apply nth_error_Some_lt in Hx. lia. }
    destruct (Ey j v Hv) as (x' & Ex & Nx). assert (x' = x) by congruence. subst x'.
    unfold all_present in P1. rewrite Forall_forall in P1.
    specialize (P1 row0 ltac:(eapply nth_error_In; eauto)). rewrite Forall_forall in P1.
    specialize (P1 v ltac:(eapply nth_error_In; eauto)).
    pose proof (VC _ _ _ Hrow0) as Vv. rewrite Forall_forall in Vv.
    specialize (Vv v ltac:(eapply nth_error_In; eauto)). apply (valid_lt _ _ Hcs) in Vv.
    destruct (entry_range clens (cellMaps G) r cm v x Mc Hcm (or_intror Vv)) as [(k & -> & Hk & _)|(_ & _ & N)]; auto.
    + apply Z.eqb_neq, nonneg_not_unset. lia.
    + destruct S1 as (LS & _). rewrite LS. lia.
    + exfalso. now apply N.
Qed.

Lemma convert_inside f rows out : convert (inside f) rows = Ok out ->
  Forall (Forall (fun v => exists x, f v = Ok x /\ 0 <= x)) rows.
Proof.
  unfold convert. revert out. induction rows as [|row rows IH]; intros out H; [constructor|]. cbn [mapM] in H.
  apply bind_Ok in H. destruct H as (r & Hr & H). apply bind_Ok in H. destruct H as (rs & Hrs & _).
  constructor; [|eapply IH; eauto]. clear - Hr. revert r Hr. induction row as [|v row IH]; intros r H; [constructor|]. cbn [mapM] in H.
  apply bind_Ok in H. destruct H as (x & Hx & H). apply bind_Ok in H. destruct H as (xs & Hxs & _).
  constructor; [|eapply IH; eauto]. unfold inside in Hx. apply bind_Ok in Hx. destruct Hx as (y & Hy & Hx).
  exists y. split; auto. destruct (Z.leb_spec 0 y); auto. discriminate.
Qed.

Lemma inside_present nlens nms r nm rows out : mapped nlens nms -> nth_error nms r = Some nm ->
  Forall (Forall (fun v => 0 <= v < int64_max)) rows ->
  convert (inside (IndexGlobal2Local nm)) rows = Ok out -> all_present nlens r nm rows.
Proof.
  intros M Hr Hv H. apply convert_inside in H. unfold all_present. rewrite Forall_forall in *. intros row Hi.
  specialize (Hv row Hi). specialize (H row Hi). rewrite Forall_forall in *. intros v Hv'. specialize (Hv v Hv'). destruct (H v Hv') as (x & Hx & P).
  destruct (entry_range nlens nms r nm v x M Hr) as [(k & _ & _ & L)|(_ & N & _)]; auto.
  - right. lia.
  - unfold UnInitIndex. pose proof (eq_refl : int64_min < 0) . lia.
  - exists k. exact L.
  - lia.
Qed.

Lemma primary_checked nlens nms r cm nm s p s' q : mapped nlens nms -> nth_error nms r = Some nm ->
  Forall (Forall (fun v => 0 <= v < int64_max)) (cell2node p) ->
  Forall (Forall (fun v => 0 <= v < int64_max)) (bnd2node p) ->
  AdjGlobal2LocalPrimary cm nm (s, p) = Ok (s', q) ->
  s = Adj_PointToGlobal /\ s' = Adj_PointToLocal /\ all_present nlens r nm (cell2node p) /\ all_present nlens r nm (bnd2node p).
Proof.
  intros M Hr H1 H2 H. unfold AdjGlobal2LocalPrimary in H.
  destruct s; try discriminate. cbn [is_global assert_ bind] in H.
  apply bind_Ok in H. destruct H as (c2c & _ & H). apply bind_Ok in H. destruct H as (b2c & _ & H).
  apply bind_Ok in H. destruct H as (c2n & Hc & H). apply bind_Ok in H. destruct H as (b2n & Hb & H). inversion H; subst.
  split; auto. split; auto. split; eapply inside_present; eauto.
Qed.

Lemma states_checked cm nm fm bg r bsize p f c n :
  (forall s, s <> Adj_PointToGlobal -> AdjGlobal2LocalPrimary cm nm (s, p) = Abort /\
     AdjGlobal2LocalFacial cm nm (s, f) = Abort /\ AdjGlobal2LocalC2F fm (s, c) = Abort /\ AdjGlobal2LocalN2CB cm bg r (s, n) = Abort) /\
  (forall s, s <> Adj_PointToLocal -> AdjLocal2GlobalPrimary cm nm (s, p) = Abort /\
     AdjLocal2GlobalFacial cm nm (s, f) = Abort /\ AdjLocal2GlobalC2F fm (s, c) = Abort /\ AdjLocal2GlobalN2CB cm bg r bsize (s, n) = Abort).
Proof.
  destruct f, n. split; intros [| |] H; try congruence; repeat split.
Qed.
Lemma noson_checked g r size i : 0 <= i -> size <= i -> IndexLocal2Global_NoSon g r size i = Abort.
Proof.
  intros H1 H2. unfold IndexLocal2Global_NoSon. destruct (Z.eqb_spec i UnInitIndex) as [->|_]; [discriminate H1 || (exfalso; revert H1; vm_compute; auto)|].
  destruct (Z.ltb_spec i 0); [lia|]. destruct (Z.ltb_spec i size); [lia|]. reflexivity.
Qed.
