(** Proofs about the recovery of the relations between cells. *)
From Coq Require Import List ZArith Lia Bool Arith Permutation.
From Verif Require Import Base.Prelude Base.PreludeFacts Base.MPIModel Base.MPIFacts DNDS.DefinesModel
  DNDS.IndexMappingModel DNDS.IndexMappingSpec DNDS.IndexMappingProofs DNDS.GhostPullProofs
  DNDS.GhostSearchProofs DNDS.GhostPushProofs DNDS.ExchangeSpec
  Geom.AdjModel Geom.AdjSpec Geom.AdjProofs Geom.NodeCellModel Geom.NodeCellSpec Geom.NodeCellProofs.
Import ListNotations.
Local Open Scope Z_scope.

Lemma zset_In l x : In x (zset l) <-> In x l.
Proof. apply zsort_uniq_In. Qed.
Lemma zset_asc l : ascending (zset l).
Proof. exact (distinct_sasc l). Qed.

Lemma place_of_spec t q i : place_of t q = Some i -> In (q, i) t.
Proof.
  unfold place_of.
  assert (G : forall o, (forall j, o = Some j -> In (q, j) t) -> forall l, incl l t ->
    fold_left (fun o p => if fst p =? q then Some (snd p) else o) l o = Some i -> In (q, i) t).
  { intros o Ho l. revert o Ho. induction l as [|(n, j) l IH]; intros o Ho Hl H; cbn in H; [auto|].
    apply (IH (if n =? q then Some j else o)); [|intros x Hx; apply Hl; now right|exact H].
    destruct (Z.eqb_spec n q) as [->|]; [|auto]. intros k E. injection E as <-. apply Hl. now left. }
  apply G; [discriminate|apply incl_refl].
Qed.

Lemma local_item_total lens r m x : (x < nth r lens 0%nat + length (ghostIndex m))%nat ->
  exists v, local_item lens r m x = Some v.
Proof.
  intro H. unfold local_item. destruct (Nat.ltb_spec x (nth r lens 0%nat)); [eauto|].
  apply nth_error_lt_Some. lia.
Qed.

(** The row found for a node is its row. *)
Lemma cells_at_spec lens pulls g ms n2c r m father son t q row :
  lens = map (@length (list Z)) n2c ->
  length pulls = length lens -> setup_pull (map Z.of_nat lens) pulls = Ok (g, ms) ->
  nth_error ms r = Some m -> nth_error n2c r = Some father ->
  pull_rows g n2c m = Ok son ->
  place_table m (length father + length son) = Ok t ->
  cells_at t (father ++ son) q = Ok row -> row_of n2c q = Some row.
Proof.
  intros El Hl Hs Hm Hf Hson Ht H.
  assert (M : mapped lens ms) by (left; eauto).
  pose proof (mapped_good _ _ _ _ M Hm) as G.
  unfold cells_at in H. destruct (place_of t q) as [i|] eqn:E; [|discriminate].
  apply place_of_spec in E. apply In_nth_error in E. destruct E as (k & Hk).
  unfold place_table in Ht. apply mapM_nth in Ht. destruct Ht as (Lt & Ht). rewrite ranks_length in Lt.
  pose proof (nth_error_Some_lt _ _ _ _ Hk) as Lk.
  destruct (Ht k (Z.of_nat k)) as (y & E1 & E2); [apply ranks_nth; lia|].
  assert (y = (q, i)) by congruence. subst y.
  apply bind_Ok in E1. destruct E1 as (q' & E1 & E3). injection E3 as -> <-.
  destruct (pull_rows_spec lens g n2c m son (setup_align _ _ _ _ Hs) Hson) as (Ls & Hrows).
  assert (Lf : nth r lens 0%nat = length father).
  { rewrite El. change 0%nat with (@length (list Z) []). rewrite map_nth, (nth_error_nth _ _ _ Hf). reflexivity. }
  destruct (local_item_total lens r m k) as (v & Hv); [lia|].
  rewrite (map_local _ _ _ _ _ G Hv) in E1. injection E1 as ->.
  apply vget_Ok in H. destruct H as (_ & H). rewrite Nat2Z.id in H.
  unfold local_item in Hv. unfold row_of. rewrite <- El.
  destruct (Nat.ltb_spec k (nth r lens 0%nat)).
  - injection Hv as <-. rewrite nth_error_app1 in H by lia.
    assert (E : item_at lens (Z.of_nat (list_sum (firstn r lens) + k)) = Some (r, k)).
    { apply item_at_spec. split; [|reflexivity]. exists (nth r lens 0%nat). split; [|lia].
      apply nth_error_nth'. destruct G as (G & _). exact G. }
    rewrite E, (nth_error_nth _ _ _ Hf). exact H.
  - rewrite nth_error_app2 in H by lia.
    pose proof (present_valid lens ms r m q M Hm (ghost_present lens r m q (nth_error_In _ _ Hv))) as V.
    destruct (item_at lens q) as [[s j]|] eqn:Ei; [|contradiction].
    rewrite <- (Hrows _ q s j Hv Ei). now rewrite <- Lf in H.
Qed.

Section Recovered.
  Variables (c2n n2c : list (list (list Z))).
  Let clens := map (@length (list Z)) c2n.
  Let nlens := map (@length (list Z)) n2c.
  Hypothesis Inv : inverse_of c2n n2c nlens.
  Variable at_ : Z -> res (list Z).
  Hypothesis At : forall q row, at_ q = Ok row -> row_of n2c q = Some row.

  Lemma at_In q row c : at_ q = Ok row -> (In c row <-> has_node c2n c q).
  Proof. intro H. destruct Inv as (_ & I). destruct (I q row (At _ _ H)) as (_ & J). apply J. Qed.

  Lemma mapM_concat_In cell rows : mapM at_ cell = Ok rows ->
    forall c, In c (concat rows) <-> exists q, In q cell /\ has_node c2n c q.
  Proof.
    revert rows. induction cell as [|q cell IH]; intros rows H c; cbn [mapM] in H.
    - injection H as <-. cbn. split; [tauto|]. intros (q & [] & _).
    - apply bind_Ok in H. destruct H as (row & Hq & H). apply bind_Ok in H. destruct H as (rs & Hrs & E).
      injection E as <-. cbn [concat]. rewrite in_app_iff, (IH _ Hrs c), (at_In q row c Hq).
      split.
      + intros [H|(q' & Hq' & H)]; [exists q; split; [now left|auto]|exists q'; split; [now right|auto]].
      + intros (q' & [<-|Hq'] & H); [auto|right; eauto].
  Qed.

  Lemma cell_neighbours_spec gc r i cell row :
    setMPIAlignBcast (map Z.of_nat clens) = Ok gc -> nth_error (nth r c2n []) i = Some cell ->
    (r < length c2n)%nat ->
    cell_neighbours gc (Z.of_nat r) (zlen (nth r c2n [])) at_ (Z.of_nat i) cell = Ok row ->
    ascending row /\ forall d, In d row <-> neighbours c2n (glob clens r i) d.
  Proof.
    intros Hgc Hi Hr H. unfold cell_neighbours in H.
    apply bind_Ok in H. destruct H as (rows & Hrows & H).
    assert (Nc : nth r clens 0%nat = length (nth r c2n [])).
    { unfold clens. change 0%nat with (@length (list Z) []). now rewrite map_nth. }
    replace (zlen (nth r c2n [])) with (Z.of_nat (nth r clens 0%nat)) in H by (unfold zlen; lia).
    pose proof (nth_error_Some_lt _ _ _ _ Hi) as Li.
    rewrite (noson_glob clens gc r i Hgc) in H by (try (unfold clens; rewrite map_length); lia).
    cbn [bind] in H. apply bind_Ok in H. destruct H as (u & _ & H). injection H as <-.
    assert (Own : forall q, has_node c2n (glob clens r i) q <-> In q cell).
    { intro q. unfold has_node, row_of. fold clens.
      rewrite glob_item by (try (unfold clens; rewrite map_length); lia). rewrite Hi.
      split; [intros (x & E & Hq); injection E as <-; auto|eauto]. }
    split.
    - apply filter_sasc. apply zset_asc.
    - intro d. rewrite filter_In, zset_In, (mapM_concat_In _ _ Hrows d).
      destruct (Z.eqb_spec d (glob clens r i)) as [->|N]; cbn [negb].
      + split; [intros (_ & X); discriminate X|intros (X & _); contradiction].
      + split.
        * intros ((q & Hq & Hd) & _). split; [congruence|]. exists q. rewrite Own. auto.
        * intros (_ & q & Hq & Hd). split; [|reflexivity]. exists q. rewrite <- Own. auto.
  Qed.

  Lemma common_cells_spec bnd l : bnd <> [] -> common_cells at_ bnd = Ok l ->
    ascending l /\ forall c, In c l <-> has_all c2n bnd c.
  Proof.
    intros Nb H. unfold common_cells in H. apply bind_Ok in H. destruct H as (s & H & E). injection E as <-.
    assert (G : forall b st s', foldM (fun st q => do row <- at_ q;
            Ok (Some (zset (match st with
                            | None => row
                            | Some cur => filter (fun c => if in_dec Z.eq_dec c cur then true else false) row
                            end)))) st b = Ok s' ->
       (b = [] /\ s' = st) \/ exists l, s' = Some l /\ ascending l /\ forall c, In c l <->
         (match st with None => True | Some cur => In c cur end) /\ has_all c2n b c).
    { induction b as [|q b IH]; intros st s' H0.
      - cbn in H0. injection H0 as <-. auto.
      - right. cbn [foldM] in H0. apply bind_Ok in H0. destruct H0 as (st1 & H1 & H0).
        apply bind_Ok in H1. destruct H1 as (row & Hrow & E). injection E as <-.
        assert (I1 : forall c, In c (zset (match st with
                            | None => row
                            | Some cur => filter (fun c => if in_dec Z.eq_dec c cur then true else false) row
                            end)) <-> (match st with None => True | Some cur => In c cur end) /\ has_node c2n c q).
        { intro c. rewrite zset_In. destruct st as [cur|].
          - rewrite filter_In, (at_In q row c Hrow). destruct (in_dec Z.eq_dec c cur); split; intros (A & B); auto; discriminate.
          - rewrite (at_In q row c Hrow). tauto. }
        destruct (IH _ _ H0) as [(-> & ->)|(l & -> & A & I)].
        + eexists. split; [reflexivity|]. split; [apply zset_asc|]. intro c. rewrite I1.
          split; intros (X & Y); split; auto.
          * intros q' [<-|[]]. exact Y.
          * apply Y. now left.
        + exists l. split; [reflexivity|]. split; [exact A|]. intro c. rewrite I, I1.
          split.
          * intros ((X & Y) & Z0). split; [exact X|]. intros q' [<-|Hq']; auto.
          * intros (X & Y). split; [split; [exact X|apply Y; now left]|intros q' Hq'; apply Y; now right]. }
    destruct (G _ _ _ H) as [(E & _)|(l & -> & A & I)]; [contradiction|].
    split; [exact A|]. intro c. rewrite I. tauto.
  Qed.

  Lemma bnd_cells_spec (p : bool) bnd a b : bnd_cells at_ p bnd = Ok (a, b) ->
    bnd <> [] /\
    if p then a < b /\ forall c, has_all c2n bnd c <-> c = a \/ c = b
    else b = UnInitIndex /\ forall c, has_all c2n bnd c <-> c = a.
  Proof.
    intro H. unfold bnd_cells in H. apply bind_Ok in H. destruct H as (l & Hl & H).
    assert (Nb : bnd <> []).
    { intros ->. cbn in Hl. injection Hl as <-. destruct p; discriminate. }
    split; [exact Nb|]. destruct (common_cells_spec bnd l Nb Hl) as (A & I).
    destruct p; destruct l as [|x [|y [|z l]]]; try discriminate; injection H as <- <-.
    - split; [apply (A 0%nat 1%nat); [lia|reflexivity|reflexivity]|].
      intro c. rewrite <- I. cbn. intuition.
    - split; [reflexivity|]. intro c. rewrite <- I. cbn. intuition.
  Qed.
End Recovered.

Lemma recover_spec c2n n2c bnds out :
  let nlens := map (@length (list Z)) n2c in
  inverse_of c2n n2c nlens -> length n2c = length c2n -> length bnds = length c2n ->
  RecoverCell2CellAndBnd2Cell (map Z.of_nat nlens) c2n bnds n2c = Ok out ->
  (map (@length (list Z)) (map fst out) = map (@length (list Z)) c2n /\
   forall c row, row_of (map fst out) c = Some row ->
     ascending row /\ forall d, In d row <-> neighbours c2n c d) /\
  (map (@length (Z * Z)) (map snd out) = map (@length (bool * list Z)) bnds /\
   forall b p bnd ab, row_of bnds b = Some (p, bnd) -> row_of (map snd out) b = Some ab ->
     bnd <> [] /\
     if p then fst ab < snd ab /\ forall c, has_all c2n bnd c <-> c = fst ab \/ c = snd ab
     else snd ab = UnInitIndex /\ forall c, has_all c2n bnd c <-> c = fst ab).
Proof.
  intros nlens Inv Ln Lb H. unfold RecoverCell2CellAndBnd2Cell in H.
  apply bind_Ok in H. destruct H as (gn & Hgn & H).
  apply bind_Ok in H. destruct H as (gc & Hgc & H). rewrite zlens_map in Hgc.
  apply bind_Ok in H. destruct H as (pulls & Hpulls & H).
  apply mapM_indexed in Hpulls. destruct Hpulls as (Lp & _). rewrite combine_length in Lp.
  apply bind_Ok in H. destruct H as ((g & ms) & Hs & H). cbn [fst snd] in H. rewrite zlens_map in Hs.
  fold nlens in Hs.
  assert (Lnl : length nlens = length n2c) by apply map_length.
  assert (B : built nlens pulls ms) by (split; [lia|eauto]).
  assert (Lm : length ms = length nlens) by (destruct (built_inv _ _ _ B) as (_ & _ & ->); now rewrite map_length, seq_length).
  apply bind_Ok in H. destruct H as (sons & Hsons & H). apply mapM_nth in Hsons. destruct Hsons as (Lsons & Hsons).
  apply mapM_indexed in H. destruct H as (Lo & Hout). rewrite !combine_length in Lo.
  assert (K : forall r, (r < length c2n)%nat -> exists c2c b2c,
     nth_error out r = Some (c2c, b2c) /\
     length c2c = length (nth r c2n []) /\ length b2c = length (nth r bnds []) /\
     (forall i row, nth_error c2c i = Some row -> ascending row /\
        forall d, In d row <-> neighbours c2n (glob (map (@length (list Z)) c2n) r i) d) /\
     (forall k p bnd ab, nth_error (nth r bnds []) k = Some (p, bnd) -> nth_error b2c k = Some ab -> bnd <> [] /\
        if p then fst ab < snd ab /\ forall c, has_all c2n bnd c <-> c = fst ab \/ c = snd ab
        else snd ab = UnInitIndex /\ forall c, has_all c2n bnd c <-> c = fst ab)).
  { intros r Hr. destruct (nth_error_lt_Some _ c2n r Hr) as (cells & Ec).
    destruct (nth_error_lt_Some _ bnds r ltac:(lia)) as (bs & Eb).
    destruct (nth_error_lt_Some _ ms r ltac:(lia)) as (m & Em).
    destruct (nth_error_lt_Some _ n2c r ltac:(lia)) as (father & Ef).
    destruct (Hsons r m Em) as (son & S1 & S2).
    destruct (Hout r (cells, (bs, (m, (father, son))))) as ((c2c, b2c) & F1 & F2).
    { rewrite !nth_error_combine, Ec, Eb, Em, Ef, S2. reflexivity. }
    cbn iota in F1. apply bind_Ok in F1. destruct F1 as (t & Ht & F1).
    apply bind_Ok in F1. destruct F1 as (c2c' & C1 & F1).
    apply bind_Ok in F1. destruct F1 as (b2c' & C2 & F1). injection F1 as -> ->.
    exists c2c, b2c. split; [exact F2|].
    rewrite (nth_error_nth _ _ _ Ec), (nth_error_nth _ _ _ Eb).
    apply mapM_indexed in C1. destruct C1 as (L1 & C1). cbn [fst snd] in C1.
    apply mapM_nth in C2. destruct C2 as (L2 & C2).
    split; [exact L1|]. split; [exact L2|].
    assert (At : forall q row, cells_at t (father ++ son) q = Ok row -> row_of n2c q = Some row).
    { intros q row. apply (cells_at_spec nlens pulls g ms n2c r m father son t q row); auto. lia. }
    split.
    - intros i row Hrow. destruct (nth_error_lt_Some _ cells i) as (cell & Hcell).
      { apply nth_error_Some_lt in Hrow. lia. }
      destruct (C1 i cell Hcell) as (row' & X1 & X2). assert (row' = row) by congruence. subst row'.
      eapply cell_neighbours_spec with (at_ := cells_at t (father ++ son)); eauto;
        rewrite ?(nth_error_nth _ _ _ Ec); eauto.
    - intros k p bnd ab Hk Hab. destruct (C2 k (p, bnd) Hk) as ((a, b) & X1 & X2).
      assert (ab = (a, b)) by congruence. subst ab. cbn [fst snd] in *.
      eapply bnd_cells_spec; eauto. }
  assert (LenA : forall A B (f : list (list (list Z) * list (Z * Z)) -> list (list A)) (rows : list (list B)),
    length (f out) = length c2n -> length rows = length c2n ->
    (forall r, (r < length c2n)%nat -> length (nth r (f out) []) = length (nth r rows [])) ->
    map (@length A) (f out) = map (@length B) rows).
  { intros A B0 f rows E1 E2 E3. apply nth_error_ext. intro r. rewrite !nth_error_map_.
    destruct (le_lt_dec (length c2n) r) as [L|L].
    - assert (nth_error (f out) r = None) as -> by (apply nth_error_None; lia).
      assert (nth_error rows r = None) as -> by (apply nth_error_None; lia). reflexivity.
    - specialize (E3 r L). destruct (nth_error_lt_Some _ (f out) r ltac:(lia)) as (x & Ex).
      destruct (nth_error_lt_Some _ rows r ltac:(lia)) as (y & Ey).
      rewrite (nth_error_nth _ _ _ Ex), (nth_error_nth _ _ _ Ey) in E3. rewrite Ex, Ey. cbn. now rewrite E3. }
  assert (Lo' : length out = length c2n) by lia.
  assert (E1 : map (@length (list Z)) (map fst out) = map (@length (list Z)) c2n).
  { apply (LenA _ _ (map fst)); [now rewrite map_length|reflexivity|]. intros r Hr.
    destruct (K r Hr) as (c2c & b2c & Eo & L1 & _). rewrite <- L1. f_equal.
    apply nth_error_nth. now rewrite nth_error_map_, Eo. }
  assert (E2 : map (@length (Z * Z)) (map snd out) = map (@length (bool * list Z)) bnds).
  { apply (LenA _ _ (map snd)); [now rewrite map_length|exact Lb|]. intros r Hr.
    destruct (K r Hr) as (c2c & b2c & Eo & _ & L1 & _). rewrite <- L1. f_equal.
    apply nth_error_nth. now rewrite nth_error_map_, Eo. }
  split; (split; [assumption|]).
  - intros c row Hrow. unfold row_of in Hrow. rewrite E1 in Hrow.
    destruct (item_at (map (@length (list Z)) c2n) c) as [[r i]|] eqn:Ei; [|discriminate].
    apply item_at_spec in Ei. destruct Ei as ((l & Hl & Hi) & Eq).
    assert (Hr : (r < length c2n)%nat) by (apply nth_error_Some_lt in Hl; now rewrite map_length in Hl).
    destruct (K r Hr) as (c2c & b2c & Eo & _ & _ & X & _).
    rewrite (nth_error_nth (map fst out) r (x := c2c)) in Hrow by (now rewrite nth_error_map_, Eo).
    destruct (X i row Hrow) as (Y1 & Y2). split; [exact Y1|]. intro d. rewrite Y2.
    replace c with (glob (map (@length (list Z)) c2n) r i) by (unfold glob; lia). reflexivity.
  - intros b p bnd ab Hb Hab. unfold row_of in Hb, Hab. rewrite E2 in Hab.
    destruct (item_at (map (@length (bool * list Z)) bnds) b) as [[r i]|] eqn:Ei; [|discriminate].
    apply item_at_spec in Ei. destruct Ei as ((l & Hl & Hi) & Eq).
    assert (Hr : (r < length c2n)%nat) by (apply nth_error_Some_lt in Hl; rewrite map_length in Hl; lia).
    destruct (K r Hr) as (c2c & b2c & Eo & _ & _ & _ & X).
    rewrite (nth_error_nth (map snd out) r (x := b2c)) in Hab by (now rewrite nth_error_map_, Eo).
    eapply X; eauto.
Qed.

Lemma neighbours_sym c2n c d : neighbours c2n c d <-> neighbours c2n d c.
Proof. unfold neighbours. split; intros (N & q & A & B); (split; [congruence|eauto]). Qed.

Lemma recover_symmetric c2n n2c bnds out :
  let nlens := map (@length (list Z)) n2c in
  inverse_of c2n n2c nlens -> length n2c = length c2n -> length bnds = length c2n ->
  RecoverCell2CellAndBnd2Cell (map Z.of_nat nlens) c2n bnds n2c = Ok out ->
  forall c d, (exists row, row_of (map fst out) c = Some row /\ In d row) <->
              (exists row, row_of (map fst out) d = Some row /\ In c row).
Proof.
  intros nlens Inv Ln Lb H. destruct (recover_spec c2n n2c bnds out Inv Ln Lb H) as ((L & K) & _).
  assert (V : forall c d, neighbours c2n c d -> exists row, row_of (map fst out) c = Some row).
  { intros c d (_ & q & (cell & Hc & _) & _). unfold row_of in *. rewrite L.
    destruct (item_at (map (@length (list Z)) c2n) c) as [[r i]|] eqn:E; [|discriminate].
    apply nth_error_Some_lt in Hc.
    assert (E3 : length (nth r (map fst out) []) = length (nth r c2n [])).
    { pose proof (f_equal (fun l => nth r l 0%nat) L) as X. cbv beta in X.
      change 0%nat with (@length (list Z) []) in X. now rewrite !map_nth in X. }
    apply nth_error_lt_Some. lia. }
  assert (G : forall c d, (exists row, row_of (map fst out) c = Some row /\ In d row) <-> neighbours c2n c d).
  { intros c d. split.
    - intros (row & Hrow & Hd). now apply (K c row Hrow).
    - intro N. destruct (V _ _ N) as (row & Hrow). exists row. split; [exact Hrow|]. now apply (K c row Hrow). }
  intros c d. rewrite !G. apply neighbours_sym.
Qed.
