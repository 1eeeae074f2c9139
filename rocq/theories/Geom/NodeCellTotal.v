(** The inversion and the recovery of the neighbours succeed on proper meshes. *)
From Coq Require Import List ZArith Lia Bool Arith Permutation.
From Verif Require Import Base.Prelude Base.PreludeFacts Base.MPIModel Base.MPIFacts DNDS.DefinesModel
  DNDS.IndexMappingModel DNDS.IndexMappingSpec DNDS.IndexMappingProofs DNDS.GhostPullProofs
  DNDS.GhostSearchProofs DNDS.GhostPushProofs DNDS.ExchangeSpec
  Geom.AdjModel Geom.AdjSpec Geom.AdjProofs Geom.NodeCellModel Geom.NodeCellSpec Geom.NodeCellProofs Geom.NeighbourProofs.
Import ListNotations.
Local Open Scope Z_scope.

Lemma mapM_total A B (f : A -> res B) l : (forall k x, nth_error l k = Some x -> exists y, f x = Ok y) ->
  exists ys, mapM f l = Ok ys /\ length ys = length l /\
    forall k x y, nth_error l k = Some x -> nth_error ys k = Some y -> f x = Ok y.
Proof.
  intro H. destruct (mapM_Ok_ex A B f l) as (ys & E).
  { intros x Hx. apply In_nth_error in Hx. destruct Hx as (k & Hk). eauto. }
  exists ys. split; [exact E|]. apply mapM_nth in E. destruct E as (L & E). split; [exact L|].
  intros k x y Hx Hy. destruct (E k x Hx) as (y' & E1 & E2). congruence.
Qed.

Lemma concat_length_le A (a b : list (list A)) : length a = length b ->
  (forall k x y, nth_error a k = Some x -> nth_error b k = Some y -> (length x <= length y)%nat) ->
  (length (concat a) <= length (concat b))%nat.
Proof.
  revert b. induction a as [|x a IH]; intros [|y b] L H; try discriminate; [cbn; lia|].
  cbn [concat]. rewrite !app_length. injection L as L.
  pose proof (H 0%nat x y eq_refl eq_refl). specialize (IH b L (fun k => H (S k))). lia.
Qed.

Lemma in_range_valid lens q : 0 <= q < Z.of_nat (list_sum lens) -> exists s j, item_at lens q = Some (s, j).
Proof.
  intro H. destruct (item_at lens q) as [[s j]|] eqn:E; [eauto|]. apply item_at_None in E. lia.
Qed.

Lemma item_range lens q s j : item_at lens q = Some (s, j) -> 0 <= q < Z.of_nat (list_sum lens).
Proof.
  intro E. assert (~ (q < 0 \/ Z.of_nat (list_sum lens) <= q)) by (rewrite <- item_at_None, E; discriminate). lia.
Qed.

Lemma pull_rows_total A lens g (rows : list (list A)) m : setMPIAlignBcast (map Z.of_nat lens) = Ok g ->
  lens = map (@length A) rows -> (forall q, In q (ghostIndex m) -> 0 <= q < Z.of_nat (list_sum lens)) ->
  exists son, pull_rows g rows m = Ok son.
Proof.
  intros Hg El V. apply mapM_Ok_ex. intros q Hq. destruct (in_range_valid lens q (V q Hq)) as (s & j & E).
  rewrite (search_spec _ _ _ Hg), E. apply item_at_spec in E. destruct E as ((l & Hl & Hj) & _).
  rewrite El, nth_error_map_ in Hl. destruct (nth_error rows s) as [row|] eqn:Er; [|discriminate].
  cbn in Hl. injection Hl as <-. rewrite (vget_of_nat _ _ _ _ Er). cbn [bind].
  destruct (nth_error_lt_Some _ row j Hj) as (x & Ex). rewrite (vget_of_nat _ _ _ _ Ex). eauto.
Qed.

(** ** Recovery *)
Lemma ghost_nodes_total nlens gn r rows : setMPIAlignBcast (map Z.of_nat nlens) = Ok gn ->
  Z.of_nat (list_sum nlens) <= int64_max ->
  (forall q, In q (concat rows) -> 0 <= q < Z.of_nat (list_sum nlens)) ->
  exists gh, ghost_nodes gn (Z.of_nat r) rows = Ok gh /\ (length gh <= length (concat rows))%nat /\
    forall q, In q gh <-> In q (concat rows) /\ ~ owned_by nlens r q.
Proof.
  intros Hg Hs V. unfold ghost_nodes.
  assert (X : exists l, mapM (fun i => do x <- IndexGlobal2Local_NoSon gn (Z.of_nat r) i; Ok (if x <? 0 then [i] else [])) (concat rows) = Ok l /\
    (length (concat l) <= length (concat rows))%nat /\
    forall q, In q (concat l) <-> In q (concat rows) /\ ~ owned_by nlens r q).
  { revert V. induction (concat rows) as [|i is IH]; intro V.
    - exists []. split; [reflexivity|]. split; [cbn; lia|]. cbn. tauto.
    - destruct IH as (l & E & L & I); [intros; apply V; now right|]. pose proof (V i (or_introl eq_refl)) as Vi.
      destruct (in_range_valid nlens i Vi) as (s & j & Ei).
      assert (Y : exists x, IndexGlobal2Local_NoSon gn (Z.of_nat r) i = Ok x /\ (x < 0 <-> s <> r)).
      { unfold IndexGlobal2Local_NoSon. rewrite nonneg_not_unset by lia. rewrite (search_spec _ _ _ Hg), Ei.
        destruct (Z.eqb_spec (Z.of_nat s) (Z.of_nat r)) as [Es|Es].
        - exists (Z.of_nat j). split; [reflexivity|]. lia.
        - exists (-1 - i). split; [|lia]. unfold tarith.
          destruct ((int64_min <=? -1 - i) && (-1 - i <=? int64_max)) eqn:T; [reflexivity|].
          apply andb_false_iff in T. unfold int64_min, int64_max in *. destruct T as [T|T]; apply Z.leb_gt in T; lia. }
      destruct Y as (x & Ex & Hx). cbn [mapM]. rewrite Ex. cbn [bind]. rewrite E. cbn [bind].
      eexists. split; [reflexivity|]. cbn [concat]. rewrite app_length.
      assert (Ow : owned_by nlens r i <-> s = r).
      { unfold owned_by. rewrite Ei. split; [intros (w & Hw); congruence|intros ->; eauto]. }
      destruct (Z.ltb_spec x 0) as [Lx|Lx].
      + split; [cbn [length]; lia|]. intro q. cbn [app In]. rewrite I. split.
        * intros [<-|(A & B)]; [|auto]. split; [auto|]. rewrite Ow. tauto.
        * intros ([<-|A] & B); auto.
      + split; [cbn [length]; lia|]. intro q. cbn [app In]. rewrite I. assert (s = r) by (destruct (Nat.eq_dec s r) as [|N]; [auto|apply Hx in N; lia]).
        split; [intros (A & B); auto|]. intros ([<-|A] & B); [|auto]. exfalso. apply B. now apply Ow. }
  destruct X as (l & E & L & I). rewrite E. cbn [bind]. eexists. split; [reflexivity|].
  assert (NL : forall l : list Z, (length (nodup Z.eq_dec l) <= length l)%nat).
  { induction l0 as [|a l0 IHl]; [cbn; lia|]. cbn [nodup]. destruct (in_dec Z.eq_dec a l0); cbn [length]; lia. }
  split; [specialize (NL (concat l)); lia|]. intro q. rewrite nodup_In. apply I.
Qed.

Lemma place_of_total t q : (exists i, In (q, i) t) -> exists i, place_of t q = Some i.
Proof.
  unfold place_of. intros (i & Hi).
  assert (G : forall (l : list (Z * Z)) (o : option Z), (exists j, o = Some j) \/ (exists j, In (q, j) l) ->
    exists j, fold_left (fun o p => if fst p =? q then Some (snd p) else o) l o = Some j).
  { induction l as [|(n, j) l IH]; intros o H; cbn [fold_left fst snd].
    - destruct H as [H|(j & [])]; exact H.
    - apply IH. destruct (Z.eqb_spec n q) as [->|N]; [left; eauto|].
      destruct H as [H|(k & [H|H])]; [left; exact H|congruence|right; eauto]. }
  apply G. right. eauto.
Qed.

Lemma cells_at_total lens pulls g ms n2c r m father son q :
  lens = map (@length (list Z)) n2c ->
  length pulls = length lens -> setup_pull (map Z.of_nat lens) pulls = Ok (g, ms) ->
  nth_error ms r = Some m -> nth_error n2c r = Some father -> pull_rows g n2c m = Ok son ->
  0 <= q < Z.of_nat (list_sum lens) -> (owned_by lens r q \/ In q (nth r pulls [])) ->
  exists t row, place_table m (length father + length son) = Ok t /\ cells_at t (father ++ son) q = Ok row.
Proof.
  intros El Hl Hs Hm Hf Hson V O0.
  assert (M : mapped lens ms) by (left; eauto). pose proof (mapped_good _ _ _ _ M Hm) as G.
  assert (B : built lens pulls ms) by (split; eauto).
  destruct (pull_rows_spec lens g n2c m son (setup_align _ _ _ _ Hs) Hson) as (Ls & _).
  assert (Lf : nth r lens 0%nat = length father).
  { rewrite El. change 0%nat with (@length (list Z) []). rewrite map_nth, (nth_error_nth _ _ _ Hf). reflexivity. }
  unfold place_table.
  destruct (mapM_total _ _ (fun i => do q0 <- mapIndex m (-1) i; Ok (q0, i)) (ranks (length father + length son))) as (t & Et & Lt & Pt).
  { intros k x Hx. pose proof (nth_error_Some_lt _ _ _ _ Hx) as Lk. rewrite ranks_length in Lk.
    rewrite ranks_nth in Hx by lia. injection Hx as <-.
    destruct (local_item_total lens r m k) as (v & Hv); [lia|]. rewrite (map_local _ _ _ _ _ G Hv). cbn [bind]. eauto. }
  exists t. rewrite ranks_length in Lt.
  assert (Q : exists k, (k < length father + length son)%nat /\ local_item lens r m k = Some q).
  { destruct O0 as [(v & Hv)|Hq].
    - apply item_at_spec in Hv. destruct Hv as ((l & Hl' & Hv) & Eq).
      exists v. rewrite (nth_error_nth _ _ _ Hl') in Lf. split; [lia|]. unfold local_item.
      rewrite (nth_error_nth _ _ _ Hl'). destruct (Nat.ltb_spec v l); [|lia]. now rewrite <- Eq.
    - destruct (built_nth _ _ _ _ _ B Hm) as (Hr & Em & Hv & _).
      assert (Hg : In q (ghostIndex m)) by (rewrite Em; apply gi_In; auto; lia).
      apply In_nth_error in Hg. destruct Hg as (k & Hk). pose proof (nth_error_Some_lt _ _ _ _ Hk).
      exists (nth r lens 0 + k)%nat. split; [lia|]. unfold local_item.
      destruct (Nat.ltb_spec (nth r lens 0 + k)%nat (nth r lens 0%nat)); [lia|].
      now replace (nth r lens 0 + k - nth r lens 0)%nat with k by lia. }
  destruct Q as (k & Lk & Hk).
  destruct (nth_error_lt_Some _ t k ltac:(lia)) as (p & Ep).
  pose proof (Pt k (Z.of_nat k) p ltac:(now rewrite ranks_nth by lia) Ep) as E1. cbv beta in E1.
  rewrite (map_local _ _ _ _ _ G Hk) in E1. cbn [bind] in E1. injection E1 as <-.
  destruct (place_of_total t q) as (i & Hi); [exists (Z.of_nat k); eapply nth_error_In; eauto|].
  pose proof (place_of_spec _ _ _ Hi) as Hin. apply In_nth_error in Hin. destruct Hin as (k' & Hk').
  assert (i = Z.of_nat k' /\ (k' < length father + length son)%nat) as (-> & Lk').
  { pose proof (nth_error_Some_lt _ _ _ _ Hk'). split; [|lia].
    pose proof (Pt k' (Z.of_nat k') (q, i) ltac:(now rewrite ranks_nth by lia) Hk') as E1. cbv beta in E1.
    apply bind_Ok in E1. destruct E1 as (q0 & _ & E1). congruence. }
  destruct (nth_error_lt_Some _ (father ++ son) k') as (row & Erow); [rewrite app_length; lia|].
  exists row. split; [exact Et|]. unfold cells_at. rewrite Hi. now apply vget_of_nat.
Qed.

Lemma asc_one l a : ascending l -> (forall c, In c l <-> c = a) -> l = [a].
Proof.
  intros A I. destruct l as [|x [|y l]].
  - exfalso. assert (In a []) by (now apply I). contradiction.
  - f_equal. apply I. now left.
  - exfalso. assert (x < y) by (apply (A 0%nat 1%nat); [lia|reflexivity|reflexivity]).
    assert (x = a) by (apply I; now left). assert (y = a) by (apply I; right; now left). lia.
Qed.
Lemma asc_two l a b : ascending l -> a < b -> (forall c, In c l <-> c = a \/ c = b) -> l = [a; b].
Proof.
  intros A Lab I. destruct l as [|x [|y [|z l]]].
  - exfalso. assert (In a []) by (apply I; auto). contradiction.
  - exfalso. assert (In a [x]) as [->|[]] by (apply I; auto). assert (In b [a]) as [->|[]] by (apply I; auto). lia.
  - assert (x < y) by (apply (A 0%nat 1%nat); [lia|reflexivity|reflexivity]).
    assert (x = a \/ x = b) by (apply I; now left). assert (y = a \/ y = b) by (apply I; right; now left).
    f_equal; [lia|]. f_equal. lia.
  - exfalso. assert (x < y) by (apply (A 0%nat 1%nat); [lia|reflexivity|reflexivity]).
    assert (y < z) by (apply (A 1%nat 2%nat); [lia|reflexivity|reflexivity]).
    assert (x = a \/ x = b) by (apply I; now left). assert (y = a \/ y = b) by (apply I; right; now left).
    assert (z = a \/ z = b) by (apply I; right; right; now left). lia.
Qed.

Lemma common_cells_total at_ bnd : (forall q, In q bnd -> exists row, at_ q = Ok row) ->
  exists l, common_cells at_ bnd = Ok l.
Proof.
  intro H. unfold common_cells.
  assert (G : forall st, exists s, foldM (fun st q => do row <- at_ q;
            Ok (Some (zset (match st with
                            | None => row
                            | Some cur => filter (fun c => if in_dec Z.eq_dec c cur then true else false) row
                            end)))) st bnd = Ok s).
  { induction bnd as [|q bnd IH]; intro st; cbn [foldM]; [eauto|].
    destruct (H q (or_introl eq_refl)) as (row & ->). cbn [bind]. apply IH. intros; apply H; now right. }
  destruct (G None) as (s & ->). cbn [bind]. eauto.
Qed.

Lemma recover_total c2n n2c bnds :
  let nlens := map (@length (list Z)) n2c in
  inverse_of c2n n2c nlens -> length n2c = length c2n -> length bnds = length c2n ->
  Z.of_nat (list_sum nlens) <= int64_max -> zlen (concat c2n) <= int64_max ->
  zlen (concat (concat c2n)) + zlen (concat (map snd (concat bnds))) <= int32_max ->
  (forall cell, In cell (concat c2n) -> cell <> [] /\ Forall (fun q => 0 <= q < Z.of_nat (list_sum nlens)) cell) ->
  (forall p bnd, In (p, bnd) (concat bnds) -> two_or_one c2n p bnd) ->
  exists out, RecoverCell2CellAndBnd2Cell (map Z.of_nat nlens) c2n bnds n2c = Ok out.
Proof.
  intros nlens Inv Ln Lb Hn Hc Hb Cells Bnds. unfold RecoverCell2CellAndBnd2Cell.
  assert (Lnl : length nlens = length n2c) by apply map_length.
  assert (Node : forall c q, has_node c2n c q -> 0 <= q < Z.of_nat (list_sum nlens)).
  { intros c q (cell & Hrow & Hq). unfold row_of in Hrow. destruct (item_at _ c) as [[s j]|]; [|discriminate].
    assert (In cell (concat c2n)).
    { apply in_concat. exists (nth s c2n []). split; [|eapply nth_error_In; eauto].
      destruct (le_lt_dec (length c2n) s) as [L|L]; [|now apply nth_In].
      rewrite nth_overflow in Hrow by exact L. destruct j; discriminate. }
    destruct (Cells cell H) as (_ & F). rewrite Forall_forall in F. auto. }
  assert (BNode : forall p bnd q, In (p, bnd) (concat bnds) -> In q bnd -> 0 <= q < Z.of_nat (list_sum nlens)).
  { intros p bnd q Hin Hq. destruct (Bnds p bnd Hin) as (_ & T). destruct p.
    - destruct T as (a & b & _ & T). apply (Node a). apply (proj2 (T a)); auto.
    - destruct T as (a & T). apply (Node a). apply (proj2 (T a)); auto. }
  destruct (align_total nlens ltac:(rewrite flat_length; exact Hn)) as (gn & Hgn). rewrite Hgn. cbn [bind].
  set (clens := map (@length (list Z)) c2n).
  assert (Lcl : list_sum clens = length (concat c2n)).
  { unfold clens. clear. induction c2n as [|a l IH]; [reflexivity|]. cbn [map concat]. rewrite app_length, <- IH. reflexivity. }
  destruct (align_total clens ltac:(rewrite flat_length, Lcl; exact Hc)) as (gc & Hgc).
  rewrite zlens_map. fold clens. rewrite Hgc. cbn [bind].
  destruct (mapM_total _ _ (fun x : Z * (list (list Z) * list (bool * list Z)) => ghost_nodes gn (fst x) (fst (snd x) ++ map snd (snd (snd x)))) (indexed (combine c2n bnds))) as (pulls & Ep & Lp & Pp).
  { intros k x Hx. pose proof (nth_error_In _ _ Hx) as Hin. apply indexed_In in Hin. destruct Hin as (r & (cells, bs) & Hr & ->).
    cbn [fst snd]. rewrite nth_error_combine in Hr. destruct (nth_error c2n r) as [c0|] eqn:Ec; [|discriminate].
    destruct (nth_error bnds r) as [b0|] eqn:Eb; [|discriminate]. injection Hr as -> ->.
    destruct (ghost_nodes_total nlens gn r (cells ++ map snd bs) Hgn Hn) as (gh & E & _); [|eauto].
    intros q Hq. apply in_concat in Hq. destruct Hq as (row & Hrow & Hq). apply in_app_iff in Hrow. destruct Hrow as [Hrow|Hrow].
    - destruct (Cells row) as (_ & F); [apply in_concat; exists cells; split; [eapply nth_error_In; eauto|auto]|].
      rewrite Forall_forall in F. auto.
    - apply in_map_iff in Hrow. destruct Hrow as ((p, bnd) & <- & Hbs). apply (BNode p bnd); [|exact Hq].
      apply in_concat. exists bs. split; [eapply nth_error_In; eauto|auto]. }
  rewrite Ep. cbn [bind]. rewrite indexed_length, combine_length in Lp.
  assert (Pull : forall r cells bs, nth_error c2n r = Some cells -> nth_error bnds r = Some bs ->
    exists gh, nth_error pulls r = Some gh /\ (length gh <= length (concat (cells ++ map snd bs)))%nat /\
      forall q, In q gh <-> In q (concat (cells ++ map snd bs)) /\ ~ owned_by nlens r q).
  { intros r cells bs Ec Eb.
    assert (V : forall q, In q (concat (cells ++ map snd bs)) -> 0 <= q < Z.of_nat (list_sum nlens)).
    { intros q Hq. apply in_concat in Hq. destruct Hq as (row & Hrow & Hq). apply in_app_iff in Hrow. destruct Hrow as [Hrow|Hrow].
      - destruct (Cells row) as (_ & F); [apply in_concat; exists cells; split; [eapply nth_error_In; eauto|auto]|].
        rewrite Forall_forall in F. auto.
      - apply in_map_iff in Hrow. destruct Hrow as ((p, bnd) & <- & Hbs). apply (BNode p bnd); [|exact Hq].
        apply in_concat. exists bs. split; [eapply nth_error_In; eauto|auto]. }
    destruct (ghost_nodes_total nlens gn r (cells ++ map snd bs) Hgn Hn V) as (gh & E & L & I).
    pose proof (nth_error_Some_lt _ _ _ _ Ec) as Lr.
    destruct (nth_error_lt_Some _ pulls r ltac:(lia)) as (gh' & Eg).
    pose proof (Pp r (Z.of_nat r, (cells, bs)) gh' ltac:(apply indexed_nth; now rewrite nth_error_combine, Ec, Eb) Eg) as E'.
    cbn [fst snd] in E'. assert (gh' = gh) by congruence. subst gh'. eauto. }
  rewrite zlens_map. fold nlens.
  destruct (setup_pull_total nlens pulls) as (g & ms & Hs); auto.
  { lia. }
  { intros pull q Hp Hq. apply In_nth_error in Hp. destruct Hp as (r & Hr). pose proof (nth_error_Some_lt _ _ _ _ Hr).
    destruct (nth_error_lt_Some _ c2n r ltac:(lia)) as (cells & Ec). destruct (nth_error_lt_Some _ bnds r ltac:(lia)) as (bs & Eb).
    destruct (Pull r cells bs Ec Eb) as (gh & E & _ & I). assert (gh = pull) by congruence. subst gh.
    apply I in Hq. destruct Hq as (Hq & _).
    apply in_concat in Hq. destruct Hq as (row & Hrow & Hq). apply in_app_iff in Hrow. destruct Hrow as [Hrow|Hrow].
    - destruct (Cells row) as (_ & F); [apply in_concat; exists cells; split; [eapply nth_error_In; eauto|auto]|].
      rewrite Forall_forall in F. auto.
    - apply in_map_iff in Hrow. destruct Hrow as ((p, bnd) & <- & Hbs). apply (BNode p bnd); [|exact Hq].
      apply in_concat. exists bs. split; [eapply nth_error_In; eauto|auto]. }
  { assert (L1 : (length (concat pulls) <= length (concat (map (fun cb : list (list Z) * list (bool * list Z) => concat (fst cb ++ map snd (snd cb))) (combine c2n bnds))))%nat).
    { apply concat_length_le; [rewrite map_length, combine_length; lia|].
      intros k x y Hx Hy. rewrite nth_error_map_, nth_error_combine in Hy.
      destruct (nth_error c2n k) as [cells|] eqn:Ec; [|discriminate]. destruct (nth_error bnds k) as [bs|] eqn:Eb; [|discriminate].
      cbn in Hy. injection Hy as <-. destruct (Pull k cells bs Ec Eb) as (gh & E & L & _).
      assert (gh = x) by congruence. subst gh. exact L. }
    assert (L2 : (length (concat (map (fun cb : list (list Z) * list (bool * list Z) => concat (fst cb ++ map snd (snd cb))) (combine c2n bnds)))
       <= length (concat (concat c2n)) + length (concat (map snd (concat bnds))))%nat).
    { clear. revert bnds. induction c2n as [|c c2 IH]; intros [|b bnds]; cbn [combine map concat fst snd]; try (cbn; lia).
      specialize (IH bnds). rewrite !app_length, !concat_app, !map_app, !concat_app, !app_length. lia. }
    unfold zlen in *. lia. }
  rewrite Hs. cbn [bind fst snd].
  assert (B : built nlens pulls ms) by (split; [lia|eauto]).
  assert (Lm : length ms = length nlens) by (destruct (built_inv _ _ _ B) as (_ & _ & ->); now rewrite map_length, seq_length).
  assert (M : mapped nlens ms) by (left; exists pulls, g; split; [lia|auto]).
  destruct (mapM_total _ _ (pull_rows g n2c) ms) as (sons & Es & Ls & Ps).
  { intros k m Hm. apply (pull_rows_total _ nlens g n2c m (setup_align _ _ _ _ Hs) eq_refl).
    intros q Hq. pose proof (present_valid nlens ms k m q M Hm (ghost_present nlens k m q Hq)) as V.
    destruct (item_at nlens q) as [[s j]|] eqn:E; [|contradiction]. eapply item_range; eauto. }
  rewrite Es. cbn [bind]. apply mapM_Ok_ex. intros x Hx. apply indexed_In in Hx. destruct Hx as (r & a & Ha & ->).
  rewrite !nth_error_combine in Ha.
  destruct (nth_error c2n r) as [cells|] eqn:Ec; [|discriminate]. destruct (nth_error bnds r) as [bs|] eqn:Eb; [|discriminate].
  destruct (nth_error ms r) as [m|] eqn:Em; [|discriminate]. destruct (nth_error n2c r) as [father|] eqn:Ef; [|discriminate].
  destruct (nth_error sons r) as [son|] eqn:Eson; [|discriminate]. injection Ha as <-. cbn iota.
  pose proof (nth_error_Some_lt _ _ _ _ Ec) as Lr.
  pose proof (Ps r m son Em Eson) as Hson.
  destruct (Pull r cells bs Ec Eb) as (gh & Egh & _ & I).
  assert (At : forall q, In q (concat (cells ++ map snd bs)) -> exists t row,
     place_table m (length father + length son) = Ok t /\ cells_at t (father ++ son) q = Ok row).
  { intros q Hq. apply (cells_at_total nlens pulls g ms n2c r m father son q); auto; [lia| |].
    - apply in_concat in Hq. destruct Hq as (row & Hrow & Hq). apply in_app_iff in Hrow. destruct Hrow as [Hrow|Hrow].
      + destruct (Cells row) as (_ & F); [apply in_concat; exists cells; split; [eapply nth_error_In; eauto|auto]|].
        rewrite Forall_forall in F. auto.
      + apply in_map_iff in Hrow. destruct Hrow as ((p, bnd) & <- & Hbs). apply (BNode p bnd); [|exact Hq].
        apply in_concat. exists bs. split; [eapply nth_error_In; eauto|auto].
    - rewrite (nth_error_nth _ _ _ Egh). rewrite I.
      assert (D : owned_by nlens r q \/ ~ owned_by nlens r q).
      { unfold owned_by. destruct (item_at nlens q) as [[s j]|]; [|right; intros (? & ?); discriminate].
        destruct (Nat.eq_dec s r) as [->|N]; [left; eauto|right; intros (? & Q); congruence]. }
      tauto. }
  assert (T : exists t, place_table m (length father + length son) = Ok t).
  { destruct (pull_rows_spec nlens g n2c m son (setup_align _ _ _ _ Hs) Hson) as (Lson & _).
    assert (Lf : nth r nlens 0%nat = length father).
    { unfold nlens. change 0%nat with (@length (list Z) []). rewrite map_nth, (nth_error_nth _ _ _ Ef). reflexivity. }
    apply mapM_Ok_ex. intros i Hi. rewrite ranks_spec in Hi. apply in_map_iff in Hi. destruct Hi as (k & <- & Hk). apply in_seq in Hk.
    destruct (local_item_total nlens r m k) as (v & Hv); [lia|].
    rewrite (map_local _ _ _ _ _ (mapped_good _ _ _ _ M Em) Hv). cbn [bind]. eauto. }
  destruct T as (t & Ht). rewrite Ht. cbn [bind].
  assert (At' : forall q, In q (concat (cells ++ map snd bs)) -> exists row, cells_at t (father ++ son) q = Ok row).
  { intros q Hq. destruct (At q Hq) as (t' & row & E1 & E2). assert (t' = t) by congruence. subst. eauto. }
  assert (AtS : forall q row, cells_at t (father ++ son) q = Ok row -> row_of n2c q = Some row).
  { intros q row. apply (cells_at_spec nlens pulls g ms n2c r m father son t q row); auto. lia. }
  destruct (mapM_Ok_ex _ _ (fun ic => cell_neighbours gc (Z.of_nat r) (zlen cells) (cells_at t (father ++ son)) (fst ic) (snd ic)) (indexed cells)) as (c2c & ->).
  { intros ic Hic. apply indexed_In in Hic. destruct Hic as (i & cell & Hi & ->). cbn [fst snd].
    unfold cell_neighbours.
    destruct (mapM_Ok_ex _ _ (cells_at t (father ++ son)) cell) as (rows & Er).
    { intros q Hq. apply At'. apply in_concat. exists cell. split; [|exact Hq]. apply in_or_app. left. eapply nth_error_In; eauto. }
    rewrite Er. cbn [bind].
    assert (Nc : nth r clens 0%nat = length cells).
    { unfold clens. change 0%nat with (@length (list Z) []). rewrite map_nth, (nth_error_nth _ _ _ Ec). reflexivity. }
    replace (zlen cells) with (Z.of_nat (nth r clens 0%nat)) by (unfold zlen; lia).
    pose proof (nth_error_Some_lt _ _ _ _ Hi) as Li.
    rewrite (noson_glob clens gc r i Hgc) by (try (unfold clens; rewrite map_length); lia). cbn [bind].
    destruct (in_dec Z.eq_dec (glob clens r i) (zset (concat rows))) as [Hin|Hin]; [cbn [assert_ bind]; eauto|].
    exfalso. apply Hin. apply zset_In.
    destruct (Cells cell) as (Ne & _); [apply in_concat; exists cells; split; [eapply nth_error_In; eauto|eapply nth_error_In; eauto]|].
    destruct cell as [|q cell]; [contradiction|].
    apply (mapM_concat_In c2n n2c Inv _ AtS _ _ Er). exists q. split; [now left|].
    exists (q :: cell). split; [|now left]. unfold row_of. fold clens.
    rewrite glob_item by (try (unfold clens; rewrite map_length); lia). now rewrite (nth_error_nth _ _ _ Ec). }
  cbn [bind].
  destruct (mapM_Ok_ex _ _ (fun b => bnd_cells (cells_at t (father ++ son)) (fst b) (snd b)) bs) as (b2c & ->).
  { intros (p, bnd) Hb'. cbn [fst snd]. unfold bnd_cells.
    destruct (common_cells_total (cells_at t (father ++ son)) bnd) as (l & El).
    { intros q Hq. apply At'. apply in_concat. exists bnd. split; [|exact Hq]. apply in_or_app. right.
      apply in_map_iff. exists (p, bnd). auto. }
    destruct (Bnds p bnd) as (Ne & T); [apply in_concat; exists bs; split; [eapply nth_error_In; eauto|auto]|].
    destruct (common_cells_spec c2n n2c Inv _ AtS bnd l Ne El) as (A & J). rewrite El. cbn [bind].
    destruct p.
    - destruct T as (a & b & Lab & T). rewrite (asc_two l a b A Lab); [eauto|]. intro c. rewrite J. apply T.
    - destruct T as (a & T). rewrite (asc_one l a A); [eauto|]. intro c. rewrite J. apply T. }
  cbn [bind]. eauto.
Qed.

(** ** Inversion *)
Lemma local_total nlens clens gn gc r cells :
  setMPIAlignBcast (map Z.of_nat nlens) = Ok gn -> setMPIAlignBcast (map Z.of_nat clens) = Ok gc ->
  (r < length clens)%nat -> nth r clens 0%nat = length cells ->
  (forall cell q, In cell cells -> In q cell -> 0 <= q < Z.of_nat (list_sum nlens)) ->
  exists rec gh, local_record gn gc (Z.of_nat r) cells = Ok (rec, gh) /\ (length gh <= length (concat cells))%nat.
Proof.
  intros Hgn Hgc Hr Hc V. unfold local_record.
  assert (G : forall (l : list (Z * list Z)) st, (forall x, In x l -> exists k, nth_error cells k = Some (snd x) /\ fst x = Z.of_nat k) ->
    exists rec gh, foldM (fun st ic => foldM (fun (st : record * list Z) iNode =>
      match gsearch gn iNode with
      | None => Abort
      | Some (rank, _) =>
          do c <- IndexLocal2Global_NoSon gc (Z.of_nat r) (zlen cells) (fst ic);
          Ok (record_insert (fst st) iNode c, if rank =? Z.of_nat r then snd st else snd st ++ [iNode])
      end) st (snd ic)) st l = Ok (rec, gh) /\ (length gh <= length (snd st) + length (concat (map snd l)))%nat).
  { induction l as [|(z, cell) l IH]; intros st Hl; cbn [foldM map concat fst snd].
    - destruct st as (rec, gh). exists rec, gh. split; [reflexivity|]. cbn. lia.
    - destruct (Hl (z, cell) (or_introl eq_refl)) as (k & Hk & Ez). cbn [fst snd] in Hk, Ez. subst z.
      pose proof (nth_error_Some_lt _ _ _ _ Hk) as Lk.
      assert (In1 : forall q, In q cell -> 0 <= q < Z.of_nat (list_sum nlens)) by (intros q Hq; apply (V cell q); [eapply nth_error_In; eauto|auto]).
      assert (X : exists st', foldM (fun (st : record * list Z) iNode =>
        match gsearch gn iNode with
        | None => Abort
        | Some (rank, _) =>
          do c <- IndexLocal2Global_NoSon gc (Z.of_nat r) (zlen cells) (Z.of_nat k);
          Ok (record_insert (fst st) iNode c, if rank =? Z.of_nat r then snd st else snd st ++ [iNode])
        end) st cell = Ok st' /\ (length (snd st') <= length (snd st) + length cell)%nat).
      { clear IH Hl Hk. revert st In1. induction cell as [|n cell IH]; intros st In1; cbn [foldM].
        - exists st. split; [reflexivity|lia].
        - rewrite (search_spec _ _ _ Hgn). destruct (in_range_valid nlens n (In1 n (or_introl eq_refl))) as (s & j & ->).
          replace (zlen cells) with (Z.of_nat (nth r clens 0%nat)) in * by (unfold zlen; lia).
          rewrite (noson_glob clens gc r k Hgc Hr) by lia. cbn [bind].
          match goal with |- context [foldM _ ?s0 cell] => destruct (IH s0) as (st' & E & L); [intros; apply In1; now right|] end.
          rewrite (noson_glob clens gc r k Hgc Hr) in E by lia.
          exists st'. split; [exact E|]. cbn [snd] in L. cbn [length].
          destruct (Z.of_nat s =? Z.of_nat r); [lia|]. rewrite app_length in L. cbn [length] in L. lia. }
      destruct X as (st' & E & L). rewrite E. cbn [bind].
      destruct (IH st') as (rec & gh & E' & L'); [intros; apply Hl; now right|].
      exists rec, gh. split; [exact E'|]. rewrite app_length. lia. }
  destruct (G (indexed cells) ([], [])) as (rec & gh & E & L).
  - intros x Hx. apply indexed_In in Hx. destruct Hx as (k & a & Hk & ->). exists k. auto.
  - exists rec, gh. split; [exact E|]. cbn [snd length] in L. replace (map snd (indexed cells)) with cells in L; [lia|].
    apply nth_error_ext. intro k. rewrite nth_error_map_. destruct (nth_error cells k) as [a|] eqn:Ek.
    + rewrite (indexed_nth _ _ _ _ Ek). reflexivity.
    + symmetry. assert (nth_error (indexed cells) k = None) as ->; [|reflexivity].
      apply nth_error_None. rewrite indexed_length. now apply nth_error_None.
Qed.

Lemma fill_son_total ord lens pulls ms r m rec :
  built lens pulls ms -> nth_error ms r = Some m ->
  (forall q, In q (nth r pulls []) -> ~ owned_by lens r q) ->
  (forall q, In q (nodes_of rec) -> In q (nth r pulls []) \/ owned_by lens r q) ->
  exists son, fill_son ord (Z.of_nat r) rec m = Ok son.
Proof.
  intros B Hm D1 D2. destruct (built_nth _ _ _ _ _ B Hm) as (Hr & Em & Hv & Hl). unfold fill_son.
  assert (G : forall ks s, (forall q, In q ks -> In q (nth r pulls []) \/ owned_by lens r q) -> length s = length (ghostIndex m) ->
    exists s', foldM (fun son k => do o <- search m k;
      match o with None => Abort | Some (rank, val) =>
        if 0 <=? rank then vset son val (ord 0%nat (Z.of_nat r) k (cells_of rec k)) else Ok son end) s ks = Ok s').
  { induction ks as [|n ks IH]; intros s Hks Ls; cbn [foldM]; [eauto|].
    destruct (Hks n (or_introl eq_refl)) as [Hn|(v & Hn)].
    - assert (V : valid lens n).
      { rewrite Forall_forall in Hv. specialize (Hv (nth r pulls []) ltac:(apply nth_In; lia)). rewrite Forall_forall in Hv. auto. }
      unfold valid in V. destruct (item_at lens n) as [[sr v]|] eqn:E; [|contradiction].
      assert (sr <> r) by (intros ->; apply (D1 n Hn); exists v; auto).
      destruct (lookup_ghost lens pulls ms r m (nth r pulls []) n sr v B Hm) as (k & kr & K1 & K2 & _); auto.
      { apply nth_error_nth'. lia. }
      rewrite K2. cbn [bind]. destruct (Z.leb_spec 0 (Z.of_nat sr)); [|lia].
      pose proof (nth_error_Some_lt _ _ _ _ K1). unfold vset.
      destruct ((Z.of_nat k <? 0) || (Z.of_nat (length s) <=? Z.of_nat k)) eqn:T.
      { apply orb_true_iff in T. destruct T as [T|T]; [apply Z.ltb_lt in T|apply Z.leb_le in T]; lia. }
      cbn [bind]. apply IH; [intros; apply Hks; now right|]. now rewrite upd_length.
    - destruct (lookup_main lens pulls ms r m n v B Hm Hn) as (-> & _). cbn [bind Z.leb Z.compare].
      change (0 <=? -1) with false. cbn iota. cbn [bind]. apply IH; [intros; apply Hks; now right|exact Ls]. }
  apply G; [exact D2|apply repeat_length].
Qed.

Lemma inversion_total ord nlens c2n : length nlens = length c2n ->
  Z.of_nat (list_sum nlens) <= int64_max -> zlen (concat c2n) <= int64_max -> zlen (concat (concat c2n)) <= int32_max ->
  (forall cell, In cell (concat c2n) -> Forall (fun q => 0 <= q < Z.of_nat (list_sum nlens)) cell) ->
  exists n2c, GeneralCell2NodeToNode2Cell ord (map Z.of_nat nlens) c2n = Ok n2c.
Proof.
  intros Ln Hn Hc Hb Cells. unfold GeneralCell2NodeToNode2Cell.
  destruct (align_total nlens ltac:(rewrite flat_length; exact Hn)) as (gn & Hgn). rewrite Hgn. cbn [bind].
  set (clens := map (@length (list Z)) c2n).
  assert (Lcl : list_sum clens = length (concat c2n)).
  { unfold clens. clear. induction c2n as [|a l IH]; [reflexivity|]. cbn [map concat]. rewrite app_length, <- IH. reflexivity. }
  destruct (align_total clens ltac:(rewrite flat_length, Lcl; exact Hc)) as (gc & Hgc).
  rewrite zlens_map. fold clens. rewrite Hgc. cbn [bind].
  assert (Lc : length clens = length c2n) by (unfold clens; apply map_length).
  assert (Nc : forall s cells, nth_error c2n s = Some cells -> nth s clens 0%nat = length cells).
  { intros s cells E. unfold clens. change 0%nat with (@length (list Z) []). now rewrite map_nth, (nth_error_nth _ _ _ E). }
  assert (Loc : forall r cells, nth_error c2n r = Some cells -> exists rec gh,
    local_record gn gc (Z.of_nat r) cells = Ok (rec, gh) /\ (length gh <= length (concat cells))%nat).
  { intros r cells E. pose proof (nth_error_Some_lt _ _ _ _ E).
    apply (local_total nlens clens); auto; [lia|].
    intros cell q Hcell Hq. assert (In cell (concat c2n)) by (apply in_concat; exists cells; split; [eapply nth_error_In; eauto|auto]).
    specialize (Cells cell H0). rewrite Forall_forall in Cells. auto. }
  destruct (mapM_total _ _ (fun x : Z * list (list Z) => local_record gn gc (fst x) (snd x)) (indexed c2n)) as (loc & El & Ll & Pl).
  { intros k x Hx. pose proof (nth_error_In _ _ Hx) as Hin. apply indexed_In in Hin. destruct Hin as (r & cells & Er & ->).
    cbn [fst snd]. destruct (Loc r cells Er) as (rec & gh & E & _). eauto. }
  rewrite El. cbn [bind]. rewrite indexed_length in Ll. set (pulls := map snd loc).
  assert (Lp : length pulls = length nlens) by (unfold pulls; rewrite map_length; lia).
  assert (Ge : forall r cells, nth_error c2n r = Some cells -> exists rec gh,
    nth_error loc r = Some (rec, gh) /\ nth_error pulls r = Some gh /\ local_record gn gc (Z.of_nat r) cells = Ok (rec, gh) /\
    (length gh <= length (concat cells))%nat).
  { intros r cells E. destruct (Loc r cells E) as (rec & gh & E1 & L1). pose proof (nth_error_Some_lt _ _ _ _ E).
    destruct (nth_error_lt_Some _ loc r ltac:(lia)) as (p & Ep).
    pose proof (Pl r (Z.of_nat r, cells) p (indexed_nth _ _ _ _ E) Ep) as E2. cbn [fst snd] in E2.
    assert (p = (rec, gh)) by congruence. subst p. exists rec, gh. split; [exact Ep|]. split; [|auto].
    unfold pulls. now rewrite nth_error_map_, Ep. }
  assert (Plen : (length (concat pulls) <= length (concat (concat c2n)))%nat).
  { assert ((length (concat pulls) <= length (concat (map (@concat Z) c2n)))%nat).
    { apply concat_length_le; [rewrite map_length; lia|]. intros k x y Hx Hy. rewrite nth_error_map_ in Hy.
      destruct (nth_error c2n k) as [cells|] eqn:E; [|discriminate]. cbn in Hy. injection Hy as <-.
      destruct (Ge k cells E) as (rec & gh & _ & E2 & _ & L2). assert (gh = x) by congruence. subst gh. exact L2. }
    assert (length (concat (map (@concat Z) c2n)) = length (concat (concat c2n))); [|lia].
    clear. induction c2n as [|a l IH]; [reflexivity|]. cbn [map concat]. now rewrite concat_app, !app_length, IH. }
  destruct (setup_pull_total nlens pulls Lp Hn) as (g & ms & Hs).
  { intros pull q Hp Hq. apply In_nth_error in Hp. destruct Hp as (r & Hr). pose proof (nth_error_Some_lt _ _ _ _ Hr).
    destruct (nth_error_lt_Some _ c2n r ltac:(lia)) as (cells & Ec).
    destruct (Ge r cells Ec) as (rec & gh & _ & E2 & E3 & _). assert (gh = pull) by congruence. subst gh.
    destruct (local_spec nlens clens gn gc r cells Hgn Hgc ltac:(lia) (Nc r cells Ec) rec pull E3) as (_ & _ & R2 & _).
    apply R2 in Hq. destruct Hq as ((cell & Hcell & Hq) & _).
    assert (Hin : In cell (concat c2n)) by (apply in_concat; exists cells; split; [eapply nth_error_In; eauto|auto]).
    specialize (Cells cell Hin). rewrite Forall_forall in Cells. auto. }
  { unfold zlen in *. lia. }
  rewrite Hs. cbn [bind fst snd].
  assert (B : built nlens pulls ms) by (split; [exact Lp|eauto]).
  assert (Lm : length ms = length nlens) by (destruct (built_inv _ _ _ B) as (_ & _ & ->); now rewrite map_length, seq_length).
  assert (Dom : forall r cells rec gh, nth_error c2n r = Some cells -> nth_error pulls r = Some gh ->
    local_record gn gc (Z.of_nat r) cells = Ok (rec, gh) ->
    (forall q, In q (nth r pulls []) -> ~ owned_by nlens r q) /\
    (forall q, In q (nodes_of rec) -> In q (nth r pulls []) \/ owned_by nlens r q) /\
    (forall q, In q (nth r pulls []) -> In q (nodes_of rec))).
  { intros r cells rec gh Ec Eg E. pose proof (nth_error_Some_lt _ _ _ _ Ec). rewrite (nth_error_nth _ _ _ Eg).
    destruct (local_spec nlens clens gn gc r cells Hgn Hgc ltac:(lia) (Nc r cells Ec) rec gh E) as (N & R1 & R2 & R3).
    split; [|split].
    - intros q Hq. now apply R2 in Hq.
    - intros q Hq. apply nodes_of_In in Hq. destruct Hq as (c & Hc'). apply R1 in Hc'.
      destruct Hc' as (j & cell & Hj & Hq & _). pose proof (R3 cell q (nth_error_In _ _ Hj) Hq) as V.
      destruct (item_at nlens q) as [[s v]|] eqn:E'; [|contradiction].
      destruct (Nat.eq_dec s r) as [->|Ns]; [right; exists v; auto|left]. apply R2.
      split; [exists cell; split; [eapply nth_error_In; eauto|auto]|].
      intros (w & Hw). rewrite E' in Hw. injection Hw as <- _. contradiction.
    - intros q Hq. apply R2 in Hq. destruct Hq as ((cell & Hcell & Hq) & _). apply nodes_of_In.
      apply In_nth_error in Hcell. destruct Hcell as (j & Hj). exists (glob clens r j). apply R1. eauto. }
  destruct (mapM_total _ _ (fun x : Z * (record * list Z * ghostmap) => fill_son ord (fst x) (fst (fst (snd x))) (snd (snd x)))
    (indexed (combine loc ms))) as (sons & Es & Lsn & Psn).
  { intros k x Hx. pose proof (nth_error_In _ _ Hx) as Hin. apply indexed_In in Hin. destruct Hin as (r & ((rec, gh), m) & Er & ->).
    cbn [fst snd]. rewrite nth_error_combine in Er. destruct (nth_error loc r) as [p|] eqn:Ep; [|discriminate].
    destruct (nth_error ms r) as [m'|] eqn:Em; [|discriminate]. injection Er as -> ->.
    pose proof (nth_error_Some_lt _ _ _ _ Ep). destruct (nth_error_lt_Some _ c2n r ltac:(lia)) as (cells & Ec).
    destruct (Ge r cells Ec) as (rec' & gh' & E1 & E2 & E3 & _). assert (rec' = rec /\ gh' = gh) as (-> & ->) by (split; congruence).
    destruct (Dom r cells rec gh Ec E2 E3) as (D1 & D2 & _). apply (fill_son_total ord nlens pulls ms r m rec B Em D1 D2). }
  rewrite Es. cbn [bind]. rewrite indexed_length, combine_length in Lsn.
  assert (Hrows : map zlen sons = map (fun m => zlen (ghostIndex m)) ms).
  { apply nth_error_ext. intro r. rewrite !nth_error_map_. destruct (le_lt_dec (length c2n) r) as [L|L].
    - assert (nth_error sons r = None) as -> by (apply nth_error_None; lia).
      assert (nth_error ms r = None) as -> by (apply nth_error_None; lia). reflexivity.
    - destruct (nth_error_lt_Some _ c2n r L) as (cells & Ec). destruct (Ge r cells Ec) as (rec & gh & E1 & E2 & E3 & _).
      destruct (nth_error_lt_Some _ ms r ltac:(lia)) as (m & Em). destruct (nth_error_lt_Some _ sons r ltac:(lia)) as (son & Eson).
      rewrite Em, Eson. cbn [option_map]. f_equal.
      pose proof (Psn r (Z.of_nat r, ((rec, gh), m)) son ltac:(apply indexed_nth; now rewrite nth_error_combine, E1, Em) Eson) as F.
      cbn [fst snd] in F. destruct (Dom r cells rec gh Ec E2 E3) as (D1 & D2 & D3).
      destruct (fill_son_spec ord nlens pulls ms r m rec son B Em D1 D2 D3 F) as (E & _). unfold zlen. lia. }
  rewrite (back_L nlens pulls ms B sons Hrows). rewrite (back_sizes sons).
  pose proof (back_ok nlens pulls ms B sons Hrows) as OK.
  set (L := map (fun m_r => offs (rsegs nlens (nth m_r pulls []))) (seq 0 (length nlens))) in *.
  assert (LL : (length (concat (concat L)) <= length (concat pulls))%nat).
  { assert (E : forall l, (length (concat (concat (map (fun m_r => offs (rsegs nlens (nth m_r pulls []))) l))) <=
       length (concat (map (fun r => nth r pulls []) l)))%nat \/ exists r, In r l /\ (length nlens <= r)%nat).
    { induction l as [|r l IH]; [left; cbn; lia|]. destruct IH as [IH|(r' & H1 & H2)]; [|right; exists r'; split; [now right|auto]].
      destruct (le_lt_dec (length nlens) r) as [Lr|Lr]; [right; exists r; split; [now left|auto]|]. left.
      cbn [map concat]. rewrite concat_app, !app_length, offs_concat, seq_length.
      assert (length (concat (rsegs nlens (nth r pulls []))) <= length (nth r pulls []))%nat; [|lia].
      destruct (built_inv _ _ _ B) as (_ & Hv & _).
      assert (X : Forall (valid nlens) (nth r pulls [])) by (rewrite Forall_forall in Hv; apply Hv; apply nth_In; lia).
      rewrite <- (distinct_concat nlens (nth r pulls [])) by (rewrite Forall_forall in *; intros q Hq; apply X; apply (proj1 (distinct_In _ _)); exact Hq). clear. unfold distinct.
      assert (Z1 : forall l : list Z, (length (zuniq l) <= length l)%nat).
      { induction l as [|a l IH]; [cbn; lia|]. cbn [zuniq]. destruct (zuniq l) as [|b l']; [cbn; lia|]. destruct (a =? b); cbn [length] in *; lia. }
      specialize (Z1 (zsort (nth r pulls []))). rewrite (Permutation_length (zsort_perm (nth r pulls []))). exact Z1. }
    destruct (E (seq 0 (length nlens))) as [E'|(r & H1 & H2)]; [|apply in_seq in H1; lia].
    fold L in E'. rewrite <- Lp in E'. rewrite <- (map_nth_seq _ [] pulls) in E'. exact E'. }
  destruct (setup_push_total (map (@length (list Z)) sons) L OK) as (gp & mps & Hp).
  { assert (list_sum (map (@length (list Z)) sons) = length (concat (concat L))).
    { assert (G : forall l, list_sum (map (fun r => length (nth r sons [])) l) = list_sum (map (fun r => length (concat (rsegs nlens (nth r pulls [])))) l)
         \/ exists r, In r l /\ (length nlens <= r)%nat).
      { induction l as [|r l IH]; [left; reflexivity|]. destruct IH as [IH|(r' & H1 & H2)]; [|right; exists r'; split; [now right|auto]].
        destruct (le_lt_dec (length nlens) r) as [Lr|Lr]; [right; exists r; split; [now left|auto]|]. left.
        cbn [map]. change (list_sum (?a :: ?b)) with (a + list_sum b)%nat. rewrite IH.
        rewrite (back_row_len nlens pulls ms B sons Hrows r Lr). reflexivity. }
      destruct (G (seq 0 (length nlens))) as [G'|(r & H1 & H2)]; [|apply in_seq in H1; lia].
      assert (Lsn' : length sons = length nlens) by lia.
      assert (ES : map (@length (list Z)) sons = map (fun r => length (nth r sons [])) (seq 0 (length nlens))).
      { rewrite <- Lsn'. rewrite (map_nth_seq _ [] sons) at 1. now rewrite map_map. }
      rewrite ES, G'. unfold L. clear. generalize (seq 0 (length nlens)). induction l as [|r l IH]; [reflexivity|].
      cbn [map concat]. change (list_sum (?a :: ?b)) with (a + list_sum b)%nat.
      now rewrite concat_app, app_length, offs_concat, seq_length, IH. }
    rewrite H. unfold zlen, int32_max, int64_max in *. lia. }
  { unfold zlen in *. lia. }
  rewrite Hp. cbn [bind fst snd].
  assert (Hp0 : setup_push (map zlen sons) (map (fun x => (ranks (length (fst x)), ghostStart (snd x))) (combine sons ms)) = Ok (gp, mps)).
  { rewrite (back_L nlens pulls ms B sons Hrows), (back_sizes sons). exact Hp. }
  assert (Gp : setMPIAlignBcast (map Z.of_nat (map (@length (list Z)) sons)) = Ok gp) by (eapply back_gp; eauto).
  pose proof (setup_push_inv _ _ _ _ OK Hp) as Emps. rewrite map_length in Emps.
  assert (Lmp : length mps = length nlens) by (rewrite Emps, map_length, seq_length; lia).
  destruct (mapM_total _ _ (pull_rows gp sons) mps) as (pasts & Epa & Lpa & Ppa).
  { intros k m Hm. apply (pull_rows_total _ _ gp sons m Gp eq_refl). intros q Hq.
    rewrite Emps, nth_error_map_, nth_error_seq in Hm. destruct (Nat.ltb_spec k (length sons)) as [Lk|]; [|discriminate].
    cbn [option_map Nat.add] in Hm. injection Hm as <-. cbn [pexpected ghostIndex] in Hq.
    apply in_concat in Hq. destruct Hq as (l & Hl & Hq). apply in_map_iff in Hl. destruct Hl as (s & <- & Hs').
    apply in_seq in Hs'. apply in_map_iff in Hq. destruct Hq as (i & <- & Hi).
    eapply item_range. apply glob_item; [lia|]. eapply seg_of_valid; eauto. lia. }
  rewrite Epa. cbn [bind].
  destruct (mapM_total _ _ (fun x : record * list Z * (ghostmap * list (list Z)) => add_past (fst (fst x)) (fst (snd x)) (snd (snd x)))
    (combine loc (combine ms pasts))) as (recs & Ere & Lre & _).
  { intros k x Hx. rewrite !nth_error_combine in Hx. destruct (nth_error loc k) as [p|] eqn:Ep; [|discriminate].
    destruct (nth_error ms k) as [m|] eqn:Em; [|discriminate]. destruct (nth_error pasts k) as [past|] eqn:Epast; [|discriminate].
    injection Hx as <-. cbn [fst snd]. unfold add_past.
    pose proof (nth_error_Some_lt _ _ _ _ Em). destruct (nth_error_lt_Some _ mps k ltac:(lia)) as (mp & Emp).
    pose proof (Ppa k mp past Emp Epast) as Hpast.
    destruct (back_pairs nlens pulls ms B sons Hrows gp mps Hp0 k m mp past 0 [] Em Emp Hpast) as (E & _).
    replace (zlen (pushingIndexGlobal m) =? zlen past) with true by (symmetry; apply Z.eqb_eq; unfold zlen; lia).
    cbn [assert_ bind]. eauto. }
  rewrite Ere. cbn [bind]. apply mapM_Ok_ex. intros x Hx. apply indexed_In in Hx. destruct Hx as (r & (n, rec) & Hr & ->).
  cbn [fst snd]. rewrite nth_error_combine, nth_error_map_ in Hr. destruct (nth_error nlens r) as [nn|] eqn:En; [|discriminate].
  destruct (nth_error recs r) as [rec'|] eqn:Erec; [|discriminate]. cbn in Hr. injection Hr as <- ->.
  unfold fill_father. rewrite Nat2Z.id. apply mapM_Ok_ex. intros i Hi. rewrite ranks_spec in Hi.
  apply in_map_iff in Hi. destruct Hi as (k & <- & Hk). apply in_seq in Hk. pose proof (nth_error_Some_lt _ _ _ _ En).
  pose proof (noson_glob nlens gn r k Hgn ltac:(lia) ltac:(rewrite (nth_error_nth _ _ _ En); lia)) as NG.
  rewrite (nth_error_nth _ _ _ En) in NG. rewrite NG. cbn [bind]. eauto.
Qed.
