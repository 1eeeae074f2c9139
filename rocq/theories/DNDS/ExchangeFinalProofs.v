(** Exchanges in all reachable states (C04, C05). *)
From Coq Require Import List ZArith Lia Bool Arith Permutation.
From Verif Require Import Base.Prelude Base.PreludeFacts Base.MPIModel Base.MPIFacts
  DNDS.IndexMappingModel DNDS.IndexMappingSpec DNDS.IndexMappingProofs DNDS.GhostPullProofs
  DNDS.GhostSearchProofs DNDS.GhostPushProofs
  DNDS.ArrayModel DNDS.ArraySpec DNDS.ArrayProofs DNDS.ExchangeModel DNDS.ExchangeSpec
  DNDS.ExchangePlanProofs DNDS.TransferProofs DNDS.MessageProofs DNDS.ExchangeProofs
  DNDS.CreateTypesProofs DNDS.CreateProofs DNDS.CreateLiveProofs DNDS.LiveProofs.
Import ListNotations.
Local Open Scope Z_scope.

Section Final.
Variable T : Type.
Variable dflt : T.
Notation arr := (arr T).
Notation sarr := (sarr T).
Notation rep := (rep T). Notation wrep := (wrep T). Notation flat_mode := (flat_mode T).

Variables (lens : list nat) (ms : list ghostmap) (G : nat -> nat -> list nat).
Hypothesis HP : plan lens ms G.
Notation P := (length lens).
Notation link := (linkl P G).
Notation live := (live T lens G true).
Notation same_shape := (same_shape T).
Notation cellsF := (cellsF T).

Notation shaped := (shaped T lens).
Notation same_content := (same_content T).
Notation same_reads_rep := (same_reads_rep T).
Notation live_array := (live_array T lens G true).
Notation live_father := (live_father T lens G true).
Notation live_son := (live_son T lens G true).
Notation live_get := (live_get T lens G true).
Notation live_unchanged_father := (live_unchanged_father T lens G true).
Notation live_unchanged_son := (live_unchanged_son T lens G true).
Notation write_live := (write_live T dflt lens G true).
Notation shaped_trans := (shaped_trans T lens).
Notation shaped_refl := (shaped_refl T lens).
Notation link_ghost := (link_ghost lens ms G HP).
Notation link_bounds := (link_bounds T lens ms G HP true).
Notation link_srow := (link_srow T lens ms G HP true).
Notation ghosts_now := (ghosts_now T lens ms G HP true).
Notation nth_ext_cells := (nth_ext_cells T).
Notation same_shape_content := (same_shape_content T).
Notation son_cover := (son_cover T lens ms G HP true).

(** *** moves depend on shapes only *)
Lemma pairs_shape : forall SF SS SF' SS' s r, same_shape (SF s) (SF' s) -> same_shape (SS r) (SS' r) ->
  pairs T P G (cellsF SF') (cellsF SS') s r = pairs T P G (cellsF SF) (cellsF SS) s r.
Proof.
  intros SF SS SF' SS' s r (_&_&_&_&A) (_&_&_&_&B). unfold pairs, ExchangeProofs.cellsF. f_equal.
  apply map_ext. intros [i k]. cbn [fst snd].
  rewrite (lengths_off _ _ _ i A), (lengths_clen _ _ _ i A), (lengths_off _ _ _ k B), (lengths_clen _ _ _ k B). reflexivity.
Qed.

Lemma PP_In : forall s r, In (s, r) (PP P) -> (s < P)%nat /\ (r < P)%nat.
Proof. intros s r H. unfold PP in H. apply in_prod_iff in H. rewrite !in_seq in H. lia. Qed.

Lemma pull_msgs_shape : forall SF SS SF' SS', shaped SF SS SF' SS' ->
  pull_msgs T P G (cellsF SF') (cellsF SS') = pull_msgs T P G (cellsF SF) (cellsF SS).
Proof.
  intros SF SS SF' SS' H. unfold pull_msgs. apply map_ext_in. intros [s r] Hin. apply PP_In in Hin.
  destruct Hin as [Hs Hr]. cbn [fst snd]. rewrite (pairs_shape SF SS SF' SS'); auto; [apply (H s Hs)|apply (H r Hr)].
Qed.
Lemma push_msgs_shape : forall SF SS SF' SS', shaped SF SS SF' SS' ->
  push_msgs T P G (cellsF SF') (cellsF SS') = push_msgs T P G (cellsF SF) (cellsF SS).
Proof.
  intros SF SS SF' SS' H. unfold push_msgs. apply map_ext_in. intros [s r] Hin. apply PP_In in Hin.
  destruct Hin as [Hs Hr]. cbn [fst snd]. rewrite (pairs_shape SF SS SF' SS'); auto; [apply (H r Hr)|apply (H s Hs)].
Qed.

Lemma steps_live : forall os SF SS ws ws', live SF SS ws ->
  orders_ok (pull_msgs T P G (cellsF SF) (cellsF SS)) (push_msgs T P G (cellsF SF) (cellsF SS)) os ->
  steps dflt ws os = Ok ws' -> exists SF' SS', live SF' SS' ws' /\ shaped SF SS SF' SS'.
Proof.
  induction os as [|o os IH]; intros SF SS ws ws' L Ho H.
  - cbn in H. injection H as <-. exists SF, SS. split; auto. apply shaped_refl.
  - cbn [steps] in H. apply bind_Ok in H. destruct H as [x [H0 H]]. inversion Ho as [|? ? H1 H2]; subst.
    assert (S1 : exists SF1 SS1, live SF1 SS1 x /\ shaped SF SS SF1 SS1).
    { destruct o as [r b i j v|mvs|mvs]; cbn [step] in H0.
      - eapply write_live; eauto.
      - rewrite pull_all_moves in H1. destruct (pull_live T dflt lens G SF SS ws mvs L H1) as [w1 [SS1 [A [B [C _]]]]].
        assert (x = w1) by congruence. subst x. exists SF, SS1. split; auto.
        intros r Hr. split; [apply same_shape_refl|auto].
      - rewrite push_all_moves in H1. destruct (push_live T dflt lens G SF SS ws mvs L H1) as [w1 [SF1 [A [B [C _]]]]].
        assert (x = w1) by congruence. subst x. exists SF1, SS. split; auto.
        intros r Hr. split; [auto|apply same_shape_refl]. }
    destruct S1 as [SF1 [SS1 [L1 S1]]].
    destruct (IH SF1 SS1 x ws' L1) as [SF2 [SS2 [L2 S2]]]; auto.
    { rewrite (pull_msgs_shape SF SS), (push_msgs_shape SF SS) by auto. auto. }
    exists SF2, SS2. split; auto. eapply shaped_trans; eauto.
Qed.

Lemma pull_outcome : forall SF SS ws mvs, live SF SS ws ->
  Permutation mvs (all_moves (pull_msgs T P G (cellsF SF) (cellsF SS))) ->
  exists ws' SS', pull_exchange ws mvs = Ok ws' /\ live SF SS' ws' /\ shaped SF SS SF SS' /\
    unchanged father ws ws' /\ ghosts_current lens ms ws' /\
    (forall s r i k, (s < P)%nat -> (r < P)%nat -> In (i, k) (link s r) ->
       nth k (cells (SS' r)) [] = nth i (cells (SF s)) []).
Proof.
  intros SF SS ws mvs L Hp. rewrite pull_all_moves in Hp.
  destruct (pull_live T dflt lens G SF SS ws mvs L Hp) as [ws' [SS' [A [B [C [_ D]]]]]].
  exists ws', SS'. split; auto. split; auto. split; [|split; [|split; [|exact D]]].
  - intros r Hr. split; [apply same_shape_refl|auto].
  - apply (live_unchanged_father SF SS ws SF SS' ws'); auto. intros. split; auto.
  - eapply ghosts_now; eauto.
Qed.

Lemma pull_order : forall SF SS ws mvs mvs' ws1 ws2, live SF SS ws ->
  Permutation mvs (all_moves (pull_msgs T P G (cellsF SF) (cellsF SS))) ->
  Permutation mvs' (all_moves (pull_msgs T P G (cellsF SF) (cellsF SS))) ->
  pull_exchange ws mvs = Ok ws1 -> pull_exchange ws mvs' = Ok ws2 -> same_worlds ws1 ws2.
Proof.
  intros SF SS ws mvs mvs' ws1 ws2 L H1 H2 E1 E2.
  destruct (pull_outcome _ _ _ _ L H1) as [w1 [S1 [A1 [B1 [C1 [_ [_ D1]]]]]]].
  destruct (pull_outcome _ _ _ _ L H2) as [w2 [S2 [A2 [B2 [C2 [_ [_ D2]]]]]]].
  assert (w1 = ws1) by congruence. assert (w2 = ws2) by congruence. subst w1 w2.
  assert (SC : forall r, (r < P)%nat -> same_content (S1 r) (S2 r)).
  { intros r Hr. destruct (C1 r Hr) as [_ SA]. destruct (C2 r Hr) as [_ SB].
    destruct (lv_size _ _ _ _ _ _ _ B1 r Hr) as [_ L1]. destruct (lv_size _ _ _ _ _ _ _ B2 r Hr) as [_ L2].
    destruct SA as (SA1&_&_&SA2&_). destruct SB as (SB1&_&_&SB2&_).
    split; [congruence|]. split; [|intros _; congruence].
    apply nth_ext_cells; [congruence|]. intros k Hk.
    destruct (son_cover _ _ _ r k B2 Hr Hk) as [s [i [Hs Hin]]]. rewrite (D1 s r i k), (D2 s r i k) by auto. auto. }
  split.
  - apply (live_unchanged_father SF S1 ws1 SF S2 ws2); auto. intros; split; auto.
  - apply (live_unchanged_son SF S1 ws1 SF S2 ws2); auto.
Qed.

(** at_ of a row of a represented array *)
Lemma rep_at : forall h a (s : sarr) i j, rep h a s -> (i < length (cells s))%nat ->
  at_ h a (Z.of_nat i) j =
    match srow s i with
    | None => Abort
    | Some r => match in_range j (length r) with
                | None => Abort
                | Some l => match nth_error r l with Some x => Ok x | None => Abort end
                end
    end.
Proof.
  intros h a s i j R Hi. destruct (rep_looks T h a s R) as [_ [_ A]]. rewrite A, in_range_nat by auto. reflexivity.
Qed.

Lemma srow_length : forall s s' : sarr, forall i, same_shape s s' -> (i < length (cells s))%nat ->
  match srow s i, srow s' i with Some r, Some r' => length r' = length r | None, None => True | _, _ => False end.
Proof.
  intros s s' i (A&B&C&D&E) Hi.
  assert (L : length (cells s') = length (cells s)) by (rewrite <- (map_length (@length T)), E, map_length; auto).
  assert (CL : length (nth i (cells s') []) = length (nth i (cells s) [])) by (apply (lengths_clen _ _ _ i E)).
  unfold srow. rewrite (nth_error_nth' (cells s) [] Hi), (nth_error_nth' (cells s') [] (n := i)) by lia.
  rewrite A, D. destruct (is_max (slay s)); auto. destruct (nth_error (used s) i); cbn; auto.
  rewrite !firstn_length. lia.
Qed.

(** readers of one row depend on its elements only *)
Lemma srow_elem : forall (s s' : sarr) i k l, slay s' = slay s -> (i < length (cells s))%nat -> (k < length (cells s'))%nat ->
  clen (cells s') k = clen (cells s) i ->
  (is_max (slay s) = true -> nth_error (used s') k = nth_error (used s) i) ->
  nth_error (nth k (cells s') []) l = nth_error (nth i (cells s) []) l ->
  match srow s i, srow s' k with
  | Some r, Some r' => length r' = length r /\ nth_error r' l = nth_error r l
  | None, None => True | _, _ => False end.
Proof.
  intros s s' i k l El Hi Hk Hc Hu He. unfold srow, clen in *.
  rewrite (nth_error_nth' (cells s) [] Hi), (nth_error_nth' (cells s') [] Hk), El.
  destruct (is_max (slay s)); [|auto]. rewrite Hu by auto. destruct (nth_error (used s) i) as [n|]; cbn; auto.
  rewrite !firstn_length, !nth_error_firstn, Hc. split; auto. destruct (Nat.ltb l n); auto.
Qed.

Lemma at_elem : forall h a (s : sarr) i h' a' s' k l, rep h a s -> rep h' a' s' ->
  slay s' = slay s -> (i < length (cells s))%nat -> (k < length (cells s'))%nat ->
  clen (cells s') k = clen (cells s) i ->
  (is_max (slay s) = true -> nth_error (used s') k = nth_error (used s) i) ->
  nth_error (nth k (cells s') []) l = nth_error (nth i (cells s) []) l ->
  at_ h' a' (Z.of_nat k) (Z.of_nat l) = at_ h a (Z.of_nat i) (Z.of_nat l).
Proof.
  intros h a s i h' a' s' k l R R' El Hi Hk Hc Hu He.
  rewrite (rep_at _ _ _ _ _ R Hi), (rep_at _ _ _ _ _ R' Hk).
  pose proof (srow_elem s s' i k l El Hi Hk Hc Hu He) as X.
  destruct (srow s i), (srow s' k); try contradiction; auto. destruct X as [-> E].
  destruct (in_range_cases (Z.of_nat l) (length l0)) as [[q [Eq [_ [-> _]]]]|[-> _]]; auto.
  assert (q = l) by lia. subst q. rewrite E. auto.
Qed.

Lemma at_neg : forall h a (s : sarr) i j, rep h a s -> (i < length (cells s))%nat ->
  (j < 0 \/ Z.of_nat (clen (cells s) i) <= j) -> at_ h a (Z.of_nat i) j = Abort.
Proof.
  intros h a s i j R Hi Hj. rewrite (rep_at _ _ _ _ _ R Hi).
  destruct (rep_rowsize _ _ _ _ _ R Hi) as [r [row [-> [_ [Hrow [Hle _]]]]]].
  unfold clen in Hj. rewrite (nth_error_nth _ _ _ Hrow) in Hj.
  destruct (in_range_cases j (length r)) as [[q [-> [Hq _]]]|[-> _]]; auto. lia.
Qed.

Lemma ghost_dec : forall s i n, (exists r k, (r < n)%nat /\ In (i, k) (link s r)) \/
  (forall r k, (r < n)%nat -> ~ In (i, k) (link s r)).
Proof.
  intros s i. induction n as [|n IH]; [right; intros; lia|].
  destruct IH as [[r [k [Hr H]]]|N]; [left; exists r, k; split; [lia|auto]|].
  destruct (in_dec Nat.eq_dec i (map fst (link s n))) as [Y|Y].
  - left. apply in_map_iff in Y. destruct Y as [[i' k] [E H]]. cbn in E. subst i'. exists n, k. auto.
  - right. intros r k Hr H. destruct (Nat.eq_dec r n) as [->|]; [|apply (N r k); [lia|auto]].
    apply Y. apply in_map_iff. exists (i, k). auto.
Qed.

Lemma push_outcome : forall SF SS ws mvs, live SF SS ws ->
  Permutation mvs (all_moves (push_msgs T P G (cellsF SF) (cellsF SS))) ->
  exists ws' SF', push_exchange ws mvs = Ok ws' /\ live SF' SS ws' /\ shaped SF SS SF' SS /\
    unchanged son ws ws' /\ pushed lens ms ws ws' /\
    (message_order (push_msgs T P G (cellsF SF) (cellsF SS)) mvs -> pushed_rows lens ms ws ws') /\
    (forall s i j, (s < P)%nat -> (j < clen (cells (SF s)) i)%nat ->
       (exists r k, (r < P)%nat /\ In (i, k) (link s r) /\
          nth_error (nth i (cells (SF' s)) []) j = nth_error (nth k (cells (SS r)) []) j) \/
       ((forall r k, (r < P)%nat -> ~ In (i, k) (link s r)) /\
          nth_error (nth i (cells (SF' s)) []) j = nth_error (nth i (cells (SF s)) []) j)).
Proof.
  intros SF SS ws mvs L Hp. rewrite push_all_moves in Hp.
  destruct (push_live T dflt lens G SF SS ws mvs L Hp) as [ws' [SF' [A [B [C [_ [D E]]]]]]].
  assert (Sh : shaped SF SS SF' SS) by (intros r Hr; split; [auto|apply same_shape_refl]).
  exists ws', SF'. split; auto. split; auto. split; [exact Sh|]. split; [|split; [|split; [|exact D]]].
  - apply (live_unchanged_son SF SS ws SF' SS ws'); auto. intros. split; auto.
  - split; [rewrite (lv_len _ _ _ _ _ _ _ B), (lv_len _ _ _ _ _ _ _ L); auto|].
    intros s h a Ha. destruct (live_father _ _ _ _ _ _ L Ha) as [Hs Ra].
    destruct (live_get _ _ _ s B Hs) as [h' [f [s' [Af [_ [Rf _]]]]]].
    exists h', f. split; auto. destruct (C s Hs) as (C1&C2&C3&C4&C5).
    assert (Ll : length (cells (SF' s)) = length (cells (SF s))) by (rewrite <- (map_length (@length T)), C5, map_length; auto).
    split; [rewrite (r_size _ _ _ _ Ra), (r_size _ _ _ _ Rf); unfold zlen; congruence|].
    intros i Hi. destruct (lv_size _ _ _ _ _ _ _ L s Hs) as [Ls _]. rewrite <- Ls in Hi.
    split.
    + destruct (rep_rowsize _ _ _ _ _ Ra Hi) as [x [_ [X1 [X2 _]]]].
      destruct (rep_rowsize _ _ _ _ i Rf ltac:(lia)) as [y [_ [Y1 [Y2 _]]]].
      pose proof (srow_length _ _ i (C s Hs) Hi) as SL. rewrite X1, Y1 in SL. rewrite X2, Y2. unfold zlen. congruence.
    + intro j. unfold pushed_element.
      assert (Hcl : clen (cells (SF' s)) i = clen (cells (SF s)) i) by (apply lengths_clen; auto).
      assert (GL : forall r k, ghost_of lens ms r k s i -> (r < P)%nat /\ In (i, k) (link s r)).
      { intros r k Hg. pose proof (ghost_of_rank _ _ _ _ _ _ _ HP Hg) as Hr. split; auto. apply link_ghost in Hg; auto. apply Hg. }
      assert (OUT : j < 0 \/ Z.of_nat (clen (cells (SF s)) i) <= j -> at_ h' f (Z.of_nat i) j = Abort ->
        pushed_element lens ms ws s i h a j (at_ h' f (Z.of_nat i) j)).
      { intros Hj ->. destruct (ghost_dec s i P) as [[r [k [Hr Hin]]]|N].
        - left. destruct (live_get _ _ _ r L Hr) as [h0 [f0 [b [_ [Ab [_ Rb]]]]]].
          exists r, k, h0, b. split; [apply link_ghost; auto|]. split; auto.
          destruct (link_bounds _ _ _ _ _ _ _ L Hs Hr Hin) as [B1 B2].
          destruct (lv_shape _ _ _ _ _ _ _ L s r i k Hs Hr Hin) as [V1 V2].
          symmetry. apply (at_neg _ _ (SS r)); auto. rewrite V1. auto.
        - right. split.
          + intros r k Hg. destruct (GL r k Hg). apply (N r k); auto.
          + symmetry. apply (at_neg _ _ (SF s)); auto. }
      destruct (Z_lt_ge_dec j 0) as [Hj|Hj]; [|destruct (Z_lt_ge_dec j (Z.of_nat (clen (cells (SF s)) i))) as [Hj2|Hj2]].
      * (* out of range: rejected everywhere *)
        assert (AB : at_ h' f (Z.of_nat i) j = Abort) by (apply (at_neg _ _ (SF' s)); auto; lia).
        apply OUT; auto.
      * assert (exists l, j = Z.of_nat l) as [l ->] by (exists (Z.to_nat j); lia).
        destruct (D s i l Hs ltac:(lia)) as [[r [k [Hr [Hin Eq]]]]|[N Eq]].
        -- left. destruct (live_get _ _ _ r L Hr) as [h0 [f0 [b [_ [Ab [_ Rb]]]]]].
           exists r, k, h0, b. split; [apply link_ghost; auto|]. split; auto.
           destruct (link_bounds _ _ _ _ _ _ _ L Hs Hr Hin) as [B1 B2].
           destruct (lv_shape _ _ _ _ _ _ _ L s r i k Hs Hr Hin) as [V1 V2].
           symmetry. apply (at_elem h' f (SF' s) i h0 b (SS r) k l); auto; try lia.
           ++ rewrite C1. destruct (lv_lay _ _ _ _ _ _ _ L r Hr) as [_ ->]. destruct (lv_lay _ _ _ _ _ _ _ L s Hs) as [-> _]. auto.
           ++ rewrite C1, C4. auto.
        -- right. split.
           ++ intros r k Hg. destruct (GL r k Hg). apply (N r k); auto.
           ++ apply (at_elem h a (SF s) i h' f (SF' s) i l); auto; try lia. rewrite C4. auto.
      * assert (AB : at_ h' f (Z.of_nat i) j = Abort) by (apply (at_neg _ _ (SF' s)); auto; lia).
        apply OUT; auto; lia.
  - intro MO. specialize (E MO). split; [rewrite (lv_len _ _ _ _ _ _ _ B), (lv_len _ _ _ _ _ _ _ L); auto|].
    intros s h a Ha. destruct (live_father _ _ _ _ _ _ L Ha) as [Hs Ra].
    destruct (live_get _ _ _ s B Hs) as [h' [f [s' [Af [_ [Rf _]]]]]].
    exists h', f. split; auto. destruct (C s Hs) as (C1&C2&C3&C4&C5).
    assert (Ll : length (cells (SF' s)) = length (cells (SF s))) by (rewrite <- (map_length (@length T)), C5, map_length; auto).
    split; [rewrite (r_size _ _ _ _ Ra), (r_size _ _ _ _ Rf); unfold zlen; congruence|].
    intros i Hi. destruct (lv_size _ _ _ _ _ _ _ L s Hs) as [Ls _]. rewrite <- Ls in Hi.
    destruct (E s i Hs Hi) as [[r [k [Hr [Hin Eq]]]]|[N Eq]].
    + left. destruct (live_get _ _ _ r L Hr) as [h0 [f0 [b [_ [Ab [_ Rb]]]]]].
      exists r, k, h0, b. split; [apply link_ghost; auto|]. split; auto.
      destruct (link_bounds _ _ _ _ _ _ _ L Hs Hr Hin) as [B1 B2].
      apply (same_row_srow T h0 b (SS r) k h' f (SF' s) i); auto; [lia|].
      destruct (link_bounds _ _ _ _ _ _ _ B Hs Hr Hin) as [B3 B4].
      symmetry. apply (link_srow SF' SS ws' s r i k); auto.
    + right. split.
      * intros r k Hg. pose proof (ghost_of_rank _ _ _ _ _ _ _ HP Hg) as Hr. apply link_ghost in Hg; auto.
        apply (N r k); auto. apply Hg.
      * apply (same_row_srow T h a (SF s) i h' f (SF' s) i); auto; [lia|].
        apply srow_cells; auto; [lia|]. rewrite C4. auto.
Qed.


Lemma cells_elem : forall (s s' : sarr), map (@length T) (cells s') = map (@length T) (cells s) ->
  (forall i j, (j < clen (cells s) i)%nat -> nth_error (nth i (cells s') []) j = nth_error (nth i (cells s) []) j) ->
  cells s' = cells s.
Proof.
  intros s s' E H.
  assert (L : length (cells s') = length (cells s)) by (rewrite <- (map_length (@length T)), E, map_length; auto).
  apply nth_ext_cells; auto. intros k Hk. pose proof (lengths_clen _ _ _ k E) as Ec. unfold clen in Ec.
  apply nth_error_ext. intro j. destruct (Nat.lt_ge_cases j (clen (cells s) k)) as [Hj|Hj]; auto.
  unfold clen in Hj. rewrite !(proj2 (nth_error_None _ _)); auto; lia.
Qed.

Lemma push_order : forall SF SS ws mvs mvs' ws1 ws2, live SF SS ws -> unique_ghosts lens ms ->
  Permutation mvs (all_moves (push_msgs T P G (cellsF SF) (cellsF SS))) ->
  Permutation mvs' (all_moves (push_msgs T P G (cellsF SF) (cellsF SS))) ->
  push_exchange ws mvs = Ok ws1 -> push_exchange ws mvs' = Ok ws2 -> same_worlds ws1 ws2.
Proof.
  intros SF SS ws mvs mvs' ws1 ws2 L U H1 H2 E1 E2.
  destruct (push_outcome _ _ _ _ L H1) as [w1 [S1 [A1 [B1 [C1 [_ [_ [_ D1]]]]]]]].
  destruct (push_outcome _ _ _ _ L H2) as [w2 [S2 [A2 [B2 [C2 [_ [_ [_ D2]]]]]]]].
  assert (w1 = ws1) by congruence. assert (w2 = ws2) by congruence. subst w1 w2.
  assert (SC : forall r, (r < P)%nat -> same_content (S1 r) (S2 r)).
  { intros s Hs. destruct (C1 s Hs) as [(SA1&_&_&SA2&SA3) _]. destruct (C2 s Hs) as [(SB1&_&_&SB2&SB3) _].
    split; [congruence|]. split; [|intros _; congruence].
    apply cells_elem; [congruence|]. intros i j Hj. rewrite (lengths_clen _ _ _ i SA3) in Hj.
    destruct (D1 s i j Hs Hj) as [[r [k [Hr [I1 Q1]]]]|[N1 Q1]]; destruct (D2 s i j Hs Hj) as [[r' [k' [Hr' [I2 Q2]]]]|[N2 Q2]].
    - assert (r = r' /\ k = k') as [<- <-] by (apply (U r k r' k' s i); apply link_ghost; auto). congruence.
    - exfalso. apply (N2 r k); auto.
    - exfalso. apply (N1 r' k'); auto.
    - congruence. }
  split.
  - apply (live_unchanged_father S1 SS ws1 S2 SS ws2); auto.
  - apply (live_unchanged_son S1 SS ws1 S2 SS ws2); auto. intros; split; auto.
Qed.

Lemma pull_push : forall SF SS ws mvs mvs' ws1 ws2, live SF SS ws ->
  Permutation mvs (all_moves (pull_msgs T P G (cellsF SF) (cellsF SS))) ->
  Permutation mvs' (all_moves (push_msgs T P G (cellsF SF) (cellsF SS))) ->
  pull_exchange ws mvs = Ok ws1 -> push_exchange ws1 mvs' = Ok ws2 ->
  unchanged father ws ws2 /\ unchanged son ws1 ws2.
Proof.
  intros SF SS ws mvs mvs' ws1 ws2 L H1 H2 E1 E2.
  destruct (pull_outcome _ _ _ _ L H1) as [w1 [S1 [A1 [B1 [C1 [_ [_ D1]]]]]]].
  assert (w1 = ws1) by congruence. subst w1.
  rewrite <- (push_msgs_shape SF SS SF S1) in H2 by auto.
  destruct (push_outcome _ _ _ _ B1 H2) as [w2 [F2 [A2 [B2 [C2 [U [_ [_ D2]]]]]]]].
  assert (w2 = ws2) by congruence. subst w2. split; auto.
  apply (live_unchanged_father SF SS ws F2 S1 ws2); auto. intros s Hs.
  destruct (C2 s Hs) as [Sh _]. apply same_shape_content; auto.
  destruct Sh as (_&_&_&_&S5). apply cells_elem; auto. intros i j Hj.
  destruct (D2 s i j Hs Hj) as [[r [k [Hr [I1 Q1]]]]|[N1 Q1]]; auto.
  rewrite Q1, (D1 s r i k) by auto. auto.
Qed.

(** *** from [ready] *)
Lemma created : forall l ws, ready dflt lens ms l ws ->
  exists ts SF SS, createMPITypes dflt HIndexed ws ms = Ok ts /\ live SF SS (map tw ts) /\
    unchanged father ws (map tw ts) /\
    pull_messages ts = Ok (Some (pull_msgs T P G (cellsF SF) (cellsF SS))) /\
    push_messages ts = Ok (Some (push_msgs T P G (cellsF SF) (cellsF SS))).
Proof.
  intros l ws R. destruct (ready_prep T dflt lens ms G HP l ws R) as [SF [SS Pp]].
  destruct (create_ok T dflt lens ms G HP HIndexed l SF SS ws Pp) as [SS3 [W3 [E [L Tot]]]].
  set (SP := fun r => packed T HIndexed (SF r)) in *.
  assert (EC : forall r, cells (SP r) = cells (SF r)) by (intro r; apply packed_cells).
  assert (ET : map tw (map (made T lens ms G HIndexed SF SS3 W3) (seq 0 P)) = map W3 (seq 0 P)) by (rewrite map_map; reflexivity).
  assert (Epu : map pushTypes (map (made T lens ms G HIndexed SF SS3 W3) (seq 0 P)) =
                map (push_types_of T P G (cellsF SP) (cellsF SS3)) (seq 0 P)).
  { rewrite map_map. apply map_ext. intro r. cbn [made pushTypes]. unfold push_types_of, out_blocks, ExchangeProofs.cellsF.
    rewrite EC. reflexivity. }
  assert (Epl : map pullTypes (map (made T lens ms G HIndexed SF SS3 W3) (seq 0 P)) =
                map (pull_types_of T P G (cellsF SS3)) (seq 0 P)) by (rewrite map_map; reflexivity).
  exists (map (made T lens ms G HIndexed SF SS3 W3) (seq 0 P)), SP, SS3.
  split; [exact E|]. rewrite ET. split; [exact L|]. split; [|split].
  - split; [rewrite map_length, seq_length, (pp_len _ _ _ _ _ _ _ Pp); auto|].
    intros r h a Ha. destruct Ha as [w [Hw [-> Ha]]].
    pose proof (pp_rep _ _ _ _ _ _ _ Pp _ _ Hw) as W. destruct (two_arrs _ _ _ _ W) as [fa [sa [Ea [Ra _]]]].
    rewrite Ea in Ha. cbn in Ha. injection Ha as <-.
    assert (Hr : (r < P)%nat) by (rewrite <- (pp_len _ _ _ _ _ _ _ Pp); eapply nth_error_Some_lt; eauto).
    destruct (live_get _ _ _ r L Hr) as [h' [f [s [Af [_ [Rf _]]]]]]. exists h', f. split; auto.
    eapply same_reads_rep; eauto. destruct (packed_cells T HIndexed (SF r)) as (X1&X2&X3&X4). split; auto.
  - unfold pull_messages. rewrite Epu, Epl. apply pull_messages_spec. exact (live_clen T lens G _ _ _ _ L).
  - unfold push_messages. rewrite Epu, Epl. apply push_messages_spec. exact (live_clen T lens G _ _ _ _ L).
Qed.

Lemma reached_live : forall l ws ts pull push ws1, ready dflt lens ms l ws ->
  createMPITypes dflt HIndexed ws ms = Ok ts -> pull_messages ts = Ok (Some pull) -> push_messages ts = Ok (Some push) ->
  reached dflt ts pull push ws1 ->
  exists SF SS, live SF SS ws1 /\ pull = pull_msgs T P G (cellsF SF) (cellsF SS) /\
                push = push_msgs T P G (cellsF SF) (cellsF SS).
Proof.
  intros l ws ts pull push ws1 R E1 E2 E3 [os [Ho Hs]].
  destruct (created l ws R) as [ts' [SF [SS [F1 [L [_ [F2 F3]]]]]]].
  rewrite F1 in E1. injection E1 as <-. rewrite F2 in E2. injection E2 as <-. rewrite F3 in E3. injection E3 as <-.
  destruct (steps_live os SF SS _ _ L Ho Hs) as [SF' [SS' [L' Sh]]]. exists SF', SS'. split; auto.
  rewrite (pull_msgs_shape _ _ _ _ Sh), (push_msgs_shape _ _ _ _ Sh). auto.
Qed.

End Final.

(** ** Theorems *)
Section Theorems.
Variable T : Type.
Variable dflt : T.

Lemma create_succeeds : forall lens ms l ws, mapped lens ms -> ready dflt lens ms l ws ->
  exists ts pull push, created_with dflt lens ms l ws ts pull push /\ unchanged father ws (map tw ts).
Proof.
  intros lens ms l ws M R. destruct (plan_exists _ _ M) as [G HP].
  destruct (created T dflt lens ms G HP l ws R) as [ts [SF [SS [A [B [C [D E]]]]]]].
  exists ts, (pull_msgs T (length lens) G (cellsF T SF) (cellsF T SS)), (push_msgs T (length lens) G (cellsF T SF) (cellsF T SS)).
  split; [|exact C]. split; [exact M|]. split; [exact R|]. split; [exact A|]. split; [exact D|exact E].
Qed.

Lemma pull_current : forall lens ms l ws ts pull push ws1 mvs,
  created_with dflt lens ms l ws ts pull push -> reached dflt ts pull push ws1 -> Permutation mvs (all_moves pull) ->
  exists ws2, pull_exchange ws1 mvs = Ok ws2 /\ ghosts_current lens ms ws2 /\ unchanged father ws1 ws2.
Proof.
  intros lens ms l ws ts pull push ws1 mvs [M [R [E1 [E2 E3]]]] Hr Hp. destruct (plan_exists _ _ M) as [G HP].
  destruct (reached_live T dflt lens ms G HP l ws ts pull push ws1 R E1 E2 E3 Hr) as [SF [SS [L [-> ->]]]].
  destruct (pull_outcome T dflt lens ms G HP SF SS ws1 mvs L Hp) as [ws2 [SS' [A [_ [_ [B [C _]]]]]]]. eauto.
Qed.

Lemma pull_any_order : forall lens ms l ws ts pull push ws1 mvs mvs' ws2 ws2',
  created_with dflt lens ms l ws ts pull push -> reached dflt ts pull push ws1 ->
  Permutation mvs (all_moves pull) -> Permutation mvs' (all_moves pull) ->
  pull_exchange ws1 mvs = Ok ws2 -> pull_exchange ws1 mvs' = Ok ws2' -> same_worlds ws2 ws2'.
Proof.
  intros lens ms l ws ts pull push ws1 mvs mvs' ws2 ws2' [M [R [E1 [E2 E3]]]] Hr Hp Hp'. destruct (plan_exists _ _ M) as [G HP].
  destruct (reached_live T dflt lens ms G HP l ws ts pull push ws1 R E1 E2 E3 Hr) as [SF [SS [L [-> ->]]]].
  eapply (pull_order T dflt lens ms G HP); eauto.
Qed.

Lemma push_owners : forall lens ms l ws ts pull push ws1 mvs,
  created_with dflt lens ms l ws ts pull push -> reached dflt ts pull push ws1 -> Permutation mvs (all_moves push) ->
  exists ws2, push_exchange ws1 mvs = Ok ws2 /\ pushed lens ms ws1 ws2 /\ unchanged son ws1 ws2.
Proof.
  intros lens ms l ws ts pull push ws1 mvs [M [R [E1 [E2 E3]]]] Hr Hp. destruct (plan_exists _ _ M) as [G HP].
  destruct (reached_live T dflt lens ms G HP l ws ts pull push ws1 R E1 E2 E3 Hr) as [SF [SS [L [-> ->]]]].
  destruct (push_outcome T dflt lens ms G HP SF SS ws1 mvs L Hp) as [ws2 [SF' [A [_ [_ [B [C _]]]]]]]. eauto.
Qed.

Lemma push_whole_rows : forall lens ms l ws ts pull push ws1 mvs ws2,
  created_with dflt lens ms l ws ts pull push -> reached dflt ts pull push ws1 -> message_order push mvs ->
  push_exchange ws1 mvs = Ok ws2 -> pushed_rows lens ms ws1 ws2.
Proof.
  intros lens ms l ws ts pull push ws1 mvs ws2 [M [R [E1 [E2 E3]]]] Hr Hp E. destruct (plan_exists _ _ M) as [G HP].
  destruct (reached_live T dflt lens ms G HP l ws ts pull push ws1 R E1 E2 E3 Hr) as [SF [SS [L [-> ->]]]].
  assert (Hp' : Permutation mvs (all_moves (push_msgs T (length lens) G (cellsF T SF) (cellsF T SS)))).
  { destruct Hp as [ms' [Pm ->]]. unfold all_moves. rewrite <- !flat_map_concat_map. apply Permutation_flat_map. auto. }
  destruct (push_outcome T dflt lens ms G HP SF SS ws1 mvs L Hp') as [w2 [SF' [A [_ [_ [_ [_ [C _]]]]]]]].
  assert (w2 = ws2) by congruence. subst w2. auto.
Qed.

Lemma push_any_order : forall lens ms l ws ts pull push ws1 mvs mvs' ws2 ws2',
  created_with dflt lens ms l ws ts pull push -> reached dflt ts pull push ws1 -> unique_ghosts lens ms ->
  Permutation mvs (all_moves push) -> Permutation mvs' (all_moves push) ->
  push_exchange ws1 mvs = Ok ws2 -> push_exchange ws1 mvs' = Ok ws2' -> same_worlds ws2 ws2'.
Proof.
  intros lens ms l ws ts pull push ws1 mvs mvs' ws2 ws2' [M [R [E1 [E2 E3]]]] Hr U Hp Hp'. destruct (plan_exists _ _ M) as [G HP].
  destruct (reached_live T dflt lens ms G HP l ws ts pull push ws1 R E1 E2 E3 Hr) as [SF [SS [L [-> ->]]]].
  eapply (push_order T dflt lens ms G HP); eauto.
Qed.

Lemma pull_then_push : forall lens ms l ws ts pull push ws1 mvs mvs' ws2 ws3,
  created_with dflt lens ms l ws ts pull push -> reached dflt ts pull push ws1 ->
  Permutation mvs (all_moves pull) -> Permutation mvs' (all_moves push) ->
  pull_exchange ws1 mvs = Ok ws2 -> push_exchange ws2 mvs' = Ok ws3 ->
  unchanged father ws1 ws3 /\ unchanged son ws2 ws3.
Proof.
  intros lens ms l ws ts pull push ws1 mvs mvs' ws2 ws3 [M [R [E1 [E2 E3]]]] Hr Hp Hp'. destruct (plan_exists _ _ M) as [G HP].
  destruct (reached_live T dflt lens ms G HP l ws ts pull push ws1 R E1 E2 E3 Hr) as [SF [SS [L [-> ->]]]].
  eapply (pull_push T dflt lens ms G HP); eauto.
Qed.

End Theorems.
