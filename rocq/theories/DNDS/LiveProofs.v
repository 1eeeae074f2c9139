(** States between exchanges, with fathers compressed ([fb]) or not (C04, C05, C07). *)
From Coq Require Import List ZArith Lia Bool Arith Permutation.
From Verif Require Import Base.Prelude Base.PreludeFacts Base.MPIModel Base.MPIFacts
  DNDS.IndexMappingModel DNDS.IndexMappingSpec DNDS.IndexMappingProofs DNDS.GhostPullProofs
  DNDS.GhostSearchProofs DNDS.GhostPushProofs
  DNDS.ArrayModel DNDS.ArraySpec DNDS.ArrayProofs DNDS.ExchangeModel DNDS.ExchangeSpec
  DNDS.ExchangePlanProofs DNDS.TransferProofs DNDS.MessageProofs DNDS.ExchangeProofs
  DNDS.CreateTypesProofs DNDS.CreateProofs DNDS.CreateLiveProofs.
Import ListNotations.
Local Open Scope Z_scope.

Section LiveStates.
Variable T : Type.
Variable dflt : T.
Notation arr := (arr T).
Notation sarr := (sarr T).
Notation rep := (rep T). Notation wrep := (wrep T). Notation flat_mode := (flat_mode T).

Definition same_content (s s' : sarr) : Prop :=
  slay s' = slay s /\ cells s' = cells s /\ (is_max (slay s) = true -> used s' = used s).

Lemma same_reads_rep : forall h a (s : sarr) h' a' s', rep h a s -> rep h' a' s' -> same_content s s' ->
  same_reads h a h' a'.
Proof.
  intros h a s h' a' s' R R' [E1 [E2 E3]].
  assert (ES : forall k, srow s' k = srow s k).
  { intro k. unfold srow. rewrite E1, E2. destruct (is_max (slay s)) eqn:M; auto. rewrite E3; auto. }
  destruct (rep_looks T h a s R) as [A1 [A2 A3]]. destruct (rep_looks T h' a' s' R') as [B1 [B2 B3]].
  split; [rewrite A1, B1, E2; auto|]. split.
  - intros i Hi. rewrite A1 in Hi. unfold zlen in Hi. specialize (A2 i). specialize (B2 i). rewrite E2 in B2.
    destruct (in_range_cases i (length (cells s))) as [[k [-> [Hk [R1 _]]]]|[_ X]].
    + rewrite R1 in *. destruct A2 as [x [X1 X2]]. destruct B2 as [y [Y1 Y2]]. rewrite ES in Y1. congruence.
    + exfalso. apply andb_false_iff in X. destruct X as [X|X]; [apply Z.ltb_ge in X|apply Z.leb_gt in X]; lia.
  - intros i j. rewrite A3, B3, E2. destruct (in_range i (length (cells s))); auto. rewrite ES. auto.
Qed.

Variables (lens : list nat) (ms : list ghostmap) (G : nat -> nat -> list nat).
Hypothesis HP : plan lens ms G.
Notation P := (length lens).
Notation link := (linkl P G).
Variable fb : bool.
Notation live := (live T lens G fb).
Notation same_shape := (same_shape T).
Notation cellsF := (cellsF T).

Lemma live_array : forall SF SS ws r id h a, live SF SS ws -> array_of ws r id h a ->
  (r < P)%nat /\ ((id = father /\ rep h a (SF r)) \/ (id = son /\ rep h a (SS r))).
Proof.
  intros SF SS ws r id h a L [w [Hw [-> Ha]]]. split.
  - rewrite <- (lv_len _ _ _ _ _ _ _ L). eapply nth_error_Some_lt; eauto.
  - destruct (live_arrs T lens G _ _ _ _ _ _ L Hw) as [f [s [E [R1 R2]]]]. rewrite E in Ha.
    destruct id as [|[|id]]; cbn in Ha.
    + injection Ha as <-. left. split; auto.
    + injection Ha as <-. right. split; auto.
    + destruct id; discriminate.
Qed.

Lemma live_father : forall SF SS ws r h a, live SF SS ws -> array_of ws r father h a -> (r < P)%nat /\ rep h a (SF r).
Proof. intros SF SS ws r h a L H. destruct (live_array _ _ _ _ _ _ _ L H) as [Hr [[_ R]|[X _]]]; auto. discriminate. Qed.
Lemma live_son : forall SF SS ws r h a, live SF SS ws -> array_of ws r son h a -> (r < P)%nat /\ rep h a (SS r).
Proof. intros SF SS ws r h a L H. destruct (live_array _ _ _ _ _ _ _ L H) as [Hr [[X _]|[_ R]]]; auto. discriminate. Qed.

Lemma live_get : forall SF SS ws r, live SF SS ws -> (r < P)%nat ->
  exists h f s, array_of ws r father h f /\ array_of ws r son h s /\ rep h f (SF r) /\ rep h s (SS r).
Proof.
  intros SF SS ws r L Hr. destruct (nth_error_lt_Some _ ws r) as [w Hw]; [rewrite (lv_len _ _ _ _ _ _ _ L); auto|].
  destruct (live_arrs T lens G _ _ _ _ _ _ L Hw) as [f [s [E [R1 R2]]]].
  exists (hp w), f, s. split; [exists w; rewrite E; auto|]. split; [exists w; rewrite E; auto|]. auto.
Qed.

Lemma live_unchanged_father : forall SF SS ws SF' SS' ws', live SF SS ws -> live SF' SS' ws' ->
  (forall r, (r < P)%nat -> same_content (SF r) (SF' r)) -> unchanged father ws ws'.
Proof.
  intros SF SS ws SF' SS' ws' L L' H. split.
  - rewrite (lv_len _ _ _ _ _ _ _ L), (lv_len _ _ _ _ _ _ _ L'). auto.
  - intros r h a Ha. destruct (live_father _ _ _ _ _ _ L Ha) as [Hr R].
    destruct (live_get _ _ _ r L' Hr) as [h' [f [s [A [_ [Rf _]]]]]].
    exists h', f. split; auto. eapply same_reads_rep; eauto.
Qed.
Lemma live_unchanged_son : forall SF SS ws SF' SS' ws', live SF SS ws -> live SF' SS' ws' ->
  (forall r, (r < P)%nat -> same_content (SS r) (SS' r)) -> unchanged son ws ws'.
Proof.
  intros SF SS ws SF' SS' ws' L L' H. split.
  - rewrite (lv_len _ _ _ _ _ _ _ L), (lv_len _ _ _ _ _ _ _ L'). auto.
  - intros r h a Ha. destruct (live_son _ _ _ _ _ _ L Ha) as [Hr R].
    destruct (live_get _ _ _ r L' Hr) as [h' [f [s [_ [A [_ Rs]]]]]].
    exists h', s. split; auto. eapply same_reads_rep; eauto.
Qed.

Definition shaped (SF SS SF' SS' : nat -> sarr) : Prop :=
  forall r, (r < P)%nat -> same_shape (SF r) (SF' r) /\ same_shape (SS r) (SS' r).

(** *** writes *)
Lemma upd_lengths : forall (C : list (list T)) k row, length row = length (nth k C []) ->
  map (@length T) (upd k row C) = map (@length T) C.
Proof.
  induction C as [|c C IH]; intros [|k] row H; simpl in *; auto; f_equal; auto.
Qed.

Lemma write_live : forall SF SS ws r b i j x ws', live SF SS ws ->
  rank_call dflt ws r (if b : bool then son else father) (CSet i j x) = Ok ws' ->
  exists SF' SS', live SF' SS' ws' /\ shaped SF SS SF' SS'.
Proof.
  intros SF SS ws r b i j x ws' L H. unfold rank_call in H.
  destruct (nth_error ws r) as [w|] eqn:Hw; [|discriminate]. apply bind_Ok in H. destruct H as [w' [H0 H]]. injection H as <-.
  assert (Hr : (r < P)%nat) by (rewrite <- (lv_len _ _ _ _ _ _ _ L); eapply nth_error_Some_lt; eauto).
  pose proof (lv_rep _ _ _ _ _ _ _ L _ _ Hw) as W.
  assert (Cv : covered [SF r; SS r] (if b then son else father) (@CSet T i j x)).
  { destruct b; [exists (SS r)|exists (SF r)]; auto. }
  pose proof (step_refines T dflt w _ _ _ W Cv) as Gd. rewrite H0 in Gd. destruct Gd as [ss' [Hin W']].
  assert (SH : forall s0 s' : sarr, In s' (allowed1 dflt s0 (CSet i j x)) -> same_shape s0 s').
  { intros s0 s' Ha. cbn [allowed1] in Ha. destruct (in_range i (length (cells s0))) as [k|]; [|destruct Ha].
    destruct (srow s0 k); [|destruct Ha]. destruct (in_range j (length l)); [|destruct Ha]. destruct Ha as [<-|[]].
    apply same_shape_with. apply upd_lengths. apply upd_length. }
  set (SF' := fun q => if Nat.eqb q r then nth 0 ss' (SF q) else SF q).
  set (SS' := fun q => if Nat.eqb q r then nth 1 ss' (SS q) else SS q).
  assert (Ess : exists f s, ss' = [f; s] /\ same_shape (SF r) f /\ same_shape (SS r) s).
  { destruct b; cbn in Hin; apply in_map_iff in Hin; destruct Hin as [s' [<- Hin]].
    - exists (SF r), s'. split; auto. split; [apply same_shape_refl|apply SH; auto].
    - exists s', (SS r). split; auto. split; [apply SH; auto|apply same_shape_refl]. }
  destruct Ess as [f [s [-> [S1 S2]]]].
  assert (Shp : shaped SF SS SF' SS').
  { intros q Hq. unfold SF', SS'. destruct (Nat.eqb_spec q r) as [->|]; cbn [nth]; auto. split; apply same_shape_refl. }
  exists SF', SS'. split; auto. apply (live_shape T lens G fb SF SS SF' SS' ws); auto.
  - rewrite upd_length. apply (lv_len _ _ _ _ _ _ _ L).
  - intros q wq Hq. unfold SF', SS'. destruct (Nat.eqb_spec q r) as [->|Ne].
    + rewrite nth_error_upd_same in Hq by (eapply nth_error_Some_lt; eauto). injection Hq as <-. exact W'.
    + rewrite nth_error_upd_other in Hq by auto. apply (lv_rep _ _ _ _ _ _ _ L); auto.
Qed.

Lemma shaped_trans : forall A B C D E F, shaped A B C D -> shaped C D E F -> shaped A B E F.
Proof.
  intros A B C D E F H1 H2 r Hr. destruct (H1 r Hr), (H2 r Hr). split; eapply same_shape_trans; eauto.
Qed.
Lemma shaped_refl : forall A B, shaped A B A B.
Proof. intros A B r Hr. split; apply same_shape_refl. Qed.

(** *** outcomes of one exchange in a live state *)
Lemma link_ghost : forall r k s i, (r < P)%nat -> ghost_of lens ms r k s i <-> (s < P)%nat /\ In (i, k) (link s r).
Proof.
  intros r k s i Hr. rewrite (plan_ghost_of lens ms G) by auto. split.
  - intro H. destruct (ghosts_valid _ _ _ _ _ _ _ HP H) as [Hs _]. split; auto. apply linkl_In; auto.
  - intros [Hs H]. apply linkl_In; auto.
Qed.

Lemma link_bounds : forall SF SS ws s r i k, live SF SS ws -> (s < P)%nat -> (r < P)%nat -> In (i, k) (link s r) ->
  (i < length (cells (SF s)))%nat /\ (k < length (cells (SS r)))%nat.
Proof.
  intros SF SS ws s r i k L Hs Hr H. apply linkl_In in H; auto.
  destruct (lv_size _ _ _ _ _ _ _ L s Hs) as [-> _]. destruct (lv_size _ _ _ _ _ _ _ L r Hr) as [_ ->].
  destruct (ghosts_valid _ _ _ _ _ _ _ HP H) as [_ [V _]]. split; auto. eapply nth_error_Some_lt; eauto.
Qed.

Lemma link_srow : forall SF SS ws s r i k, live SF SS ws -> (s < P)%nat -> (r < P)%nat -> In (i, k) (link s r) ->
  nth k (cells (SS r)) [] = nth i (cells (SF s)) [] -> srow (SS r) k = srow (SF s) i.
Proof.
  intros SF SS ws s r i k L Hs Hr Hin E. destruct (link_bounds _ _ _ _ _ _ _ L Hs Hr Hin) as [B1 B2].
  apply srow_cells; auto.
  - destruct (lv_lay _ _ _ _ _ _ _ L r Hr) as [_ ->]. destruct (lv_lay _ _ _ _ _ _ _ L s Hs) as [-> _]. auto.
  - apply (lv_shape _ _ _ _ _ _ _ L s r i k); auto.
Qed.

Lemma ghosts_now : forall SF SS ws, live SF SS ws ->
  (forall s r i k, (s < P)%nat -> (r < P)%nat -> In (i, k) (link s r) ->
       nth k (cells (SS r)) [] = nth i (cells (SF s)) []) -> ghosts_current lens ms ws.
Proof.
  intros SF SS ws L H r m Hm. assert (Hr : (r < P)%nat) by (rewrite <- (pl_len _ _ _ HP); eapply nth_error_Some_lt; eauto).
  destruct (live_get _ _ _ r L Hr) as [h [f [s [Af [As [Rf Rs]]]]]].
  destruct (pl_pull _ _ _ HP _ _ Hm) as [_ [_ Eg]].
  exists h, s. split; auto. split.
  - rewrite (r_size _ _ _ _ Rs). destruct (lv_size _ _ _ _ _ _ _ L r Hr) as [_ E]. unfold zlen. rewrite E, Eg, map_length. auto.
  - intros k Hk. rewrite Eg, map_length in Hk. destruct (nth_error_lt_Some _ _ _ Hk) as [[s0 i] Hn].
    destruct (ghosts_valid _ _ _ _ _ _ _ HP Hn) as [V1 [V2 _]].
    destruct (live_get _ _ _ s0 L V1) as [h' [f' [s' [Af' [_ [Rf' _]]]]]].
    exists s0, i, h', f'. split; [apply (plan_ghost_of lens ms G); auto|]. split; auto.
    assert (Hin : In (i, k) (link s0 r)) by (apply linkl_In; auto).
    destruct (link_bounds _ _ _ _ _ _ _ L V1 Hr Hin) as [B1 B2].
    eapply same_row_srow; eauto. eapply link_srow; eauto.
Qed.

Lemma nth_ext_cells : forall (A B : list (list T)), length A = length B ->
  (forall k, (k < length A)%nat -> nth k A [] = nth k B []) -> A = B.
Proof. intros A B H1 H2. apply (nth_ext A B [] []); auto. Qed.

Lemma same_shape_content : forall s s' : sarr, same_shape s s' -> cells s' = cells s -> same_content s s'.
Proof. intros s s' (A&B&C&D&E) H. split; auto. Qed.

Lemma son_cover : forall SF SS ws r k, live SF SS ws -> (r < P)%nat -> (k < length (cells (SS r)))%nat ->
  exists s i, (s < P)%nat /\ In (i, k) (link s r).
Proof.
  intros SF SS ws r k L Hr Hk. destruct (lv_size _ _ _ _ _ _ _ L r Hr) as [_ E]. rewrite E in Hk.
  destruct (nth_error_lt_Some _ _ _ Hk) as [[s i] Hn]. destruct (ghosts_valid _ _ _ _ _ _ _ HP Hn) as [V1 _].
  exists s, i. split; auto. apply linkl_In; auto.
Qed.

End LiveStates.
