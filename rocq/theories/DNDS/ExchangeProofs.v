(** Ghost exchanges on arrays (C04, C05). *)
From Coq Require Import List ZArith Lia Bool Arith Permutation.
From Verif Require Import Base.Prelude Base.PreludeFacts Base.MPIModel Base.MPIFacts
  DNDS.IndexMappingModel DNDS.IndexMappingSpec DNDS.IndexMappingProofs DNDS.GhostPullProofs
  DNDS.GhostSearchProofs DNDS.GhostPushProofs
  DNDS.ArrayModel DNDS.ArraySpec DNDS.ArrayProofs DNDS.ExchangeModel DNDS.ExchangeSpec
  DNDS.ExchangePlanProofs DNDS.TransferProofs DNDS.MessageProofs.
Import ListNotations.
Local Open Scope Z_scope.

Lemma place_dec : forall a b : nat * nat, {a = b} + {a <> b}.
Proof. decide equality; apply Nat.eq_dec. Qed.

(** Moves in groups, each of which names all places of [Q] or none: all places of
    [Q] end up with the elements of one group. *)
Lemma grouped : forall T (Q : nat * nat -> Prop) (L : list (list nmove)) (src dst : list (list T)),
  Forall (Forall (in_bounds src dst)) L ->
  (forall g, In g L -> (forall m, In m g -> ~ Q (snd m)) \/ (forall pl, Q pl -> In pl (map snd g))) ->
  exists dst', foldM (transfer src) dst (map zmove (concat L)) = Ok dst' /\
    map (@length T) dst' = map (@length T) dst /\
    (((forall g m, In g L -> In m g -> ~ Q (snd m)) /\
      (forall pl, Q pl -> cell dst' (fst pl) (snd pl) = cell dst (fst pl) (snd pl))) \/
     exists g, In g L /\ forall pl, Q pl -> exists m, In m g /\ snd m = pl /\
        cell dst' (fst pl) (snd pl) = cell src (fst (fst m)) (snd (fst m))).
Proof.
  intros T Q. induction L as [|g L IH]; intros src dst Hb Hg.
  - exists dst. split; [reflexivity|]. split; [reflexivity|]. left. split; [intros g m []|auto].
  - inversion Hb as [|? ? Hb1 Hb2]; subst.
    destruct (transfers T g src dst Hb1) as [d1 [E1 [L1 [U1 S1]]]].
    destruct (IH src d1) as [d2 [E2 [L2 D]]].
    { rewrite Forall_forall in *. intros x Hx. specialize (Hb2 _ Hx). rewrite Forall_forall in *.
      intros m Hm. eapply in_bounds_lengths; [|apply Hb2; auto]. auto. }
    { intros; apply Hg; right; auto. }
    exists d2. split.
    { cbn [concat]. rewrite map_app. assert (F : forall a b (d : list (list T)),
        foldM (transfer src) d (a ++ b) = do x <- foldM (transfer src) d a; foldM (transfer src) x b).
      { clear. induction a as [|x a IHa]; intros b d; cbn; auto.
        destruct (transfer src d x); cbn; auto. }
      rewrite F, E1. exact E2. }
    split; [congruence|].
    destruct D as [[D1 D2]|[g' [D1 D2]]]; [|right; exists g'; split; [right; auto|auto]].
    destruct (Hg g (or_introl eq_refl)) as [N|A].
    + left. split.
      * intros g0 m [<-|H0] Hm; eauto.
      * intros pl Hq. rewrite D2 by auto. apply U1. intros m Hm E. apply (N m Hm).
        rewrite E. destruct pl; auto.
    + right. exists g. split; [left; auto|]. intros pl Hq. specialize (A pl Hq). apply in_map_iff in A.
      destruct A as [m [<- Hm]]. destruct (S1 m Hm) as [m' [I' [E' C']]].
      exists m'. split; auto. split; auto. rewrite D2 by auto. auto.
Qed.

Section Live.
Variable T : Type.
Variable dflt : T.
Notation arr := (arr T).
Notation sarr := (sarr T).
Notation rep := (rep T). Notation wrep := (wrep T). Notation flat_mode := (flat_mode T).

Lemma rep_with_dat : forall h a (s : sarr) C, rep h a s -> flat_mode s = true ->
  map (@length T) C = map (@length T) (cells s) ->
  rep h (with_dat a (concat C)) (with_cells s C).
Proof.
  intros h a s C R F H.
  assert (Hlen : length C = length (cells s)) by (rewrite <- (map_length (@length T) C), H, map_length; auto).
  assert (Hz : zlensl C = zlensl (cells s)) by (apply zlensl_ext; auto).
  assert (Hfor : forall Pr : nat -> Prop, Forall (fun r => Pr (length r)) (cells s) -> Forall (fun r => Pr (length r)) C).
  { intros Pr HF. rewrite Forall_forall in *. intros x Hx. apply (in_map (@length T)) in Hx.
    rewrite H in Hx. apply in_map_iff in Hx. destruct Hx as [y [<- Hy]]. auto. }
  destruct R. constructor; unfold ArrayProofs.flat_mode, with_cells, with_dat in *;
    cbn [slay comp width cells used lay pStart pSizes dat unc size rsd] in *.
  - auto.
  - rewrite r_size. unfold zlen. congruence.
  - rewrite F. auto.
  - rewrite F in *. auto.
  - rewrite Hz. auto.
  - intro Hc. apply (Hfor (fun n => small n)); auto.
  - intro Hc. destruct (r_width Hc) as [A1 [A2 A3]]. split; [exact A1|]. split; auto.
    apply (Hfor (fun n => n = width s)); auto.
  - auto.
  - destruct (is_max (slay s)); auto. rewrite Hlen. destruct r_sizes as [A1 [A2 A3]].
    split; auto. split; auto. destruct (pSizes a); auto. rewrite A3 in Hlen. destruct C; auto; discriminate.
Qed.

Lemma same_row_srow : forall h a (s : sarr) i h' b (s' : sarr) k,
  rep h a s -> rep h' b s' -> (i < length (cells s))%nat -> (k < length (cells s'))%nat ->
  srow s' k = srow s i -> same_row h a i h' b k.
Proof.
  intros h a s i h' b s' k R R' Hi Hk E.
  destruct (rep_looks T h a s R) as [_ [A1 A2]]. destruct (rep_looks T h' b s' R') as [_ [B1 B2]].
  specialize (A1 (Z.of_nat i)). specialize (B1 (Z.of_nat k)).
  rewrite in_range_nat in A1 by auto. rewrite in_range_nat in B1 by auto.
  destruct A1 as [x [X1 X2]], B1 as [y [Y1 Y2]]. split; [congruence|].
  intro j. rewrite A2, B2, !in_range_nat by auto. rewrite E. reflexivity.
Qed.

(** the rows two arrays have in common *)
Definition same_cells (s : sarr) (i : nat) (s' : sarr) (k : nat) : Prop :=
  nth k (cells s') [] = nth i (cells s) [].

Lemma srow_cells : forall (s s' : sarr) i k, slay s' = slay s ->
  (i < length (cells s))%nat -> (k < length (cells s'))%nat ->
  nth k (cells s') [] = nth i (cells s) [] ->
  (is_max (slay s) = true -> nth_error (used s') k = nth_error (used s) i) ->
  srow s' k = srow s i.
Proof.
  intros s s' i k El Hi Hk Ec Eu. unfold srow.
  rewrite (nth_error_nth' _ [] Hi), (nth_error_nth' _ [] Hk), Ec, El.
  destruct (is_max (slay s)); auto. rewrite Eu; auto.
Qed.

(** *** live states: what holds between exchanges *)
Variables (lens : list nat) (ms : list ghostmap) (G : nat -> nat -> list nat).
Hypothesis HP : plan lens ms G.
Notation P := (length lens).
Notation link := (linkl P G).

Record live (fb : bool) (SF SS : nat -> sarr) (ws : list (world T)) : Prop := {
  lv_len : length ws = P;
  lv_rep : forall r w, nth_error ws r = Some w -> wrep w [SF r; SS r];
  lv_flat : forall r, (r < P)%nat -> (fb = true -> flat_mode (SF r) = true) /\ flat_mode (SS r) = true;
  lv_size : forall r, (r < P)%nat -> length (cells (SF r)) = nth r lens 0%nat /\
                                     length (cells (SS r)) = length (ghosts P G r);
  lv_lay : forall r, (r < P)%nat -> slay (SF r) = slay (SF O) /\ slay (SS r) = slay (SF O);
  lv_shape : forall s r i k, (s < P)%nat -> (r < P)%nat -> In (i, k) (link s r) ->
    clen (cells (SS r)) k = clen (cells (SF s)) i /\
    (is_max (slay (SF s)) = true -> nth_error (used (SS r)) k = nth_error (used (SF s)) i)
}.

Definition same_shape (s s' : sarr) : Prop :=
  slay s' = slay s /\ comp s' = comp s /\ width s' = width s /\ used s' = used s /\
  map (@length T) (cells s') = map (@length T) (cells s).

Lemma same_shape_refl : forall s, same_shape s s.
Proof. intros. repeat split. Qed.
Lemma same_shape_trans : forall a b c, same_shape a b -> same_shape b c -> same_shape a c.
Proof. intros a b c (?&?&?&?&?) (?&?&?&?&?). repeat split; congruence. Qed.

Lemma same_shape_with : forall (s : sarr) C, map (@length T) C = map (@length T) (cells s) ->
  same_shape s (with_cells s C).
Proof. intros. repeat split; auto. Qed.

(** any change of the element values keeps a state live *)
Lemma live_shape : forall fb SF SS SF' SS' ws ws', live fb SF SS ws ->
  length ws' = P ->
  (forall r w, nth_error ws' r = Some w -> wrep w [SF' r; SS' r]) ->
  (forall r, (r < P)%nat -> same_shape (SF r) (SF' r) /\ same_shape (SS r) (SS' r)) ->
  live fb SF' SS' ws'.
Proof.
  intros fb SF SS SF' SS' ws ws' [] Hl Hr Hs. constructor; auto.
  - intros r Hr'. destruct (Hs r Hr') as [(A1&A2&_) (B1&B2&_)]. specialize (lv_flat0 r Hr').
    unfold ArrayProofs.flat_mode in *. rewrite A1, A2, B1, B2. auto.
  - intros r Hr'. destruct (Hs r Hr') as [(_&_&_&_&A) (_&_&_&_&B)]. specialize (lv_size0 r Hr').
    apply (f_equal (@length nat)) in A, B. rewrite !map_length in A, B. rewrite A, B. auto.
  - intros r Hr'. destruct (Hs r Hr') as [(A&_) (B&_)]. destruct (Hs O ltac:(lia)) as [(D&_) _].
    rewrite A, B, D. auto.
  - intros s r i k Hs' Hr' Hin. destruct (Hs s Hs') as [(A1&_&_&A2&A3) _]. destruct (Hs r Hr') as [_ (B1&_&_&B2&B3)].
    rewrite (lengths_clen _ _ _ k B3), (lengths_clen _ _ _ i A3), A1, A2, B2. auto.
Qed.

Lemma live_arrs : forall fb SF SS ws r w, live fb SF SS ws -> nth_error ws r = Some w ->
  exists f s, arrs w = [f; s] /\ rep (hp w) f (SF r) /\ rep (hp w) s (SS r).
Proof.
  intros fb SF SS ws r w L Hw. destruct (lv_rep _ _ _ _ L _ _ Hw) as [Hl [Hr _]]. simpl in Hl.
  destruct (arrs w) as [|f [|s [|? ?]]] eqn:E; try discriminate.
  exists f, s. split; auto. split; [apply (Hr 0%nat)|apply (Hr 1%nat)]; reflexivity.
Qed.


Definition src_of (b : bool) (SF SS : nat -> sarr) r : sarr := if b then SF r else SS r.
Definition from_id (b : bool) := if b then father else son.
Definition to_id (b : bool) := if b then son else father.

Lemma live_buffer : forall b SF SS ws, live true SF SS ws ->
  buffers (from_id b) ws = Ok (map (fun r => concat (cells (src_of b SF SS r))) (seq 0 P)).
Proof.
  intros b SF SS ws L. unfold buffers. apply mapM_intro.
  - rewrite map_length, seq_length. symmetry. apply (lv_len _ _ _ _ L).
  - intros r w d Hw Hd. apply nth_error_map_seq in Hd. destruct Hd as [Hr ->].
    destruct (live_arrs _ _ _ _ _ _ L Hw) as [f [s [E [R1 R2]]]]. unfold get_arr. rewrite E.
    destruct (lv_flat _ _ _ _ L _ Hr) as [F1 F2].
    destruct b; cbn [from_id father son nth_error bind src_of]; f_equal.
    + rewrite (r_dat _ _ _ _ R1), (F1 eq_refl). reflexivity.
    + rewrite (r_dat _ _ _ _ R2), F2. reflexivity.
Qed.

Definition new_cells (s : sarr) (d : list T) : list (list T) := regroup dflt (map (@length T) (cells s)) d.

Lemma new_cells_spec : forall (s : sarr) d, length d = length (concat (cells s)) ->
  concat (new_cells s d) = d /\ map (@length T) (new_cells s d) = map (@length T) (cells s) /\
  forall k j, (j < clen (cells s) k)%nat ->
    nth_error (nth k (new_cells s d) []) j = nth_error d (off (cells s) k + j).
Proof.
  intros s d H. unfold new_cells. rewrite length_concat_sum in H.
  split; [apply regroup_concat_exact; auto|]. split; [apply regroup_lengths|].
  intros k j Hj. rewrite regroup_cell; auto.
  - rewrite (lengths_off _ _ (cells s)) by apply regroup_lengths. reflexivity.
  - unfold clen in Hj. change O with (@length T []). rewrite (map_nth (@length T)). auto.
Qed.

Definition after (b : bool) (SF SS : nat -> sarr) (dst' : list (list T)) r : list sarr :=
  if b then [SF r; with_cells (SS r) (new_cells (SS r) (nth r dst' []))]
  else [with_cells (SF r) (new_cells (SF r) (nth r dst' [])); SS r].

Lemma exchange_live : forall b SF SS ws mvs dst', live true SF SS ws ->
  foldM (transfer (map (fun r => concat (cells (src_of b SF SS r))) (seq 0 P)))
        (map (fun r => concat (cells (src_of (negb b) SF SS r))) (seq 0 P)) mvs = Ok dst' ->
  map (@length T) dst' = map (@length T) (map (fun r => concat (cells (src_of (negb b) SF SS r))) (seq 0 P)) ->
  exists ws', exchange (from_id b) (to_id b) ws mvs = Ok ws' /\ length ws' = P /\
    (forall r w', nth_error ws' r = Some w' -> exists w, nth_error ws r = Some w /\
       hp w' = hp w /\ wrep w' (after b SF SS dst' r) /\
       nth_error (arrs w') (from_id b) = nth_error (arrs w) (from_id b)) /\
    (forall r, (r < P)%nat -> length (nth r dst' []) = length (concat (cells (src_of (negb b) SF SS r)))).
Proof.
  intros b SF SS ws mvs dst' L H1 H2.
  assert (Hd : length dst' = P).
  { apply (f_equal (@length nat)) in H2. rewrite !map_length, seq_length in H2. auto. }
  assert (Hn : forall r, (r < P)%nat -> length (nth r dst' []) = length (concat (cells (src_of (negb b) SF SS r)))).
  { intros r Hr. rewrite map_map in H2. apply (f_equal (fun l => nth_error l r)) in H2.
    rewrite nth_error_map_seq_lt, nth_error_map_, (nth_error_nth' dst' []) in H2 by lia.
    cbn in H2. congruence. }
  unfold exchange. rewrite (live_buffer b _ _ _ L). cbn [bind].
  replace (to_id b) with (from_id (negb b)) by (destruct b; reflexivity).
  rewrite (live_buffer (negb b) _ _ _ L). cbn [bind]. rewrite H1. cbn [bind].
  set (f := fun r => let w := nth r ws {| hp := []; arrs := [] |} in
     let a := nth (from_id (negb b)) (arrs w) (new_arr CSR) in
     {| hp := hp w; arrs := upd (from_id (negb b)) (with_dat a (nth r dst' [])) (arrs w) |}).
  assert (Hw : forall r, (r < P)%nat -> nth_error ws r = Some (nth r ws {| hp := []; arrs := [] |})).
  { intros. apply nth_error_nth'. rewrite (lv_len _ _ _ _ L). auto. }
  exists (map f (seq 0 P)). split; [|split; [rewrite map_length, seq_length; auto|split; [|exact Hn]]].
  - unfold set_buffers.
    rewrite (as_map_seq _ {| hp := []; arrs := [] |} ws P (lv_len _ _ _ _ L)) at 1.
    rewrite (as_map_seq _ [] dst' P Hd) at 1. rewrite combine_map2. apply mapM_seq. intros r Hr.
    cbn [fst snd]. destruct (live_arrs _ _ _ _ _ _ L (Hw r Hr)) as [fa [sa [E _]]].
    unfold get_arr, put, f. cbn zeta. destruct b; cbn [negb from_id]; rewrite !E; cbn [father son nth_error bind fst snd nth]; rewrite ?E; reflexivity.
  - intros r w' Hw'. apply nth_error_map_seq in Hw'. destruct Hw' as [Hr ->].
    exists (nth r ws {| hp := []; arrs := [] |}). split; [auto|].
    specialize (Hw r Hr). set (w := nth r ws {| hp := []; arrs := [] |}) in *.
    destruct (live_arrs _ _ _ _ _ _ L Hw) as [fa [sa [E [R1 R2]]]].
    pose proof (lv_rep _ _ _ _ L _ _ Hw) as W. destruct (lv_flat _ _ _ _ L _ Hr) as [F1 F2].
    unfold f. cbn zeta. fold w. rewrite E. cbn [hp arrs]. split; [reflexivity|]. split.
    + assert (EQ : {| hp := hp w; arrs := upd (from_id (negb b)) (with_dat (nth (from_id (negb b)) [fa; sa] (new_arr CSR)) (nth r dst' [])) [fa; sa] |}
        = {| hp := hp w; arrs := upd (from_id (negb b)) (with_dat (nth (from_id (negb b)) [fa; sa] (new_arr CSR)) (nth r dst' [])) (arrs w) |})
        by (rewrite E; reflexivity).
      rewrite EQ. clear EQ. specialize (Hn r Hr).
      destruct b; cbn [negb from_id father son src_of nth after] in *.
      * destruct (new_cells_spec (SS r) _ Hn) as [N1 [N2 _]].
        apply (wrep_step T w [SF r; SS r] 1 sa (SS r)); auto; [rewrite E; reflexivity| |].
        -- rewrite <- N1 at 1. apply rep_with_dat; auto.
        -- apply frame_same; right; reflexivity.
      * destruct (new_cells_spec (SF r) _ Hn) as [N1 [N2 _]].
        apply (wrep_step T w [SF r; SS r] 0 fa (SF r)); auto; [rewrite E; reflexivity| |].
        -- rewrite <- N1 at 1. apply rep_with_dat; auto.
        -- apply frame_same; right; reflexivity.
    + destruct b; reflexivity.
Qed.

Lemma live_clen : forall fb SF SS ws, live fb SF SS ws ->
  forall s r i k, (s < P)%nat -> (r < P)%nat -> In (i, k) (link s r) ->
  clen (cells (SS r)) k = clen (cells (SF s)) i.
Proof. intros fb SF SS ws L s r i k Hs Hr Hin. apply (lv_shape _ _ _ _ L s r i k); auto. Qed.

Definition cellsF (SF : nat -> sarr) (r : nat) := cells (SF r).

Lemma cell_concat : forall (C : nat -> list (list T)) r k j, (r < P)%nat -> (j < clen (C r) k)%nat ->
  cell (map (fun r => concat (C r)) (seq 0 P)) r (off (C r) k + j) = nth_error (nth k (C r) []) j.
Proof.
  intros. unfold cell. rewrite (nth_error_map_seq_lt _ (fun r => concat (C r))) by auto. apply off_cell. auto.
Qed.

Lemma cell_concat_ne : forall (C : nat -> list (list T)) r k j, (r < P)%nat -> (j < clen (C r) k)%nat ->
  cell (map (fun r => concat (C r)) (seq 0 P)) r (off (C r) k + j) <> None.
Proof.
  intros. rewrite cell_concat by auto. apply nth_error_Some. auto.
Qed.

Lemma pull_bounds : forall SF SS ws, live true SF SS ws ->
  Forall (in_bounds (map (fun r => concat (cellsF SF r)) (seq 0 P)) (map (fun r => concat (cellsF SS r)) (seq 0 P)))
         (pull_nm T P G (cellsF SF) (cellsF SS)).
Proof.
  intros SF SS ws L. apply Forall_forall. intros [[s p] [r q]] H. apply pull_nm_In in H.
  destruct H as [Hs [Hr H]]. apply (pairs_In T P G) in H; auto; [|exact (live_clen _ _ _ _ L)].
  destruct H as [i [k [j [Hin [Hj [-> ->]]]]]]. pose proof (live_clen _ _ _ _ L s r i k Hs Hr Hin) as E.
  split; cbn [fst snd]; apply cell_concat_ne; auto. unfold cellsF in *. lia.
Qed.

Lemma push_bounds : forall SF SS ws, live true SF SS ws ->
  Forall (in_bounds (map (fun r => concat (cellsF SS r)) (seq 0 P)) (map (fun r => concat (cellsF SF r)) (seq 0 P)))
         (push_nm T P G (cellsF SF) (cellsF SS)).
Proof.
  intros SF SS ws L. apply Forall_forall. intros [[r q] [s p]] H. apply push_nm_In in H.
  destruct H as [Hs [Hr H]]. apply (pairs_In T P G) in H; auto; [|exact (live_clen _ _ _ _ L)].
  destruct H as [i [k [j [Hin [Hj [-> ->]]]]]]. pose proof (live_clen _ _ _ _ L s r i k Hs Hr Hin) as E.
  split; cbn [fst snd]; apply cell_concat_ne; auto. unfold cellsF in *. lia.
Qed.

Lemma Forall_perm : forall A (Q : A -> Prop) l l', Permutation l l' -> Forall Q l' -> Forall Q l.
Proof.
  intros. rewrite Forall_forall in *. intros x Hx. apply H0. eapply Permutation_in; eauto.
Qed.

(** *** pull *)
Lemma pull_live : forall SF SS ws mvs, live true SF SS ws ->
  Permutation mvs (map zmove (pull_nm T P G (cellsF SF) (cellsF SS))) ->
  exists ws' SS', pull_exchange ws mvs = Ok ws' /\ live true SF SS' ws' /\
    (forall r, (r < P)%nat -> same_shape (SS r) (SS' r)) /\
    (forall r w', nth_error ws' r = Some w' -> exists w, nth_error ws r = Some w /\ hp w' = hp w /\
       nth_error (arrs w') father = nth_error (arrs w) father) /\
    (forall s r i k, (s < P)%nat -> (r < P)%nat -> In (i, k) (link s r) ->
       nth k (cells (SS' r)) [] = nth i (cells (SF s)) []).
Proof.
  intros SF SS ws mvs L Hp. apply Permutation_map_inv in Hp. destruct Hp as [nm [-> Hp]].
  pose proof (Forall_perm _ _ _ _ (Permutation_sym Hp) (pull_bounds _ _ _ L)) as Hb.
  destruct (transfers _ _ _ _ Hb) as [dst' [E1 [E2 [_ E3]]]].
  destruct (exchange_live true SF SS ws (map zmove nm) dst' L E1 E2) as [ws' [X1 [X2 [X3 X4]]]].
  cbn [src_of negb] in X4.
  set (SS' := fun r => with_cells (SS r) (new_cells (SS r) (nth r dst' []))).
  assert (Sh : forall r, (r < P)%nat -> same_shape (SS r) (SS' r)).
  { intros r Hr. apply same_shape_with. destruct (new_cells_spec (SS r) _ (X4 r Hr)) as [_ [N _]]. auto. }
  exists ws', SS'. split; [exact X1|]. split; [|split; [exact Sh|split]].
  - apply (live_shape true SF SS SF SS' ws ws'); auto.
    + intros r w' Hw'. destruct (X3 _ _ Hw') as [w [_ [_ [W _]]]]. exact W.
    + intros r Hr. split; [apply same_shape_refl|auto].
  - intros r w' Hw'. destruct (X3 _ _ Hw') as [w [A1 [A2 [_ A4]]]]. exists w. auto.
  - intros s r i k Hs Hr Hin. pose proof (live_clen _ _ _ _ L s r i k Hs Hr Hin) as Ec.
    destruct (new_cells_spec (SS r) _ (X4 r Hr)) as [N1 [N2 N3]].
    assert (El : clen (cells (SS' r)) k = clen (cells (SF s)) i).
    { rewrite <- Ec. apply lengths_clen. exact N2. }
    unfold clen in El. apply nth_error_ext. intro j.
    destruct (Nat.lt_ge_cases j (clen (cells (SF s)) i)) as [Hj|Hj].
    + cbn [SS' with_cells cells]. unfold SS'. cbn [with_cells cells]. rewrite N3 by lia.
      assert (M : In ((s, (off (cellsF SF s) i + j)%nat), (r, (off (cellsF SS r) k + j)%nat)) nm).
      { eapply Permutation_in; [exact Hp|]. apply pull_nm_In. split; auto. split; auto.
        apply (pairs_In T P G); auto; [exact (live_clen _ _ _ _ L)|]. exists i, k, j. auto. }
      destruct (E3 _ M) as [[[s' p'] [r' q']] [M' [Eq C]]]. cbn [fst snd] in *. injection Eq as -> ->.
      apply (Permutation_in _ (Permutation_sym Hp)) in M'. apply pull_nm_In in M'.
      destruct M' as [Hs' [_ M']]. apply (pairs_In T P G) in M'; auto; [|exact (live_clen _ _ _ _ L)].
      destruct M' as [i' [k' [j' [Hin' [Hj' [-> Eo]]]]]].
      pose proof (live_clen _ _ _ _ L s' r i' k' Hs' Hr Hin') as Ec'. unfold cellsF in *.
      apply off_inj in Eo; [|lia|lia]. destruct Eo as [<- <-].
      apply linkl_In in Hin; auto. apply linkl_In in Hin'; auto. rewrite Hin in Hin'. injection Hin' as <- <-.
      rewrite cell_concat in C by auto. rewrite <- C. unfold cell.
      assert (Hd : (r < length dst')%nat).
      { apply (f_equal (@length nat)) in E2. rewrite !map_length, seq_length in E2. lia. }
      rewrite (nth_error_nth' dst' [] Hd). reflexivity.
    + unfold clen in *. rewrite !(proj2 (nth_error_None _ _)); auto; lia.
Qed.

(** *** push *)
Lemma push_live : forall SF SS ws mvs, live true SF SS ws ->
  Permutation mvs (map zmove (push_nm T P G (cellsF SF) (cellsF SS))) ->
  exists ws' SF', push_exchange ws mvs = Ok ws' /\ live true SF' SS ws' /\
    (forall r, (r < P)%nat -> same_shape (SF r) (SF' r)) /\
    (forall r w', nth_error ws' r = Some w' -> exists w, nth_error ws r = Some w /\ hp w' = hp w /\
       nth_error (arrs w') son = nth_error (arrs w) son) /\
    (forall s i j, (s < P)%nat -> (j < clen (cells (SF s)) i)%nat ->
       (exists r k, (r < P)%nat /\ In (i, k) (link s r) /\
          nth_error (nth i (cells (SF' s)) []) j = nth_error (nth k (cells (SS r)) []) j) \/
       ((forall r k, (r < P)%nat -> ~ In (i, k) (link s r)) /\
          nth_error (nth i (cells (SF' s)) []) j = nth_error (nth i (cells (SF s)) []) j)) /\
    (message_order (push_msgs T P G (cellsF SF) (cellsF SS)) mvs ->
     forall s i, (s < P)%nat -> (i < length (cells (SF s)))%nat ->
       (exists r k, (r < P)%nat /\ In (i, k) (link s r) /\ nth i (cells (SF' s)) [] = nth k (cells (SS r)) []) \/
       ((forall r k, (r < P)%nat -> ~ In (i, k) (link s r)) /\
          nth i (cells (SF' s)) [] = nth i (cells (SF s)) [])).
Proof.
  intros SF SS ws mvs L Hp.
  pose proof Hp as Hp0. apply Permutation_map_inv in Hp. destruct Hp as [nm [Emv Hp]].
  pose proof (Forall_perm _ _ _ _ (Permutation_sym Hp) (push_bounds _ _ _ L)) as Hb.
  destruct (transfers _ _ _ _ Hb) as [dst' [E1 [E2 [E4 E3]]]]. rewrite <- Emv in E1.
  destruct (exchange_live false SF SS ws mvs dst' L E1 E2) as [ws' [X1 [X2 [X3 X4]]]].
  cbn [src_of negb] in X4.
  set (SF' := fun r => with_cells (SF r) (new_cells (SF r) (nth r dst' []))).
  assert (Sh : forall r, (r < P)%nat -> same_shape (SF r) (SF' r)).
  { intros r Hr. apply same_shape_with. destruct (new_cells_spec (SF r) _ (X4 r Hr)) as [_ [N _]]. auto. }
  assert (Hd : length dst' = P).
  { apply (f_equal (@length nat)) in E2. rewrite !map_length, seq_length in E2. lia. }
  assert (HC : forall s i j, (s < P)%nat -> (j < clen (cells (SF s)) i)%nat ->
     nth_error (nth i (cells (SF' s)) []) j = cell dst' s (off (cells (SF s)) i + j)).
  { intros s i j Hs Hj. destruct (new_cells_spec (SF s) _ (X4 s Hs)) as [N1 [N2 N3]].
    unfold SF'. cbn [with_cells cells]. rewrite N3 by lia. unfold cell.
    rewrite (nth_error_nth' dst' []) by lia. reflexivity. }
  assert (MV : forall s i r k j, (s < P)%nat -> (r < P)%nat -> In (i, k) (link s r) -> (j < clen (cells (SF s)) i)%nat ->
     In ((r, (off (cellsF SS r) k + j)%nat), (s, (off (cellsF SF s) i + j)%nat)) nm).
  { intros s i r k j Hs Hr Hin Hj. eapply Permutation_in; [exact Hp|]. apply push_nm_In. split; auto. split; auto.
    apply (pairs_In T P G); auto; [exact (live_clen _ _ _ _ L)|]. exists i, k, j. auto. }
  assert (MV' : forall r q s i j, (s < P)%nat -> (j < clen (cells (SF s)) i)%nat ->
     In ((r, q), (s, (off (cellsF SF s) i + j)%nat)) (push_nm T P G (cellsF SF) (cellsF SS)) ->
     exists k, (r < P)%nat /\ In (i, k) (link s r) /\ q = (off (cellsF SS r) k + j)%nat).
  { intros r q s i j Hs Hj M. apply push_nm_In in M. destruct M as [_ [Hr M]].
    apply (pairs_In T P G) in M; auto; [|exact (live_clen _ _ _ _ L)].
    destruct M as [i' [k' [j' [Hin' [Hj' [Eo ->]]]]]]. unfold cellsF in *.
    apply off_inj in Eo; auto. destruct Eo as [<- <-]. eauto. }
  exists ws', SF'. split; [exact X1|]. split; [|split; [exact Sh|split; [|split]]].
  - apply (live_shape true SF SS SF' SS ws ws'); auto.
    + intros r w' Hw'. destruct (X3 _ _ Hw') as [w [_ [_ [W _]]]]. exact W.
    + intros r Hr. split; [auto|apply same_shape_refl].
  - intros r w' Hw'. destruct (X3 _ _ Hw') as [w [A1 [A2 [_ A4]]]]. exists w. auto.
  - intros s i j Hs Hj. rewrite HC by auto.
    destruct (in_dec place_dec (s, (off (cells (SF s)) i + j)%nat) (map snd nm)) as [I|N].
    + left. apply in_map_iff in I. destruct I as [m [Em I]]. destruct (E3 _ I) as [[[r q] pl] [I' [Eq C]]].
      rewrite Em in C, Eq. cbn [fst snd] in *. subst pl.
      apply (Permutation_in _ (Permutation_sym Hp)) in I'.
      destruct (MV' r q s i j Hs Hj I') as [k [Hr [Hin ->]]]. exists r, k. split; auto. split; auto.
      rewrite C. apply (cell_concat (cellsF SS)); auto.
      pose proof (live_clen _ _ _ _ L s r i k Hs Hr Hin). unfold cellsF in *. lia.
    + right. split.
      * intros r k Hr Hin. apply N. apply in_map_iff. eexists. split; [|apply (MV s i r k j); eauto]. reflexivity.
      * rewrite E4.
        -- apply (cell_concat (cellsF SF)); auto.
        -- intros m Hm E. apply N. rewrite <- E. apply in_map. auto.
  - intros [ms' [Hperm Em]] s i Hs Hi.
    unfold push_msgs in Hperm. apply Permutation_map_inv in Hperm.
    destruct Hperm as [PP' [-> HPP]].
    (* the moves, row by row *)
    set (grp := fun (sr : nat * nat) (ik : nat * nat) =>
        map (fun j => ((fst sr, (off (cellsF SS (fst sr)) (snd ik) + j)%nat),
                       (snd sr, (off (cellsF SF (snd sr)) (fst ik) + j)%nat)) : nmove)
            (seq 0 (clen (cellsF SF (snd sr)) (fst ik)))).
    set (L' := concat (map (fun sr => map (grp sr) (link (snd sr) (fst sr))) PP')).
    assert (HPr : forall r s, In (r, s) PP' -> (r < P)%nat /\ (s < P)%nat).
    { intros r0 s0 H0. apply (Permutation_in _ (Permutation_sym HPP)) in H0. apply in_prod_iff in H0.
      destruct H0 as [A B]. apply in_seq in A, B. lia. }
    assert (Hmv : mvs = map zmove (concat L')).
    { rewrite Em. unfold all_moves, L'. rewrite map_map.
      assert (Q : forall l, (forall x, In x l -> In x PP') ->
        concat (map (fun x => moves_of (zz x, map zz (map swap (pairs T P G (cellsF SF) (cellsF SS) (snd x) (fst x))))) l) =
        map zmove (concat (concat (map (fun sr => map (grp sr) (link (snd sr) (fst sr))) l)))).
      { induction l as [|[r0 s0] l IHl]; intros Hl; auto. cbn [map concat].
        rewrite IHl by (intros; apply Hl; right; auto). rewrite concat_app, map_app. f_equal.
        destruct (HPr r0 s0 (Hl _ (or_introl eq_refl))) as [Hr0 Hs0]. cbn [fst snd].
        unfold moves_of, pairs. cbn [fst snd].
        assert (Q2 : forall li, (forall x, In x li -> In x (link s0 r0)) ->
          map (fun pq => ((Z.of_nat r0, fst pq), (Z.of_nat s0, snd pq)))
            (map zz (map swap (concat (map (fun ik => combine (seq (off (cellsF SF s0) (fst ik)) (clen (cellsF SF s0) (fst ik)))
               (seq (off (cellsF SS r0) (snd ik)) (clen (cellsF SS r0) (snd ik)))) li)))) =
          map zmove (concat (map (grp (r0, s0)) li))).
        { induction li as [|[i0 k0] li IHli]; intros Hli; auto. cbn [map concat]. rewrite !map_app.
          rewrite IHli by (intros; apply Hli; right; auto). f_equal. cbn [fst snd].
          pose proof (live_clen _ _ _ _ L s0 r0 i0 k0 Hs0 Hr0 (Hli _ (or_introl eq_refl))) as Ec.
          unfold grp, cellsF. cbn [fst snd]. rewrite Ec. rewrite !map_map.
          assert (Q3 : forall n a b, combine (seq a n) (seq b n) = map (fun j => ((a + j)%nat, (b + j)%nat)) (seq 0 n)).
          { clear. intros n a b. apply nth_error_ext. intro j. rewrite nth_error_combine, nth_error_map_, !nth_error_seq.
            destruct (Nat.ltb_spec j n); reflexivity. }
          rewrite Q3, map_map. reflexivity. }
        apply Q2. auto. }
      apply Q. auto. }
    assert (HgIn : forall g, In g L' -> exists r0 s0 i0 k0, (r0 < P)%nat /\ (s0 < P)%nat /\
        In (i0, k0) (link s0 r0) /\ g = grp (r0, s0) (i0, k0)).
    { intros g Hg. unfold L' in Hg. apply in_concat in Hg. destruct Hg as [gs [Hgs Hg]].
      apply in_map_iff in Hgs. destruct Hgs as [[r0 s0] [<- H0]]. apply in_map_iff in Hg.
      destruct Hg as [[i0 k0] [<- H1]]. destruct (HPr _ _ H0). cbn [fst snd] in *. exists r0, s0, i0, k0. auto. }
    set (Q := fun pl : nat * nat => exists j, (j < clen (cellsF SF s) i)%nat /\ pl = (s, (off (cellsF SF s) i + j)%nat)).
    destruct (grouped T Q L' (map (fun r => concat (cellsF SS r)) (seq 0 P)) (map (fun r => concat (cellsF SF r)) (seq 0 P)))
      as [d2 [G1 [G2 G3]]].
    + apply Forall_forall. intros g Hg. destruct (HgIn g Hg) as [r0 [s0 [i0 [k0 [Hr0 [Hs0 [Hl0 ->]]]]]]].
      apply Forall_forall. intros m Hm. unfold grp in Hm. apply in_map_iff in Hm. destruct Hm as [j [<- Hj]].
      apply in_seq in Hj. cbn [fst snd] in *. pose proof (live_clen _ _ _ _ L s0 r0 i0 k0 Hs0 Hr0 Hl0).
      split; cbn [fst snd]; apply cell_concat_ne; auto; unfold cellsF in *; lia.
    + intros g Hg. destruct (HgIn g Hg) as [r0 [s0 [i0 [k0 [Hr0 [Hs0 [Hl0 ->]]]]]]].
      destruct (place_dec (s0, i0) (s, i)) as [E|N].
      * injection E as -> ->. right. intros pl [j [Hj ->]]. apply in_map_iff.
        eexists. split; [|unfold grp; apply in_map_iff; exists j; split; [reflexivity|]].
        -- reflexivity.
        -- apply in_seq. cbn [fst snd]. lia.
      * left. intros m Hm. unfold grp in Hm. apply in_map_iff in Hm. destruct Hm as [j [<- Hj]].
        apply in_seq in Hj. cbn [fst snd] in *. intros [j' [Hj' E]]. injection E as -> Eo.
        apply off_inj in Eo; auto; [|lia]. destruct Eo. subst. apply N. reflexivity.
    + rewrite <- Hmv, E1 in G1. injection G1 as <-.
      destruct (in_dec place_dec (s, i) (concat (map (fun r => map (fun ik => (s, fst ik)) (link s r)) (seq 0 P)))) as [I|N].
      * (* linked *)
        assert (I' : exists r k, (r < P)%nat /\ In (i, k) (link s r)).
        { apply in_concat in I. destruct I as [l [Hl I]]. apply in_map_iff in Hl. destruct Hl as [r [<- Hr]].
          apply in_seq in Hr. apply in_map_iff in I. destruct I as [[i0 k0] [E I]]. cbn in E. injection E as ->.
          exists r, k0. split; [lia|auto]. }
        destruct I' as [r1 [k1 [Hr1 Hl1]]].
        destruct (Nat.eq_dec (clen (cells (SF s)) i) 0) as [Z|Z].
        -- left. exists r1, k1. split; auto. split; auto.
           pose proof (live_clen _ _ _ _ L s r1 i k1 Hs Hr1 Hl1) as Ec.
           destruct (Sh s Hs) as (_&_&_&_&ShL). pose proof (lengths_clen _ _ _ i ShL) as Ei.
           unfold clen in *. destruct (nth i (cells (SF' s)) []) eqn:A; [|simpl in Ei; lia].
           destruct (nth k1 (cells (SS r1)) []) eqn:B; [auto|simpl in Ec; lia].
        -- destruct G3 as [[G3 _]|[g [Hg G3]]].
           ++ exfalso. assert (Hg : In (grp (r1, s) (i, k1)) L').
              { unfold L'. apply in_concat. eexists. split.
                - apply in_map_iff. exists (r1, s). split; [reflexivity|].
                  apply (Permutation_in _ HPP). apply in_prod_iff. split; apply in_seq; lia.
                - cbn [fst snd]. apply in_map. auto. }
              assert (Hm : In ((r1, (off (cellsF SS r1) k1 + 0)%nat), (s, (off (cellsF SF s) i + 0)%nat)) (grp (r1, s) (i, k1))).
              { unfold grp. cbn [fst snd]. apply in_map_iff. exists O. split; [reflexivity|]. apply in_seq.
                unfold cellsF. lia. }
              apply (G3 _ _ Hg Hm). exists O. cbn [snd]. unfold cellsF. split; [lia|reflexivity].
           ++ destruct (HgIn g Hg) as [r0 [s0 [i0 [k0 [Hr0 [Hs0 [Hl0 ->]]]]]]].
              assert (Hsi : s0 = s /\ i0 = i).
              { destruct (G3 (s, (off (cellsF SF s) i + 0)%nat)) as [m [Hm [Ems _]]].
                { exists O. unfold cellsF. split; [lia|reflexivity]. }
                unfold grp in Hm. apply in_map_iff in Hm. destruct Hm as [j [<- Hj]]. apply in_seq in Hj.
                cbn [fst snd] in *. injection Ems as -> Eo. unfold cellsF in *.
                apply off_inj in Eo; [|lia|lia]. destruct Eo. auto. }
              destruct Hsi as [-> ->]. left. exists r0, k0. split; auto. split; auto.
              pose proof (live_clen _ _ _ _ L s r0 i k0 Hs Hr0 Hl0) as Ec.
              destruct (Sh s Hs) as (_&_&_&_&ShL). pose proof (lengths_clen _ _ _ i ShL) as Ei.
              apply nth_error_ext. intro j. destruct (Nat.lt_ge_cases j (clen (cells (SF s)) i)) as [Hj|Hj].
              ** rewrite HC by auto. destruct (G3 (s, (off (cellsF SF s) i + j)%nat)) as [m [Hm [Ems C]]].
                 { exists j. unfold cellsF. auto. }
                 unfold grp in Hm. apply in_map_iff in Hm. destruct Hm as [j' [<- Hj']]. apply in_seq in Hj'.
                 cbn [fst snd] in *. injection Ems as Eo. assert (j' = j) by lia. subst j'.
                 unfold cellsF in C. unfold cellsF. rewrite C. apply (cell_concat (cellsF SS)); auto. unfold cellsF. lia.
              ** unfold clen in *. rewrite !(proj2 (nth_error_None _ _)); auto; lia.
      * right. assert (N' : forall r k, (r < P)%nat -> ~ In (i, k) (link s r)).
        { intros r k Hr Hin. apply N. apply in_concat. eexists. split.
          - apply in_map_iff. exists r. split; [reflexivity|apply in_seq; lia].
          - apply in_map_iff. exists (i, k). auto. }
        split; auto.
        destruct (Sh s Hs) as (_&_&_&_&ShL). pose proof (lengths_clen _ _ _ i ShL) as Ei.
        apply nth_error_ext. intro j. destruct (Nat.lt_ge_cases j (clen (cells (SF s)) i)) as [Hj|Hj].
        -- rewrite HC by auto. rewrite E4; [apply (cell_concat (cellsF SF)); auto|].
           intros [[r q] pl] Hm E. cbn [snd] in E. subst pl.
           apply (Permutation_in _ (Permutation_sym Hp)) in Hm.
           destruct (MV' r q s i j Hs Hj Hm) as [k [Hr [Hin _]]]. apply (N' r k); auto.
        -- unfold clen in *. rewrite !(proj2 (nth_error_None _ _)); auto; lia.
Qed.

End Live.
