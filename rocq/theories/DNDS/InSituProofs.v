(** Exchanges with in-situ packing (C07). *)
From Coq Require Import List ZArith Lia Bool Arith Permutation.
From Verif Require Import Base.Prelude Base.PreludeFacts Base.MPIModel Base.MPIFacts
  DNDS.IndexMappingModel DNDS.IndexMappingSpec DNDS.IndexMappingProofs DNDS.GhostPullProofs
  DNDS.GhostSearchProofs DNDS.GhostPushProofs
  DNDS.ArrayModel DNDS.ArraySpec DNDS.ArrayProofs DNDS.ExchangeModel DNDS.ExchangeSpec
  DNDS.ExchangePlanProofs DNDS.TransferProofs DNDS.MessageProofs DNDS.ExchangeProofs
  DNDS.CreateTypesProofs DNDS.CreateProofs DNDS.CreateLiveProofs DNDS.LiveProofs.
Import ListNotations.
Local Open Scope Z_scope.

(** *** slices of buffers *)
Lemma slice_ok : forall A (l : list A) o n, (o + n <= length l)%nat ->
  slice l (Z.of_nat o) (Z.of_nat n) = Ok (firstn n (skipn o l)).
Proof.
  intros A l o n H. unfold slice, zlen. destruct (Z.ltb_spec (Z.of_nat o) 0); [lia|].
  destruct (Z.ltb_spec (Z.of_nat n) 0); [lia|].
  destruct (Z.ltb_spec (Z.of_nat (length l)) (Z.of_nat o + Z.of_nat n)); [lia|].
  cbn [orb]. rewrite !Nat2Z.id. reflexivity.
Qed.

Definition wr {A} (b : list A) (o : nat) (v : list A) : list A := firstn o b ++ v ++ skipn (o + length v) b.

Lemma write_ok : forall A (b v : list A) o, (o + length v <= length b)%nat ->
  write_at b (Z.of_nat o) v = Ok (wr b o v).
Proof.
  intros A b v o H. unfold write_at, zlen. destruct (Z.ltb_spec (Z.of_nat o) 0); [lia|].
  destruct (Z.ltb_spec (Z.of_nat (length b)) (Z.of_nat o + Z.of_nat (length v))); [lia|].
  cbn [orb]. rewrite !Nat2Z.id. reflexivity.
Qed.

Lemma wr_length : forall A (b v : list A) o, (o + length v <= length b)%nat -> length (wr b o v) = length b.
Proof. intros. unfold wr. rewrite !app_length, firstn_length, skipn_length. lia. Qed.

Lemma wr_nth : forall A (b v : list A) o p, (o + length v <= length b)%nat ->
  nth_error (wr b o v) p = if (p <? o)%nat then nth_error b p
                           else if (p <? o + length v)%nat then nth_error v (p - o) else nth_error b p.
Proof.
  intros A b v o p H. unfold wr. assert (L : length (firstn o b) = o) by (rewrite firstn_length; lia).
  destruct (Nat.ltb_spec p o).
  - rewrite nth_error_app1 by lia. rewrite <- (firstn_skipn o b) at 2. rewrite nth_error_app1 by lia. reflexivity.
  - rewrite nth_error_app2 by lia. rewrite L. destruct (Nat.ltb_spec p (o + length v)).
    + rewrite nth_error_app1 by lia. reflexivity.
    + rewrite nth_error_app2 by lia. rewrite <- (firstn_skipn (o + length v) b) at 2.
      rewrite nth_error_app2 by (rewrite firstn_length; lia). f_equal. rewrite firstn_length. lia.
Qed.

Lemma firstn_upd_same : forall A k (v : A) l, firstn k (upd k v l) = firstn k l.
Proof. induction k; destruct l; simpl; auto. f_equal. auto. Qed.
Lemma skipn_upd_S : forall A k (v : A) l, skipn (S k) (upd k v l) = skipn (S k) l.
Proof. induction k; destruct l; simpl; auto. apply IHk. Qed.

Lemma wr_concat : forall A (C : list (list A)) k v, (k < length C)%nat -> length v = length (nth k C []) ->
  wr (concat C) (length (concat (firstn k C))) v = concat (upd k v C).
Proof.
  intros A C k v Hk Hv. destruct (nth_error_lt_Some _ _ _ Hk) as [row Hr].
  rewrite (nth_error_nth _ _ [] Hr) in Hv.
  pose proof (concat_split _ _ _ _ Hr) as E.
  assert (Hr' : nth_error (upd k v C) k = Some v) by (apply nth_error_upd_same; auto).
  rewrite (concat_split _ _ _ _ Hr'), firstn_upd_same, skipn_upd_S. unfold wr. rewrite E at 1 2.
  rewrite firstn_length_app. f_equal. f_equal.
  rewrite app_assoc, Hv, <- app_length. apply skipn_length_app.
Qed.

Section InSitu.
Variable T : Type.
Variable dflt : T.
Notation arr := (arr T).
Notation sarr := (sarr T).
Notation rep := (rep T). Notation wrep := (wrep T). Notation flat_mode := (flat_mode T).
Notation psz := (psz T).

(** *** rows of one array *)
Lemma rep_with_unc : forall h a (s : sarr) C, rep h a s -> flat_mode s = false ->
  map (@length T) C = map (@length T) (cells s) -> rep h (with_unc a C) (with_cells s C).
Proof.
  intros h a s C R F H.
  assert (Hlen : length C = length (cells s)) by (rewrite <- (map_length (@length T) C), H, map_length; auto).
  assert (Hz : zlensl C = zlensl (cells s)) by (apply zlensl_ext; auto).
  assert (Hfor : forall Pr : nat -> Prop, Forall (fun r => Pr (length r)) (cells s) -> Forall (fun r => Pr (length r)) C).
  { intros Pr HF. rewrite Forall_forall in *. intros x Hx. apply (in_map (@length T)) in Hx.
    rewrite H in Hx. apply in_map_iff in Hx. destruct Hx as [y [<- Hy]]. auto. }
  destruct R. constructor; unfold ArrayProofs.flat_mode, with_cells, with_unc in *;
    cbn [slay comp width cells used lay pStart pSizes dat unc size rsd] in *.
  - auto.
  - rewrite r_size. unfold zlen. congruence.
  - rewrite F in *. auto.
  - rewrite F in *. auto.
  - rewrite Hz. auto.
  - intro Hc. apply (Hfor (fun n => small n)); auto.
  - intro Hc. destruct (r_width Hc) as [A1 [A2 A3]]. split; [exact A1|]. split; auto.
    apply (Hfor (fun n => n = width s)); auto.
  - auto.
  - destruct (is_max (slay s)); auto. rewrite Hlen. destruct r_sizes as [A1 [A2 A3]].
    split; auto. split; auto. destruct (pSizes a); auto. rewrite A3 in Hlen. destruct C; auto; discriminate.
Qed.

Lemma row_access : forall h a (s : sarr) k, rep h a s -> (k < length (cells s))%nat ->
  exists p, row_ h a (Z.of_nat k) = Ok p /\
    read_row a p (Z.of_nat (clen (cells s) k)) = Ok (nth k (cells s) []) /\
    forall v, length v = clen (cells s) k ->
      exists a', write_row a p v = Ok a' /\ rep h a' (with_cells s (upd k v (cells s))) /\
        pStart a' = pStart a /\ pSizes a' = pSizes a.
Proof.
  intros h a s k R Hk. destruct (nth_error_lt_Some _ _ _ Hk) as [row Hr].
  assert (En : nth k (cells s) [] = row) by (apply nth_error_nth; auto).
  destruct (flat_mode s) eqn:F.
  - exists (rowp T s k). split; [apply rep_row_flat; auto; lia|].
    unfold rowp. replace (is_csr (slay s) && (length (cells s) =? 0)%nat) with false
      by (destruct (is_csr (slay s)); cbn; auto; symmetry; apply Nat.eqb_neq; lia).
    cbn [read_row write_row]. rewrite (r_dat _ _ _ _ R), F. split.
    + unfold clen. rewrite En. unfold off. apply slice_concat. auto.
    + intros v Hv. unfold clen in Hv. assert (O : (off (cells s) k + length v <= length (concat (cells s)))%nat).
      { pose proof (off_le T (cells s) (S k)). rewrite off_S in H. unfold clen in H. lia. }
      rewrite write_ok by auto. cbn [bind]. eexists. split; [reflexivity|].
      unfold off. rewrite wr_concat by auto. split; [|split; reflexivity].
      apply rep_with_dat; auto. apply upd_lengths. auto.
  - exists (PRow (Z.of_nat k)). pose proof (r_unc _ _ _ _ R) as Hu. rewrite F in Hu. split.
    + unfold row_. rewrite (r_size _ _ _ _ R), (r_lay _ _ _ _ R). unfold zlen.
      destruct (Z.leb_spec (Z.of_nat k) (Z.of_nat (length (cells s)))); [|lia].
      destruct (Z.leb_spec 0 (Z.of_nat k)); [|lia]. cbn [andb assert_ bind].
      pose proof (r_start _ _ _ _ R) as Hp. unfold ArrayProofs.flat_mode in F.
      destruct (slay s) eqn:El; try discriminate. cbn [is_csr negb orb andb] in *. rewrite F in Hp.
      unfold IfCompressed. rewrite (r_lay _ _ _ _ R), El, Hp, andb_false_r. cbn [bind].
      destruct (Z.eqb_spec (Z.of_nat (length (cells s))) 0); [lia|].
      destruct (Z.ltb_spec (Z.of_nat k) (Z.of_nat (length (cells s)))); [|lia]. cbn [assert_ bind].
      rewrite Hu, (vat_of_nat _ _ _ _ Hr). reflexivity.
    + cbn [read_row write_row]. rewrite Hu, (vget_of_nat _ _ _ _ Hr). cbn [bind]. split.
      * unfold clen. rewrite En. change 0 with (Z.of_nat 0). rewrite slice_ok by lia. cbn [skipn]. rewrite firstn_all. reflexivity.
      * intros v Hv. unfold clen in Hv. rewrite En in Hv. change 0 with (Z.of_nat 0).
        rewrite write_ok by lia. cbn [bind]. unfold wr. cbn [firstn Nat.add app]. rewrite Hv, skipn_all, app_nil_r.
        rewrite vset_of_nat by lia. cbn [bind]. eexists. split; [reflexivity|]. split; [|split; reflexivity].
        apply rep_with_unc; auto. apply upd_lengths. congruence.
Qed.

Variables (lens : list nat) (ms : list ghostmap) (G : nat -> nat -> list nat).
Hypothesis HP : plan lens ms G.
Notation P := (length lens).
Notation link := (linkl P G).
Notation live := (live T lens G false).
Notation same_shape := (same_shape T).
Notation mp := (mp ms).

Definition tr (ws : list (world T)) (s : nat) : trans T :=
  {| tw := nth s ws (w0 T); tm := mp s; tloc := map Z.of_nat (concat (outs P G s)); pushTypes := []; pullTypes := [] |}.

Lemma at_state_tr : forall SF SS W ws, length ws = P ->
  at_state (map (made T lens ms G InSituPack SF SS W) (seq 0 P)) ws = map (tr ws) (seq 0 P).
Proof.
  intros SF SS W ws Hl. unfold at_state. rewrite (as_map_seq _ (w0 T) ws P Hl) at 1. rewrite combine_map2, map_map.
  reflexivity.
Qed.

Lemma push_counts : forall s r, (s < P)%nat -> (r < P)%nat ->
  vget (pushIndexSizes (mp s)) (Z.of_nat r) = Ok (zlen (G s r)) /\
  vget (pushIndexStarts (mp s)) (Z.of_nat r) = Ok (zlen (concat (firstn r (outs P G s)))).
Proof.
  intros s r Hs Hr. destruct (pl_push _ _ _ HP _ _ (mp_nth lens ms G HP s Hs)) as [Ea [Eb _]].
  assert (No : nth_error (outs P G s) r = Some (G s r)) by (unfold outs; apply nth_error_map_seq_lt; auto).
  split; apply vget_of_nat.
  - rewrite Ea. unfold zlensl. rewrite nth_error_map_, No. reflexivity.
  - rewrite Eb. apply zlensl_psums_nth. unfold outs. rewrite map_length, seq_length. lia.
Qed.

Lemma rows_for_ok : forall ws s r, (s < P)%nat -> (r < P)%nat ->
  rows_for (tr ws s) (Z.of_nat r) = Ok (map Z.of_nat (G s r)).
Proof.
  intros ws s r Hs Hr. destruct (push_counts s r Hs Hr) as [E1 E2].
  unfold rows_for, tr. cbn [tm tloc]. rewrite E1, E2. cbn [bind]. unfold zlen. rewrite Nat2Z.id.
  apply mapM_intro; [rewrite map_length, ranks_length; auto|].
  intros t x y Hx Hy. rewrite nth_error_map_ in Hy. destruct (nth_error (G s r) t) as [i|] eqn:Et; [|discriminate].
  cbn in Hy. injection Hy as <-. pose proof (nth_error_Some_lt _ _ _ _ Et) as Lt.
  rewrite ranks_nth in Hx by auto. injection Hx as <-.
  rewrite <- Nat2Z.inj_add. apply vat_of_nat. rewrite nth_error_map_.
  assert (No : nth_error (outs P G s) r = Some (G s r)) by (unfold outs; apply nth_error_map_seq_lt; auto).
  rewrite (nth_error_concat _ _ _ _ _ No Lt), Et. reflexivity.
Qed.

(** the rows of [s] for [r] *)
Definition vals (SF : nat -> sarr) (s r : nat) : list (list T) := map (fun i => nth i (cells (SF s)) []) (G s r).
Definition none (s r : nat) : bool := (length (G s r) =? 0)%nat.

Section State.
Variables (SF SS : nat -> sarr) (ws : list (world T)).
Hypothesis L : live SF SS ws.
Hypothesis NM : forall s, (s < P)%nat -> is_max (slay (SF s)) = false.

Lemma psz_clen : forall s i, (s < P)%nat -> psz (SF s) i = clen (cells (SF s)) i.
Proof.
  intros s i Hs. unfold CreateTypesProofs.psz. rewrite NM; auto.
Qed.

Lemma G_in : forall s r i, (s < P)%nat -> In i (G s r) -> (i < length (cells (SF s)))%nat.
Proof.
  intros s r i Hs Hi. destruct (lv_size _ _ _ _ _ _ _ L s Hs) as [-> _]. eapply (pl_valid _ _ _ HP); eauto.
Qed.

Lemma nth_ws : forall s, (s < P)%nat -> nth_error ws s = Some (nth s ws (w0 T)).
Proof. intros. apply nth_error_nth'. rewrite (lv_len _ _ _ _ _ _ _ L). auto. Qed.

Lemma zlen_none : forall s r, (0 <? zlen (G s r)) = negb (none s r).
Proof.
  intros. unfold zlen, none. destruct (Nat.eqb_spec (length (G s r)) 0), (Z.ltb_spec 0 (Z.of_nat (length (G s r)))); auto; lia.
Qed.

Lemma pack_ok : forall s r, (s < P)%nat -> (r < P)%nat ->
  pack (tr ws s) (Z.of_nat r) = Ok (if none s r then None else Some (concat (vals SF s r))).
Proof.
  intros s r Hs Hr. unfold pack. cbn [tr tm tw]. rewrite (proj1 (push_counts s r Hs Hr)). cbn [bind].
  rewrite zlen_none. destruct (none s r); cbn [negb]; auto.
  destruct (live_arrs T lens G _ _ _ _ _ _ L (nth_ws s Hs)) as [f [sa [E [R1 R2]]]].
  unfold get_arr. rewrite E. cbn [father nth_error bind].
  change {| tw := nth s ws (w0 T); tm := mp s; tloc := map Z.of_nat (concat (outs P G s)); pushTypes := []; pullTypes := [] |} with (tr ws s).
  rewrite rows_for_ok by auto. cbn [bind].
  rewrite (mapM_intro _ _ _ _ (vals SF s r)); [reflexivity|unfold vals; rewrite !map_length; auto|].
  intros t x y Hx Hy. unfold vals in Hy. rewrite nth_error_map_ in Hx, Hy.
  destruct (nth_error (G s r) t) as [i|] eqn:Et; [|discriminate]. cbn in Hx, Hy. injection Hx as <-. injection Hy as <-.
  assert (Hi : (i < length (cells (SF s)))%nat) by (eapply G_in; eauto; eapply nth_error_In; eauto).
  destruct (rep_push_size T _ _ _ i R1 Hi) as [-> _]. cbn [bind]. rewrite psz_clen by auto.
  destruct (row_access _ _ _ i R1 Hi) as [p [-> [Rd _]]]. cbn [bind]. exact Rd.
Qed.

(** *** messages and the ghosts they are for *)
Lemma link_at : forall s r t i, (s < P)%nat -> nth_error (G s r) t = Some i -> In (i, (base P G s r + t)%nat) (link s r).
Proof.
  intros s r t i Hs Ht. unfold linkl. apply (nth_error_In _ t). rewrite nth_error_combine, Ht, nth_error_seq.
  pose proof (nth_error_Some_lt _ _ _ _ Ht). destruct (Nat.ltb_spec t (length (G s r))); [|lia]. reflexivity.
Qed.

Lemma off_vals : forall s r t, (s < P)%nat -> (r < P)%nat -> (t <= length (G s r))%nat ->
  off (cells (SS r)) (base P G s r + t) = (off (cells (SS r)) (base P G s r) + off (vals SF s r) t)%nat.
Proof.
  intros s r t Hs Hr. induction t as [|t IH]; intro Ht.
  - rewrite Nat.add_0_r, off_0. lia.
  - rewrite Nat.add_succ_r, !off_S, IH by lia. destruct (nth_error_lt_Some _ (G s r) t) as [i Hi]; [lia|].
    rewrite (live_clen T lens G _ _ _ _ L s r i _ Hs Hr (link_at s r t i Hs Hi)).
    unfold clen at 2. unfold vals. erewrite (nth_error_nth (map _ (G s r)) t []); [|rewrite nth_error_map_, Hi; reflexivity].
    unfold clen. lia.
Qed.

Lemma vals_length : forall s r, length (vals SF s r) = length (G s r).
Proof. intros. unfold vals. apply map_length. Qed.

Lemma span_vals : forall s r, (s < P)%nat -> (r < P)%nat ->
  off (cells (SS r)) (base P G (S s) r) = (off (cells (SS r)) (base P G s r) + length (concat (vals SF s r)))%nat.
Proof.
  intros s r Hs Hr. rewrite base_S by auto. rewrite off_vals by auto. rewrite <- vals_length, off_all. reflexivity.
Qed.

Lemma spans_ok : forall s r, (s < P)%nat -> (r < P)%nat ->
  ghost_span (tw (tr ws r)) (tm (tr ws r)) (Z.of_nat s) =
    Ok (Z.of_nat (off (cells (SS r)) (base P G s r)), zlen (concat (vals SF s r))).
Proof.
  intros s r Hs Hr. cbn [tr tw tm]. rewrite (span_ok T lens ms G HP _ (SF r) (SS r) (mp r) r s); auto.
  - rewrite span_vals by auto. unfold zlen. f_equal. f_equal. lia.
  - apply (lv_rep _ _ _ _ _ _ _ L). apply nth_ws. auto.
  - apply (mp_nth lens ms G HP); auto.
  - apply (lv_flat _ _ _ _ _ _ _ L r Hr).
  - apply (lv_size _ _ _ _ _ _ _ L r Hr).
Qed.

Lemma base_mono : forall s s' r, (s <= s')%nat -> (s' <= P)%nat -> (base P G s r <= base P G s' r)%nat.
Proof.
  intros s s' r H H'. replace s' with (s + (s' - s))%nat in * by lia. revert H'. generalize (s' - s)%nat as d.
  induction d; intro; [rewrite Nat.add_0_r; lia|]. rewrite Nat.add_succ_r, base_S by lia. specialize (IHd ltac:(lia)). lia.
Qed.

Lemma off_mono' : forall (C : list (list T)) k k', (k <= k')%nat -> (off C k <= off C k')%nat.
Proof. intros C k k' H. replace k' with (k + (k' - k))%nat by lia. apply off_mono. Qed.

(** [false]: a send or a receive without partner *)
Definition fit (s r : nat) : bool := none s r || negb (length (concat (vals SF s r)) =? 0)%nat.
Definition fits : bool := forallb (fun sr => fit (fst sr) (snd sr)) (list_prod (seq 0 P) (seq 0 P)).

Lemma ranks_prod : list_prod (ranks P) (ranks P) = map zz (list_prod (seq 0 P) (seq 0 P)).
Proof.
  unfold ranks. generalize (seq 0 P) at 1 3. generalize (seq 0 P). intros l l'. induction l' as [|x l' IH]; auto.
  cbn [map list_prod]. rewrite IH, map_app, !map_map. reflexivity.
Qed.

Lemma none_vals : forall s r, none s r = true -> concat (vals SF s r) = [].
Proof.
  intros s r H. unfold none in H. apply Nat.eqb_eq in H. unfold vals. destruct (G s r); [auto|discriminate].
Qed.

(** *** one pull *)
Definition step_ (d : list (list T)) (sr : nat * nat) : list (list T) :=
  map (fun r => if (snd sr =? r)%nat then wr (nth r d []) (off (cells (SS r)) (base P G (fst sr) r)) (concat (vals SF (fst sr) r))
                else nth r d []) (seq 0 P).

Definition sized_as (d : list (list T)) : Prop :=
  length d = P /\ forall r, (r < P)%nat -> length (nth r d []) = length (concat (cells (SS r))).

Lemma span_fits : forall s r, (s < P)%nat -> (r < P)%nat ->
  (off (cells (SS r)) (base P G s r) + length (concat (vals SF s r)) <= length (concat (cells (SS r))))%nat.
Proof. intros. rewrite <- span_vals by auto. apply off_le. Qed.

Lemma nth_map_seq : forall A (f : nat -> A) d n k, (k < n)%nat -> nth k (map f (seq 0 n)) d = f k.
Proof. intros. apply nth_error_nth. apply nth_error_map_seq_lt. auto. Qed.

Lemma step_sized : forall d s r, sized_as d -> (s < P)%nat -> (r < P)%nat -> sized_as (step_ d (s, r)).
Proof.
  intros d s r [H1 H2] Hs Hr. split; [unfold step_; rewrite map_length, seq_length; auto|].
  intros q Hq. unfold step_. rewrite nth_map_seq by auto. cbn [fst snd].
  destruct (Nat.eqb_spec r q) as [->|]; auto. rewrite wr_length; auto. rewrite H2 by auto. apply span_fits; auto.
Qed.

Lemma upd_as_map : forall A (d : list A) (x z : A) r n, length d = n -> (r < n)%nat ->
  upd r x d = map (fun q => if (r =? q)%nat then x else nth q d z) (seq 0 n).
Proof.
  intros A d x z r n Hl Hr. apply nth_error_ext. intro q. destruct (Nat.lt_ge_cases q n).
  - rewrite nth_error_map_seq_lt by auto. destruct (Nat.eqb_spec r q) as [->|].
    + apply nth_error_upd_same. lia.
    + rewrite nth_error_upd_other by auto. apply nth_error_nth'. lia.
  - rewrite !(proj2 (nth_error_None _ _)); auto; rewrite ?map_length, ?seq_length, ?upd_length; lia.
Qed.

Lemma fold_steps : forall order d, sized_as d -> (forall s r, In (s, r) order -> (s < P)%nat /\ (r < P)%nat) ->
  sized_as (fold_left step_ order d) /\
  forall s r t j, (s < P)%nat -> (r < P)%nat -> (t < length (G s r))%nat -> (j < clen (vals SF s r) t)%nat ->
    nth_error (nth r (fold_left step_ order d) []) (off (cells (SS r)) (base P G s r + t) + j) =
    if in_dec place_dec (s, r) order then nth_error (nth t (vals SF s r) []) j
    else nth_error (nth r d []) (off (cells (SS r)) (base P G s r + t) + j).
Proof.
  induction order as [|[s0 r0] order IH]; intros d Hd Ho.
  - cbn [fold_left]. split; auto.
  - destruct (Ho s0 r0 (or_introl eq_refl)) as [Hs0 Hr0].
    destruct (IH (step_ d (s0, r0))) as [I1 I2]; [apply step_sized; auto|intros; apply Ho; right; auto|].
    cbn [fold_left]. split; auto. intros s r t j Hs Hr Ht Hj. rewrite (I2 s r t j) by auto.
    destruct (in_dec place_dec (s, r) order) as [I|N].
    + destruct (in_dec place_dec (s, r) ((s0, r0) :: order)) as [_|N]; auto. exfalso. apply N. right. auto.
    + assert (HV : (off (vals SF s r) t + j < length (concat (vals SF s r)))%nat).
      { pose proof (off_le T (vals SF s r) (S t)). rewrite off_S in H. lia. }
      unfold step_. rewrite nth_map_seq by auto. cbn [fst snd].
      destruct (in_dec place_dec (s, r) ((s0, r0) :: order)) as [[E|?]|N']; [injection E as -> ->| contradiction|].
      * rewrite Nat.eqb_refl. rewrite wr_nth by (destruct Hd as [_ ->]; auto; apply span_fits; auto).
        rewrite off_vals by (auto; lia).
        match goal with |- context [(?a <? ?b)%nat] => destruct (Nat.ltb_spec a b); [lia|] end.
        match goal with |- context [(?a <? ?b)%nat] => destruct (Nat.ltb_spec a b); [|lia] end.
        rewrite <- off_cell by auto. f_equal. lia.
      * destruct (Nat.eqb_spec r0 r) as [->|]; auto.
        assert (Ns : s0 <> s) by (intros ->; apply N'; left; auto).
        rewrite wr_nth by (destruct Hd as [_ ->]; auto; apply span_fits; auto).
        rewrite <- span_vals by auto. rewrite off_vals by (auto; lia).
        destruct (Nat.lt_ge_cases s s0).
        -- pose proof (base_mono (S s) s0 r ltac:(lia) ltac:(lia)) as B. apply (off_mono' (cells (SS r))) in B.
           rewrite span_vals in B by auto.
           match goal with |- context [(?a <? ?b)%nat] => destruct (Nat.ltb_spec a b); [auto|lia] end.
        -- pose proof (base_mono (S s0) s r ltac:(lia) ltac:(lia)) as B. apply (off_mono' (cells (SS r))) in B.
           pose proof (base_mono s0 s r ltac:(lia) ltac:(lia)) as B'. apply (off_mono' (cells (SS r))) in B'.
           match goal with |- context [(?a <? ?b)%nat] => destruct (Nat.ltb_spec a b); [lia|] end.
           match goal with |- context [(?a <? ?b)%nat] => destruct (Nat.ltb_spec a b); [lia|auto] end.
Qed.

Definition packed_ := map (fun s => map (fun r => if none s r then None else Some (concat (vals SF s r))) (seq 0 P)) (seq 0 P).
Definition spans_ := map (fun r => map (fun s => (Z.of_nat (off (cells (SS r)) (base P G s r)), zlen (concat (vals SF s r)))) (seq 0 P)) (seq 0 P).

Lemma vget_table : forall A (f : nat -> nat -> A) s r, (s < P)%nat -> (r < P)%nat ->
  (do row <- vget (map (fun s => map (f s) (seq 0 P)) (seq 0 P)) (Z.of_nat s); vget row (Z.of_nat r)) = Ok (f s r).
Proof.
  intros A f s r Hs Hr. erewrite vget_of_nat by (apply nth_error_map_seq_lt; auto). cbn [bind].
  apply vget_of_nat. apply nth_error_map_seq_lt. auto.
Qed.
Lemma bind_assoc2 : forall A B C (m : res A) (f : A -> res B) (g : B -> res C),
  (do x <- m; do y <- f x; g y) = (do y <- (do x <- m; f x); g y).
Proof. intros. destruct m; reflexivity. Qed.

Lemma fold_ok : forall order d, sized_as d -> (forall s r, In (s, r) order -> (s < P)%nat /\ (r < P)%nat) ->
  foldM (fun d sr =>
        do row <- vget packed_ (fst sr); do o <- vget row (snd sr);
        match o with
        | None => Ok d
        | Some v =>
            do spr <- vget spans_ (snd sr); do ss <- vget spr (fst sr);
            do b <- vget d (snd sr); do b' <- write_at b (fst ss) v; vset d (snd sr) b'
        end) d (map zz order) = Ok (fold_left step_ order d).
Proof.
  induction order as [|[s r] order IH]; intros d Hd Ho; auto.
  destruct (Ho s r (or_introl eq_refl)) as [Hs Hr]. cbn [map foldM fold_left zz fst snd].
  assert (E : forall X : res (list (list T)), X = Ok (step_ d (s, r)) ->
     (do s0 <- X; foldM (fun d sr =>
        do row <- vget packed_ (fst sr); do o <- vget row (snd sr);
        match o with
        | None => Ok d
        | Some v =>
            do spr <- vget spans_ (snd sr); do ss <- vget spr (fst sr);
            do b <- vget d (snd sr); do b' <- write_at b (fst ss) v; vset d (snd sr) b'
        end) s0 (map zz order)) = Ok (fold_left step_ order (step_ d (s, r)))).
  { intros X ->. cbn [bind]. apply IH; [apply step_sized; auto|intros; apply Ho; right; auto]. }
  apply E. clear E. rewrite bind_assoc2. unfold packed_ at 1. rewrite (vget_table _ (fun s r => if none s r then None else Some (concat (vals SF s r)))) by auto.
  cbn [bind]. destruct Hd as [D1 D2].
  assert (U : upd r (wr (nth r d []) (off (cells (SS r)) (base P G s r)) (concat (vals SF s r))) d = step_ d (s, r)).
  { rewrite (upd_as_map _ d _ [] r P) by auto. unfold step_. cbn [fst snd]. apply map_ext. intro q.
    destruct (Nat.eqb_spec r q) as [->|]; auto. }
  destruct (none s r) eqn:En.
  - rewrite <- U. rewrite (none_vals _ _ En). f_equal. unfold wr. cbn [length app]. rewrite Nat.add_0_r, firstn_skipn.
    apply nth_error_ext. intro q. destruct (Nat.eq_dec r q) as [->|].
    + rewrite nth_error_upd_same by lia. apply nth_error_nth'. lia.
    + rewrite nth_error_upd_other by auto. auto.
  - rewrite bind_assoc2. unfold spans_ at 1.
    rewrite (vget_table _ (fun r s => (Z.of_nat (off (cells (SS r)) (base P G s r)), zlen (concat (vals SF s r))))) by auto.
    cbn [bind fst snd]. rewrite (vget_of_nat _ d r (nth r d [])) by (apply nth_error_nth'; lia). cbn [bind].
    rewrite write_ok by (rewrite D2 by auto; apply span_fits; auto). cbn [bind].
    rewrite vset_of_nat by lia. f_equal. exact U.
Qed.

(** *** the fathers and the sons of a live state *)
Lemma son_buffers : buffers son ws = Ok (map (fun r => concat (cells (SS r))) (seq 0 P)).
Proof.
  unfold buffers. apply mapM_intro.
  - rewrite map_length, seq_length. symmetry. apply (lv_len _ _ _ _ _ _ _ L).
  - intros r w d Hw Hd. apply nth_error_map_seq in Hd. destruct Hd as [Hr ->].
    destruct (live_arrs T lens G _ _ _ _ _ _ L Hw) as [f [s [E [R1 R2]]]]. unfold get_arr. rewrite E.
    destruct (lv_flat _ _ _ _ _ _ _ L _ Hr) as [_ F2].
    cbn [son nth_error bind]. f_equal. rewrite (r_dat _ _ _ _ R2), F2. reflexivity.
Qed.

Lemma set_sons : forall d, sized_as d -> exists ws', set_buffers son ws d = Ok ws' /\ length ws' = P /\
  forall r w, nth_error ws' r = Some w ->
    wrep w [SF r; with_cells (SS r) (new_cells T dflt (SS r) (nth r d []))].
Proof.
  intros d [D1 D2].
  set (f := fun r => let w := nth r ws (w0 T) in
     {| hp := hp w; arrs := upd son (with_dat (nth son (arrs w) (new_arr CSR)) (nth r d [])) (arrs w) |}).
  exists (map f (seq 0 P)). split; [|split; [rewrite map_length, seq_length; auto|]].
  - unfold set_buffers. rewrite (as_map_seq _ (w0 T) ws P (lv_len _ _ _ _ _ _ _ L)) at 1.
    rewrite (as_map_seq _ [] d P D1) at 1. rewrite combine_map2. apply mapM_seq. intros r Hr.
    cbn [fst snd]. destruct (live_arrs T lens G _ _ _ _ _ _ L (nth_ws r Hr)) as [fa [sa [E _]]].
    unfold get_arr, put, f. cbn zeta. rewrite !E. cbn [son nth_error bind fst snd nth]. reflexivity.
  - intros r w' Hw'. apply nth_error_map_seq in Hw'. destruct Hw' as [Hr ->].
    pose proof (nth_ws r Hr) as Hw. unfold f. cbn zeta. set (w := nth r ws (w0 T)) in *.
    destruct (live_arrs T lens G _ _ _ _ _ _ L Hw) as [fa [sa [E [R1 R2]]]].
    pose proof (lv_rep _ _ _ _ _ _ _ L _ _ Hw) as W. destruct (lv_flat _ _ _ _ _ _ _ L _ Hr) as [_ F2].
    destruct (new_cells_spec T dflt (SS r) _ (D2 r Hr)) as [N1 [N2 _]].
    apply (wrep_step T w [SF r; SS r] 1 sa (SS r)); auto; [rewrite E; reflexivity| |].
    + rewrite E. cbn [son nth]. rewrite <- N1 at 1. apply rep_with_dat; auto.
    + rewrite E. apply frame_same; right; reflexivity.
Qed.

Lemma forallb_fits : forallb (fun b => b) (map (fun sr => fit (fst sr) (snd sr)) (list_prod (seq 0 P) (seq 0 P))) = fits.
Proof. unfold fits. induction (list_prod (seq 0 P) (seq 0 P)); auto. cbn. rewrite IHl. reflexivity. Qed.

Lemma order_pairs : forall order, Permutation order (list_prod (ranks P) (ranks P)) ->
  exists o, order = map zz o /\ Permutation o (list_prod (seq 0 P) (seq 0 P)).
Proof.
  intros order H. rewrite ranks_prod in H. apply Permutation_map_inv in H. destruct H as [o [E H]]. exists o.
  split; auto. apply Permutation_sym. auto.
Qed.

Lemma pull_ok : forall order, Permutation order (list_prod (ranks P) (ranks P)) ->
  if fits then
    exists ws' SS', insitu_pull (map (tr ws) (seq 0 P)) order = Ok (Some ws') /\ live SF SS' ws' /\
      shaped T lens SF SS SF SS' /\
      (forall s r i k, (s < P)%nat -> (r < P)%nat -> In (i, k) (link s r) ->
         nth k (cells (SS' r)) [] = nth i (cells (SF s)) [])
  else insitu_pull (map (tr ws) (seq 0 P)) order = Ok None.
Proof.
  intros order Ho. destruct (order_pairs order Ho) as [o [-> Po]].
  assert (Ob : forall s r, In (s, r) o <-> (s < P)%nat /\ (r < P)%nat).
  { intros s r. split; intro H.
    - apply (Permutation_in _ Po) in H. apply in_prod_iff in H. destruct H as [A B]. apply in_seq in A, B. lia.
    - apply (Permutation_in _ (Permutation_sym Po)). apply in_prod_iff. rewrite !in_seq. lia. }
  assert (Ep : mapM (fun t => mapM (pack t) (ranks P)) (map (tr ws) (seq 0 P)) = Ok packed_).
  { unfold packed_. apply mapM_seq. intros s Hs. unfold ranks. apply mapM_seq. intros r Hr. apply pack_ok; auto. }
  assert (Es : mapM (fun t => mapM (ghost_span (tw t) (tm t)) (ranks P)) (map (tr ws) (seq 0 P)) = Ok spans_).
  { unfold spans_. apply mapM_seq. intros r Hr. unfold ranks. apply mapM_seq. intros s Hs. apply spans_ok; auto. }
  assert (EW : map tw (map (tr ws) (seq 0 P)) = ws).
  { rewrite map_map. cbn [tr tw]. symmetry. apply as_map_seq. apply (lv_len _ _ _ _ _ _ _ L). }
  unfold insitu_pull. rewrite map_length, seq_length, Ep. cbn [bind]. rewrite Es. cbn [bind].
  match goal with |- context [mapM ?f (list_prod (ranks P) (ranks P))] =>
    assert (Ef : mapM f (list_prod (ranks P) (ranks P)) = Ok (map (fun sr => fit (fst sr) (snd sr)) (list_prod (seq 0 P) (seq 0 P)))) end.
  { rewrite ranks_prod. apply mapM_intro; [rewrite !map_length; auto|].
    intros k x y Hx Hy. rewrite nth_error_map_ in Hx, Hy.
    destruct (nth_error (list_prod (seq 0 P) (seq 0 P)) k) as [[s r]|] eqn:Ek; [|discriminate].
    cbn in Hx, Hy. injection Hx as <-. injection Hy as <-. unfold zz. cbn [fst snd]. apply nth_error_In in Ek. apply in_prod_iff in Ek.
    destruct Ek as [A B]. apply in_seq in A, B.
    rewrite bind_assoc2. unfold packed_. rewrite (vget_table _ (fun s r => if none s r then None else Some (concat (vals SF s r)))) by lia.
    cbn [bind]. rewrite bind_assoc2. unfold spans_.
    rewrite (vget_table _ (fun r s => (Z.of_nat (off (cells (SS r)) (base P G s r)), zlen (concat (vals SF s r))))) by lia.
    cbn [bind snd]. unfold fit. destruct (none s r) eqn:En.
    - rewrite (none_vals _ _ En). reflexivity.
    - cbn [orb]. unfold zlen. destruct (Nat.eqb_spec (length (concat (vals SF s r))) 0) as [E0|E0].
      + rewrite E0. reflexivity.
      + destruct (Z.ltb_spec 0 (Z.of_nat (length (concat (vals SF s r))))); [|lia]. rewrite Z.leb_refl. reflexivity. }
  rewrite Ef. cbn [bind]. rewrite forallb_fits, EW, son_buffers. destruct fits; [|reflexivity]. cbn [bind].
  assert (Sz : sized_as (map (fun r => concat (cells (SS r))) (seq 0 P))).
  { split; [rewrite map_length, seq_length; auto|]. intros r Hr. rewrite nth_map_seq by auto. auto. }
  assert (Ob' : forall s r, In (s, r) o -> (s < P)%nat /\ (r < P)%nat) by (intros; apply Ob; auto).
  rewrite (fold_ok o _ Sz Ob'). cbn [bind].
  destruct (fold_steps o _ Sz Ob') as [Sz' Val].
  set (d := fold_left step_ o (map (fun r => concat (cells (SS r))) (seq 0 P))) in *.
  destruct (set_sons d Sz') as [ws' [E1 [E2 E3]]]. rewrite E1. cbn [bind].
  set (SS' := fun r => with_cells (SS r) (new_cells T dflt (SS r) (nth r d []))) in *.
  assert (Sh : forall r, (r < P)%nat -> same_shape (SS r) (SS' r)).
  { intros r Hr. apply same_shape_with. destruct (new_cells_spec T dflt (SS r) _ (proj2 Sz' r Hr)) as [_ [N _]]. auto. }
  exists ws', SS'. split; [reflexivity|]. split; [|split].
  - apply (live_shape T lens G false SF SS SF SS' ws ws'); auto.
    intros r Hr. split; [apply same_shape_refl|auto].
  - intros r Hr. split; [apply same_shape_refl|auto].
  - intros s r i k Hs Hr Hin. pose proof (live_clen T lens G _ _ _ _ L s r i k Hs Hr Hin) as Ec.
    destruct (new_cells_spec T dflt (SS r) _ (proj2 Sz' r Hr)) as [N1 [N2 N3]].
    assert (El : clen (cells (SS' r)) k = clen (cells (SF s)) i).
    { rewrite <- Ec. apply lengths_clen. exact N2. }
    unfold linkl in Hin. apply In_nth_error in Hin. destruct Hin as [t Hin]. rewrite nth_error_combine in Hin.
    destruct (nth_error (G s r) t) as [i'|] eqn:Et; [|discriminate]. pose proof (nth_error_Some_lt _ _ _ _ Et) as Lt.
    rewrite nth_error_seq in Hin. destruct (Nat.ltb_spec t (length (G s r))); [|lia]. injection Hin as -> <-.
    assert (Ev : nth t (vals SF s r) [] = nth i (cells (SF s)) []).
    { apply nth_error_nth. unfold vals. rewrite nth_error_map_, Et. reflexivity. }
    unfold clen in El. apply nth_error_ext. intro j.
    destruct (Nat.lt_ge_cases j (clen (cells (SF s)) i)) as [Hj|Hj].
    + unfold SS'. cbn [with_cells cells]. rewrite N3 by lia. rewrite Val; auto.
      * destruct (in_dec place_dec (s, r) o) as [_|N]; [congruence|]. exfalso. apply N. apply Ob. auto.
      * unfold clen in *. rewrite Ev. auto.
    + unfold clen in *. rewrite !(proj2 (nth_error_None _ _)); auto; lia.
Qed.

(** *** one push *)
Definition gvals (s r : nat) : list (list T) := map (fun ik => nth (snd ik) (cells (SS r)) []) (link s r).

Lemma gvals_lengths : forall s r, (s < P)%nat -> (r < P)%nat ->
  map (@length T) (gvals s r) = map (@length T) (vals SF s r).
Proof.
  intros s r Hs Hr. unfold gvals, vals. rewrite <- (linkl_rows P G s r). rewrite !map_map. apply map_ext_in.
  intros [i k] Hin. cbn [fst snd]. apply (live_clen T lens G _ _ _ _ L s r i k Hs Hr Hin).
Qed.

Lemma room_ok : forall s r, (s < P)%nat -> (r < P)%nat ->
  push_room (tr ws s) (Z.of_nat r) = Ok (if none s r then None else Some (zlen (concat (vals SF s r)))).
Proof.
  intros s r Hs Hr. unfold push_room. cbn [tr tm tw]. rewrite (proj1 (push_counts s r Hs Hr)). cbn [bind].
  rewrite zlen_none. destruct (none s r); cbn [negb]; auto.
  destruct (live_arrs T lens G _ _ _ _ _ _ L (nth_ws s Hs)) as [f [sa [E [R1 R2]]]].
  unfold get_arr. rewrite E. cbn [father nth_error bind].
  change {| tw := nth s ws (w0 T); tm := mp s; tloc := map Z.of_nat (concat (outs P G s)); pushTypes := []; pullTypes := [] |} with (tr ws s).
  rewrite rows_for_ok by auto. cbn [bind].
  rewrite (mapM_intro _ _ _ _ (zlensl (vals SF s r))); [cbn [bind]; rewrite zsum_zlensl; reflexivity|unfold vals, zlensl; rewrite !map_length; auto|].
  intros t x y Hx Hy. unfold vals, zlensl in Hy. rewrite map_map in Hy. rewrite nth_error_map_ in Hx, Hy.
  destruct (nth_error (G s r) t) as [i|] eqn:Et; [|discriminate]. cbn in Hx, Hy. injection Hx as <-. injection Hy as <-.
  assert (Hi : (i < length (cells (SF s)))%nat) by (eapply G_in; eauto; eapply nth_error_In; eauto).
  destruct (rep_push_size T _ _ _ i R1 Hi) as [-> _]. rewrite psz_clen by auto. reflexivity.
Qed.

(** rows of [s] replaced *)
Definition put1 (r : nat) (C : list (list T)) (ik : nat * nat) := upd (fst ik) (nth (snd ik) (cells (SS r)) []) C.

Lemma put1_lengths : forall r l s C, (forall i k, In (i, k) l -> length (nth k (cells (SS r)) []) = clen (cells (SF s)) i) ->
  map (@length T) C = map (@length T) (cells (SF s)) ->
  map (@length T) (fold_left (put1 r) l C) = map (@length T) (cells (SF s)).
Proof.
  induction l as [|[i k] l IH]; intros s C H HC; auto. cbn [fold_left]. apply IH.
  - intros. apply H. right. auto.
  - unfold put1. cbn [fst snd]. rewrite upd_lengths; auto. rewrite (H i k) by (left; auto).
    symmetry. apply (lengths_clen T C (cells (SF s)) i HC).
Qed.

Lemma unpack_rows : forall h s r l C a pre v, (s < P)%nat ->
  rep h a (with_cells (SF s) C) -> map (@length T) C = map (@length T) (cells (SF s)) ->
  (forall i k, In (i, k) l -> (i < length (cells (SF s)))%nat /\ length (nth k (cells (SS r)) []) = clen (cells (SF s)) i) ->
  v = pre ++ concat (map (fun ik => nth (snd ik) (cells (SS r)) []) l) ->
  exists a' p', foldM (fun (av : arr * Z) loc =>
                do k <- push_row_size h (fst av) loc;
                do p <- row_ h (fst av) loc;
                do x <- slice v (snd av) k;
                do a' <- write_row (fst av) p x;
                Ok (a', snd av + k)) (a, zlen pre) (map (fun ik => Z.of_nat (fst ik)) l) = Ok (a', p') /\
    rep h a' (with_cells (SF s) (fold_left (put1 r) l C)) /\ pStart a' = pStart a /\ pSizes a' = pSizes a.
Proof.
  intros h s r l. induction l as [|[i k] l IH]; intros C a pre v Hs R HC Hl Hv.
  - cbn. eauto 10.
  - cbn [map foldM fst snd fold_left]. destruct (Hl i k (or_introl eq_refl)) as [Hi Hk].
    assert (LC : length C = length (cells (SF s))) by (rewrite <- (map_length (@length T) C), HC, map_length; auto).
    destruct (rep_push_size T _ _ _ i R) as [E1 _]; [cbn; lia|]. rewrite E1. cbn [bind].
    assert (Ep : psz (with_cells (SF s) C) i = clen C i).
    { unfold CreateTypesProofs.psz. cbn [with_cells slay cells]. rewrite NM by auto. reflexivity. }
    rewrite Ep. assert (Ec : clen C i = clen (cells (SF s)) i) by (apply lengths_clen; auto).
    destruct (row_access _ _ _ i R) as [p [E2 [_ Wr]]]; [cbn; lia|]. rewrite E2. cbn [bind].
    set (x := nth k (cells (SS r)) []) in *.
    assert (Es : slice v (zlen pre) (Z.of_nat (clen C i)) = Ok x).
    { unfold zlen. rewrite Ec, <- Hk. rewrite slice_ok.
      - rewrite Hv, skipn_length_app. cbn [map concat snd]. fold x. rewrite firstn_length_app. reflexivity.
      - rewrite Hv, app_length. cbn [map concat snd]. fold x. rewrite app_length. lia. }
    rewrite Es. cbn [bind]. destruct (Wr x) as [a1 [E3 [R1 [P1 P2]]]]; [cbn [with_cells cells]; congruence|].
    rewrite E3. cbn [bind].
    replace (zlen pre + Z.of_nat (clen C i)) with (zlen (pre ++ x)) by (unfold zlen; rewrite app_length; lia).
    change (with_cells (with_cells (SF s) C) (upd i x (cells (with_cells (SF s) C)))) with (with_cells (SF s) (put1 r C (i, k))) in R1.
    destruct (IH (put1 r C (i, k)) a1 (pre ++ x) v Hs R1) as [a' [p' [Q1 [Q2 [Q3 Q4]]]]].
    + unfold put1. cbn [fst snd]. fold x. rewrite upd_lengths; auto. change (length x = clen C i). congruence.
    + intros. apply Hl. right. auto.
    + rewrite Hv. cbn [map concat snd]. fold x. rewrite app_assoc. reflexivity.
    + exists a', p'. split; [exact Q1|]. split; auto. split; congruence.
Qed.

Definition bufl (s a n : nat) : list (list T) :=
  concat (map (fun r => if none s r then [] else [concat (gvals s r)]) (seq a n)).
Definition put_all (s a n : nat) (C : list (list T)) : list (list T) :=
  fold_left (fun C r => fold_left (put1 r) (link s r) C) (seq a n) C.

Lemma bufl_last : forall s n a, (a + n = P)%nat -> (0 < n)%nat -> none s (P - 1) = false -> bufl s a n <> [].
Proof.
  intros s n a Hn Hp Hl H. unfold bufl in H. apply (f_equal (@length _)) in H. cbn in H.
  assert (In [concat (gvals s (P - 1))] (map (fun r => if none s r then [] else [concat (gvals s r)]) (seq a n))).
  { apply in_map_iff. exists (P - 1)%nat. rewrite Hl, in_seq. split; auto. lia. }
  assert (I : In (concat (gvals s (P - 1))) (concat (map (fun r => if none s r then [] else [concat (gvals s r)]) (seq a n)))).
  { apply in_concat. exists [concat (gvals s (P - 1))]. split; auto. left. auto. }
  destruct (concat (map (fun r => if none s r then [] else [concat (gvals s r)]) (seq a n))); [destruct I|discriminate].
Qed.

Lemma link_len : forall s r i k, (s < P)%nat -> (r < P)%nat -> In (i, k) (link s r) ->
  (i < length (cells (SF s)))%nat /\ length (nth k (cells (SS r)) []) = clen (cells (SF s)) i.
Proof.
  intros s r i k Hs Hr Hin. split.
  - apply (link_bounds T lens ms G HP false SF SS ws s r i k L Hs Hr Hin).
  - apply (live_clen T lens G _ _ _ _ L s r i k Hs Hr Hin).
Qed.

Lemma unpack_ok : forall s n a w C, (s < P)%nat -> (a + n = P)%nat -> (0 < n)%nat ->
  wrep w [with_cells (SF s) C; SS s] -> map (@length T) C = map (@length T) (cells (SF s)) ->
  if none s (P - 1) then unpack_loop (tr ws s) (map Z.of_nat (seq a n)) (bufl s a n) w = Abort
  else exists w', unpack_loop (tr ws s) (map Z.of_nat (seq a n)) (bufl s a n) w = Ok w' /\
         wrep w' [with_cells (SF s) (put_all s a n C); SS s].
Proof.
  intros s n. induction n as [|n IH]; intros a w C Hs Ha Hn W HC; [lia|].
  assert (NB : bufl s a (S n) = [] -> none s (P - 1) = true).
  { intro B. destruct (none s (P - 1)) eqn:E; auto. exfalso. revert B. apply bufl_last; auto. }
  cbn [seq map unpack_loop].
  destruct (bufl s a (S n)) as [|b0 bs] eqn:EB.
  { rewrite NB by auto. reflexivity. }
  clear NB. cbn [assert_ bind]. 
  assert (Epz : vget (pushIndexSizes (tm (tr ws s))) (Z.of_nat a) = Ok (zlen (G s a))) by (apply push_counts; lia).
  rewrite Epz. cbn [bind].
  rewrite zlen_none. unfold bufl in EB. cbn [seq map concat] in EB. fold (bufl s (S a) n) in EB.
  assert (PA : put_all s a (S n) C = put_all s (S a) n (fold_left (put1 a) (link s a) C)) by reflexivity.
  destruct (none s a) eqn:En; cbn [negb].
  - cbn [app] in EB. rewrite PA.
    assert (Lk : link s a = []).
    { unfold linkl. unfold none in En. apply Nat.eqb_eq in En. destruct (G s a); [reflexivity|discriminate]. }
    rewrite Lk. cbn [fold_left].
    destruct (Nat.eq_dec n 0) as [->|Nn].
    + exfalso. cbn in EB. discriminate.
    + rewrite <- EB. apply (IH (S a) w C); auto; lia.
  - cbn [app] in EB. injection EB as <- <-.
    destruct (two_arrs _ _ _ _ W) as [fa [sa [E [R1 R2]]]]. unfold get_arr. rewrite E. cbn [father nth_error bind].
    rewrite rows_for_ok by lia. cbn [bind].
    destruct (unpack_rows (hp w) s a (link s a) C fa [] (concat (gvals s a)) Hs R1 HC) as [a' [p' [Q1 [Q2 [Q3 Q4]]]]].
    + intros i k Hin. apply link_len; auto. lia.
    + reflexivity.
    + rewrite <- (map_map fst Z.of_nat), linkl_rows in Q1.
      change (zlen (@nil T)) with 0 in Q1. rewrite Q1. cbn [bind fst put].
      assert (W' : wrep {| hp := hp w; arrs := upd father a' (arrs w) |} [with_cells (SF s) (fold_left (put1 a) (link s a) C); SS s]).
      { apply (wrep_step T w [with_cells (SF s) C; SS s] 0 fa (with_cells (SF s) C)); auto; [rewrite E; reflexivity|].
        apply frame_same; right; auto. }
      destruct (Nat.eq_dec n 0) as [->|Nn].
      * replace (P - 1)%nat with a by lia. rewrite En. eexists. split; [reflexivity|]. exact W'.
      * rewrite PA. cbn [fst snd]. apply (IH (S a) _ (fold_left (put1 a) (link s a) C)); auto; try lia.
        apply put1_lengths; auto. intros i k Hin. apply link_len; auto. lia.
Qed.

(** rows after all replacements *)
Lemma put_rows : forall s rs C i, (i < length C)%nat ->
  (exists r k, In r rs /\ In (i, k) (link s r) /\
     nth i (fold_left (fun C r => fold_left (put1 r) (link s r) C) rs C) [] = nth k (cells (SS r)) []) \/
  ((forall r k, In r rs -> ~ In (i, k) (link s r)) /\
     nth i (fold_left (fun C r => fold_left (put1 r) (link s r) C) rs C) [] = nth i C []).
Proof.
  assert (One : forall r l C i, (i < length C)%nat -> length (fold_left (put1 r) l C) = length C /\
     ((exists k, In (i, k) l /\ nth i (fold_left (put1 r) l C) [] = nth k (cells (SS r)) []) \/
      ((forall k, ~ In (i, k) l) /\ nth i (fold_left (put1 r) l C) [] = nth i C []))).
  { intros r l. induction l as [|[i0 k0] l IH]; intros C i Hi; cbn [fold_left].
    - split; auto.
    - assert (Hl : length (put1 r C (i0, k0)) = length C) by (unfold put1; apply upd_length).
      destruct (IH (put1 r C (i0, k0)) i ltac:(lia)) as [H1 [[k [H2 H3]]|[H2 H3]]].
      + split; [lia|]. left. exists k. split; [right; auto|auto].
      + split; [lia|]. destruct (Nat.eq_dec i0 i) as [->|Ne].
        * left. exists k0. split; [left; auto|]. rewrite H3. unfold put1. cbn [fst snd].
          apply nth_error_nth. apply nth_error_upd_same. auto.
        * right. split.
          -- intros k [E|I]; [injection E as E _; auto|apply (H2 k); auto].
          -- rewrite H3. unfold put1. cbn [fst snd]. apply nth_error_nth. rewrite nth_error_upd_other by auto.
             apply nth_error_nth'. auto. }
  intros s rs. induction rs as [|r rs IH]; intros C i Hi; cbn [fold_left].
  - right. split; auto.
  - destruct (One r (link s r) C i Hi) as [H1 H2].
    destruct (IH (fold_left (put1 r) (link s r) C) i ltac:(lia)) as [[r' [k [A [B D]]]]|[A B]].
    + left. exists r', k. split; [right; auto|auto].
    + destruct H2 as [[k [H2 H3]]|[H2 H3]].
      * left. exists r, k. split; [left; auto|]. split; auto. congruence.
      * right. split; [|congruence]. intros r' k [<-|I]; auto.
Qed.

Definition last_ok : bool := forallb (fun s => negb (none s (P - 1))) (seq 0 P).

Lemma mapM_abort : forall A B (f : A -> res B) l, (forall x, In x l -> (exists y, f x = Ok y) \/ f x = Abort) ->
  (exists x, In x l /\ f x = Abort) -> mapM f l = Abort.
Proof.
  induction l as [|x l IH]; intros H [x0 [I E]]; [destruct I|]. cbn [mapM].
  destruct (H x (or_introl eq_refl)) as [[y Ey]|Ea]; [|rewrite Ea; reflexivity].
  rewrite Ey. cbn [bind]. destruct I as [->|I]; [congruence|]. rewrite IH; auto. intros. apply H. right. auto.
  eauto.
Qed.

Definition rooms_ := map (fun s => map (fun r => if none s r then None else Some (zlen (concat (vals SF s r)))) (seq 0 P)) (seq 0 P).

Lemma ghost_slice : forall s r, (s < P)%nat -> (r < P)%nat ->
  slice (concat (cells (SS r))) (Z.of_nat (off (cells (SS r)) (base P G s r))) (zlen (concat (vals SF s r))) =
  Ok (concat (gvals s r)).
Proof.
  intros s r Hs Hr. unfold zlen. rewrite slice_ok by (apply span_fits; auto). f_equal.
  rewrite <- (lengths_concat T _ _ (gvals_lengths s r Hs Hr)).
  unfold gvals at 2. rewrite <- (map_map snd (fun k => nth k (cells (SS r)) [])), linkl_slots.
  assert (Hb : (base P G s r + length (G s r) <= length (cells (SS r)))%nat).
  { destruct (lv_size _ _ _ _ _ _ _ L r Hr) as [_ ->]. apply base_bound. auto. }
  assert (E : gvals s r = firstn (length (G s r)) (skipn (base P G s r) (cells (SS r)))).
  { unfold gvals. rewrite <- (map_map snd (fun k => nth k (cells (SS r)) [])), linkl_slots.
    apply nth_error_ext. intro t. rewrite nth_error_map_, nth_error_seq.
    destruct (Nat.ltb_spec t (length (G s r))); cbn [option_map].
    - rewrite nth_error_firstn, nth_error_skipn. destruct (Nat.ltb_spec t (length (G s r))); [|lia]. symmetry. apply nth_error_nth'. lia.
    - symmetry. apply nth_error_None. rewrite firstn_length. lia. }
  assert (E' : map (fun k => nth k (cells (SS r)) []) (seq (base P G s r) (length (G s r))) = gvals s r).
  { unfold gvals. rewrite <- (map_map snd (fun k => nth k (cells (SS r)) [])), linkl_slots. reflexivity. }
  rewrite E'. rewrite E. set (b := base P G s r) in *. set (C := cells (SS r)) in *. set (m := length (G s r)) in *.
  assert (S1 : concat C = concat (firstn b C) ++ concat (firstn m (skipn b C)) ++ concat (skipn m (skipn b C))).
  { rewrite <- !concat_app, !firstn_skipn. reflexivity. }
  unfold off. rewrite S1 at 1. rewrite skipn_length_app, firstn_length_app. reflexivity.
Qed.

Lemma push_ok :
  if fits then
    if last_ok then
      exists ws' SF', insitu_push dflt (map (tr ws) (seq 0 P)) = Ok (Some ws') /\ live SF' SS ws' /\
        shaped T lens SF SS SF' SS /\
        (forall s i, (s < P)%nat -> (i < length (cells (SF s)))%nat ->
           (exists r k, (r < P)%nat /\ In (i, k) (link s r) /\ nth i (cells (SF' s)) [] = nth k (cells (SS r)) []) \/
           ((forall r k, (r < P)%nat -> ~ In (i, k) (link s r)) /\
              nth i (cells (SF' s)) [] = nth i (cells (SF s)) []))
    else insitu_push dflt (map (tr ws) (seq 0 P)) = Abort
  else insitu_push dflt (map (tr ws) (seq 0 P)) = Ok None.
Proof.
  assert (Ep : mapM (fun t => mapM (push_room t) (ranks P)) (map (tr ws) (seq 0 P)) = Ok rooms_).
  { unfold rooms_. apply mapM_seq. intros s Hs. unfold ranks. apply mapM_seq. intros r Hr. apply room_ok; auto. }
  assert (Es : mapM (fun t => mapM (ghost_span (tw t) (tm t)) (ranks P)) (map (tr ws) (seq 0 P)) = Ok spans_).
  { unfold spans_. apply mapM_seq. intros r Hr. unfold ranks. apply mapM_seq. intros s Hs. apply spans_ok; auto. }
  assert (EW : map tw (map (tr ws) (seq 0 P)) = ws).
  { rewrite map_map. cbn [tr tw]. symmetry. apply as_map_seq. apply (lv_len _ _ _ _ _ _ _ L). }
  unfold insitu_push. rewrite map_length, seq_length, Ep. cbn [bind]. rewrite Es. cbn [bind].
  match goal with |- context [mapM ?f (list_prod (ranks P) (ranks P))] =>
    assert (Ef : mapM f (list_prod (ranks P) (ranks P)) = Ok (map (fun sr => fit (fst sr) (snd sr)) (list_prod (seq 0 P) (seq 0 P)))) end.
  { rewrite ranks_prod. apply mapM_intro; [rewrite !map_length; auto|].
    intros k x y Hx Hy. rewrite nth_error_map_ in Hx, Hy.
    destruct (nth_error (list_prod (seq 0 P) (seq 0 P)) k) as [[s r]|] eqn:Ek; [|discriminate].
    cbn in Hx, Hy. injection Hx as <-. injection Hy as <-. unfold zz. cbn [fst snd]. apply nth_error_In in Ek. apply in_prod_iff in Ek.
    destruct Ek as [A B]. apply in_seq in A, B.
    rewrite bind_assoc2. unfold rooms_. rewrite (vget_table _ (fun s r => if none s r then None else Some (zlen (concat (vals SF s r))))) by lia.
    cbn [bind]. rewrite bind_assoc2. unfold spans_.
    rewrite (vget_table _ (fun r s => (Z.of_nat (off (cells (SS r)) (base P G s r)), zlen (concat (vals SF s r))))) by lia.
    cbn [bind snd]. unfold fit. destruct (none s r) eqn:En.
    - rewrite (none_vals _ _ En). reflexivity.
    - cbn [orb]. unfold zlen. destruct (Nat.eqb_spec (length (concat (vals SF s r))) 0) as [E0|E0].
      + rewrite E0. reflexivity.
      + destruct (Z.ltb_spec 0 (Z.of_nat (length (concat (vals SF s r))))); [|lia]. rewrite Z.leb_refl. reflexivity. }
  rewrite Ef. cbn [bind]. rewrite forallb_fits, EW, son_buffers. destruct fits; [|reflexivity]. cbn [bind].
  assert (Un : forall s, (s < P)%nat ->
    (do bufs <- mapM (fun r =>
            do row <- vget rooms_ (Z.of_nat s); do o <- vget row r;
            match o with
            | None => Ok []
            | Some k =>
                do spr <- vget spans_ r; do ss <- vget spr (Z.of_nat s);
                do b <- vget (map (fun r => concat (cells (SS r))) (seq 0 P)) r; do v <- slice b (fst ss) (snd ss);
                Ok [v ++ repeat dflt (Z.to_nat (k - snd ss))]
            end) (ranks P);
        unpack_loop (tr ws s) (ranks P) (concat bufs) (tw (tr ws s))) =
    unpack_loop (tr ws s) (map Z.of_nat (seq 0 P)) (bufl s 0 P) (nth s ws (w0 T))).
  { intros s Hs. rewrite (mapM_intro _ _ _ _ (map (fun r => if none s r then [] else [concat (gvals s r)]) (seq 0 P))).
    - reflexivity.
    - rewrite map_length, ranks_length, seq_length. auto.
    - intros q x y Hx Hy. unfold ranks in Hx. apply nth_error_map_seq in Hx. destruct Hx as [Hq ->].
      apply nth_error_map_seq in Hy. destruct Hy as [_ ->].
      rewrite bind_assoc2. unfold rooms_. rewrite (vget_table _ (fun s r => if none s r then None else Some (zlen (concat (vals SF s r))))) by lia.
      cbn [bind]. destruct (none s q); auto. rewrite bind_assoc2. unfold spans_.
      rewrite (vget_table _ (fun r s => (Z.of_nat (off (cells (SS r)) (base P G s r)), zlen (concat (vals SF s r))))) by lia.
      cbn [bind fst snd]. erewrite vget_of_nat by (apply nth_error_map_seq_lt; auto). cbn [bind].
      rewrite ghost_slice by auto. cbn [bind]. rewrite Z.sub_diag. cbn [Z.to_nat repeat]. rewrite app_nil_r. reflexivity. }
  assert (Ur : forall s, (s < P)%nat ->
    if none s (P - 1) then unpack_loop (tr ws s) (map Z.of_nat (seq 0 P)) (bufl s 0 P) (nth s ws (w0 T)) = Abort
    else exists w', unpack_loop (tr ws s) (map Z.of_nat (seq 0 P)) (bufl s 0 P) (nth s ws (w0 T)) = Ok w' /\
         wrep w' [with_cells (SF s) (put_all s 0 P (cells (SF s))); SS s]).
  { intros s Hs. apply unpack_ok; auto; [lia|]. replace (with_cells (SF s) (cells (SF s))) with (SF s) by (destruct (SF s); reflexivity).
    apply (lv_rep _ _ _ _ _ _ _ L). apply nth_ws. auto. }
  assert (EC : combine (ranks P) (map (tr ws) (seq 0 P)) = map (fun s => (Z.of_nat s, tr ws s)) (seq 0 P))
    by (unfold ranks; apply combine_map2).
  rewrite EC.
  destruct last_ok eqn:Elast.
  - unfold last_ok in Elast. rewrite forallb_forall in Elast.
    destruct (choice_lt _ (w0 T) (fun s w' => unpack_loop (tr ws s) (map Z.of_nat (seq 0 P)) (bufl s 0 P) (nth s ws (w0 T)) = Ok w' /\
         wrep w' [with_cells (SF s) (put_all s 0 P (cells (SF s))); SS s]) P) as [W' HW'].
    { intros s Hs. specialize (Ur s Hs). specialize (Elast s ltac:(apply in_seq; lia)). apply negb_true_iff in Elast.
      rewrite Elast in Ur. exact Ur. }
    rewrite (mapM_seq _ _ _ _ W'); [|intros s Hs; cbn [fst snd]; rewrite Un by auto; apply HW'; auto].
    cbn [bind]. set (SF' := fun s => with_cells (SF s) (put_all s 0 P (cells (SF s)))).
    assert (Sh : forall r, (r < P)%nat -> same_shape (SF r) (SF' r)).
    { intros s Hs. apply same_shape_with. unfold put_all.
      assert (Gen : forall rs C, (forall r, In r rs -> (r < P)%nat) -> map (@length T) C = map (@length T) (cells (SF s)) ->
        map (@length T) (fold_left (fun C r => fold_left (put1 r) (link s r) C) rs C) = map (@length T) (cells (SF s))).
      { induction rs as [|r rs IH]; intros C Hr HC; auto. cbn [fold_left]. apply IH; [intros; apply Hr; right; auto|].
        apply put1_lengths; auto. intros i k Hin. apply link_len; auto. apply Hr. left. auto. }
      apply Gen; auto. intros r Hr. apply in_seq in Hr. lia. }
    exists (map W' (seq 0 P)), SF'. split; [reflexivity|]. split; [|split].
    + apply (live_shape T lens G false SF SS SF' SS ws); auto.
      * rewrite map_length, seq_length. auto.
      * intros s w Hw. apply nth_error_map_seq in Hw. destruct Hw as [Hs ->]. apply HW'. auto.
      * intros s Hs. split; [auto|apply same_shape_refl].
    + intros s Hs. split; [auto|apply same_shape_refl].
    + intros s i Hs Hi. unfold SF'. cbn [with_cells cells]. unfold put_all.
      destruct (put_rows s (seq 0 P) (cells (SF s)) i Hi) as [[r [k [A [B D]]]]|[A B]].
      * left. exists r, k. apply in_seq in A. split; [lia|]. auto.
      * right. split; auto. intros r k Hr. apply A. apply in_seq. lia.
  - rewrite mapM_abort; auto.
    + intros x Hx. apply in_map_iff in Hx. destruct Hx as [s [<- Hx]]. apply in_seq in Hx. cbn [fst snd].
      rewrite Un by lia. specialize (Ur s ltac:(lia)). destruct (none s (P - 1)); [right; auto|].
      destruct Ur as [w' [Ur _]]. left. eauto.
    + unfold last_ok in Elast. assert (Ex : exists s, In s (seq 0 P) /\ none s (P - 1) = true).
      { clear - Elast. induction (seq 0 P) as [|s l IH]; [discriminate|]. cbn in Elast. destruct (none s (P - 1)) eqn:E.
        - exists s. split; [left; auto|auto].
        - destruct IH as [s' [A B]]; auto. exists s'. split; [right; auto|auto]. }
      destruct Ex as [s [Hs En]]. apply in_seq in Hs. exists (Z.of_nat s, tr ws s). split.
      * apply in_map_iff. exists s. split; auto. apply in_seq. auto.
      * cbn [fst snd]. rewrite Un by lia. specialize (Ur s ltac:(lia)). rewrite En in Ur. exact Ur.
Qed.

(** *** the two conditions *)
Lemma row_size_cells : forall s h f i, (s < P)%nat -> array_of ws s father h f -> (i < length (cells (SF s)))%nat ->
  RowSize h f (Z.of_nat i) = Ok (Z.of_nat (clen (cells (SF s)) i)).
Proof.
  intros s h f i Hs Ha Hi. destruct (live_father T lens G _ _ _ _ _ _ _ L Ha) as [_ R].
  destruct (rep_rowsize _ _ _ _ _ R Hi) as [r [row [H1 [H2 [H3 _]]]]]. rewrite H2. unfold zlen, clen.
  rewrite (nth_error_nth _ _ [] H3). unfold srow in H1. rewrite H3, NM in H1 by auto. cbn in H1. congruence.
Qed.

Lemma concat_pos : forall A (V : list (list A)), (0 < length (concat V))%nat <-> exists t, (0 < length (nth t V []))%nat.
Proof.
  intros A V. split.
  - induction V as [|v V IH]; cbn; [lia|]. rewrite app_length. intro H. destruct (Nat.eq_dec (length v) 0).
    + destruct IH as [t Ht]; [lia|]. exists (S t). auto.
    + exists O. cbn. lia.
  - intros [t Ht]. revert t Ht. induction V as [|v V IH]; intros [|t] Ht; cbn in *; try lia; rewrite app_length; try lia.
    specialize (IH t Ht). lia.
Qed.

Lemma fits_spec : fits = true <-> no_empty_message lens ms ws.
Proof.
  unfold fits. rewrite forallb_forall. split.
  - intros H r k s i Hg. pose proof (ghost_of_rank _ _ _ _ _ _ _ HP Hg) as Hr.
    apply (link_ghost lens ms G HP) in Hg; auto. destruct Hg as [Hs Hin].
    specialize (H (s, r)). cbn [fst snd] in H. unfold fit in H.
    assert (En : none s r = false).
    { unfold none. apply Nat.eqb_neq. unfold linkl in Hin. destruct (G s r); [destruct Hin|cbn; lia]. }
    rewrite En in H. cbn [orb] in H. rewrite in_prod_iff, !in_seq in H. specialize (H ltac:(lia)).
    apply negb_true_iff, Nat.eqb_neq in H. destruct (proj1 (concat_pos _ (vals SF s r)) ltac:(lia)) as [t Ht].
    destruct (Nat.lt_ge_cases t (length (G s r))) as [Lt|Ge]; [|rewrite nth_overflow in Ht by (rewrite vals_length; auto); cbn in Ht; lia].
    destruct (nth_error_lt_Some _ _ _ Lt) as [i' Hi']. pose proof (link_at s r t i' Hs Hi') as Lk.
    destruct (live_get T lens G _ _ _ _ s L Hs) as [h [f [sa [Af [_ [Rf _]]]]]].
    exists (base P G s r + t)%nat, i', h, f, (Z.of_nat (clen (cells (SF s)) i')).
    split; [apply (link_ghost lens ms G HP); auto|]. split; auto.
    split; [apply row_size_cells; auto; eapply G_in; eauto; eapply nth_error_In; eauto|].
    unfold vals in Ht. erewrite nth_error_nth in Ht by (rewrite nth_error_map_, Hi'; reflexivity). unfold clen. lia.
  - intros H [s r] Hsr. apply in_prod_iff in Hsr. rewrite !in_seq in Hsr. cbn [fst snd]. unfold fit.
    destruct (none s r) eqn:En; auto. cbn [orb]. unfold none in En. apply Nat.eqb_neq in En.
    destruct (nth_error_lt_Some _ (G s r) 0) as [i Hi]; [lia|].
    pose proof (link_at s r 0 i ltac:(lia) Hi) as Lk.
    destruct (H r (base P G s r + 0)%nat s i) as [k' [i' [h [f [n [Hg [Ha [Hn Hp]]]]]]]].
    { apply (link_ghost lens ms G HP); [lia|]. split; [lia|auto]. }
    apply (link_ghost lens ms G HP) in Hg; [|lia]. destruct Hg as [_ Hin].
    assert (Hi' : In i' (G s r)) by (rewrite <- (linkl_rows P G s r); apply in_map_iff; exists (i', k'); auto).
    rewrite (row_size_cells s h f i') in Hn; auto; [|lia|eapply G_in; eauto; lia]. injection Hn as <-.
    apply negb_true_iff, Nat.eqb_neq. apply In_nth_error in Hi'. destruct Hi' as [t Ht].
    pose proof (proj2 (concat_pos _ (vals SF s r))) as X. enough (0 < length (concat (vals SF s r)))%nat by lia.
    apply X. exists t. unfold vals. erewrite nth_error_nth by (rewrite nth_error_map_, Ht; reflexivity). unfold clen in Hp. lia.
Qed.

Lemma last_spec : last_ok = true <-> last_has_ghosts lens ms.
Proof.
  unfold last_ok. rewrite forallb_forall. split.
  - intros H s Hs. specialize (H s ltac:(apply in_seq; lia)). apply negb_true_iff in H. unfold none in H. apply Nat.eqb_neq in H.
    destruct (nth_error_lt_Some _ (G s (P - 1)) 0) as [i Hi]; [lia|].
    exists (base P G s (P - 1) + 0)%nat, i. apply (link_ghost lens ms G HP); [lia|]. split; auto. apply link_at; auto.
  - intros H s Hs. apply in_seq in Hs. destruct (H s ltac:(lia)) as [k [i Hg]].
    apply (link_ghost lens ms G HP) in Hg; [|lia]. destruct Hg as [_ Hin]. unfold linkl in Hin.
    unfold none. destruct (G s (P - 1)); [destruct Hin|reflexivity].
Qed.

End State.

End InSitu.
