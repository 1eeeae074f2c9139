From Coq Require Import List ZArith Bool Arith Lia Wf_nat.
From Verif Require Import Base.Prelude Base.PreludeFacts Base.MPIModel Base.MPIFacts
  Geom.NodeCellModel Geom.NodeCellProofs Geom.PartProofs Geom.DedupModel Geom.DedupSpec.
Import ListNotations.
Local Open Scope Z_scope.

(** ** Looking up a main *)
Definition main_of (dm : list (Z * Z)) (i : Z) : option Z :=
  option_map snd (find (fun p => fst p =? i) dm).

Lemma main_of_In dm i m : NoDup (map fst dm) -> main_of dm i = Some m <-> In (i, m) dm.
Proof.
  intro N. unfold main_of. induction dm as [|(d, e) dm IH]; cbn [find fst map].
  - split; [discriminate|intros []].
  - cbn [map fst] in N. apply NoDup_cons_iff in N. destruct N as (N & ND). destruct (Z.eqb_spec d i) as [->|D].
    + cbn [option_map snd]. split.
      * intros [= ->]. now left.
      * intros [[= ->]|H]; auto. elim N. apply in_map_iff. now exists (i, m).
    + rewrite (IH ND). split.
      * now right.
      * intros [[= -> ->]|H]; auto. congruence.
Qed.

Lemma main_of_donor dm i : is_donor dm i = true <-> exists m, main_of dm i = Some m.
Proof.
  unfold main_of, is_donor. induction dm as [|(d, e) dm IH]; cbn [find existsb fst].
  - split; [discriminate|intros (m & [=])].
  - destruct (d =? i); cbn [orb option_map snd]; [split; eauto|exact IH].
Qed.

Lemma is_donor_In dm i : is_donor dm i = true <-> exists m, In (i, m) dm.
Proof.
  unfold is_donor. rewrite existsb_exists. split.
  - intros ((d, m) & H & E). apply Z.eqb_eq in E. cbn in E. subst. eauto.
  - intros (m & H). exists (i, m). split; auto. apply Z.eqb_refl.
Qed.

Lemma main_of_None dm i : main_of dm i = None <-> is_donor dm i = false.
Proof.
  destruct (main_of dm i) eqn:E.
  - split; [discriminate|]. intro H. assert (is_donor dm i = true) by (apply main_of_donor; eauto). congruence.
  - split; auto. intros _. destruct (is_donor dm i) eqn:F; auto.
    apply main_of_donor in F. destruct F. congruence.
Qed.

(** ** Numbering *)
Definition cnt (P : nat -> bool) (k : nat) : Z := Z.of_nat (length (filter P (seq 0 k))).

Lemma cnt_S P k : cnt P (S k) = cnt P k + (if P k then 1 else 0).
Proof.
  unfold cnt. rewrite seq_S, filter_app, app_length. cbn [filter Nat.add].
  destruct (P k); cbn [length]; lia.
Qed.

Lemma filter_ext_seq (P Q : nat -> bool) k : (forall i, (i < k)%nat -> P i = Q i) ->
  filter P (seq 0 k) = filter Q (seq 0 k).
Proof. intro H. apply filter_ext_in. intros i Hi. apply in_seq in Hi. apply H. lia. Qed.

Lemma cnt_ext (P Q : nat -> bool) k : (forall i, (i < k)%nat -> P i = Q i) -> cnt P k = cnt Q k.
Proof. intro H. unfold cnt. now rewrite (filter_ext_seq P Q). Qed.

Definition kept (dm : list (Z * Z)) (o : list Z) (i : nat) : bool :=
  (0 <=? nth i o 0) && negb (is_donor dm (Z.of_nat i)).

Lemma number_spec dm o : exists o', number_nodes dm o = (o', cnt (kept dm o) (length o)) /\
  length o' = length o /\
  forall i, (i < length o)%nat ->
    nth i o' 0 = if kept dm o i then cnt (kept dm o) i else nth i o 0.
Proof.
  induction o as [|x o (o' & E & L & H)] using rev_ind.
  - exists []. repeat split; auto. cbn. lia.
  - unfold number_nodes in E |- *. rewrite indexed_snoc, fold_left_app, E. cbn [fold_left fst snd].
    assert (K : forall i, (i < length o)%nat -> kept dm (o ++ [x]) i = kept dm o i).
    { intros i Hi. unfold kept. now rewrite app_nth1 by lia. }
    assert (Kx : kept dm (o ++ [x]) (length o) = (0 <=? x) && negb (is_donor dm (zlen o))).
    { unfold kept. rewrite app_nth2 by lia. rewrite Nat.sub_diag. reflexivity. }
    assert (C : cnt (kept dm (o ++ [x])) (length o) = cnt (kept dm o) (length o)) by now apply cnt_ext.
    rewrite app_length. cbn [length]. rewrite Nat.add_1_r, cnt_S, C, Kx.
    set (y := if (0 <=? x) && negb (is_donor dm (zlen o)) then cnt (kept dm o) (length o) else x).
    exists (o' ++ [y]). split; [|split].
    + unfold y. destruct (Z.ltb_spec x 0).
      * destruct (Z.leb_spec 0 x); [lia|]. cbn [andb]. f_equal. lia.
      * destruct (Z.leb_spec 0 x); [|lia]. cbn [andb]. destruct (is_donor dm (zlen o)); cbn [negb]; f_equal; lia.
    + rewrite app_length. cbn [length]. lia.
    + intros i Hi. destruct (Nat.eq_dec i (length o)) as [->|D].
      * rewrite !app_nth2 by lia. rewrite L, Nat.sub_diag. cbn [nth]. rewrite Kx. unfold y. now rewrite C.
      * rewrite !app_nth1 by lia. rewrite K by lia. rewrite H by lia.
        rewrite (cnt_ext (kept dm (o ++ [x])) (kept dm o) i); [reflexivity|]. intros; apply K; lia.
Qed.

Lemma nth_upd k j x (l : list Z) d : (k < length l)%nat -> nth j (upd k x l) d = if Nat.eqb j k then x else nth j l d.
Proof.
  intro H. destruct (Nat.eqb_spec j k) as [->|D].
  - apply nth_error_nth. now apply nth_error_upd_same.
  - destruct (nth_error l j) as [y|] eqn:E.
    + rewrite (nth_error_nth _ _ _ E). apply nth_error_nth. rewrite nth_error_upd_other; auto.
    + rewrite !nth_overflow; auto; rewrite ?upd_length; now apply nth_error_None.
Qed.

Lemma mark_spec n dm o : map_ok n dm -> length o = n ->
  exists o', mark_donors dm o = Ok o' /\ length o' = n /\
    forall i, (i < n)%nat ->
      nth i o' 0 = match main_of dm (Z.of_nat i) with Some m => -1 - m | None => nth i o 0 end.
Proof.
  intros (N & R). revert o. unfold mark_donors. induction dm as [|(d, m) dm IH]; intros o L; cbn [foldM].
  - exists o. auto.
  - cbn [fst snd]. destruct (R d m (or_introl eq_refl)) as (Rd & _).
    cbn [map fst] in N. apply NoDup_cons_iff in N. destruct N as (Nd & ND).
    replace d with (Z.of_nat (Z.to_nat d)) by lia. set (k := Z.to_nat d).
    assert (Hk : (k < length o)%nat) by lia.
    destruct (nth_error_lt_Some _ o k Hk) as (v & Ev).
    rewrite (vat_of_nat _ o k v Ev). cbn [bind].
    assert (Es : vset o (Z.of_nat k) (-1 - m) = Ok (upd k (-1 - m) o)).
    { unfold vset. rewrite Nat2Z.id. destruct (Z.ltb_spec (Z.of_nat k) 0); [lia|].
      destruct (Z.leb_spec (Z.of_nat (length o)) (Z.of_nat k)); [lia|]. reflexivity. }
    rewrite Es. cbn [bind].
    destruct (IH ND (fun d' m' H => R d' m' (or_intror H)) (upd k (-1 - m) o)) as (o' & E & L' & H).
    { now rewrite upd_length. }
    exists o'. do 2 (split; [auto|]). intros i Hi. rewrite H by auto. rewrite nth_upd by auto.
    unfold main_of at 2. cbn [find fst]. fold k.
    destruct (Nat.eqb_spec i k) as [->|D].
    + rewrite Z.eqb_refl. cbn [option_map snd].
      assert (M : main_of dm (Z.of_nat k) = None).
      { apply main_of_None. apply not_true_is_false. intro F. apply is_donor_In in F. destruct F as (m' & F).
        apply Nd. apply in_map_iff. exists (Z.of_nat k, m'). split; auto. cbn [fst]. lia. }
      now rewrite M.
    + destruct (Z.eqb_spec (Z.of_nat k) (Z.of_nat i)); [lia|]. reflexivity.
Qed.

Lemma pass_spec n dm o : map_ok n dm -> length o = n ->
  exists o', getNewNodeMap dm o = Ok (o', cnt (kept dm o) n) /\ length o' = n /\
    forall i, (i < n)%nat ->
      nth i o' 0 = match main_of dm (Z.of_nat i) with
                   | Some m => -1 - m
                   | None => if 0 <=? nth i o 0 then cnt (kept dm o) i else nth i o 0
                   end.
Proof.
  intros M L. unfold getNewNodeMap. destruct (number_spec dm o) as (o1 & E & L1 & H). rewrite E.
  destruct (mark_spec n dm o1 M) as (o2 & E2 & L2 & H2); [congruence|].
  rewrite E2. cbn [bind]. rewrite L. exists o2. do 2 (split; [auto|]). intros i Hi.
  rewrite H2 by auto. destruct (main_of dm (Z.of_nat i)) as [m|] eqn:Em; auto.
  apply main_of_None in Em. rewrite H by lia. unfold kept at 1. rewrite Em. cbn [negb].
  rewrite andb_true_r. reflexivity.
Qed.

(** The main a node is attached to in the end: the last map counts. *)
Definition final_main (dm1 dm2 dm3 : list (Z * Z)) (i : Z) : option Z :=
  match main_of dm3 i with Some m => Some m | None =>
  match main_of dm2 i with Some m => Some m | None => main_of dm1 i end end.

Definition surv (dms : list (list (Z * Z))) (i : nat) : bool :=
  negb (existsb (existsb (fun p => fst p =? Z.of_nat i)) dms).

Lemma nth_repeat0 n i : nth i (repeat 0 n) 0 = 0.
Proof.
  destruct (Nat.lt_ge_cases i n).
  - apply nth_repeat.
  - apply nth_overflow. rewrite repeat_length. lia.
Qed.

Lemma main_nonneg n dm i m : map_ok n dm -> main_of dm i = Some m -> 0 <= m < Z.of_nat n.
Proof. intros (N & R) H. apply main_of_In in H; auto. apply (R _ _ H). Qed.

Lemma cnt_nonneg P k : 0 <= cnt P k.
Proof. unfold cnt. lia. Qed.

Lemma new_node_map_spec n dm1 dm2 dm3 : map_ok n dm1 -> map_ok n dm2 -> map_ok n dm3 ->
  exists o, new_node_map n dm1 dm2 dm3 = Ok (o, cnt (surv [dm1; dm2; dm3]) n) /\ length o = n /\
    forall i, (i < n)%nat ->
      nth i o 0 = match final_main dm1 dm2 dm3 (Z.of_nat i) with
                  | Some m => -1 - m
                  | None => cnt (surv [dm1; dm2; dm3]) i
                  end.
Proof.
  intros M1 M2 M3. unfold new_node_map.
  destruct (pass_spec n dm1 (repeat 0 n) M1 (repeat_length _ _)) as (o1 & E1 & L1 & H1).
  destruct (pass_spec n dm2 o1 M2 L1) as (o2 & E2 & L2 & H2).
  destruct (pass_spec n dm3 o2 M3 L2) as (o3 & E3 & L3 & H3).
  rewrite E1. cbn [bind fst]. rewrite E2. cbn [bind fst]. rewrite E3.
  assert (K : forall i, (i < n)%nat -> kept dm3 o2 i = surv [dm1; dm2; dm3] i).
  { intros i Hi. unfold kept, surv. cbn [existsb]. fold (is_donor dm1 (Z.of_nat i)) (is_donor dm2 (Z.of_nat i))
      (is_donor dm3 (Z.of_nat i)). rewrite orb_false_r, !negb_orb.
    rewrite H2 by auto. destruct (main_of dm2 (Z.of_nat i)) as [m|] eqn:Em2.
    - replace (is_donor dm2 (Z.of_nat i)) with true by (symmetry; apply main_of_donor; eauto).
      pose proof (main_nonneg _ _ _ _ M2 Em2). destruct (Z.leb_spec 0 (-1 - m)); [lia|].
      cbn [negb andb]. now rewrite andb_false_r.
    - apply main_of_None in Em2. rewrite Em2. rewrite H1 by auto.
      destruct (main_of dm1 (Z.of_nat i)) as [m|] eqn:Em1.
      + replace (is_donor dm1 (Z.of_nat i)) with true by (symmetry; apply main_of_donor; eauto).
        pose proof (main_nonneg _ _ _ _ M1 Em1). destruct (Z.leb_spec 0 (-1 - m)); [lia|].
        destruct (Z.leb_spec 0 (-1 - m)); [lia|]. reflexivity.
      + apply main_of_None in Em1. rewrite Em1. rewrite nth_repeat0. cbn [Z.leb Z.compare].
        destruct (Z.leb_spec 0 (cnt (kept dm1 (repeat 0 n)) i)); [|pose proof (cnt_nonneg (kept dm1 (repeat 0 n)) i); lia].
        destruct (Z.leb_spec 0 (cnt (kept dm2 o1) i)); [|pose proof (cnt_nonneg (kept dm2 o1) i); lia]. reflexivity. }
  rewrite (cnt_ext _ _ n K). exists o3. do 2 (split; [auto|]). intros i Hi. rewrite H3 by auto.
  unfold final_main. destruct (main_of dm3 (Z.of_nat i)) as [m|] eqn:Em3; auto.
  rewrite (cnt_ext _ _ i (fun j Hj => K j (Nat.lt_trans _ _ _ Hj Hi))).
  rewrite H2 by auto. destruct (main_of dm2 (Z.of_nat i)) as [m|] eqn:Em2.
  { pose proof (main_nonneg _ _ _ _ M2 Em2). destruct (Z.leb_spec 0 (-1 - m)); [lia|]. reflexivity. }
  rewrite H1 by auto. destruct (main_of dm1 (Z.of_nat i)) as [m|] eqn:Em1.
  { pose proof (main_nonneg _ _ _ _ M1 Em1). destruct (Z.leb_spec 0 (-1 - m)); [lia|].
    destruct (Z.leb_spec 0 (-1 - m)); [lia|]. reflexivity. }
  rewrite nth_repeat0. cbn [Z.leb Z.compare].
  destruct (Z.leb_spec 0 (cnt (kept dm1 (repeat 0 n)) i)); [|pose proof (cnt_nonneg (kept dm1 (repeat 0 n)) i); lia].
  destruct (Z.leb_spec 0 (cnt (kept dm2 o1) i)); [|pose proof (cnt_nonneg (kept dm2 o1) i); lia]. reflexivity.
Qed.

(** ** Positions among the survivors *)
Lemma filter_pos P n i : (i < n)%nat -> P i = true ->
  nth_error (filter P (seq 0 n)) (length (filter P (seq 0 i))) = Some i.
Proof.
  intros Hi Hp. replace n with (i + (1 + (n - i - 1)))%nat by lia.
  rewrite seq_app, filter_app, Nat.add_0_l. cbn [seq Nat.add filter]. rewrite Hp.
  rewrite nth_error_app2, Nat.sub_diag by lia. reflexivity.
Qed.

Lemma filter_at P n k i : nth_error (filter P (seq 0 n)) k = Some i ->
  (i < n)%nat /\ P i = true /\ cnt P i = Z.of_nat k.
Proof.
  intro H. pose proof (nth_error_In _ _ H) as I. apply filter_In in I. destruct I as (I & Hp).
  apply in_seq in I. assert (Hi : (i < n)%nat) by lia. do 2 (split; [auto|]).
  unfold cnt. f_equal. pose proof (filter_pos P n i Hi Hp) as H'.
  pose proof (NoDup_filter P (seq_NoDup n 0)) as N.
  apply (proj1 (NoDup_nth_error _) N); [now apply nth_error_Some_lt in H'|congruence].
Qed.

Lemma cnt_mono P i j : (i <= j)%nat -> cnt P i <= cnt P j.
Proof. induction 1; [lia|]. rewrite cnt_S. destruct (P m); lia. Qed.

Lemma cnt_inj P i j : P i = true -> P j = true -> cnt P i = cnt P j -> i = j.
Proof.
  intros Pi Pj E. destruct (lt_eq_lt_dec i j) as [[L|L]|L]; auto.
  - pose proof (cnt_S P i). rewrite Pi in H. pose proof (cnt_mono P (S i) j L). lia.
  - pose proof (cnt_S P j). rewrite Pj in H. pose proof (cnt_mono P (S j) i L). lia.
Qed.

(** ** Following the marks *)
Lemma track_mono o f i v : track_loop f o i = Ok v -> track_loop (S f) o i = Ok v.
Proof.
  revert i. induction f as [|f IH]; intros i H.
  - cbn [track_loop] in H |- *. destruct (vat o i) as [w| |]; cbn [bind] in H |- *; try discriminate.
    destruct (w <? 0); [discriminate|auto].
  - change (bind (vat o i) (fun v => if v <? 0 then track_loop f o (-1 - v) else Ok v) = Ok v) in H.
    change (bind (vat o i) (fun v => if v <? 0 then track_loop (S f) o (-1 - v) else Ok v) = Ok v).
    destruct (vat o i) as [w| |]; cbn [bind] in H |- *; try discriminate. destruct (w <? 0); auto.
Qed.

Section Merge.
Variables (n : nat) (dm1 dm2 dm3 : list (Z * Z)) (o : list Z).
Let dms := [dm1; dm2; dm3].
Hypothesis M1 : map_ok n dm1.
Hypothesis M2 : map_ok n dm2.
Hypothesis M3 : map_ok n dm3.
Hypothesis L : length o = n.
Hypothesis HO : forall i, (i < n)%nat ->
  nth i o 0 = match final_main dm1 dm2 dm3 (Z.of_nat i) with
              | Some m => -1 - m | None => cnt (surv dms) i end.

Lemma final_In i m : final_main dm1 dm2 dm3 i = Some m -> exists dm, In dm dms /\ In (i, m) dm.
Proof.
  unfold final_main. intro H.
  destruct (main_of dm3 i) eqn:E3.
  { injection H as <-. apply main_of_In in E3; [|apply M3]. exists dm3. split; auto. right; right; now left. }
  destruct (main_of dm2 i) eqn:E2.
  { injection H as <-. apply main_of_In in E2; [|apply M2]. exists dm2. split; auto. right; now left. }
  apply main_of_In in H; [|apply M1]. exists dm1. split; auto. now left.
Qed.

Lemma map_ok_In dm : In dm dms -> map_ok n dm.
Proof. intros [<-|[<-|[<-|[]]]]; auto. Qed.

Lemma final_range i m : final_main dm1 dm2 dm3 i = Some m -> 0 <= i < Z.of_nat n /\ 0 <= m < Z.of_nat n.
Proof. intro H. destruct (final_In i m H) as (dm & I & J). apply map_ok_In in I. now apply I. Qed.

Lemma final_None i : final_main dm1 dm2 dm3 (Z.of_nat i) = None <-> surv dms i = true.
Proof.
  unfold final_main, surv, dms. cbn [existsb].
  fold (is_donor dm1 (Z.of_nat i)) (is_donor dm2 (Z.of_nat i)) (is_donor dm3 (Z.of_nat i)).
  rewrite orb_false_r, negb_true_iff, !orb_false_iff, <- !main_of_None.
  destruct (main_of dm3 _); [split; [discriminate|tauto]|].
  destruct (main_of dm2 _); [split; [discriminate|tauto]|]. tauto.
Qed.

Lemma vat_o i : 0 <= i < Z.of_nat n -> vat o i = Ok (nth (Z.to_nat i) o 0).
Proof.
  intro H. replace i with (Z.of_nat (Z.to_nat i)) at 1 by lia. apply vat_of_nat.
  apply nth_error_nth'. lia.
Qed.

Lemma vat_final i : 0 <= i < Z.of_nat n ->
  vat o i = Ok (match final_main dm1 dm2 dm3 i with Some m => -1 - m | None => cnt (surv dms) (Z.to_nat i) end).
Proof.
  intro H. rewrite vat_o by auto. rewrite HO by lia. rewrite Z2Nat.id by lia. reflexivity.
Qed.

Variable rank : Z -> nat.
Hypothesis HR : forall dm d m, In dm dms -> In (d, m) dm -> (rank m < rank d)%nat.

Lemma track_total_aux f : forall vis i, (length vis + f = n)%nat -> NoDup vis ->
  (forall v, In v vis -> 0 <= v < Z.of_nat n /\ (rank i < rank v)%nat) -> 0 <= i < Z.of_nat n ->
  exists s, track_loop f o i = Ok (cnt (surv dms) s) /\ (s < n)%nat /\ surv dms s = true /\
    leads_to dms i (Z.of_nat s).
Proof.
  induction f as [|f IH]; intros vis i Hl N Hv Hi; cbn [track_loop]; rewrite vat_final by auto; cbn [bind];
    destruct (final_main dm1 dm2 dm3 i) as [m|] eqn:E.
  - (* all nodes have been visited *)
    exfalso. assert (I : In i vis).
    { apply (NoDup_length_incl N (l' := map Z.of_nat (seq 0 n))).
      - rewrite map_length, seq_length. lia.
      - intros v Iv. destruct (Hv v Iv). apply in_map_iff. exists (Z.to_nat v). rewrite in_seq. lia.
      - apply in_map_iff. exists (Z.to_nat i). rewrite in_seq. lia. }
    destruct (Hv i I). lia.
  - pose proof (cnt_nonneg (surv dms) (Z.to_nat i)). destruct (Z.ltb_spec (cnt (surv dms) (Z.to_nat i)) 0); [lia|].
    exists (Z.to_nat i). split; auto. split; [lia|]. split.
    + apply final_None. rewrite Z2Nat.id by lia. auto.
    + rewrite Z2Nat.id by lia. constructor.
  - destruct (final_range i m E) as (_ & Rm). destruct (final_In i m E) as (dm & I & J).
    destruct (Z.ltb_spec (-1 - m) 0); [|lia]. replace (-1 - (-1 - m)) with m by lia.
    pose proof (HR dm i m I J).
    destruct (IH (i :: vis) m) as (s & Es & Hs & Ps & Ls); auto.
    + cbn [length]. lia.
    + constructor; auto. intro Ii. destruct (Hv i Ii). lia.
    + intros v [<-|Iv]; [auto|]. destruct (Hv v Iv). split; [auto|lia].
    + exists s. do 3 (split; [auto|]). now apply leads_step with dm m.
  - pose proof (cnt_nonneg (surv dms) (Z.to_nat i)). destruct (Z.ltb_spec (cnt (surv dms) (Z.to_nat i)) 0); [lia|].
    exists (Z.to_nat i). split; auto. split; [lia|]. split.
    + apply final_None. rewrite Z2Nat.id by lia. auto.
    + rewrite Z2Nat.id by lia. constructor.
Qed.

Lemma track_total i : 0 <= i < Z.of_nat n ->
  exists s, track o i = Ok (cnt (surv dms) s) /\ (s < n)%nat /\ surv dms s = true /\
    leads_to dms i (Z.of_nat s).
Proof.
  intro H. unfold track. rewrite L. apply (track_total_aux n [] i); auto.
  - constructor.
  - intros v [].
Qed.

Lemma track_survivor s : (s < n)%nat -> surv dms s = true -> track o (Z.of_nat s) = Ok (cnt (surv dms) s).
Proof.
  intros Hs Ps. apply final_None in Ps.
  assert (H : forall f, track_loop f o (Z.of_nat s) = Ok (cnt (surv dms) s)).
  { intro f. assert (Ev : vat o (Z.of_nat s) = Ok (cnt (surv dms) s)).
    { rewrite vat_final by lia. now rewrite Ps, Nat2Z.id. }
    pose proof (cnt_nonneg (surv dms) s).
    destruct f; cbn [track_loop]; rewrite Ev; cbn [bind]; (destruct (Z.ltb_spec (cnt (surv dms) s) 0); [lia|reflexivity]). }
  apply H.
Qed.

Lemma track_main i m : final_main dm1 dm2 dm3 i = Some m -> track o i = track o m.
Proof.
  intro E. destruct (final_range i m E) as (Ri & Rm).
  destruct (track_total i Ri) as (s & Es & _ & _ & _). rewrite Es. symmetry.
  unfold track in *. rewrite L in *. assert (En : n = S (pred n)) by lia. rewrite En in Es |- *.
  cbn [track_loop] in Es. rewrite vat_final in Es by auto. rewrite E in Es. cbn [bind] in Es.
  destruct (Z.ltb_spec (-1 - m) 0); [|lia]. replace (-1 - (-1 - m)) with m in Es by lia.
  now apply track_mono in Es.
Qed.
End Merge.

Section Squares.
Variables (n : nat) (dm1 dm2 dm3 : list (Z * Z)) (o : list Z).
Let dms := [dm1; dm2; dm3].
Hypothesis M1 : map_ok n dm1.
Hypothesis M2 : map_ok n dm2.
Hypothesis M3 : map_ok n dm3.
Hypothesis L : length o = n.
Hypothesis HO : forall i, (i < n)%nat ->
  nth i o 0 = match final_main dm1 dm2 dm3 (Z.of_nat i) with
              | Some m => -1 - m | None => cnt (surv dms) i end.
Variable rank : Z -> nat.
Hypothesis HR : forall dm d m, In dm dms -> In (d, m) dm -> (rank m < rank d)%nat.
Hypothesis S12 : square dm1 dm2.
Hypothesis S13 : square dm1 dm3.
Hypothesis S23 : square dm2 dm3.

Lemma main3 d m : In (d, m) dm3 -> track o d = track o m.
Proof.
  intro I. apply (track_main n dm1 dm2 dm3 o M1 M2 M3 L HO rank HR). unfold final_main.
  apply main_of_In in I; [|apply M3]. now rewrite I.
Qed.

Lemma main2 : forall k d m, (rank d <= k)%nat -> In (d, m) dm2 -> track o d = track o m.
Proof.
  induction k as [k IH] using lt_wf_ind. intros d m Hk I.
  destruct (main_of dm3 d) as [m'|] eqn:E.
  - apply main_of_In in E; [|apply M3]. destruct (S23 d m m' I E) as (e & I3 & I2).
    rewrite (main3 d m' E), (main3 m e I3).
    apply (IH (rank m')); auto. pose proof (HR dm3 d m' (or_intror (or_intror (or_introl eq_refl))) E). lia.
  - apply (track_main n dm1 dm2 dm3 o M1 M2 M3 L HO rank HR). unfold final_main. rewrite E.
    apply main_of_In in I; [|apply M2]. now rewrite I.
Qed.

Lemma main1 : forall k d m, (rank d <= k)%nat -> In (d, m) dm1 -> track o d = track o m.
Proof.
  induction k as [k IH] using lt_wf_ind. intros d m Hk I.
  destruct (main_of dm3 d) as [m'|] eqn:E.
  - apply main_of_In in E; [|apply M3]. destruct (S13 d m m' I E) as (e & I3 & I1).
    rewrite (main3 d m' E), (main3 m e I3).
    apply (IH (rank m')); auto. pose proof (HR dm3 d m' (or_intror (or_intror (or_introl eq_refl))) E). lia.
  - destruct (main_of dm2 d) as [m'|] eqn:E2.
    + apply main_of_In in E2; [|apply M2]. destruct (S12 d m m' I E2) as (e & I3 & I1).
      rewrite (main2 _ d m' (le_n _) E2), (main2 _ m e (le_n _) I3).
      apply (IH (rank m')); auto. pose proof (HR dm2 d m' (or_intror (or_introl eq_refl)) E2). lia.
    + apply (track_main n dm1 dm2 dm3 o M1 M2 M3 L HO rank HR). unfold final_main. rewrite E, E2.
      apply main_of_In in I; [|apply M1]. now rewrite I.
Qed.

Lemma main_any dm d m : In dm dms -> In (d, m) dm -> track o d = track o m.
Proof.
  intros [<-|[<-|[<-|[]]]] I.
  - now apply (main1 _ d m (le_n _)).
  - now apply (main2 _ d m (le_n _)).
  - now apply main3.
Qed.
End Squares.

(** ** Moving the coordinates *)
Lemma move_spec C (blank : C) P o N coords : length o = length coords ->
  (forall i, (i < length o)%nat -> if P i : bool then nth i o 0 = cnt P i else nth i o 0 < 0) ->
  N = cnt P (length o) ->
  exists out, move_coords blank o N coords = Ok out /\ length out = Z.to_nat N /\
    forall k i, nth_error (filter P (seq 0 (length o))) k = Some i -> nth_error out k = nth_error coords i.
Proof.
  intros L HP HN. unfold move_coords.
  assert (H : forall pre, (exists t, coords = pre ++ t) ->
    exists out, foldM (fun out ix => do v <- vget o (fst ix); if 0 <=? v then vset out v (snd ix) else Ok out)
        (repeat blank (Z.to_nat N)) (indexed pre) = Ok out /\ length out = Z.to_nat N /\
      forall i, (i < length pre)%nat -> P i = true -> nth_error out (Z.to_nat (cnt P i)) = nth_error coords i).
  { induction pre as [|x pre IH] using rev_ind; intros (t & Et).
    - exists (repeat blank (Z.to_nat N)). rewrite repeat_length. repeat split; auto. cbn. lia.
    - rewrite <- app_assoc in Et. cbn [app] in Et. destruct IH as (out & E & Lo & H); [eauto|].
      rewrite indexed_snoc, foldM_snoc, E. cbn [bind fst snd].
      assert (Hp : (length pre < length o)%nat) by (rewrite L, Et, app_length; cbn [length]; lia).
      unfold zlen. rewrite (vget_of_nat _ o (length pre) (nth (length pre) o 0)) by now apply nth_error_nth'.
      cbn [bind]. pose proof (HP (length pre) Hp) as Hx. destruct (P (length pre)) eqn:Px.
      + rewrite Hx. pose proof (cnt_nonneg P (length pre)). destruct (Z.leb_spec 0 (cnt P (length pre))); [|lia].
        pose proof (cnt_S P (length pre)) as CS. rewrite Px in CS. pose proof (cnt_mono P _ _ Hp).
        assert (Hc : (Z.to_nat (cnt P (length pre)) < length out)%nat) by lia.
        assert (Es : vset out (cnt P (length pre)) x = Ok (upd (Z.to_nat (cnt P (length pre))) x out)).
        { unfold vset. destruct (Z.ltb_spec (cnt P (length pre)) 0); [lia|].
          destruct (Z.leb_spec (Z.of_nat (length out)) (cnt P (length pre))); [lia|]. reflexivity. }
        rewrite Es. eexists. split; [reflexivity|]. rewrite upd_length. split; auto.
        intros i Hi Pi. rewrite app_length in Hi. cbn [length] in Hi.
        destruct (Nat.eq_dec i (length pre)) as [->|D].
        * rewrite nth_error_upd_same by auto. rewrite Et, nth_error_app2, Nat.sub_diag by lia. reflexivity.
        * rewrite nth_error_upd_other; [apply H; auto; lia|]. intro Q. apply D. apply (cnt_inj P); auto.
          pose proof (cnt_nonneg P i). lia.
      + destruct (Z.leb_spec 0 (nth (length pre) o 0)); [lia|]. exists out. do 2 (split; [auto|]).
        intros i Hi Pi. rewrite app_length in Hi. cbn [length] in Hi. apply H; auto.
        destruct (Nat.eq_dec i (length pre)) as [->|D]; [congruence|lia]. }
  destruct (H coords) as (out & E & Lo & Hk). { exists []. now rewrite app_nil_r. }
  exists out. do 2 (split; [auto|]). intros k i Hi. destruct (filter_at _ _ _ _ Hi) as (Li & Pi & Ci).
  rewrite <- (Hk i); [|lia|auto]. rewrite Ci, Nat2Z.id. reflexivity.
Qed.

(** ** The merged mesh *)
Lemma mapM_fun A B (g : A -> res B) (f : A -> B) l : (forall a, In a l -> g a = Ok (f a)) -> mapM g l = Ok (map f l).
Proof.
  induction l as [|a l IH]; intro H; auto. cbn [mapM map]. rewrite (H a (or_introl eq_refl)). cbn [bind].
  rewrite IH; [reflexivity|]. intros; apply H; now right.
Qed.

Lemma merge_spec C (blank : C) dm1 dm2 dm3 coords :
  let n := length coords in let dms := [dm1; dm2; dm3] in
  map_ok n dm1 -> map_ok n dm2 -> map_ok n dm3 -> acyclic dms ->
  exists f : Z -> Z,
    (forall i, 0 <= i < Z.of_nat n -> exists k s, nth_error (survivors n dms) k = Some s /\
        f i = Z.of_nat k /\ leads_to dms i (Z.of_nat s)) /\
    (forall k s, nth_error (survivors n dms) k = Some s -> f (Z.of_nat s) = Z.of_nat k) /\
    (forall d m, In (d, m) dm3 \/ (In (d, m) dm2 /\ ~ donor_in dm3 d) \/
                 (In (d, m) dm1 /\ ~ donor_in dm2 d /\ ~ donor_in dm3 d) -> f d = f m) /\
    (square dm1 dm2 -> square dm1 dm3 -> square dm2 dm3 ->
     forall dm d m, In dm dms -> In (d, m) dm -> f d = f m) /\
    forall cells bnds, in_nodes n cells -> in_nodes n bnds ->
      exists coords', Deduplicate blank dm1 dm2 dm3 coords cells bnds
          = Ok (coords', map (map f) cells, map (map f) bnds) /\
        length coords' = length (survivors n dms) /\
        forall k s, nth_error (survivors n dms) k = Some s -> nth_error coords' k = nth_error coords s.
Proof.
  intros n dms M1 M2 M3 (rank & HR).
  destruct (new_node_map_spec n dm1 dm2 dm3 M1 M2 M3) as (o & E & L & HO).
  pose proof (track_total n dm1 dm2 dm3 o M1 M2 M3 L HO rank HR) as T.
  pose proof (track_main n dm1 dm2 dm3 o M1 M2 M3 L HO rank HR) as TM.
  set (f := fun i => match track o i with Ok v => v | _ => 0 end).
  assert (Ff : forall i, 0 <= i < Z.of_nat n -> track o i = Ok (f i)).
  { intros i Hi. unfold f. destruct (T i Hi) as (s & Es & _). now rewrite Es. }
  change (survivors n dms) with (filter (surv dms) (seq 0 n)).
  exists f. split; [|split; [|split; [|split]]].
  - intros i Hi. destruct (T i Hi) as (s & Es & Hs & Ps & Ls).
    exists (length (filter (surv dms) (seq 0 s))), s. split; [now apply filter_pos|].
    split; auto. unfold f. now rewrite Es.
  - intros k s Hk. destruct (filter_at _ _ _ _ Hk) as (Hs & Ps & Cs).
    unfold f. rewrite (track_survivor n dm1 dm2 dm3 o L HO rank HR s Hs Ps). exact Cs.
  - intros d m H. unfold f. rewrite (TM d m); auto. unfold final_main.
    assert (Nd : forall dm, ~ donor_in dm d -> main_of dm d = None).
    { intros dm N. apply main_of_None. apply not_true_is_false. intro D. now apply is_donor_In in D. }
    destruct H as [I|[(I & N3)|(I & N2 & N3)]].
    + apply main_of_In in I; [|apply M3]. now rewrite I.
    + apply main_of_In in I; [|apply M2]. now rewrite (Nd _ N3), I.
    + apply main_of_In in I; [|apply M1]. now rewrite (Nd _ N3), (Nd _ N2), I.
  - intros S12 S13 S23 dm d m Id I. unfold f.
    now rewrite (main_any n dm1 dm2 dm3 o M1 M2 M3 L HO rank HR S12 S13 S23 dm d m Id I).
  - intros cells bnds Hc Hb. unfold Deduplicate. fold n. rewrite E. cbn [bind].
    assert (R : forall rows, in_nodes n rows -> mapM (mapM (track o)) rows = Ok (map (map f) rows)).
    { intros rows H. apply mapM_fun. intros row Ir. apply mapM_fun. intros i Ii. apply Ff.
      unfold in_nodes in H. rewrite Forall_forall in H. specialize (H row Ir). rewrite Forall_forall in H. auto. }
    rewrite (R cells Hc), (R bnds Hb). cbn [bind].
    destruct (move_spec C blank (surv dms) o (cnt (surv dms) n) coords) as (out & Eo & Lo & Ho); auto.
    + intros i Hi. rewrite L in Hi. rewrite HO by auto. destruct (surv dms i) eqn:Ps.
      * apply (final_None dm1 dm2 dm3) in Ps. now rewrite Ps.
      * destruct (final_main dm1 dm2 dm3 (Z.of_nat i)) as [m|] eqn:Em.
        -- destruct (final_range n dm1 dm2 dm3 M1 M2 M3 _ _ Em). lia.
        -- apply final_None in Em. fold dms in Em. congruence.
    + fold dms. rewrite Eo. cbn [bind]. exists out. split; auto. rewrite L in Ho. split; auto.
      rewrite Lo. unfold cnt. apply Nat2Z.id.
Qed.
