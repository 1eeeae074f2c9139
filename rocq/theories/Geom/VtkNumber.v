From Coq Require Import List ZArith Bool Arith Permutation Lia.
From Verif Require Import Base.Prelude Base.PreludeFacts Base.MPIModel Geom.ElemModel Geom.AdjModel Geom.VtkModel Geom.VtkSpec Geom.VtkPut Geom.VtkFlags.
Import ListNotations.
Local Open Scope Z_scope.

Definition created (i f : Z) : list (Z * Z) := map (fun b => (i, b)) (filter (Z.testbit f) periods).
Fixpoint created_all (i : Z) (flags : list Z) : list (Z * Z) :=
  match flags with [] => [] | f :: fs => created i f ++ created_all (i + 1) fs end.
(** The points of a rank, in the order of their numbers: node and periods. *)
Definition keysr (fl : list Z) : list (Z * Z) := map (fun i => (Z.of_nat i, 0)) (seq 0 (length fl)) ++ created_all 0 fl.

Lemma number_bits_spec f : forall bs next r n, NoDup bs -> number_bits next f bs = (r, n) ->
  n = next + zlen (filter (Z.testbit f) bs) /\ length r = length bs /\
  forall t b, nth_error bs t = Some b -> forall k,
    nth_error r t = Some (Some k) <-> next <= k /\ nth_error (filter (Z.testbit f) bs) (Z.to_nat (k - next)) = Some b.
Proof.
  induction bs as [|b0 bs IH]; intros next r n ND E; cbn [number_bits filter] in *.
  - injection E as <- <-. unfold zlen. cbn. repeat split; auto; try lia; destruct t; discriminate.
  - apply NoDup_cons_iff in ND as [N0 ND]. destruct (Z.testbit f b0) eqn:T.
    + destruct (number_bits (next + 1) f bs) as [r' n'] eqn:E'. injection E as <- <-.
      destruct (IH _ _ _ ND E') as (H1 & H2 & H3). split; [unfold zlen in *; cbn; lia|]. split; [cbn; lia|].
      intros [|t] b Hb k; cbn in Hb.
      * injection Hb as <-. cbn. split.
        -- intros H. injection H as <-. rewrite Z.sub_diag. split; [lia|auto].
        -- intros [L H]. destruct (Z.to_nat (k - next)) eqn:Q; [do 2 f_equal; lia|]. cbn in H. exfalso. apply N0.
           apply nth_error_In in H. apply filter_In in H. tauto.
      * cbn [nth_error]. rewrite (H3 t b Hb k). split; intros [L H].
        -- split; [lia|]. replace (Z.to_nat (k - next)) with (S (Z.to_nat (k - (next + 1)))) by lia. auto.
        -- destruct (Z.to_nat (k - next)) eqn:Q; cbn in H.
           { injection H as ->. destruct N0. eapply nth_error_In; eauto. }
           split; [lia|]. replace (Z.to_nat (k - (next + 1))) with n by lia. auto.
    + destruct (number_bits next f bs) as [r' n'] eqn:E'. injection E as <- <-.
      destruct (IH _ _ _ ND E') as (H1 & H2 & H3). split; auto. split; [cbn; lia|].
      intros [|t] b Hb k; cbn in Hb.
      * injection Hb as <-. cbn. split; [discriminate|]. intros [_ H]. apply nth_error_In in H. apply filter_In in H as [_ H]. congruence.
      * cbn [nth_error]. apply H3; auto.
Qed.

Lemma created_all_in : forall fl i u b, In (u, b) (created_all i fl) <->
  i <= u /\ In b periods /\ exists f, nth_error fl (Z.to_nat (u - i)) = Some f /\ Z.testbit f b = true.
Proof.
  induction fl as [|f fl IH]; intros i u b; cbn [created_all].
  - split; [intros []|]. intros (_ & _ & f & H & _). destruct (Z.to_nat _); discriminate.
  - rewrite in_app_iff, IH. unfold created. rewrite in_map_iff. split.
    + intros [(c & Q & H)|(L & H & g & G)].
      * injection Q as -> ->. apply filter_In in H as [H1 H2]. rewrite Z.sub_diag. cbn. split; [lia|]. split; auto. eauto.
      * split; [lia|]. split; auto. exists g. replace (Z.to_nat (u - i)) with (S (Z.to_nat (u - (i + 1)))) by lia. auto.
    + intros (L & H & g & G1 & G2). destruct (Z.to_nat (u - i)) eqn:Q; cbn in G1.
      * left. exists b. split; [f_equal; lia|]. apply filter_In. injection G1 as ->. auto.
      * right. split; [lia|]. split; auto. exists g. replace (Z.to_nat (u - (i + 1))) with n by lia. auto.
Qed.

Lemma NoDup_app_ A (a b : list A) : NoDup a -> NoDup b -> (forall x, In x a -> In x b -> False) -> NoDup (a ++ b).
Proof.
  induction a as [|x a IH]; intros Ha Hb H; auto. cbn. apply NoDup_cons_iff in Ha as [H1 H2]. constructor.
  - rewrite in_app_iff. intros [I|I]; [auto|]. apply (H x); cbn; auto.
  - apply IH; auto. intros y I J. apply (H y); cbn; auto.
Qed.
Lemma periods_nodup : NoDup periods.
Proof. unfold periods. repeat constructor; cbn; intuition lia. Qed.
Lemma NoDup_filter_ A (f : A -> bool) l : NoDup l -> NoDup (filter f l).
Proof. induction 1; cbn; [constructor|]. destruct (f x); auto. constructor; auto. rewrite filter_In. tauto. Qed.
Lemma NoDup_map_ A C (f : A -> C) l : (forall x y, f x = f y -> x = y) -> NoDup l -> NoDup (map f l).
Proof. intros H. induction 1; cbn; constructor; auto. rewrite in_map_iff. intros (y & E & I). apply H in E. congruence. Qed.
Lemma created_nodup : forall fl i, NoDup (created_all i fl).
Proof.
  induction fl as [|f fl IH]; intros i; cbn [created_all]; [constructor|]. apply NoDup_app_; auto.
  - unfold created. apply NoDup_map_; [congruence|]. apply NoDup_filter_, periods_nodup.
  - intros [u b] H1 H2. unfold created in H1. apply in_map_iff in H1 as (c & Q & _). apply created_all_in in H2 as (L & _). injection Q as -> ->. lia.
Qed.
Lemma in_periods b : In b periods <-> 0 < b < 8.
Proof. unfold periods. cbn. split; [intuition lia|]. intros H. lia. Qed.

Lemma keysr_in fl u b : In (u, b) (keysr fl) <-> 0 <= u < zlen fl /\ (b = 0 \/ 0 < b < 8 /\ B fl (Z.to_nat u) b = true).
Proof.
  unfold keysr. rewrite in_app_iff, in_map_iff, created_all_in, in_periods, Z.sub_0_r. unfold B, zlen. split.
  - intros [(i & Q & I)|(L & Hb & f & F1 & F2)].
    + injection Q as <- <-. apply in_seq in I. split; [lia|auto].
    + split; [apply nth_error_Some_lt in F1; lia|]. right. rewrite F1. auto.
  - intros [L [->|[Hb H]]].
    + left. exists (Z.to_nat u). split; [f_equal; lia|apply in_seq; lia].
    + right. destruct (nth_error fl (Z.to_nat u)) as [f|]; [|discriminate]. split; [lia|]. eauto.
Qed.
Lemma keysr_nodup fl : NoDup (keysr fl).
Proof.
  unfold keysr. apply NoDup_app_.
  - apply NoDup_map_; [intros x y Q; injection Q; lia|apply seq_NoDup].
  - apply created_nodup.
  - intros [u b] H1 H2. apply in_map_iff in H1 as (i & Q & _). apply created_all_in in H2 as (_ & H & _). apply in_periods in H. injection Q as _ <-. lia.
Qed.

Lemma nth_app_in_l A (a b : list A) k x : ~ In x b -> nth_error (a ++ b) k = Some x <-> nth_error a k = Some x.
Proof.
  intros N. destruct (Nat.lt_ge_cases k (length a)) as [L|L].
  - rewrite nth_error_app1 by auto. tauto.
  - rewrite nth_error_app2 by auto. split; intros H.
    + destruct N. eapply nth_error_In; eauto.
    + apply nth_error_Some_lt in H. lia.
Qed.

Lemma number_rows_spec : forall fl i next rows n, number_rows i next fl = Ok (rows, n) ->
  n = next + zlen (created_all i fl) /\ length rows = length fl /\
  forall j row, nth_error rows j = Some row -> exists r, row = Some (i + Z.of_nat j) :: r /\ length r = 7%nat /\
    forall b, 0 < b < 8 -> forall k, nth_error row (Z.to_nat b) = Some (Some k) <->
      next <= k /\ nth_error (created_all i fl) (Z.to_nat (k - next)) = Some (i + Z.of_nat j, b).
Proof.
  induction fl as [|f fl IH]; intros i next rows n E; cbn [number_rows created_all] in *.
  - injection E as <- <-. unfold zlen. cbn. repeat split; auto; try lia. intros [|]; discriminate.
  - apply bind_Ok in E as (u & _ & E). destruct (number_bits next f periods) as [r n1] eqn:E1.
    apply bind_Ok in E as ([rows' n'] & E2 & E). cbn [fst snd] in E. injection E as <- <-.
    destruct (number_bits_spec _ _ _ _ _ periods_nodup E1) as (H1 & H2 & H3).
    destruct (IH _ _ _ _ E2) as (I1 & I2 & I3).
    assert (LC : length (created i f) = length (filter (Z.testbit f) periods)) by (unfold created; apply map_length).
    split. { unfold zlen in *. rewrite app_length. lia. }
    split; [cbn; lia|]. intros [|j] row Hr; cbn in Hr.
    + injection Hr as <-. exists r. split; [f_equal; f_equal; lia|]. split; [rewrite H2; auto|].
      intros b Hb k. replace (i + Z.of_nat 0) with i by lia.
      rewrite nth_app_in_l by (rewrite created_all_in; lia).
      replace (Z.to_nat b) with (S (Z.to_nat (b - 1))) by lia. cbn [nth_error].
      rewrite (H3 (Z.to_nat (b - 1)) b).
      2:{ assert (b = 1 \/ b = 2 \/ b = 3 \/ b = 4 \/ b = 5 \/ b = 6 \/ b = 7) as C by lia. destruct C as [->|[->|[->|[->|[->|[->| ->]]]]]]; reflexivity. }
      unfold created. rewrite nth_error_map. destruct (nth_error (filter _ _) _); cbn; split; intros [L Q]; split; auto; congruence.
    + destruct (I3 _ _ Hr) as (r' & -> & Lr & X). exists r'. split; [f_equal; f_equal; lia|]. split; auto. intros b Hb k. rewrite (X b Hb k).
      replace (i + Z.of_nat (S j)) with (i + 1 + Z.of_nat j) by lia.
      split; intros [L Q].
      * split; [unfold zlen in *; lia|]. rewrite nth_error_app2 by (unfold zlen in *; lia). rewrite <- Q. f_equal. unfold zlen in *. lia.
      * destruct (Nat.lt_ge_cases (Z.to_nat (k - next)) (length (created i f))) as [G|G].
        -- rewrite nth_error_app1 in Q by auto. apply nth_error_In in Q. unfold created in Q. apply in_map_iff in Q as (c & Q & _). injection Q. lia.
        -- rewrite nth_error_app2 in Q by auto. unfold zlen in *. split; [lia|]. rewrite <- Q. f_equal. lia.
Qed.
Lemma number_rows_total : forall fl i next, (forall l, (l < length fl)%nat -> B fl l 0 = true) -> exists q, number_rows i next fl = Ok q.
Proof.
  induction fl as [|f fl IH]; intros i next H; cbn [number_rows]; eauto.
  pose proof (H 0%nat ltac:(cbn; lia)) as H0. unfold B in H0. cbn [nth_error] in H0. rewrite H0. cbn [assert_ bind].
  destruct (number_bits next f periods) as [r n]. destruct (IH (i + 1) n) as [q E].
  { intros l L. apply (H (S l)). cbn. lia. }
  rewrite E. cbn [bind]. eauto.
Qed.

(** The rows as positions in the list of points. *)
Lemma rows_keys fl rows n : number_rows 0 (zlen fl) fl = Ok (rows, n) ->
  n = zlen (keysr fl) /\ length rows = length fl /\
  forall j row, nth_error rows j = Some row -> length row = 8%nat /\ nth_error row 0 = Some (Some (Z.of_nat j)) /\
    forall b, 0 <= b < 8 -> forall k, nth_error row (Z.to_nat b) = Some (Some k) <-> 0 <= k /\ nth_error (keysr fl) (Z.to_nat k) = Some (Z.of_nat j, b).
Proof.
  intros E. destruct (number_rows_spec _ _ _ _ _ E) as (H1 & H2 & H3).
  set (O := map (fun i => (Z.of_nat i, 0)) (seq 0 (length fl))).
  assert (LO : length O = length fl) by (unfold O; rewrite map_length, seq_length; auto).
  split. { unfold keysr, zlen in *. fold O. rewrite app_length. lia. }
  split; auto. intros j row Hr. destruct (H3 _ _ Hr) as (r & -> & Lr & X).
  split; [cbn; lia|]. split; [cbn; do 2 f_equal; lia|].
  assert (Lj : (j < length fl)%nat) by (apply nth_error_Some_lt in Hr; lia).
  intros b Hb k. unfold keysr. fold O. destruct (Z.eq_dec b 0) as [->|Nb].
  - rewrite nth_app_in_l. 2:{ rewrite created_all_in, in_periods. lia. }
    cbn [Z.to_nat nth_error]. split.
    + intros Q. injection Q as <-. split; [lia|]. unfold O. rewrite nth_error_map, nth_error_seq.
      rewrite (proj2 (Nat.ltb_lt _ _)) by lia. cbn. do 2 f_equal. lia.
    + intros [L Q]. unfold O in Q. rewrite nth_error_map, nth_error_seq in Q. destruct (Nat.ltb_spec (Z.to_nat k) (length fl)); [|discriminate].
      cbn in Q. injection Q as Q. do 2 f_equal. lia.
  - rewrite (X b ltac:(lia) k). unfold zlen. cbn [Z.add]. split; intros [L Q].
    + split; [lia|]. rewrite nth_error_app2 by lia. rewrite LO, <- Q. f_equal. lia.
    + destruct (Nat.lt_ge_cases (Z.to_nat k) (length O)) as [G|G].
      * rewrite nth_error_app1 in Q by auto. apply nth_error_In in Q. unfold O in Q. apply in_map_iff in Q as (i & Q & _). injection Q. lia.
      * rewrite nth_error_app2 in Q by auto. split; [lia|]. rewrite <- Q. f_equal. lia.
Qed.

(** ** Filling in the points *)
Section Fill.
Variable P : Type.
Variable turn : P -> Z -> res P.
Hypothesis CT : can_turn turn.
Variable K : list (Z * Z).
Hypothesis KN : NoDup K.
Variable xs : list P.

Definition right_slot (s : option P * Z) (j b : Z) : Prop :=
  exists x y, nth_error xs (Z.to_nat j) = Some x /\ s = (Some y, j) /\ (if b =? 0 then y = x else turn x b = Ok y).
Definition filled (S : Z -> Z -> Prop) (st : slots P) : Prop :=
  length st = length K /\ forall k j b, nth_error K k = Some (j, b) -> S j b -> exists s, nth_error st k = Some s /\ right_slot s j b.

Lemma filled_write (S : Z -> Z -> Prop) st k j b s : filled S st -> 0 <= k -> nth_error K (Z.to_nat k) = Some (j, b) -> right_slot s j b ->
  exists st', vset st k s = Ok st' /\ filled (fun u v => S u v \/ (u, v) = (j, b)) st'.
Proof.
  intros [L F] Hk E R. assert (Lk : (Z.to_nat k < length K)%nat) by (eapply nth_error_Some_lt; eauto).
  rewrite vset_ok by (unfold zlen; lia). eexists. split; [reflexivity|]. split; [rewrite upd_length; auto|].
  intros k' u v E' [H|H].
  - destruct (Nat.eq_dec (Z.to_nat k) k') as [<-|N].
    + rewrite E in E'. injection E' as <- <-. rewrite nth_error_upd_same by lia. eauto.
    + rewrite nth_error_upd_other by auto. eauto.
  - injection H as -> ->. assert (k' = Z.to_nat k) as ->.
    { apply (proj1 (NoDup_nth_error K) KN); [eapply nth_error_Some_lt; eauto|congruence]. }
    rewrite nth_error_upd_same by lia. eauto.
Qed.
Lemma filled_weaken (S S' : Z -> Z -> Prop) st : (forall u v, S' u v -> S u v) -> filled S st -> filled S' st.
Proof. intros H [L F]. split; auto. Qed.

Lemma fill_bits_ok j x : 0 <= j -> nth_error xs (Z.to_nat j) = Some x -> forall es S st, filled S st ->
  (forall b k, In (b, Some k) es -> 0 < b < 8 /\ 0 <= k /\ nth_error K (Z.to_nat k) = Some (j, b)) ->
  exists st', foldM (fill_bit turn j x) st es = Ok st' /\ filled (fun u v => S u v \/ u = j /\ exists k, In (v, Some k) es) st'.
Proof.
  intros Hj Hx. induction es as [|[b e] es IH]; intros S st F H; cbn [foldM].
  - exists st. split; auto. eapply filled_weaken; [|eauto]. intros u v [?|[_ [? []]]]; auto.
  - unfold fill_bit at 1. cbn [fst snd]. destruct e as [k|].
    + destruct (H b k) as (Hb & Hk & E); [left; auto|]. destruct (CT x b Hb) as [y Y]. rewrite Y. cbn [bind].
      destruct (filled_write S st k j b (Some y, j) F Hk E) as (st1 & E1 & F1).
      { exists x, y. split; auto. split; auto. destruct (Z.eqb_spec b 0); [lia|auto]. }
      rewrite E1. cbn [bind]. destruct (IH _ _ F1) as (st2 & E2 & F2). { intros; apply H; right; auto. }
      exists st2. split; auto. eapply filled_weaken; [|eauto]. intros u v [A|[-> [k' [A|A]]]]; auto.
      * left. right. injection A as -> _. auto.
      * right. eauto.
    + cbn [bind]. destruct (IH _ _ F) as (st2 & E2 & F2). { intros; apply H; right; auto. }
      exists st2. split; auto. eapply filled_weaken; [|eauto]. intros u v [A|[-> [k' [A|A]]]]; auto; [discriminate|]. right. eauto.
Qed.

Definition row_ok (j : Z) (row : list (option Z)) : Prop := length row = 8%nat /\
  forall b, 0 <= b < 8 -> forall k, nth_error row (Z.to_nat b) = Some (Some k) <-> 0 <= k /\ nth_error K (Z.to_nat k) = Some (j, b).

Lemma periods_nth b : 0 < b < 8 -> nth_error periods (Z.to_nat (b - 1)) = Some b.
Proof. intros H. assert (b = 1 \/ b = 2 \/ b = 3 \/ b = 4 \/ b = 5 \/ b = 6 \/ b = 7) as C by lia. destruct C as [->|[->|[->|[->|[->|[->| ->]]]]]]; reflexivity. Qed.
Lemma periods_nth_inv t b : nth_error periods t = Some b -> 0 < b < 8 /\ t = Z.to_nat (b - 1).
Proof.
  intros H. assert (Hb : 0 < b < 8) by (apply in_periods; eapply nth_error_In; eauto). split; auto.
  apply (proj1 (NoDup_nth_error periods) periods_nodup); [eapply nth_error_Some_lt; eauto|]. rewrite periods_nth; auto.
Qed.

Lemma fill_nodes_ok : forall qs S st, filled S st ->
  (forall j x row, In (j, (x, row)) qs -> 0 <= j /\ nth_error xs (Z.to_nat j) = Some x /\ row_ok j row /\ nth_error K (Z.to_nat j) = Some (j, 0)) ->
  exists st', foldM (fill_node turn) st qs = Ok st' /\ filled (fun u v => S u v \/ (exists x row, In (u, (x, row)) qs) /\ 0 <= v < 8) st'.
Proof.
  induction qs as [|[j [x row]] qs IH]; intros S st F H; cbn [foldM].
  - exists st. split; auto. eapply filled_weaken; [|eauto]. intros u v [?|[(? & ? & []) _]]; auto.
  - destruct (H j x row) as (Hj & Hx & [Lr R] & K0); [left; auto|]. unfold fill_node at 1.
    destruct (filled_write S st j j 0 (Some x, j) F Hj K0) as (st1 & E1 & F1).
    { exists x, x. repeat split; auto. }
    rewrite E1. cbn [bind].
    assert (TL : forall t e, nth_error (tl row) t = Some e <-> nth_error row (Datatypes.S t) = Some e).
    { destruct row; cbn; [destruct t; tauto|tauto]. }
    destruct (fill_bits_ok j x Hj Hx (combine periods (tl row)) _ _ F1) as (st2 & E2 & F2).
    { intros b k I. apply in_combine_nth in I as (t & T1 & T2). apply periods_nth_inv in T1 as [Hb ->]. rewrite TL in T2.
      replace (Datatypes.S (Z.to_nat (b - 1))) with (Z.to_nat b) in T2 by lia. split; auto. apply R; auto; lia. }
    rewrite E2. cbn [bind]. destruct (IH _ _ F2) as (st3 & E3 & F3). { intros; apply H; right; auto. }
    exists st3. split; auto. destruct F3 as [L3 F3]. split; auto. intros k u v E A.
    apply F3 with (k := k); auto. destruct A as [A|[(x' & row' & [A|A]) Hv]]; auto.
    + injection A as -> <- <-. left. destruct (Z.eq_dec v 0) as [->|Nv]; auto. right. split; auto.
      exists (Z.of_nat k). apply in_combine_nth. exists (Z.to_nat (v - 1)). split; [apply periods_nth; lia|]. rewrite TL.
      replace (Datatypes.S (Z.to_nat (v - 1))) with (Z.to_nat v) by lia. apply R; [lia|]. rewrite Nat2Z.id. split; [lia|auto].
    + right. split; eauto.
Qed.
End Fill.

Lemma fill_ok P (turn : P -> Z -> res P) (p : part P) fl rows n : can_turn turn -> length fl = length (p_nodes p) ->
  number_rows 0 (zlen fl) fl = Ok (rows, n) ->
  exists st, fill turn p rows n = Ok st /\ length st = length (keysr fl) /\
    forall k j b, nth_error (keysr fl) k = Some (j, b) -> exists s, nth_error st k = Some s /\ right_slot P turn (p_nodes p) s j b.
Proof.
  intros CT L E. destruct (rows_keys _ _ _ E) as (N & LR & R).
  assert (KB : forall j b, In (j, b) (keysr fl) -> 0 <= j < zlen fl /\ 0 <= b < 8).
  { intros j b I. apply keysr_in in I as [I1 I2]. split; auto. destruct I2 as [->|[? _]]; lia. }
  unfold fill.
  destruct (fill_nodes_ok P turn CT (keysr fl) (keysr_nodup fl) (p_nodes p)
    (combine (map Z.of_nat (seq 0 (length (p_nodes p)))) (combine (p_nodes p) rows)) (fun _ _ => False)
    (repeat (None, 0) (Z.to_nat n))) as (st & Es & Ls & F).
  - split; [rewrite repeat_length, N; unfold zlen; lia|]. intros ? ? ? ? [].
  - intros j x row I. apply in_combine_nth in I as (t & T1 & T2). apply nth_combine_some in T2 as [T2 T3].
    assert (Lt : (t < length (p_nodes p))%nat) by (eapply nth_error_Some_lt; eauto).
    rewrite nth_error_map, nth_error_seq, (proj2 (Nat.ltb_lt _ _) Lt) in T1. cbn in T1. injection T1 as <-.
    destruct (R _ _ T3) as (R1 & R2 & R3). split; [lia|]. rewrite Nat2Z.id. split; auto. split; [split; auto|].
    specialize (R3 0 ltac:(lia) (Z.of_nat t)). cbn [Z.to_nat] in R3. apply R3 in R2 as [_ R2]. rewrite Nat2Z.id in R2. auto.
  - exists st. split; auto. split; auto. intros k j b H. apply F; auto. right.
    destruct (KB j b (nth_error_In _ _ H)) as [B1 B2]. split; auto.
    destruct (nth_error_lt_Some _ (p_nodes p) (Z.to_nat j)) as [x Hx]; [unfold zlen in *; lia|].
    destruct (nth_error_lt_Some _ rows (Z.to_nat j)) as [row Hr]; [unfold zlen in *; lia|].
    exists x, row. apply in_combine_nth. exists (Z.to_nat j). split.
    + rewrite nth_error_map, nth_error_seq. rewrite (proj2 (Nat.ltb_lt _ _)) by (unfold zlen in *; lia). cbn. f_equal. lia.
    + apply nth_combine_eq; auto.
Qed.
