(** Proofs about the inner iterations. *)

From Coq Require Import List ZArith Bool Reals Sorted Lia Lra.
From Verif Require Import Base.Prelude Base.PreludeFacts Euler.InnerModel Euler.InnerSpec.
Import ListNotations.
Local Open Scope Z_scope.

(** ** Lists of iterations *)

Definition seg (l : list Z) (a b : Z) (P : Z -> Prop) : Prop :=
  (forall i, In i l <-> a <= i <= b /\ P i) /\ StronglySorted Z.lt l.

Lemma seg_nil : forall a P, seg [] a (a - 1) P.
Proof. intros a P. split; [intros i; split; [intros [] | lia] | constructor]. Qed.

Lemma seg_app : forall l1 l2 a m b P, seg l1 a m P -> seg l2 (m + 1) b P -> a - 1 <= m <= b -> seg (l1 ++ l2) a b P.
Proof.
  intros l1 l2 a m b P [H1 S1] [H2 S2] Hm. split.
  - intros i. rewrite in_app_iff, H1, H2. split; [intros [[? ?]|[? ?]]; split; assumption || lia|].
    intros [Hi Hp]. destruct (Z_le_gt_dec i m); [left | right]; (split; [lia | exact Hp]).
  - assert (B : forall x y, In x l1 -> In y l2 -> x < y).
    { intros x y Hx Hy. apply H1 in Hx. apply H2 in Hy. lia. }
    clear - S1 S2 B. induction S1 as [|x l Hl IH Hx]; [exact S2|]. cbn [app]. constructor.
    + apply IH. intros; apply B; [right|]; assumption.
    + apply Forall_app. split; [exact Hx|]. apply Forall_forall. intros y Hy. apply B; [left; reflexivity | exact Hy].
Qed.

Lemma seg_one : forall (b : bool) a (P : Z -> Prop), (b = true <-> P a) -> seg (if b then [a] else []) a a P.
Proof.
  intros b a P H. split.
  - intros i. destruct b; cbn [In].
    + split; [intros [<-|[]]; split; [lia | apply H; reflexivity] | intros [Hi _]; left; lia].
    + split; [intros [] | intros [Hi Hp]; replace i with a in Hp by lia; apply H in Hp; discriminate].
  - destruct b; repeat constructor.
Qed.

Lemma seg_ext : forall l a b (P Q : Z -> Prop), seg l a b P -> (forall i, a <= i <= b -> (P i <-> Q i)) -> seg l a b Q.
Proof.
  intros l a b P Q [H S] E. split; [|exact S]. intros i. rewrite H. split; intros [Hi Hp]; (split; [exact Hi | apply E; assumption]).
Qed.

Lemma every_ok : forall i n, n <> 0 -> exists b, every i n = Ok b /\ (b = true <-> multiple i n).
Proof.
  intros i n Hn. unfold every. destruct (Z.eqb_spec n 0); [contradiction|]. eexists. split; [reflexivity|].
  rewrite Z.eqb_eq. unfold multiple. split.
  - intros H. exists (Z.quot i n). pose proof (Z.quot_rem' i n). lia.
  - intros [q ->]. apply Z.rem_mul. exact Hn.
Qed.

(** ** The CFL number *)

Lemma Rpower_exp : forall a e x, (0 < a)%R -> exp (ln a + ln e * x) = (a * Rpower e x)%R.
Proof. intros a e x Ha. rewrite exp_plus, exp_ln by exact Ha. unfold Rpower. rewrite (Rmult_comm x). reflexivity. Qed.

Lemma ramp_first : forall c, sound c -> ramp_value c 1 = CFL c.
Proof.
  intros c (_ & _ & _ & _ & _ & _ & Hc & H0 & _). unfold ramp_value. destruct (Z.ltb_spec (1 - 1) (rampStart c)); [reflexivity|].
  replace (1 - 1 - rampStart c) with 0 by lia. replace (0 / IZR (rampLength c))%R with 0%R by (unfold Rdiv; ring).
  rewrite Rmin_right by lra. unfold Rpower. rewrite Rmult_0_l, exp_0. ring.
Qed.

Lemma ramp_ok : forall c i, sound c -> 1 <= i <= Z.max 0 (nMax c) + 1 ->
  ramp c i (Some (ramp_value c i)) = Ok (Some (ramp_value c (i + 1))).
Proof.
  intros c i (_ & _ & _ & _ & _ & Hmax & Hc & H0 & Hr) Hi. unfold ramp.
  destruct (Z.leb_spec (rampStart c) i).
  2:{ do 2 f_equal. unfold ramp_value. destruct (Z.ltb_spec (i - 1) (rampStart c)); [|lia]. destruct (Z.ltb_spec (i + 1 - 1) (rampStart c)); [reflexivity | lia]. }
  destruct Hr as [Hr|(HL & HS & HE)]; [lia|].
  unfold in_int32. destruct (Z.leb_spec int32_min (rampLength c + rampStart c)); [|unfold int32_min in *; lia].
  destruct (Z.leb_spec (rampLength c + rampStart c) int32_max); [|lia]. cbn [andb].
  destruct (Z.leb_spec i (rampLength c + rampStart c)) as [Hle|Hgt].
  - destruct (Z.leb_spec int32_min (i - rampStart c)); [|unfold int32_min in *; lia].
    destruct (Z.leb_spec (i - rampStart c) int32_max); [|lia]. cbn [andb]. unfold ramped.
    destruct (Z.eqb_spec (rampLength c) 0); [lia|]. destruct (Rlt_dec 0 (CFL c)); [|contradiction].
    destruct (Rlt_dec 0 (rampEnd c / CFL c)) as [_|N]; [|exfalso; apply N; apply Rdiv_lt_0_compat; assumption].
    do 2 f_equal. rewrite Rpower_exp by exact Hc. unfold ramp_value.
    destruct (Z.ltb_spec (i + 1 - 1) (rampStart c)); [lia|]. f_equal. f_equal.
    replace (i + 1 - 1 - rampStart c) with (i - rampStart c) by lia.
    rewrite Rmin_right; [reflexivity|]. assert (0 < IZR (rampLength c))%R by (apply IZR_lt; exact HL).
    apply Rmult_le_reg_r with (IZR (rampLength c)); [assumption|]. unfold Rdiv. rewrite Rmult_assoc, Rinv_l by lra. rewrite Rmult_1_l, Rmult_1_r.
    apply IZR_le. lia.
  - do 2 f_equal. unfold ramp_value. destruct (Z.ltb_spec (i - 1) (rampStart c)); [lia|]. destruct (Z.ltb_spec (i + 1 - 1) (rampStart c)); [lia|].
    assert (0 < IZR (rampLength c))%R by (apply IZR_lt; exact HL).
    assert (L : forall x, rampLength c <= x -> (1 <= IZR x / IZR (rampLength c))%R).
    { intros x Hx. apply Rmult_le_reg_r with (IZR (rampLength c)); [assumption|]. unfold Rdiv. rewrite Rmult_assoc, Rinv_l by lra.
      rewrite Rmult_1_l, Rmult_1_r. apply IZR_le. exact Hx. }
    rewrite !Rmin_left by (apply L; lia). reflexivity.
Qed.

Lemma ramp_total : forall c i now, sound c -> 1 <= i <= Z.max 0 (nMax c) + 1 -> exists v, ramp c i now = Ok v.
Proof.
  intros c i now (_ & _ & _ & _ & _ & Hmax & Hc & H0 & Hr) Hi. unfold ramp.
  destruct (Z.leb_spec (rampStart c) i); [|eexists; reflexivity]. destruct Hr as [Hr|(HL & HS & HE)]; [lia|].
  unfold in_int32. destruct (Z.leb_spec int32_min (rampLength c + rampStart c)); [|unfold int32_min in *; lia].
  destruct (Z.leb_spec (rampLength c + rampStart c) int32_max); [|lia]. cbn [andb].
  destruct (Z.leb_spec i (rampLength c + rampStart c)); [|eexists; reflexivity].
  destruct (Z.leb_spec int32_min (i - rampStart c)); [|unfold int32_min in *; lia].
  destruct (Z.leb_spec (i - rampStart c) int32_max); [|lia]. eexists. reflexivity.
Qed.

(** ** Stopping *)

Lemma top_unique : forall f i m m', top f i m -> top f i m' -> m = m'.
Proof.
  intros f i m m' [(j & Hj & <-) H1] [(j' & Hj' & <-) H2]. apply Rle_antisym; [apply H2 | apply H1]; assumption.
Qed.

Lemma top_step : forall f i b, 1 <= i -> (1 < i -> top f (i - 1) b) -> top f i (largest i (residual f i) b).
Proof.
  intros f i b Hi Hb. unfold largest. destruct (Z.eqb_spec i 1) as [->|N].
  - split; [exists 1; split; [lia | reflexivity]|]. intros j Hj. replace j with 1 by lia. apply Rle_refl.
  - destruct (Hb ltac:(lia)) as [(j & Hj & E) H]. split.
    + destruct (Rle_dec b (residual f i)).
      * exists i. split; [lia|]. rewrite Rmax_right by assumption. reflexivity.
      * exists j. split; [lia|]. rewrite Rmax_left by lra. exact E.
    + intros j' Hj'. destruct (Z.eq_dec j' i) as [->|]; [apply Rmax_r|].
      eapply Rle_trans; [apply H; lia | apply Rmax_l].
Qed.

Lemma stop_iff : forall c f i m, top f i m -> (ifStop c i (residual f i) m (atTarget f i) = true <-> met c f i).
Proof.
  intros c f i m Ht. unfold ifStop, met. destruct (Z.ltb_spec i (nMin c)).
  { split; [discriminate | lia]. }
  assert (E : (exists m0, top f i m0 /\ (residual f i / (m0 + verySmall) < threshold c)%R) <-> (residual f i / (m + verySmall) < threshold c)%R).
  { split; [intros (m0 & H1 & H2); rewrite (top_unique f i m m0) by assumption; exact H2 | intros; exists m; split; assumption]. }
  rewrite E. destruct (Rlt_dec (residual f i / (m + verySmall)) (threshold c)) as [L|L]; destruct (useCL c); cbn [andb];
    destruct (atTarget f i); split; intros; try discriminate; try (repeat split; try lia; try assumption; intros; reflexivity || discriminate);
    try reflexivity; try tauto; exfalso; destruct H0 as (_ & X & Y); try (apply L; exact Y); specialize (X eq_refl); discriminate.
Qed.

(** ** One call *)

Definition call (x1 x2 x3 x4 x5 : bool) (i : Z) (v : option R) : list event :=
  when x1 (Line i v) ++ when x2 (Data i) ++ when x3 (DataC i) ++ when x4 (Restart i) ++ when x5 (RestartC i).
Definition if1 (b : bool) (i : Z) : list Z := if b then [i] else [].

Lemma call_lists : forall x1 x2 x3 x4 x5 i v, let tr := call x1 x2 x3 x4 x5 i v in
  lines tr = if1 x1 i /\ datas tr = if1 x2 i /\ dataCs tr = if1 x3 i /\ restarts tr = if1 x4 i /\ restartCs tr = if1 x5 i
  /\ iterations tr = [] /\ (forall j w, In (Line j w) tr -> j = i /\ w = v) /\ (forall j w, ~ In (Iterate j w) tr).
Proof.
  intros x1 x2 x3 x4 x5 i v tr. repeat (split; [destruct x1, x2, x3, x4, x5; reflexivity|]). split.
  - intros j w Hin. unfold tr, call in Hin. rewrite !in_app_iff in Hin. unfold when in Hin.
    destruct x1, x2, x3, x4, x5; cbn in Hin; repeat (destruct Hin as [Hin|Hin]); try contradiction; try discriminate Hin; injection Hin as <- <-; split; reflexivity.
  - intros j w Hin. unfold tr, call in Hin. rewrite !in_app_iff in Hin. unfold when in Hin.
    destruct x1, x2, x3, x4, x5; cbn in Hin; repeat (destruct Hin as [Hin|Hin]); try contradiction; discriminate Hin.
Qed.

(** What one call shows, given what it takes for a stop. *)
Definition shows (c : settings) (i k : Z) (M : Z -> Prop) (tr : list event) : Prop :=
  seg (lines tr) i k (fun i => multiple i (nConsole c) \/ M i \/ nMax c < i)
  /\ seg (datas tr) i k (fun i => multiple i (nData c))
  /\ seg (dataCs tr) i k (fun i => multiple i (nDataC c) /\ ~ (lazyCover c = true /\ multiple i (nData c)))
  /\ seg (restarts tr) i k (fun i => multiple i (nRestart c))
  /\ seg (restartCs tr) i k (fun i => multiple i (nRestartC c) /\ ~ (lazyCover c = true /\ multiple i (nRestart c))).

Lemma fstop_ok : forall c i r t s, sound c -> 1 <= i <= Z.max 0 (nMax c) + 1 ->
  exists stop s' tr, fstop c i r t s = Ok (stop, s', tr)
    /\ stop = ifStop c i r (largest i r (base s)) t
    /\ base s' = largest i r (base s) /\ iterAll s' = iterAll s + 1
    /\ (stop = true \/ nMax c < i -> cflNow s' = Some (CFL c))
    /\ (stop = false -> i <= nMax c -> cflNow s = Some (ramp_value c i) -> cflNow s' = Some (ramp_value c (i + 1)))
    /\ shows c i i (fun _ => stop = true) tr
    /\ iterations tr = [] /\ (forall j v, In (Line j v) tr -> j = i /\ v = cflNow s)
    /\ (forall j v, ~ In (Iterate j v) tr).
Proof.
  intros c i r t s Hs Hi. pose proof Hs as (N1 & N2 & N3 & N4 & N5 & _).
  unfold fstop. destruct (every_ok i _ N1) as (b1 & -> & E1). destruct (every_ok i _ N2) as (b2 & -> & E2).
  destruct (every_ok i _ N3) as (b3 & -> & E3). destruct (every_ok i _ N4) as (b4 & -> & E4). destruct (every_ok i _ N5) as (b5 & -> & E5).
  cbn [bind].
  assert (R : exists v, ramp c i (cflNow s) = Ok v /\ (cflNow s = Some (ramp_value c i) -> v = Some (ramp_value c (i + 1)))).
  { destruct (ramp_total c i (cflNow s) Hs Hi) as [v E].
    exists v. split; [exact E|]. intros E'. rewrite E', ramp_ok in E by assumption. congruence. }
  destruct R as (v & -> & Hv). cbn [bind]. do 3 eexists. split; [reflexivity|].
  set (stop := ifStop c i r (largest i r (base s)) t). split; [reflexivity|]. cbn [base cflNow iterAll].
  split; [reflexivity|]. split; [reflexivity|]. split.
  { intros [->|H]; [reflexivity|]. destruct (Z.ltb_spec (nMax c) i); [|lia]. rewrite orb_true_r. reflexivity. }
  split.
  { intros -> Hle E. destruct (Z.ltb_spec (nMax c) i); [lia|]. cbn [orb]. apply Hv, E. }
  match goal with |- shows _ _ _ _ ?tr /\ _ =>
    change tr with (call (b1 || (nMax c <? i) || stop) b2 (b3 && negb (lazyCover c && b2)) b4 (b5 && negb (lazyCover c && b4)) i (cflNow s)) end.
  destruct (call_lists (b1 || (nMax c <? i) || stop) b2 (b3 && negb (lazyCover c && b2)) b4 (b5 && negb (lazyCover c && b4)) i (cflNow s))
    as (L1 & L2 & L3 & L4 & L5 & L6 & L7 & L8).
  split; [|split; [exact L6 | split; [exact L7 | exact L8]]].
  unfold shows. rewrite L1, L2, L3, L4, L5.
  split; [|split; [|split; [|split]]]; apply seg_one; try assumption.
  - rewrite !orb_true_iff, E1, Z.ltb_lt. tauto.
  - rewrite andb_true_iff, negb_true_iff, andb_false_iff, E3. rewrite <- E2. destruct (lazyCover c), b2; intuition congruence.
  - rewrite andb_true_iff, negb_true_iff, andb_false_iff, E5. rewrite <- E4. destruct (lazyCover c), b4; intuition congruence.
Qed.

(** ** The loop *)

Lemma shows_app : forall c a m b M t1 t2, shows c a m M t1 -> shows c (m + 1) b M t2 -> a - 1 <= m <= b -> shows c a b M (t1 ++ t2).
Proof.
  intros c a m b M t1 t2 (A1 & A2 & A3 & A4 & A5) (B1 & B2 & B3 & B4 & B5) Hm.
  unfold shows, lines, datas, dataCs, restarts, restartCs in *. rewrite !flat_map_app.
  split; [|split; [|split; [|split]]]; apply seg_app with m; assumption.
Qed.

Lemma shows_ext : forall c a b (M N : Z -> Prop) t, shows c a b M t -> (forall i, a <= i <= b -> (M i <-> N i)) -> shows c a b N t.
Proof.
  intros c a b M N t (A1 & A2) H. split; [|exact A2]. eapply seg_ext; [exact A1|]. intros i Hi. cbn. rewrite (H i Hi). tauto.
Qed.

Lemma shows_iterate : forall c a b M i v t, shows c a b M t -> shows c a b M (Iterate i v :: t).
Proof. intros c a b M i v t H. exact H. Qed.

Lemma shows_nil : forall c a M, shows c a (a - 1) M [].
Proof. intros c a M. split; [|split; [|split; [|split]]]; apply seg_nil. Qed.

Lemma turns_ok : forall c k f, sound c -> skips k = false -> forall n i s,
  1 <= i -> Z.of_nat n = Z.max 0 (nMax c) + 1 - i -> (1 < i -> top f (i - 1) (base s)) ->
  exists b s' tr m, turns c k f n i s = Ok (b, s', tr)
    /\ i - 1 <= m <= Z.max 0 (nMax c)
    /\ seg (iterations tr) i m (fun _ => True)
    /\ shows c i m (met c f) tr
    /\ (forall j, i <= j < m -> met c f j -> j < nStart k)
    /\ (b = true -> i <= m /\ met c f m /\ nStart k <= m /\ cflNow s' = Some (CFL c))
    /\ (b = false -> m = Z.max 0 (nMax c) /\ (i <= m -> met c f m -> m < nStart k) /\ (1 <= m -> top f m (base s')))
    /\ iterAll s' = iterAll s + (m - i + 1)
    /\ (nStart k <= Z.max 1 (nMin c) -> cflNow s = Some (ramp_value c i) ->
        (forall j v, In (Iterate j v) tr \/ In (Line j v) tr -> v = Some (ramp_value c j))
        /\ (b = false -> cflNow s' = Some (ramp_value c (m + 1)))).
Proof.
  intros c k f Hs Hk. induction n as [|n IH]; intros i s Hi Hn Ht; cbn [turns].
  - exists false, s, [], (i - 1). split; [reflexivity|]. split; [lia|]. split; [apply seg_nil|]. split; [apply shows_nil|].
    split; [lia|]. split; [discriminate|]. split; [intros _; split; [lia | split; [lia | intros; apply Ht; lia]]|].
    split; [lia|]. intros _ E. split; [intros j v [[]|[]]|]. intros _. rewrite E. do 2 f_equal. lia.
  - rewrite Hk. destruct (fstop_ok c i (residual f i) (atTarget f i) s Hs ltac:(lia)) as (stop & s1 & t1 & -> & Es & Eb & Ea & C1 & C2 & Sh & It & Ln & Ni).
    cbn [bind]. pose proof (top_step f i (base s) Hi Ht) as T1.
    assert (SM : stop = true <-> met c f i) by (rewrite Es; apply stop_iff; exact T1).
    assert (Sh1 : shows c i i (met c f) (Iterate i (cflNow s) :: t1)).
    { apply shows_iterate. eapply shows_ext; [exact Sh|]. intros j Hj. replace j with i by lia. exact SM. }
    assert (I1 : seg (iterations (Iterate i (cflNow s) :: t1)) i i (fun _ => True)).
    { change (iterations (Iterate i (cflNow s) :: t1)) with (i :: iterations t1). rewrite It. apply (seg_one true). tauto. }
    assert (V1 : cflNow s = Some (ramp_value c i) -> forall j v, In (Iterate j v) (Iterate i (cflNow s) :: t1) \/ In (Line j v) (Iterate i (cflNow s) :: t1) -> v = Some (ramp_value c j)).
    { intros E j v [[H|H]|[H|H]]; [injection H as <- <-; exact E | destruct (Ni j v H) | discriminate H | destruct (Ln j v H) as [-> ->]; exact E]. }
    destruct (stop && (nStart k <=? i)) eqn:Hb.
    + apply andb_prop in Hb. destruct Hb as [Hb1 Hb2]. apply Z.leb_le in Hb2.
      exists true, s1, (Iterate i (cflNow s) :: t1), i. split; [reflexivity|]. split; [lia|]. split; [exact I1|]. split; [exact Sh1|].
      split; [lia|]. split; [intros _; split; [lia | split; [apply SM; exact Hb1 | split; [exact Hb2 | apply C1; left; exact Hb1]]]|].
      split; [discriminate|]. split; [lia|]. intros _ E. split; [apply V1; exact E | discriminate].
    + assert (Hns : met c f i -> i < nStart k).
      { intros M. apply SM in M. rewrite M in Hb. cbn [andb] in Hb. apply Z.leb_gt in Hb. exact Hb. }
      assert (i < int32_max) by (destruct Hs as (_ & _ & _ & _ & _ & H & _); lia).
      destruct (Z.eqb_spec i int32_max); [lia|].
      destruct (IH (i + 1) s1) as (b & s' & t2 & m & -> & Hm & I2 & Sh2 & D1 & D2 & D3 & D4 & D5); [lia | lia | |].
      { intros _. replace (i + 1 - 1) with i by lia. rewrite Eb. exact T1. }
      cbn [bind]. exists b, s', ((Iterate i (cflNow s) :: t1) ++ t2), m. split; [reflexivity|]. split; [lia|].
      split; [unfold iterations in *; rewrite flat_map_app; apply seg_app with i; [exact I1 | exact I2 | lia]|].
      split; [apply shows_app with i; [exact Sh1 | exact Sh2 | lia]|].
      split; [intros j Hj M; destruct (Z.eq_dec j i) as [->|]; [apply Hns; exact M | apply D1; [lia | exact M]]|].
      split; [intros E; destruct (D2 E) as (? & ? & ? & ?); split; [lia | split; [assumption | split; assumption]]|].
      split; [intros E; destruct (D3 E) as (F1 & F2 & F3); split; [exact F1 | split; [|exact F3]]|].
      { intros _ M. destruct (Z.eq_dec m i) as [->|]; [apply Hns; exact M | apply F2; [lia | exact M]]. }
      split; [lia|].
      intros Hst E.
      assert (Hno : stop = false).
      { destruct stop; [|reflexivity]. exfalso. assert (M : met c f i) by (apply SM; reflexivity).
        pose proof (Hns M). destruct M as (M & _). lia. }
      destruct (D5 Hst (C2 Hno ltac:(lia) E)) as [G1 G2]. split; [|exact G2].
      intros j v H1. rewrite !in_app_iff in H1. destruct H1 as [[H1|H1]|[H1|H1]];
        [apply V1; [exact E | left; exact H1] | apply G1; left; exact H1 | apply V1; [exact E | right; exact H1] | apply G1; right; exact H1].
Qed.

(** ** A stage *)

(** The numbers [fstop] was called with go from 1 to [last]. *)
Definition calls (c : settings) (k : scheme) (f : flow) (m : Z) (last : Z) : Prop :=
  (last = m /\ (closes k = false \/ (met c f m /\ nStart k <= m)))
  \/ (last = m + 1 /\ closes k = true /\ m = Z.max 0 (nMax c) /\ ~ (1 <= m /\ met c f m /\ nStart k <= m)).

Lemma stage_ok : forall c k f s, sound c -> skips k = false ->
  exists s' tr m last, stage c k f s = Ok (s', tr)
    /\ ends_at c k f m /\ calls c k f m last
    /\ seg (iterations tr) 1 m (fun _ => True)
    /\ shows c 1 last (met c f) tr
    /\ iterAll s' = iterAll s + last
    /\ (closes k = true \/ (1 <= m /\ met c f m /\ nStart k <= m) -> cflNow s' = Some (CFL c))
    /\ (nStart k <= Z.max 1 (nMin c) -> cflNow s = Some (CFL c) ->
        forall j v, In (Iterate j v) tr \/ In (Line j v) tr -> v = Some (ramp_value c j)).
Proof.
  intros c k f s Hs Hk. unfold stage.
  destruct (turns_ok c k f Hs Hk (Z.to_nat (nMax c)) 1 s) as (b & s1 & t1 & m & -> & Hm & I1 & Sh1 & D1 & D2 & D3 & D4 & D5); [lia | lia | lia |].
  cbn [bind]. destruct b.
  - destruct (D2 eq_refl) as (E1 & E2 & E3 & E4). cbn [orb]. exists s1, t1, m, m. split; [reflexivity|].
    split; [split; [lia | split; [exact D1 | intros _; split; [lia | split; assumption]]]|].
    split; [left; split; [reflexivity | right; split; assumption]|]. split; [exact I1|]. split; [exact Sh1|].
    split; [lia|]. split; [intros _; exact E4|]. intros Hst E. apply (D5 Hst). rewrite ramp_first by exact Hs. exact E.
  - destruct (D3 eq_refl) as (E1 & E2 & E3). cbn [orb].
    assert (EA : ends_at c k f m).
    { split; [lia | split; [exact D1 | lia]]. }
    assert (NM : ~ (1 <= m /\ met c f m /\ nStart k <= m)).
    { intros (X1 & X2 & X3). specialize (E2 X1 X2). lia. }
    destruct (closes k) eqn:Hc; cbn [negb].
    + rewrite <- E1.
      destruct (fstop_ok c (m + 1) (residual f (m + 1 - 1)) (atTarget f (m + 1)) s1 Hs ltac:(lia)) as (stop & s2 & t2 & -> & Es & Eb & Ea & C1 & C2 & Sh & It & Ln & Ni).
      cbn [bind]. exists s2, (t1 ++ t2), m, (m + 1). split; [reflexivity|]. split; [exact EA|].
      split; [right; split; [reflexivity | split; [exact Hc | split; [exact E1 | exact NM]]]|].
      split; [unfold iterations in *; rewrite flat_map_app, It, app_nil_r; exact I1|].
      split.
      { apply shows_app with m; [exact Sh1| |lia]. destruct Sh as (A1 & A2). split; [|exact A2].
        eapply seg_ext; [exact A1|]. intros i Hi. cbn. split; intros _; right; right; lia. }
      split; [lia|]. split; [intros _; apply C1; right; lia|].
      intros Hst E j v H. destruct (D5 Hst) as [G1 G2]; [rewrite ramp_first by exact Hs; exact E|].
      rewrite !in_app_iff in H. destruct H as [[H|H]|[H|H]]; [apply G1; left; exact H | destruct (Ni j v H) | apply G1; right; exact H |].
      destruct (Ln j v H) as [-> ->]. apply G2. reflexivity.
    + exists s1, t1, m, m. split; [reflexivity|]. split; [exact EA|].
      split; [left; split; [reflexivity | left; exact Hc]|]. split; [exact I1|]. split; [exact Sh1|]. split; [lia|].
      split; [intros [H|H]; [discriminate | contradiction]|].
      intros Hst E. apply (D5 Hst). rewrite ramp_first by exact Hs. exact E.
Qed.

(** ** A step *)

(** A stage that is only evaluated leaves no trace. *)
Lemma stage_skipped : forall c k f s, skips k = true -> 1 <= nMax c -> stage c k f s = Ok (s, []).
Proof.
  intros c k f s H Hn. unfold stage. destruct (Z.to_nat (nMax c)) as [|n] eqn:E; [lia|]. cbn [turns]. rewrite H. reflexivity.
Qed.

Lemma stages_ok : forall c l s, sound c -> 1 <= nMax c -> cflNow s = Some (CFL c) ->
  Forall (fun p => closes (fst p) = true) l \/ (List.length l <= 1)%nat ->
  exists s' trs, stages c l s = Ok (s', trs) /\ List.length trs = List.length l
    /\ Forall2 (fun p tr => if skips (fst p) then tr = [] else
         exists m last, ends_at c (fst p) (snd p) m /\ calls c (fst p) (snd p) m last
           /\ seg (iterations tr) 1 m (fun _ => True) /\ shows c 1 last (met c (snd p)) tr
           /\ (nStart (fst p) <= Z.max 1 (nMin c) -> forall j v, In (Iterate j v) tr \/ In (Line j v) tr -> v = Some (ramp_value c j))) l trs.
Proof.
  intros c l. induction l as [|[k f] l IH]; intros s Hs Hn Hc Hl; cbn [stages].
  - exists s, []. repeat split. constructor.
  - assert (H1 : exists s1 t1, stage c k f s = Ok (s1, t1)
      /\ (if skips k then t1 = [] else exists m last, ends_at c k f m /\ calls c k f m last
           /\ seg (iterations t1) 1 m (fun _ => True) /\ shows c 1 last (met c f) t1
           /\ (nStart k <= Z.max 1 (nMin c) -> forall j v, In (Iterate j v) t1 \/ In (Line j v) t1 -> v = Some (ramp_value c j)))
      /\ (closes k = true -> cflNow s1 = Some (CFL c))).
    { destruct (skips k) eqn:Hk.
      - exists s, []. rewrite stage_skipped by assumption. auto.
      - destruct (stage_ok c k f s Hs Hk) as (s1 & t1 & m & last & E & A & B & C & D & F & G & H).
        exists s1, t1. split; [exact E|]. split; [exists m, last; repeat (split; [assumption|]); intros Hst; apply H; assumption|].
        intros Hcl. apply G. left. exact Hcl. }
    destruct H1 as (s1 & t1 & -> & P1 & C1). cbn [bind fst snd].
    assert (X : l = [] \/ (cflNow s1 = Some (CFL c) /\ Forall (fun p => closes (fst p) = true) l)).
    { destruct Hl as [Hl|Hl]; [inversion Hl; subst; right; split; [apply C1; assumption | assumption] | left; destruct l; [reflexivity | cbn in Hl; lia]]. }
    destruct X as [->|[X1 X2]].
    + cbn. exists s1, [t1]. split; [reflexivity|]. split; [reflexivity|]. constructor; [exact P1 | constructor].
    + destruct (IH s1 Hs Hn X1 (or_introl X2)) as (s' & trs & -> & L & F). cbn [bind fst snd].
      exists s', (t1 :: trs). split; [reflexivity|]. split; [cbn; congruence|]. constructor; [exact P1 | exact F].
Qed.
