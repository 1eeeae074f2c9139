(** The lemmas behind the statements about the time loop. *)

From Coq Require Import List ZArith Bool QArith Lqa Lia Sorted.
From Verif Require Import Base.Prelude Base.PreludeFacts Euler.TimeLoopModel Euler.TimeLoopSpec Euler.TimeLoopQ Euler.TimeLoopTurn Euler.TimeLoopTime Euler.TimeLoopFiles.
Import ListNotations.
Local Open Scope Q_scope.

(** ** The clock *)

Lemma clock : forall c e ir fl y, sane c -> flowing e -> run c e ir fl = Ok y ->
  let tr := s_trace y in
  let m := length (advances tr) in
  map (fun a => fst (fst a)) (advances tr) = steps m
  /\ Forall (fun d => 0 < d) (lengths tr)
  /\ StronglySorted Qlt (times tr)
  /\ Forall (fun t => 0 < t /\ t <= c_tEnd c) (times tr)
  /\ s_t y = last (times tr) 0
  /\ qsum (lengths tr) <= s_t y
  /\ (c_pp c = false -> qsum (lengths tr) == s_t y)
  /\ ((s_t y == c_tEnd c /\ (Z.of_nat m <= c_nStep c)%Z) \/ (s_t y < c_tEnd c /\ Z.of_nat m = c_nStep c)).
Proof.
  intros c e ir fl y Hc Hf H. cbv zeta.
  destruct (Time_run c e ir fl y Hc Hf H) as (m & b & Hm & T & Hb).
  destruct T as [Xp Xd Xh Xs Xl Xo Xr Xn [Xq1 Xq2] (k & K1 & K2 & K3 & K4 & K5 & K6 & K7)].
  assert (Lm : length (advances (s_trace y)) = m).
  { rewrite <- (map_length (fun a => fst (fst a))), Xs. unfold steps. rewrite map_length, seq_length. reflexivity. }
  rewrite Lm.
  assert (TE : s_t y <= c_tEnd c).
  { destruct b; [destruct (K6 eq_refl); lra|]. specialize (K5 eq_refl). pose proof (tout_end c (S k)). lra. }
  pose proof (sane_steps c Hc).
  repeat match goal with |- _ /\ _ => split end; try assumption.
  - rewrite Xh in Xp. rewrite Forall_forall in *. intros d Hd. apply Xp. apply in_rev in Hd. exact Hd.
  - eapply Forall_impl; [|exact Xr]. cbn. intros a [A1 A2]. split; lra.
  - destruct b.
    + left. destruct (K6 eq_refl). split; [assumption | lia].
    + right. specialize (K5 eq_refl). pose proof (tout_end c (S k)). split; [lra|]. rewrite (Hb eq_refl). lia.
Qed.

(** ** The files at given times *)

Lemma touts_in : forall c k x, In x (touts c k) <-> exists j, (1 <= j <= k)%nat /\ x = tout c j.
Proof.
  intros c k x. unfold touts. rewrite in_map_iff. split.
  - intros (j & <- & Hj). apply in_seq in Hj. exists j. split; [lia | reflexivity].
  - intros (j & Hj & ->). exists j. split; [reflexivity | apply in_seq; lia].
Qed.

Lemma touts_sorted : forall c k, 0 < c_tOut c -> (forall j, (j < k)%nat -> tout c j < c_tEnd c) ->
  StronglySorted Qlt (touts c k).
Proof.
  intros c k Ho. induction k as [|k IH]; intro H; [constructor|].
  rewrite touts_S. apply sorted_snoc; [apply IH; intros; apply H; lia|].
  apply Forall_forall. intros x Hx. apply touts_in in Hx. destruct Hx as (j & Hj & ->).
  pose proof (tout_mono c j k Ho ltac:(lia)). pose proof (tout_step c k Ho (H k ltac:(lia))). lra.
Qed.

Lemma sorted_Qeq : forall l l', Forall2 Qeq l l' -> StronglySorted Qlt l' -> StronglySorted Qlt l.
Proof.
  induction 1 as [|a b l l' E F IH]; intro S0; [constructor|]. inversion S0 as [|? ? S1 S2]; subst.
  constructor; [apply IH; assumption|]. clear - E F S2.
  revert S2. induction F as [|u v l l' E2 F IH2]; intro S2; [constructor|].
  inversion S2; subst. constructor; [lra | apply IH2; assumption].
Qed.

Lemma Forall2_in_l : forall (A B : Type) (R : A -> B -> Prop) l l' x, Forall2 R l l' -> In x l -> exists y, In y l' /\ R x y.
Proof.
  induction 1 as [|a b l l' E F IH]; intro H0; [contradiction|]. destruct H0 as [<-|H0].
  - exists b. split; [left; reflexivity | exact E].
  - destruct (IH H0) as (y & Y1 & Y2). exists y. split; [right|]; assumption.
Qed.
Lemma Forall2_in_r : forall (A B : Type) (R : A -> B -> Prop) l l' y, Forall2 R l l' -> In y l' -> exists x, In x l /\ R x y.
Proof.
  induction 1 as [|a b l l' E F IH]; intro H0; [contradiction|]. destruct H0 as [<-|H0].
  - exists a. split; [left; reflexivity | exact E].
  - destruct (IH H0) as (x & Y1 & Y2). exists x. split; [right|]; assumption.
Qed.

Lemma timed : forall c e ir fl y, sane c -> flowing e -> run c e ir fl = Ok y ->
  StronglySorted Qlt (labels (s_trace y))
  /\ forall x, (exists n, In n (labels (s_trace y)) /\ n == x) <-> (x <= s_t y /\ due c x).
Proof.
  intros c e ir fl y Hc Hf H.
  destruct (Time_run c e ir fl y Hc Hf H) as (m & b & Hm & T & Hb).
  destruct T as [Xp Xd Xh Xs Xl Xo Xr Xn [Xq1 Xq2] (k & K1 & K2 & K3 & K4 & K5 & K6 & K7)].
  pose proof (sane_tOut c Hc) as Ho. pose proof (sane_tEnd c Hc) as He.
  split; [eapply sorted_Qeq; [exact K1 | apply touts_sorted; assumption]|].
  assert (Fut : forall j, (k < j)%nat -> tout c j < c_tEnd c -> s_t y < tout c j).
  { intros j Hj Hl. destruct b.
    - destruct (K6 eq_refl). pose proof (tout_mono c k j Ho ltac:(lia)). lra.
    - specialize (K5 eq_refl). pose proof (tout_mono c (S k) j Ho ltac:(lia)). lra. }
  intro x. split.
  - intros (n & Hn & E). destruct (Forall2_in_l _ _ _ _ _ _ K1 Hn) as (z & Hz & Ez).
    apply touts_in in Hz. destruct Hz as (j & Hj & ->).
    pose proof (tout_mono c j k Ho ltac:(lia)). split; [lra|].
    destruct (Qlt_le_dec (tout c j) (c_tEnd c)) as [L|L].
    + right. exists (Pos.of_nat j). pose proof (tout_mult c j L) as M. split; [|lra].
      assert (inject_Z (Zpos (Pos.of_nat j)) = qn j) as ->.
      { unfold qn. f_equal. rewrite <- (Nat2Pos.id j) at 2 by lia. symmetry. apply positive_nat_Z. }
      lra.
    + left. pose proof (tout_end c j). lra.
  - intros [L [E|(p & E & Hl)]].
    + assert (b = true) as ->.
      { destruct b; [reflexivity|]. specialize (K5 eq_refl). pose proof (tout_end c (S k)). lra. }
      destruct (K6 eq_refl) as [T1 T2].
      assert (k <> O) by (intros ->; pose proof (tout_0 c He); lra).
      assert (Hin : In (tout c k) (touts c k)) by (apply touts_in; exists k; split; [lia | reflexivity]).
      destruct (Forall2_in_r _ _ _ _ _ _ K1 Hin) as (n & N1 & N2). exists n. split; [exact N1 | lra].
    + set (j := Pos.to_nat p).
      assert (Q1 : qn j = inject_Z (Zpos p)) by (unfold qn, j; rewrite positive_nat_Z; reflexivity).
      assert (Q2 : tout c j == x).
      { unfold tout. rewrite Q1. destruct (qmin_spec (inject_Z (Zpos p) * c_tOut c) (c_tEnd c)) as [[-> ?]|[-> ?]]; lra. }
      assert (J : (j <= k)%nat).
      { destruct (Nat.le_gt_cases j k) as [J|J]; [exact J|]. specialize (Fut j J ltac:(lra)). lra. }
      assert (Hin : In (tout c j) (touts c k)) by (apply touts_in; exists j; split; [unfold j in *; lia | reflexivity]).
      destruct (Forall2_in_r _ _ _ _ _ _ K1 Hin) as (n & N1 & N2). exists n. split; [exact N1 | lra].
Qed.

(** ** Enough steps *)

Lemma reaches : forall c e ir fl y dm, sane c -> flowing e -> c_pp c = false ->
  0 < dm ->
  (dm <= c_dtMin c \/ (c_ppLimit c = false /\ forall s, dm <= wish c (e s))) ->
  c_tEnd c / dm + c_tEnd c / c_tOut c + 1 <= inject_Z (c_nStep c) ->
  run c e ir fl = Ok y -> s_t y == c_tEnd c.
Proof.
  intros c e ir fl y dm Hc Hf Hp Hdm Hw HN H.
  destruct (Time_run c e ir fl y Hc Hf H) as (m & b & Hm & T & Hb).
  destruct T as [Xp Xd Xh Xs Xl Xo Xr Xn [Xq1 Xq2] (k & K1 & K2 & K3 & K4 & K5 & K6 & K7)].
  pose proof (sane_tOut c Hc) as Ho. pose proof (sane_tEnd c Hc) as He. pose proof (sane_steps c Hc) as Hst.
  destruct b; [destruct (K6 eq_refl); assumption|]. exfalso.
  specialize (K5 eq_refl). pose proof (tout_end c (S k)) as TE. specialize (Hb eq_refl).
  assert (All : forall i h, dm <= wished c h (e i)).
  { intros i h. destruct Hw as [Hw|[C Hw]].
    - pose proof (wished_ge_min c h (e i)). lra.
    - rewrite wished_plain by exact C. apply Hw. }
  specialize (K7 dm ltac:(lra) All Hp).
  assert (Tk : tout c k < c_tEnd c) by lra. apply tout_mult in Tk.
  assert (Q1 : qn m == inject_Z (c_nStep c)).
  { unfold qn. rewrite Hb, Z2Nat.id by lia. reflexivity. }
  set (A := c_tEnd c / dm) in *. set (B := c_tEnd c / c_tOut c) in *.
  assert (A1 : A * dm == c_tEnd c) by (unfold A; field; lra).
  assert (B1 : B * c_tOut c == c_tEnd c) by (unfold B; field; lra).
  assert (KB : qn k < B).
  { apply Qnot_le_lt. intro L. assert (B * c_tOut c <= qn k * c_tOut c) by nra. lra. }
  assert (MA : qn m - qn k < A).
  { apply Qnot_le_lt. intro L. assert (A * dm <= (qn m - qn k) * dm) by nra. lra. }
  lra.
Qed.

(** ** The lengths of the steps *)

Definition Len (c : config) (e : Z -> env) (m : nat) (x : st) : Prop :=
  (forall s d t, In (s, d, t) (advances (s_trace x)) -> d <= (1 + smallReal) * wish c (e s))
  /\ (c_ppLimit c = true -> forall i d d', nth_error (lengths (s_trace x)) i = Some d ->
        nth_error (lengths (s_trace x)) (S i) = Some d' ->
        d' <= (1 + smallReal) * qmax (d * c_inc c) (c_dtMin c)).

Lemma Len_turn : forall c e m x y b, 0 < c_tEnd c -> 0 < c_tOut c -> 0 < c_inc c -> flowing e ->
  Time c e m x false -> Len c e m x ->
  turn c (e (Z.of_nat m + 1)%Z) (Z.of_nat m + 1)%Z x = Ok (y, b) -> Len c e (S m) y.
Proof.
  intros c e m x y b He Ho Hi Hf T [L1 L2] H.
  pose proof (turn_trace _ _ _ _ _ _ H) as Ha.
  apply turn_labels in H. destruct H as (o & Hl & Ht & Hn & Hh & Hb & Hw & d1 & count & Hm & Hp).
  destruct T as [Xp Xd Xh Xs Xl Xo Xr Xn [Xq1 Xq2] (k & K1 & K2 & K3 & K4 & K5 & K6 & K7)].
  specialize (K5 eq_refl).
  apply meet_spec in Hm; [|exact Hw|lra]. destruct Hm as (D1 & D2 & D3).
  destruct (Hf (Z.of_nat m + 1)%Z) as (_ & _ & Hv).
  pose proof (ppstep_ok _ _ _ _ _ Xd D1 Hi Hv _ _ Hp) as (P1 & P2 & P3).
  pose proof small_pos as SP.
  assert (Hlen : lengths (s_trace y) = lengths (s_trace x) ++ [s_dt y])
    by (unfold lengths; rewrite Ha, map_app; reflexivity).
  split.
  - intros s d t Hin. rewrite Ha in Hin. apply in_app_or in Hin. destruct Hin as [Hin|[E|[]]]; [eauto|].
    injection E as <- <- <-. pose proof (wished_le c (s_hist x) (e (Z.of_nat m + 1)%Z)) as WL.
    set (W := wished c (s_hist x) (e (Z.of_nat m + 1)%Z)) in *.
    assert ((1 + smallReal) * W <= (1 + smallReal) * wish c (e (Z.of_nat m + 1)%Z)) by nra. lra.
  - intros C i d d' Hd Hd'. rewrite Hlen in Hd, Hd'.
    assert (B : (S i < length (lengths (s_trace x) ++ [s_dt y]))%nat) by (apply nth_error_Some; congruence).
    rewrite app_length in B. cbn [length] in B.
    rewrite nth_error_app1 in Hd by lia.
    destruct (Nat.lt_ge_cases (S i) (length (lengths (s_trace x)))) as [B1|B1].
    + rewrite nth_error_app1 in Hd' by exact B1. eauto.
    + rewrite nth_error_app2 in Hd' by exact B1.
      replace (S i - length (lengths (s_trace x)))%nat with O in Hd' by lia. cbn in Hd'. injection Hd' as <-.
      assert (Hx : exists h, s_hist x = d :: h).
      { rewrite Xh. destruct (lengths (s_trace x)) as [|z l] eqn:El using rev_ind; [destruct i; discriminate|].
        rewrite rev_app_distr. cbn. exists (rev l). f_equal.
        rewrite app_length in B, B1. cbn [length] in B, B1.
        rewrite nth_error_app2 in Hd by lia. replace (i - length l)%nat with O in Hd by lia. cbn in Hd. congruence. }
      destruct Hx as [h Hx]. rewrite Hx in *.
      pose proof (wished_inc c d h (e (Z.of_nat m + 1)%Z) C) as WI.
      set (W := wished c (d :: h) (e (Z.of_nat m + 1)%Z)) in *.
      assert ((1 + smallReal) * W <= (1 + smallReal) * qmax (d * c_inc c) (c_dtMin c)) by nra. lra.
Qed.

Lemma paced : forall c e ir fl y, sane c -> flowing e -> run c e ir fl = Ok y ->
  (forall s d t, In (s, d, t) (advances (s_trace y)) -> d <= (1 + smallReal) * wish c (e s))
  /\ (c_ppLimit c = true -> forall i d d', nth_error (lengths (s_trace y)) i = Some d ->
        nth_error (lengths (s_trace y)) (S i) = Some d' ->
        d' <= (1 + smallReal) * qmax (d * c_inc c) (c_dtMin c)).
Proof.
  intros c e ir fl y Hc Hf H. apply run_loop in H; [|apply Hc].
  apply (loop_inv c e (Z.to_nat (c_nStep c)) (fun m x b => Time c e m x b /\ Len c e m x)) in H.
  - destruct H as (k & b & _ & [_ H1] & _). exact H1.
  - split; [apply Time_start; apply Hc|].
    assert (A : advances (s_trace (start c ir fl)) = []) by (unfold start; cbn; destruct (c_atInit c); reflexivity).
    unfold Len, lengths. rewrite A. split; [contradiction|]. intros _ i d d' Hd. destruct i; discriminate.
  - intros m x z b [H1 H2] _ Ht. split; [eapply Time_turn; try apply Hc; eauto|].
    eapply Len_turn; try apply Hc; eauto.
Qed.

(** ** No sane run is stopped short *)

Lemma outputs_Ok : forall kC k lazy al nC n (m : nat) N t v,
  (N < INT_MAX)%Z ->
  (Z.of_nat m < N)%Z ->
  (forall q, q = n \/ q = nC -> (q <= INT_MAX /\ - INT_MAX <= q /\ (q > N \/ N + q <= INT_MAX))%Z) ->
  (al = true \/ ((n <= 0 \/ N < n) /\ (nC <= 0 \/ N < nC)))%Z ->
  exists r, outputs kC k lazy al nC n (nextAt nC (Z.of_nat m)) (nextAt n (Z.of_nat m)) (Z.of_nat m + 1) t v = Ok r.
Proof.
  intros kC k lazy al nC n m N t v HN Hm Hf Ha.
  assert (Big : forall q, (q <= 0 \/ N < q)%Z -> (Z.of_nat m + 1 =? nextAt q (Z.of_nat m))%Z = false).
  { intros q Hq. rewrite nextAt_eq by lia. unfold every. destruct Hq as [Hq|Hq].
    - destruct (Z.ltb_spec 0 q); [lia | reflexivity].
    - rewrite Z.mod_small by lia. destruct (Z.eqb_spec (Z.of_nat m + 1) 0); [lia|]. apply andb_false_r. }
  assert (Add : forall q, (q = n \/ q = nC) -> (Z.of_nat m + 1 =? nextAt q (Z.of_nat m))%Z = true ->
            exists z, addInt (nextAt q (Z.of_nat m)) q = Ok z).
  { intros q Hq E. specialize (Hf q Hq).
    assert (NB : (0 < q <= N)%Z).
    { destruct (Z_le_gt_dec q 0) as [B|B]; [rewrite Big in E by (left; exact B); discriminate|].
      destruct (Z_le_gt_dec q N) as [B2|B2]; [lia | rewrite Big in E by (right; lia); discriminate]. }
    apply Z.eqb_eq in E. rewrite <- E. unfold addInt.
    destruct (Z.leb_spec (Z.of_nat m + 1 + q) INT_MAX); [|lia].
    destruct (Z.leb_spec (- INT_MAX - 1) (Z.of_nat m + 1 + q)); [|unfold INT_MAX in *; lia].
    cbn. eauto. }
  assert (Al : al = false -> (Z.of_nat m + 1 =? nextAt n (Z.of_nat m))%Z = false /\ (Z.of_nat m + 1 =? nextAt nC (Z.of_nat m))%Z = false).
  { intros ->. destruct Ha as [Ha|[A1 A2]]; [discriminate|]. split; apply Big; assumption. }
  unfold outputs.
  destruct (Z.of_nat m + 1 =? nextAt nC (Z.of_nat m))%Z eqn:EC; destruct (Z.of_nat m + 1 =? nextAt n (Z.of_nat m))%Z eqn:E;
    (destruct al; [| destruct (Al eq_refl); discriminate || idtac]); cbn [assert_ bind];
    try (destruct (Add n (or_introl eq_refl) E) as [z1 Z1]); try (destruct (Add nC (or_intror eq_refl) EC) as [z2 Z2]);
    try (destruct lazy; cbn [andb bind]); rewrite ?Z1, ?Z2; cbn [bind]; eauto.
Qed.

Lemma turn_Ok : forall c e m x, sane c -> averages_kept c -> flowing e ->
  (c_pp c = false \/ c_ode c = 102%Z) ->
  (Z.of_nat m < c_nStep c)%Z -> (0 <= s_count x <= Z.of_nat m)%Z ->
  Time c e m x false -> Files c m x ->
  exists r, turn c (e (Z.of_nat m + 1)%Z) (Z.of_nat m + 1)%Z x = Ok r
            /\ (0 <= s_count (fst r) <= Z.of_nat (S m))%Z.
Proof.
  intros c e m x Hc Hk Hf Hp Hm Hcnt T F. unfold turn. cbv zeta.
  pose proof (sane_steps c Hc) as HS.
  destruct (Hf (Z.of_nat m + 1)%Z) as (E1 & E2 & E3).
  assert (W : 0 < wished c (s_hist x) (e (Z.of_nat m + 1)%Z)).
  { apply wished_pos; try apply Hc; try assumption. apply (ti_pos _ _ _ _ _ T). }
  destruct (qlt_cases 0 (wished c (s_hist x) (e (Z.of_nat m + 1)%Z))) as [[-> _]|[_ L]]; [|lra].
  cbn [assert_ bind]. destruct (meet _ _ _) as [b d1].
  assert (P : exists d count, ppstep c (e (Z.of_nat m + 1)%Z) (s_dt x) d1 (s_count x) = Ok (d, count)
              /\ (0 <= count <= Z.of_nat (S m))%Z).
  { unfold ppstep. destruct (c_pp c) eqn:Ep; cbn [negb].
    - destruct Hp as [Hp|Hp]; [discriminate|]. rewrite Hp. cbn [Z.eqb Pos.eqb].
      destruct (qlt (s_dt x) _).
      + unfold addInt. destruct (Z.leb_spec (s_count x + 1) INT_MAX); [|lia].
        destruct (Z.leb_spec (- INT_MAX - 1) (s_count x + 1)); [|unfold INT_MAX in *; lia].
        cbn [andb bind]. destruct (c_incAfter c <? s_count x + 1)%Z; do 2 eexists; (split; [reflexivity | lia]).
      + do 2 eexists; (split; [reflexivity | lia]).
    - do 2 eexists; (split; [reflexivity | lia]). }
  destruct P as (d & count & -> & Hc1). cbn [bind].
  destruct (if c_avg c then _ else _) as [w tA].
  unfold logs. destruct (Z.eqb_spec (c_nLog c) 0) as [E0|_]; [destruct (sane_log c Hc E0)|]. cbn [bind].
  rewrite (fi_out _ _ _ F), (fi_outC _ _ _ F), (fi_avg _ _ _ F), (fi_avgC _ _ _ F), (fi_rst _ _ _ F), (fi_rstC _ _ _ F).
  edestruct (outputs_Ok DataC Data (c_lazy c) true (c_nOutC c) (c_nOut c) m (c_nStep c)) as [r1 R1];
    [lia | exact Hm | intros q [-> | ->]; apply Hc | left; reflexivity |].
  rewrite R1. cbn [bind].
  edestruct (outputs_Ok AvgC Avg (c_lazy c) (c_avg c) (c_nAvgC c) (c_nAvg c) m (c_nStep c)) as [r2 R2];
    [lia | exact Hm | intros q [-> | ->]; apply Hc | exact Hk |].
  rewrite R2. cbn [bind].
  edestruct (outputs_Ok RstC Rst (c_lazy c) true (c_nRstC c) (c_nRst c) m (c_nStep c)) as [r3 R3];
    [lia | exact Hm | intros q [-> | ->]; apply Hc | left; reflexivity |].
  rewrite R3. cbn [bind]. eexists. split; [reflexivity|]. cbn. exact Hc1.
Qed.

Lemma loop_Ok : forall c e, sane c -> averages_kept c -> flowing e -> (c_pp c = false \/ c_ode c = 102%Z) ->
  forall n m x, (Z.of_nat (m + n) <= c_nStep c)%Z -> (0 <= s_count x <= Z.of_nat m)%Z ->
  Time c e m x false -> Files c m x ->
  exists y, loop c e n (Z.of_nat m + 1) x = Ok y.
Proof.
  intros c e Hc Hk Hf Hp. induction n as [|n IH]; intros m x Hm Hcnt T F; cbn [loop]; [eauto|].
  destruct (turn_Ok c e m x Hc Hk Hf Hp ltac:(lia) Hcnt T F) as [[y b] [Ht Hcy]]. rewrite Ht. cbn [bind fst snd].
  destruct b; [eauto|].
  replace (Z.of_nat m + 1 + 1)%Z with (Z.of_nat (S m) + 1)%Z by lia.
  apply IH; [lia | exact Hcy | |].
  - eapply Time_turn; try apply Hc; eauto.
  - eapply Files_turn; eauto.
Qed.

Lemma completes : forall c e ir fl, sane c -> averages_kept c -> flowing e ->
  (c_pp c = false \/ c_ode c = 102%Z) -> exists y, run c e ir fl = Ok y.
Proof.
  intros c e ir fl Hc Hk Hf Hp. unfold run, initialize, settle. rewrite (sane_steady c Hc).
  cbv zeta. rewrite (sane_ode c Hc). cbn [assert_ bind].
  assert (E : negb (c_pp c) || (c_ode c =? 1)%Z || (c_ode c =? 102)%Z = true).
  { destruct Hp as [-> | ->]; [reflexivity|]. apply orb_true_r. }
  rewrite E. cbn [assert_ bind].
  apply (loop_Ok c e Hc Hk Hf Hp (Z.to_nat (c_nStep c)) O).
  - pose proof (sane_steps c Hc). lia.
  - cbn. lia.
  - apply Time_start; apply Hc.
  - apply Files_start.
Qed.

(** A steady run takes one step at most. *)
Lemma steady_one : forall c e ir fl y, c_steady c = true -> run c e ir fl = Ok y ->
  length (advances (s_trace y)) = 1%nat.
Proof.
  intros c e ir fl y Hs H. unfold run in H. apply bind_Ok in H. destruct H as [c' [Hi H]].
  assert (N : c_nStep c' = 1%Z).
  { unfold initialize, settle in Hi. rewrite Hs in Hi. cbv zeta in Hi.
    apply bind_Ok in Hi. destruct Hi as [? [_ Hi]].
    apply bind_Ok in Hi. destruct Hi as [? [_ Hi]]. injection Hi as <-. reflexivity. }
  rewrite N in H. cbn [Z.to_nat Pos.to_nat Pos.iter_op loop] in H.
  apply bind_Ok in H. destruct H as [[z b] [Ht H]]. apply turn_trace in Ht. cbn [fst snd] in H.
  assert (z = y) by (destruct b; congruence). subst z. rewrite Ht, app_length.
  cbn [length start s_trace]. destruct (c_atInit c'); reflexivity.
Qed.
