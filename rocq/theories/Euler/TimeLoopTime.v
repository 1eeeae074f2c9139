(** The time of the run and the files written at given times. *)

From Coq Require Import List ZArith Bool QArith Lqa Lia Sorted.
From Verif Require Import Base.Prelude Base.PreludeFacts Euler.TimeLoopModel Euler.TimeLoopSpec Euler.TimeLoopQ Euler.TimeLoopTurn.
Import ListNotations.
Local Open Scope Q_scope.

(** The [j]-th output time. *)
Definition qn (j : nat) : Q := inject_Z (Z.of_nat j).
Definition tout (c : config) (j : nat) : Q := qmin (qn j * c_tOut c) (c_tEnd c).

Lemma qn_S : forall j, qn (S j) == qn j + 1.
Proof. intros j. unfold qn. rewrite Nat2Z.inj_succ. unfold Z.succ. rewrite inject_Z_plus. reflexivity. Qed.

Lemma qn_le : forall i j, (i <= j)%nat -> qn i <= qn j.
Proof. intros i j H. unfold qn. rewrite <- Zle_Qle. lia. Qed.

Lemma tout_end : forall c j, tout c j <= c_tEnd c.
Proof. intros c j. unfold tout. destruct (qmin_spec (qn j * c_tOut c) (c_tEnd c)) as [[-> ?]|[-> ?]]; lra. Qed.

Lemma tout_0 : forall c, 0 < c_tEnd c -> tout c 0 == 0.
Proof.
  intros c H. unfold tout. assert (qn 0 * c_tOut c == 0) by (change (qn 0) with 0; ring).
  destruct (qmin_spec (qn 0 * c_tOut c) (c_tEnd c)) as [[-> ?]|[-> ?]]; lra.
Qed.

Lemma tout_mono : forall c i j, 0 < c_tOut c -> (i <= j)%nat -> tout c i <= tout c j.
Proof.
  intros c i j H Hij. apply qn_le in Hij. unfold tout.
  assert (qn i * c_tOut c <= qn j * c_tOut c) by nra.
  destruct (qmin_spec (qn i * c_tOut c) (c_tEnd c)) as [[-> ?]|[-> ?]],
    (qmin_spec (qn j * c_tOut c) (c_tEnd c)) as [[-> ?]|[-> ?]]; lra.
Qed.

Lemma tout_mult : forall c j, tout c j < c_tEnd c -> tout c j == qn j * c_tOut c.
Proof.
  intros c j H. unfold tout in *. destruct (qmin_spec (qn j * c_tOut c) (c_tEnd c)) as [[E ?]|[E ?]]; rewrite E in *; lra.
Qed.

Lemma tout_step : forall c j, 0 < c_tOut c -> tout c j < c_tEnd c -> tout c j < tout c (S j).
Proof.
  intros c j H Hj. pose proof (tout_mult c j Hj) as E. pose proof (qn_S j) as S1. 
  unfold tout at 2. destruct (qmin_spec (qn (S j) * c_tOut c) (c_tEnd c)) as [[-> ?]|[-> ?]].
  - assert (qn (S j) * c_tOut c == qn j * c_tOut c + c_tOut c) by (rewrite S1; ring). lra.
  - exact Hj.
Qed.

Lemma next_tout : forall c x j, 0 < c_tOut c -> s_next x == tout c j ->
  next_after c x true == tout c (S j).
Proof.
  intros c x j H E. unfold next_after. pose proof (qn_S j) as S1.
  assert (E1 : qn (S j) * c_tOut c == qn j * c_tOut c + c_tOut c) by (rewrite S1; ring).
  unfold tout in *.
  destruct (qle_cases (c_tEnd c) (s_next x + c_tOut c)) as [[-> L]|[-> L]];
    destruct (qmin_spec (qn j * c_tOut c) (c_tEnd c)) as [[F ?]|[F ?]];
    destruct (qmin_spec (qn (S j) * c_tOut c) (c_tEnd c)) as [[G ?]|[G ?]]; rewrite ?F, ?G in *; lra.
Qed.

(** ** The invariant *)

Definition touts (c : config) (k : nat) : list Q := map (tout c) (seq 1 k).

Lemma touts_S : forall c k, touts c (S k) = touts c k ++ [tout c (S k)].
Proof. intros c k. unfold touts. rewrite seq_S, map_app. reflexivity. Qed.

Record Time (c : config) (e : Z -> env) (m : nat) (x : st) (b : bool) : Prop := {
  ti_pos : Forall (fun d => 0 < d) (s_hist x);
  ti_dt : 0 < s_dt x;
  ti_hist : s_hist x = rev (lengths (s_trace x));
  ti_steps : map (fun a => fst (fst a)) (advances (s_trace x)) = steps m;
  ti_last : s_t x = last (times (s_trace x)) 0;
  ti_sorted : StronglySorted Qlt (times (s_trace x));
  ti_range : Forall (fun t => 0 < t /\ t <= s_t x) (times (s_trace x));
  ti_nonneg : 0 <= s_t x;
  ti_sum : qsum (lengths (s_trace x)) <= s_t x /\ (c_pp c = false -> qsum (lengths (s_trace x)) == s_t x);
  ti_k : exists k,
      Forall2 Qeq (labels (s_trace x)) (touts c k)
      /\ s_next x == tout c (S k)
      /\ (forall j, (j < k)%nat -> tout c j < c_tEnd c)
      /\ tout c k <= s_t x
      /\ (b = false -> s_t x < tout c (S k))
      /\ (b = true -> s_t x == c_tEnd c /\ tout c k == c_tEnd c)
      /\ (forall dm, 0 <= dm -> (forall i h, dm <= wished c h (e i)) -> c_pp c = false ->
          (qn m - qn k) * dm <= s_t x)
}.

Lemma qsum_app : forall a b, qsum (a ++ b) == qsum a + qsum b.
Proof. induction a as [|x a IH]; intros b; cbn; [lra|]. rewrite IH. ring. Qed.

Lemma Forall2_app1 : forall (A B : Type) (R : A -> B -> Prop) l1 l2 a b,
  Forall2 R l1 l2 -> R a b -> Forall2 R (l1 ++ [a]) (l2 ++ [b]).
Proof. intros. apply Forall2_app; [assumption | repeat constructor; assumption]. Qed.

Lemma sorted_snoc : forall l t, StronglySorted Qlt l -> Forall (fun a => a < t) l -> StronglySorted Qlt (l ++ [t]).
Proof.
  induction l as [|a l IH]; intros t Hs Hf; cbn; [repeat constructor|].
  inversion Hs; subst. inversion Hf; subst. constructor; [apply IH; assumption|].
  apply Forall_app. split; [assumption | repeat constructor; assumption].
Qed.

Lemma steps_S : forall m, steps (S m) = steps m ++ [(Z.of_nat m + 1)%Z].
Proof.
  intros m. unfold steps. rewrite seq_S, map_app. cbn [map]. f_equal. f_equal. lia.
Qed.

Lemma turn_labels : forall c e s x y stop, turn c e s x = Ok (y, stop) ->
  exists b, labels (s_trace y) = labels (s_trace x) ++ (if b : bool then [s_next x] else [])
  /\ s_t y = t_after x b (s_dt y) /\ s_next y = next_after c x b
  /\ s_hist y = s_dt y :: s_hist x
  /\ stop = Qle_bool (c_tEnd c) (s_t y)
  /\ 0 < wished c (s_hist x) e
  /\ exists d1 count, meet (s_t x) (s_next x) (wished c (s_hist x) e) = (b, d1)
     /\ ppstep c e (s_dt x) d1 (s_count x) = Ok (s_dt y, count).
Proof.
  intros c e s x y stop H. apply turn_inv in H.
  destruct H as (b & d1 & d & count & oL & oD & oA & oR & Hw & Hm & Hp & Ht & Hn & Hd & Hh & Hc & Hav & HL & HD & HA & HR & Htr & Hs).
  apply logs_plain in HL. apply outputs_plain in HD. apply outputs_plain in HA. apply outputs_plain in HR.
  exists b. rewrite Hd. split; [|repeat split; eauto].
  rewrite Htr, labels_app. f_equal.
  change (Advance s d (s_t y) :: oL ++ oD ++ oA ++ oR ++ (if b then [OutTime s (s_next x) (s_t y) (e_flow e)] else []))
    with ([Advance s d (s_t y)] ++ oL ++ oD ++ oA ++ oR ++ (if b then [OutTime s (s_next x) (s_t y) (e_flow e)] else [])).
  rewrite !labels_app, (plain_labels _ HL), (plain_labels _ HD), (plain_labels _ HA), (plain_labels _ HR).
  destruct b; reflexivity.
Qed.

Lemma last_snoc : forall (l : list Q) a d, last (l ++ [a]) d = a.
Proof. intros. apply last_last. Qed.

Lemma Time_start : forall c e ir fl, 0 < c_tEnd c -> 0 < c_tOut c -> 0 < c_dt c -> Time c e 0 (start c ir fl) false.
Proof.
  intros c e ir fl He Ho Hd.
  assert (A : advances (s_trace (start c ir fl)) = []) by (unfold start; cbn; destruct (c_atInit c); reflexivity).
  assert (B : labels (s_trace (start c ir fl)) = []) by (unfold start; cbn; destruct (c_atInit c); reflexivity).
  constructor; unfold lengths, times; rewrite ?A, ?B; cbn [start s_t s_next s_hist s_dt map rev last steps seq qsum];
    try solve [constructor | assumption | reflexivity | lra].
  - exists O. cbn [touts seq map]. 
    pose proof (tout_0 c He) as T0. pose proof (tout_step c 0 Ho ltac:(lra)) as T1.
    split; [constructor|].
    split. { unfold tout. assert (qn 1 * c_tOut c == c_tOut c) by (change (qn 1) with 1; ring).
      destruct (qmin_spec (c_tOut c) (c_tEnd c)) as [[-> ?]|[-> ?]],
        (qmin_spec (qn 1 * c_tOut c) (c_tEnd c)) as [[-> ?]|[-> ?]]; lra. }
    split; [intros; lia|]. split; [lra|]. split; [intros _; lra|]. split; [discriminate|].
    intros. change (qn 0) with 0. lra.
Qed.

Lemma Time_turn : forall c e m x y b,
  0 < c_tEnd c -> 0 < c_tOut c -> 0 < c_inc c -> flowing e ->
  Time c e m x false -> turn c (e (Z.of_nat m + 1)%Z) (Z.of_nat m + 1)%Z x = Ok (y, b) ->
  Time c e (S m) y b.
Proof.
  intros c e m x y b He Ho Hi Hf Hx H.
  pose proof (turn_trace _ _ _ _ _ _ H) as Ha.
  apply turn_labels in H. destruct H as (o & Hl & Ht & Hn & Hh & Hb & Hw & d1 & count & Hm & Hp).
  destruct Hx as [Xp Xd Xh Xs Xl Xo Xr Xn [Xq1 Xq2] (k & K1 & K2 & K3 & K4 & K5 & _ & K7)].
  specialize (K5 eq_refl).
  assert (Tk : tout c k < c_tEnd c) by (pose proof (tout_end c (S k)); lra).
  apply meet_spec in Hm; [|exact Hw|lra]. destruct Hm as (D1 & D2 & D3).
  destruct (Hf (Z.of_nat m + 1)%Z) as (_ & _ & Hv).
  pose proof (ppstep_ok _ _ _ _ _ Xd D1 Hi Hv _ _ Hp) as (P1 & P2 & P3).
  assert (Tlt : s_t x < s_t y /\ s_t x + s_dt y <= s_t y /\ (c_pp c = false -> s_t x + s_dt y == s_t y)).
  { rewrite Ht. destruct D3 as [[-> D3]|[-> [D3 D4]]]; cbn [t_after].
    - split; [lra|]. split; [lra|]. intro C. specialize (P3 C). rewrite P3. lra.
    - split; [lra|]. split; [lra|]. intros _. lra. }
  destruct Tlt as (T1 & T2 & T3).
  assert (Hlen : lengths (s_trace y) = lengths (s_trace x) ++ [s_dt y])
    by (unfold lengths; rewrite Ha, map_app; reflexivity).
  assert (Htim : times (s_trace y) = times (s_trace x) ++ [s_t y])
    by (unfold times; rewrite Ha, map_app; reflexivity).
  constructor.
  - rewrite Hh. constructor; assumption.
  - exact P1.
  - rewrite Hh, Hlen, rev_app_distr, Xh. reflexivity.
  - rewrite Ha, map_app, Xs, steps_S. reflexivity.
  - rewrite Htim, last_snoc. reflexivity.
  - rewrite Htim. apply sorted_snoc; [exact Xo|].
    eapply Forall_impl; [|exact Xr]. cbn. intros a [_ A]. lra.
  - rewrite Htim. apply Forall_app. split; [|repeat constructor; lra].
    eapply Forall_impl; [|exact Xr]. cbn. intros a [A1 A2]. split; lra.
  - lra.
  - rewrite Hlen. pose proof (qsum_app (lengths (s_trace x)) [s_dt y]) as Q1. cbn [qsum] in Q1.
    split; [lra|]. intro C. specialize (T3 C). specialize (Xq2 C). lra.
  - rewrite Ht in *. destruct D3 as [[-> D3]|[-> [D3 D4]]]; cbn [t_after] in *.
    + exists (S k). rewrite Hl, touts_S.
      split; [apply Forall2_app1; assumption|].
      split; [rewrite Hn; apply next_tout; assumption|].
      split. { intros j Hj. assert (tout c j <= tout c k) by (apply tout_mono; [exact Ho | lia]). lra. }
      split; [lra|].
      pose proof (tout_end c (S k)) as TE.
      split. { intros ->. destruct (qle_cases (c_tEnd c) (s_next x)) as [[E L]|[E L]]; [congruence|].
        pose proof (tout_step c (S k) Ho ltac:(lra)). lra. }
      split. { intros ->. destruct (qle_cases (c_tEnd c) (s_next x)) as [[E L]|[E L]]; [|congruence]. split; lra. }
      intros dm Hdm Hall C. pose proof (K7 dm Hdm Hall C) as W. pose proof (qn_S m). pose proof (qn_S k).
      assert (qn (S m) - qn (S k) == qn m - qn k) by lra. rewrite H1. lra.
    + exists k. rewrite Hl, app_nil_r, Hn. cbn [next_after].
      repeat (split; [first [assumption | lra]|]).
      assert (LT : s_t x + s_dt y < s_next x).
      { rewrite D3 in P2. lra. }
      split; [intros _; lra|].
      split. { intros ->. destruct (qle_cases (c_tEnd c) (s_t x + s_dt y)) as [[E L]|[E L]]; [|congruence].
        pose proof (tout_end c (S k)). lra. }
      intros dm Hdm Hall C. pose proof (K7 dm Hdm Hall C) as W. pose proof (qn_S m).
      specialize (P3 C). rewrite P3, D3.
      pose proof (Hall (Z.of_nat m + 1)%Z (s_hist x)). 
      assert ((qn (S m) - qn k) * dm == (qn m - qn k) * dm + dm) by (rewrite H; ring). lra.
Qed.

Lemma Time_run : forall c e ir fl y, sane c -> flowing e -> run c e ir fl = Ok y ->
  exists m b, (m <= Z.to_nat (c_nStep c))%nat /\ Time c e m y b /\ (b = false -> m = Z.to_nat (c_nStep c)).
Proof.
  intros c e ir fl y Hc Hf H. apply run_loop in H; [|apply Hc].
  apply (loop_inv c e (Z.to_nat (c_nStep c)) (Time c e)) in H; [exact H | |].
  - apply Time_start; apply Hc.
  - intros m x z b Hx _ Ht. eapply Time_turn; try apply Hc; eauto.
Qed.
