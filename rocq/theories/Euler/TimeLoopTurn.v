(** One turn of the time loop taken apart, and induction over the turns. *)

From Coq Require Import List ZArith Bool QArith Lqa Lia Sorted.
From Verif Require Import Base.Prelude Base.PreludeFacts Euler.TimeLoopModel Euler.TimeLoopSpec Euler.TimeLoopQ.
Import ListNotations.
Local Open Scope Q_scope.

(** The time after a turn and the output time in view. *)
Definition t_after (x : st) (b : bool) (d : Q) : Q := if b then s_next x else s_t x + d.
Definition next_after (c : config) (x : st) (b : bool) : Q :=
  if b then (if Qle_bool (c_tEnd c) (s_next x + c_tOut c) then c_tEnd c else s_next x + c_tOut c)
  else s_next x.

Lemma turn_inv : forall c e s x y stop, turn c e s x = Ok (y, stop) ->
  exists b d1 d count oL oD oA oR,
    0 < wished c (s_hist x) e
    /\ meet (s_t x) (s_next x) (wished c (s_hist x) e) = (b, d1)
    /\ ppstep c e (s_dt x) d1 (s_count x) = Ok (d, count)
    /\ s_t y = t_after x b d /\ s_next y = next_after c x b
    /\ s_dt y = d /\ s_hist y = d :: s_hist x /\ s_count y = count
    /\ (s_w y, s_tAvg y) = (if c_avg c then average (c_tiny c) (e_flow e) (s_w x) d (s_tAvg x) else (s_w x, s_tAvg x))
    /\ logs (c_nLog c) s (s_t y) = Ok oL
    /\ outputs DataC Data (c_lazy c) true (c_nOutC c) (c_nOut c) (s_outC x) (s_out x) s (s_t y) (e_flow e)
       = Ok (oD, s_outC y, s_out y)
    /\ outputs AvgC Avg (c_lazy c) (c_avg c) (c_nAvgC c) (c_nAvg c) (s_avgC x) (s_avg x) s (s_t y) (s_w y)
       = Ok (oA, s_avgC y, s_avg y)
    /\ outputs RstC Rst (c_lazy c) true (c_nRstC c) (c_nRst c) (s_rstC x) (s_rst x) s (s_t y) (e_flow e)
       = Ok (oR, s_rstC y, s_rst y)
    /\ s_trace y = s_trace x ++ Advance s d (s_t y) :: oL ++ oD ++ oA ++ oR
                     ++ (if b then [OutTime s (s_next x) (s_t y) (e_flow e)] else [])
    /\ stop = Qle_bool (c_tEnd c) (s_t y).
Proof.
  intros c e s x y stop H. unfold turn in H. cbv zeta in H.
  apply bind_Ok in H. destruct H as [u [Hpos H]].
  apply assert_Ok in Hpos.
  destruct (meet (s_t x) (s_next x) (wished c (s_hist x) e)) as [b d1] eqn:Hm.
  apply bind_Ok in H. destruct H as [[d count] [Hp H]]. 
  destruct (if c_avg c then _ else _) as [w tA] eqn:Hw.
  apply bind_Ok in H. destruct H as [oL [HL H]].
  apply bind_Ok in H. destruct H as [[[oD nC] n] [HD H]].
  apply bind_Ok in H. destruct H as [[[oA nAC] nA] [HA H]].
  apply bind_Ok in H. destruct H as [[[oR nRC] nR] [HR H]].
  cbn [fst snd] in H. 
  injection H as <- <-. cbn [s_t s_next s_dt s_hist s_count s_w s_tAvg s_out s_outC s_avg s_avgC s_rst s_rstC s_trace].
  exists b, d1, d, count, oL, oD, oA, oR. cbn [fst snd].
  repeat match goal with |- _ /\ _ => split end; try reflexivity; try assumption.
  - destruct (qlt_cases 0 (wished c (s_hist x) e)) as [[_ L]|[E _]]; [exact L | congruence].
  - symmetry. exact Hw.
Qed.

(** Induction over the turns: [P m x false] holds after [m] turns that do not
    end the run, [P m x true] after the one that does. *)
Lemma loop_inv_gen : forall c e (N : nat) (P : nat -> st -> bool -> Prop),
  (forall m x y b, P m x false -> (m < N)%nat ->
     turn c (e (Z.of_nat m + 1)%Z) (Z.of_nat m + 1)%Z x = Ok (y, b) -> P (S m) y b) ->
  forall n m x y, (m + n = N)%nat -> P m x false ->
  loop c e n (Z.of_nat m + 1) x = Ok y ->
  exists k b, (k <= N)%nat /\ P k y b /\ (b = false -> k = N).
Proof.
  intros c e N P Hstep. induction n as [|n IH]; intros m x y Hmn HP H; cbn [loop] in H.
  - injection H as <-. exists m, false. split; [lia|]. split; [exact HP|]. intros _. lia.
  - apply bind_Ok in H. destruct H as [[z b] [Ht H]]. cbn [fst snd] in H.
    assert (HP' : P (S m) z b) by (apply (Hstep m x z b HP); [lia | exact Ht]).
    destruct b.
    + injection H as <-. exists (S m), true. split; [lia|]. split; [exact HP'|]. discriminate.
    + apply (IH (S m) z y); [lia | exact HP' |].
      replace (Z.of_nat (S m) + 1)%Z with (Z.of_nat m + 1 + 1)%Z by lia. exact H.
Qed.

Lemma loop_inv : forall c e (N : nat) (P : nat -> st -> bool -> Prop) x0 y,
  P O x0 false ->
  (forall m x y b, P m x false -> (m < N)%nat ->
     turn c (e (Z.of_nat m + 1)%Z) (Z.of_nat m + 1)%Z x = Ok (y, b) -> P (S m) y b) ->
  loop c e N 1 x0 = Ok y ->
  exists k b, (k <= N)%nat /\ P k y b /\ (b = false -> k = N).
Proof.
  intros c e N P x0 y H0 Hs H. apply (loop_inv_gen c e N P Hs N O x0 y); auto.
Qed.

Lemma run_loop : forall c e ir fl y, c_steady c = false -> run c e ir fl = Ok y ->
  loop c e (Z.to_nat (c_nStep c)) 1 (start c ir fl) = Ok y.
Proof.
  intros c e ir fl y Hs H. unfold run in H. apply bind_Ok in H. destruct H as [c' [Hi H]].
  unfold initialize in Hi. assert (E : settle c = c) by (unfold settle; rewrite Hs; reflexivity).
  rewrite E in Hi. cbv zeta in Hi.
  apply bind_Ok in Hi. destruct Hi as [? [_ Hi]].
  apply bind_Ok in Hi. destruct Hi as [? [_ Hi]]. injection Hi as <-. exact H.
Qed.

(** What the readers of the trace see of the files. *)
Lemma logs_form : forall n s t l, logs n s t = Ok l -> l = (if (Z.rem s n =? 0)%Z then [Log s t] else []) /\ n <> 0%Z.
Proof.
  intros n s t l H. unfold logs in H. destruct (Z.eqb_spec n 0); [discriminate|]. injection H as <-. auto.
Qed.

Lemma addInt_sum : forall a b z, addInt a b = Ok z -> z = (a + b)%Z.
Proof. intros a b z H. unfold addInt in H. destruct (_ && _); [congruence | discriminate]. Qed.

Lemma outputs_form : forall kC k lazy al nC n nextC next s t v l nextC' next',
  outputs kC k lazy al nC n nextC next s t v = Ok (l, nextC', next') ->
  l = (if (s =? nextC)%Z then (if lazy && (s =? next)%Z then [] else [Out kC s t v]) else [])
      ++ (if (s =? next)%Z then [Out k s t v] else [])
  /\ nextC' = (if (s =? nextC)%Z then nextC + nC else nextC)%Z
  /\ next' = (if (s =? next)%Z then next + n else next)%Z
  /\ (l <> [] -> al = true).
Proof.
  intros kC k lazy al nC n nextC next s t v l nextC' next' H. unfold outputs in H.
  apply bind_Ok in H. destruct H as [[la na] [Ha H]].
  apply bind_Ok in H. destruct H as [[lb nb] [Hb H]]. injection H as <- <- <-.
  pose proof addInt_sum as A.
  cbn [fst snd].
  assert (Fa : la = (if (s =? nextC)%Z then (if lazy && (s =? next)%Z then [] else [Out kC s t v]) else [])
               /\ na = (if (s =? nextC)%Z then nextC + nC else nextC)%Z /\ (la <> [] -> al = true)).
  { destruct (s =? nextC)%Z.
    - apply bind_Ok in Ha. destruct Ha as [ev [He Ha]].
      apply bind_Ok in Ha. destruct Ha as [z [Hz Ha]]. injection Ha as <- <-. apply A in Hz.
      destruct (lazy && (s =? next)%Z).
      + injection He as <-. repeat split; auto; intro Hn; congruence.
      + apply bind_Ok in He. destruct He as [u [Hu He]]. apply assert_Ok in Hu. injection He as <-. auto.
    - injection Ha as <- <-. repeat split; auto; intro Hn; congruence. }
  assert (Fb : lb = (if (s =? next)%Z then [Out k s t v] else [])
               /\ nb = (if (s =? next)%Z then next + n else next)%Z /\ (lb <> [] -> al = true)).
  { destruct (s =? next)%Z.
    - apply bind_Ok in Hb. destruct Hb as [u [Hu Hb]]. apply assert_Ok in Hu.
      apply bind_Ok in Hb. destruct Hb as [z [Hz Hb]]. injection Hb as <- <-. apply A in Hz. auto.
    - injection Hb as <- <-. repeat split; auto; intro Hn; congruence. }
  destruct Fa as [F1 [F2 F3]], Fb as [G1 [G2 G3]]. rewrite <- F1, <- F2, <- G1, <- G2.
  repeat split; auto. intro Hn. destruct la; [apply G3; exact Hn | apply F3; discriminate].
Qed.

(** Files hold no steps and no labels. *)
Definition plain (ev : event) : Prop :=
  match ev with Log _ _ | Out _ _ _ _ => True | _ => False end.

Lemma outputs_plain : forall kC k lazy al nC n nextC next s t v l nextC' next',
  outputs kC k lazy al nC n nextC next s t v = Ok (l, nextC', next') -> Forall plain l.
Proof.
  intros. apply outputs_form in H. destruct H as [-> _].
  apply Forall_app. split; repeat match goal with |- context [if ?b then _ else _] => destruct b end; repeat constructor.
Qed.

Lemma logs_plain : forall n s t l, logs n s t = Ok l -> Forall plain l.
Proof.
  intros n s t l H. apply logs_form in H. destruct H as [-> _]. destruct (_ =? 0)%Z; repeat constructor.
Qed.

Lemma plain_adv : forall l, Forall plain l -> advances l = [].
Proof. induction 1 as [|ev l He Hl IH]; [reflexivity|]. destruct ev; cbn in *; try contradiction; exact IH. Qed.
Lemma plain_labels : forall l, Forall plain l -> labels l = [].
Proof. induction 1 as [|ev l He Hl IH]; [reflexivity|]. destruct ev; cbn in *; try contradiction; exact IH. Qed.

Lemma advances_app : forall a b, advances (a ++ b) = advances a ++ advances b.
Proof. intros. apply flat_map_app. Qed.
Lemma labels_app : forall a b, labels (a ++ b) = labels a ++ labels b.
Proof. intros. apply flat_map_app. Qed.
Lemma written_app : forall k a b, written k (a ++ b) = written k a ++ written k b.
Proof. intros. apply flat_map_app. Qed.
Lemma logged_app : forall a b, logged (a ++ b) = logged a ++ logged b.
Proof. intros. apply flat_map_app. Qed.

(** The turn seen through the trace. *)
Lemma turn_trace : forall c e s x y stop, turn c e s x = Ok (y, stop) ->
  advances (s_trace y) = advances (s_trace x) ++ [(s, s_dt y, s_t y)].
Proof.
  intros c e s x y stop H. apply turn_inv in H.
  destruct H as (b & d1 & d & count & oL & oD & oA & oR & Hw & Hm & Hp & Ht & Hn & Hd & Hh & Hc & Hav & HL & HD & HA & HR & Htr & Hs).
  apply logs_plain in HL. apply outputs_plain in HD. apply outputs_plain in HA. apply outputs_plain in HR.
  rewrite Htr, advances_app. f_equal.
  change (Advance s d (s_t y) :: oL ++ oD ++ oA ++ oR ++ (if b then [OutTime s (s_next x) (s_t y) (e_flow e)] else []))
    with ([Advance s d (s_t y)] ++ oL ++ oD ++ oA ++ oR ++ (if b then [OutTime s (s_next x) (s_t y) (e_flow e)] else [])).
  rewrite !advances_app, (plain_adv _ HL), (plain_adv _ HD), (plain_adv _ HA), (plain_adv _ HR), Hd.
  destruct b; reflexivity.
Qed.
