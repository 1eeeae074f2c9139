(** The numbered files, the log, and what the files hold. *)

From Coq Require Import List ZArith Bool QArith Lqa Lia Sorted.
From Verif Require Import Base.Prelude Base.PreludeFacts Euler.TimeLoopModel Euler.TimeLoopSpec Euler.TimeLoopQ Euler.TimeLoopTurn Euler.TimeLoopTime.
Import ListNotations.
Local Open Scope Z_scope.

(** The next step at which a file is due, after [m] steps. *)
Definition nextAt (n m : Z) : Z := if 0 <? n then (m / n + 1) * n else n.

Lemma nextAt_0 : forall n, nextAt n 0 = n.
Proof. intros n. unfold nextAt. destruct (Z.ltb_spec 0 n); [rewrite Z.div_0_l by lia; lia | reflexivity]. Qed.

Lemma nextAt_eq : forall n m, 0 <= m -> (m + 1 =? nextAt n m) = every n (m + 1).
Proof.
  intros n m Hm. unfold nextAt, every. destruct (Z.ltb_spec 0 n) as [H|H]; cbn [andb].
  - pose proof (Z.div_mod m n ltac:(lia)) as D. pose proof (Z.mod_pos_bound m n H) as B.
    destruct (Z.eq_dec (m mod n) (n - 1)) as [E|E].
    + assert (E1 : (m + 1) mod n = 0).
      { replace (m + 1) with ((m / n + 1) * n) by lia. apply Z.mod_mul. lia. }
      rewrite E1. rewrite Z.eqb_refl. apply Z.eqb_eq. lia.
    + assert (E1 : (m + 1) mod n = m mod n + 1).
      { symmetry. apply (Z.mod_unique_pos _ _ (m / n)); lia. }
      rewrite E1. destruct (Z.eqb_spec (m + 1) ((m / n + 1) * n)) as [F|F]; destruct (Z.eqb_spec (m mod n + 1) 0); lia || reflexivity.
  - apply Z.eqb_neq. lia.
Qed.

Lemma nextAt_S : forall n m, 0 <= m ->
  (if m + 1 =? nextAt n m then nextAt n m + n else nextAt n m) = nextAt n (m + 1).
Proof.
  intros n m Hm. unfold nextAt. destruct (Z.ltb_spec 0 n) as [H|H].
  - pose proof (Z.div_mod m n ltac:(lia)) as D. pose proof (Z.mod_pos_bound m n H) as B.
    destruct (Z.eqb_spec (m + 1) ((m / n + 1) * n)) as [E|E].
    + rewrite E, Z.div_mul by lia. lia.
    + assert (F : m mod n <> n - 1) by (intro F; apply E; lia).
      assert (G : (m + 1) / n = m / n).
      { symmetry. apply (Z.div_unique_pos _ _ _ (m mod n + 1)); lia. }
      rewrite G. reflexivity.
  - destruct (Z.eqb_spec (m + 1) n); lia.
Qed.

Lemma filter_steps_S : forall f m,
  filter f (steps (S m)) = filter f (steps m) ++ (if f (Z.of_nat m + 1) then [Z.of_nat m + 1] else []).
Proof.
  intros f m. rewrite steps_S. rewrite filter_app. cbn [filter]. reflexivity.
Qed.

Lemma rem_every : forall n s, n <> 0 -> 0 <= s -> (Z.rem s n =? 0) = every (Z.abs n) s.
Proof.
  intros n s Hn Hs. unfold every. assert (H : 0 < Z.abs n) by lia. apply Z.ltb_lt in H. rewrite H. cbn [andb].
  rewrite <- Z.rem_abs_r by exact Hn. rewrite Z.rem_mod_nonneg by lia. reflexivity.
Qed.

(** Which kind a numbered file has. *)
Definition isC (k : kind) : bool := match k with DataC | AvgC | RstC => true | _ => false end.

Lemma written_plain1 : forall k kC k' s t v (a b : bool),
  kind_eqb kC k' = false ->
  written k ((if a then [Out kC s t v] else []) ++ (if b then [Out k' s t v] else []))
  = if kind_eqb k kC then (if a then [s] else []) else if kind_eqb k k' then (if b then [s] else []) else [].
Proof.
  intros k kC k' s t v a b H. destruct a, b; cbn; destruct k, kC, k'; cbn in *; try discriminate; reflexivity.
Qed.

Record Files (c : config) (m : nat) (x : st) : Prop := {
  fi_out : s_out x = nextAt (c_nOut c) (Z.of_nat m);
  fi_outC : s_outC x = nextAt (c_nOutC c) (Z.of_nat m);
  fi_avg : s_avg x = nextAt (c_nAvg c) (Z.of_nat m);
  fi_avgC : s_avgC x = nextAt (c_nAvgC c) (Z.of_nat m);
  fi_rst : s_rst x = nextAt (c_nRst c) (Z.of_nat m);
  fi_rstC : s_rstC x = nextAt (c_nRstC c) (Z.of_nat m);
  fi_wout : written Data (s_trace x) = filter (every (c_nOut c)) (steps m);
  fi_woutC : written DataC (s_trace x)
             = filter (fun s => every (c_nOutC c) s && negb (c_lazy c && every (c_nOut c) s)) (steps m);
  fi_wavg : written Avg (s_trace x) = filter (every (c_nAvg c)) (steps m);
  fi_wavgC : written AvgC (s_trace x)
             = filter (fun s => every (c_nAvgC c) s && negb (c_lazy c && every (c_nAvg c) s)) (steps m);
  fi_wrst : written Rst (s_trace x) = filter (every (c_nRst c)) (steps m);
  fi_wrstC : written RstC (s_trace x)
             = filter (fun s => every (c_nRstC c) s && negb (c_lazy c && every (c_nRst c) s)) (steps m);
  fi_log : logged (s_trace x) = filter (every (Z.abs (c_nLog c))) (steps m)
}.

Lemma outputs_written : forall kC k lazy al nC n m t v l nextC' next',
  kind_eqb kC k = false ->
  outputs kC k lazy al nC n (nextAt nC (Z.of_nat m)) (nextAt n (Z.of_nat m)) (Z.of_nat m + 1) t v = Ok (l, nextC', next') ->
  nextC' = nextAt nC (Z.of_nat (S m)) /\ next' = nextAt n (Z.of_nat (S m))
  /\ logged l = []
  /\ forall q, written q l =
       if kind_eqb q kC then (if every nC (Z.of_nat m + 1) && negb (lazy && every n (Z.of_nat m + 1)) then [Z.of_nat m + 1] else [])
       else if kind_eqb q k then (if every n (Z.of_nat m + 1) then [Z.of_nat m + 1] else []) else [].
Proof.
  intros kC k lazy al nC n m t v l nextC' next' Hk H.
  apply outputs_form in H. destruct H as (Hl & HC & Hn & _).
  rewrite nextAt_S in HC by lia. rewrite nextAt_S in Hn by lia.
  replace (Z.of_nat (S m)) with (Z.of_nat m + 1) by lia.
  rewrite !nextAt_eq in Hl by lia.
  split; [exact HC|]. split; [exact Hn|].
  assert (E : l = (if every nC (Z.of_nat m + 1) && negb (lazy && every n (Z.of_nat m + 1)) then [Out kC (Z.of_nat m + 1) t v] else [])
                  ++ (if every n (Z.of_nat m + 1) then [Out k (Z.of_nat m + 1) t v] else [])).
  { rewrite Hl. destruct (every nC _), (lazy && _); reflexivity. }
  rewrite E. split.
  - rewrite logged_app. destruct (_ && negb _), (every n _); reflexivity.
  - intro q. apply written_plain1. exact Hk.
Qed.

Lemma Files_start : forall c ir fl, Files c 0 (start c ir fl).
Proof.
  intros c ir fl. constructor; cbn [start s_out s_outC s_avg s_avgC s_rst s_rstC s_trace];
    rewrite ?nextAt_0; try reflexivity; destruct (c_atInit c); reflexivity.
Qed.

Lemma Files_turn : forall c e m x y b, Files c m x ->
  turn c e (Z.of_nat m + 1) x = Ok (y, b) -> Files c (S m) y.
Proof.
  intros c e m x y b Hx H. apply turn_inv in H.
  destruct H as (o & d1 & d & count & oL & oD & oA & oR & Hw & Hm & Hp & Ht & Hn & Hd & Hh & Hc & Hav & HL & HD & HA & HR & Htr & Hs).
  destruct Hx as [X1 X2 X3 X4 X5 X6 Y1 Y2 Y3 Y4 Y5 Y6 Z1].
  rewrite X1, X2 in HD. rewrite X3, X4 in HA. rewrite X5, X6 in HR.
  apply outputs_written in HD; [|reflexivity]. apply outputs_written in HA; [|reflexivity]. apply outputs_written in HR; [|reflexivity].
  destruct HD as (D1 & D2 & D3 & D4), HA as (A1 & A2 & A3 & A4), HR as (R1 & R2 & R3 & R4).
  apply logs_form in HL. destruct HL as [HL Hn0].
  assert (WL : forall q, written q oL = []) by (intro q; rewrite HL; destruct (_ =? 0); reflexivity).
  set (tl := if o then _ else _) in Htr.
  assert (WT : forall q, written q tl = []) by (intro q; unfold tl; destruct o; reflexivity).
  assert (LT : logged tl = []) by (unfold tl; destruct o; reflexivity).
  assert (W : forall q, written q (s_trace y) = written q (s_trace x) ++ written q oD ++ written q oA ++ written q oR).
  { intro q. rewrite Htr, written_app. f_equal.
    change (Advance (Z.of_nat m + 1) d (s_t y) :: oL ++ oD ++ oA ++ oR ++ tl)
      with ([Advance (Z.of_nat m + 1) d (s_t y)] ++ oL ++ oD ++ oA ++ oR ++ tl).
    rewrite !written_app, WL, WT, app_nil_r. reflexivity. }
  constructor; try assumption.
  1-6: rewrite W, filter_steps_S, D4, A4, R4; cbn [kind_eqb]; rewrite ?app_nil_r; cbn [app]; f_equal; assumption.
  rewrite Htr, filter_steps_S, <- Z1, logged_app. f_equal.
  change (Advance (Z.of_nat m + 1) d (s_t y) :: oL ++ oD ++ oA ++ oR ++ tl)
      with ([Advance (Z.of_nat m + 1) d (s_t y)] ++ oL ++ oD ++ oA ++ oR ++ tl).
  rewrite !logged_app, D3, A3, R3, LT, app_nil_r. cbn [app logged flat_map].
  rewrite HL, rem_every by lia. destruct (every (Z.abs (c_nLog c)) _); reflexivity.
Qed.

Lemma Files_run : forall c e ir fl y, c_steady c = false -> run c e ir fl = Ok y ->
  Files c (length (advances (s_trace y))) y.
Proof.
  intros c e ir fl y Hc H. apply run_loop in H; [|exact Hc].
  apply (loop_inv c e (Z.to_nat (c_nStep c)) (fun m x _ => Files c m x /\ length (advances (s_trace x)) = m)) in H.
  - destruct H as (k & b & _ & [H1 H2] & _). rewrite H2. exact H1.
  - split; [apply Files_start|]. cbn. destruct (c_atInit c); reflexivity.
  - intros m x z b [H1 H2] _ Ht. split; [eapply Files_turn; eassumption|].
    apply turn_trace in Ht. rewrite Ht, app_length, H2. cbn. lia.
Qed.

(** ** What the files hold *)

Local Open Scope Q_scope.

Lemma wsum_snoc : forall tiny f l s d,
  wsum tiny f s (l ++ [d]) == wsum tiny f s l + (d + tiny) * f (s + Z.of_nat (length l))%Z.
Proof.
  induction l as [|a l IH]; intros s d; cbn [app wsum length].
  - rewrite Z.add_0_r. ring.
  - rewrite IH. replace (s + 1 + Z.of_nat (length l))%Z with (s + Z.of_nat (S (length l)))%Z by lia. ring.
Qed.

Record Held (c : config) (e : Z -> env) (fl : Q) (m : nat) (x : st) : Prop := {
  he_len : length (advances (s_trace x)) = m;
  he_pos : Forall (fun d => 0 < d) (lengths (s_trace x));
  he_nonneg : 0 <= s_tAvg x;
  he_tAvg : c_avg c = true -> s_tAvg x == wsum (c_tiny c) (fun _ => 1) 1 (lengths (s_trace x));
  he_w : c_avg c = true -> s_w x * s_tAvg x == wsum (c_tiny c) (fun i => e_flow (e i)) 1 (lengths (s_trace x));
  he_stamped : stamped (s_trace x);
  he_holds : Forall (holds c e fl (lengths (s_trace x))) (s_trace x);
  he_steps : forall ev, In ev (s_trace x) ->
     match ev with Out _ s _ _ | Log s _ | OutTime s _ _ _ => (1 <= s <= Z.of_nat m)%Z | _ => True end
}.

Lemma lengths_length : forall tr, length (lengths tr) = length (advances tr).
Proof. intros. unfold lengths. apply map_length. Qed.

Lemma outputs_in : forall kC k lazy al nC n nextC next s t v l nextC' next',
  outputs kC k lazy al nC n nextC next s t v = Ok (l, nextC', next') ->
  forall ev, In ev l -> (ev = Out kC s t v \/ ev = Out k s t v) /\ al = true.
Proof.
  intros. apply outputs_form in H. destruct H as (Hl & _ & _ & Ha). split.
  - rewrite Hl in H0. apply in_app_or in H0. destruct H0 as [H0|H0].
    + destruct (s =? nextC)%Z; [|contradiction]. destruct (_ && _); [contradiction|]. destruct H0 as [<-|[]]. auto.
    + destruct (s =? next)%Z; [|contradiction]. destruct H0 as [<-|[]]. auto.
  - apply Ha. intro E. rewrite E in H0. contradiction.
Qed.

Lemma Held_start : forall c e ir fl, Held c e fl 0 (start c ir fl).
Proof.
  intros c e ir fl.
  assert (A : advances (s_trace (start c ir fl)) = []) by (unfold start; cbn; destruct (c_atInit c); reflexivity).
  constructor.
  - rewrite A. reflexivity.
  - unfold lengths. rewrite A. constructor.
  - cbn. lra.
  - intros _. unfold lengths. rewrite A. cbn. lra.
  - intros _. unfold lengths. rewrite A. cbn. lra.
  - unfold stamped, start. cbn. destruct (c_atInit c); cbn; [|contradiction]. intros ev [<-|[]]. exact I.
  - cbn. destruct (c_atInit c); repeat constructor.
  - cbn. destruct (c_atInit c); cbn; [|contradiction]. intros ev [<-|[]]. exact I.
Qed.

Lemma average_spec : forall tiny f w d t A B, 0 < tiny -> 0 < d -> 0 <= t ->
  w * t == A -> t == B ->
  let '(w', t') := average tiny f w d t in
  w' * t' == A + (d + tiny) * f /\ t' == B + (d + tiny) * 1 /\ 0 < t'.
Proof.
  intros tiny f w d t A B Ht Hd H0 HA HB. unfold average.
  assert (P : ~ t + d + tiny == 0) by lra.
  split; [|split; [lra|lra]].
  setoid_replace (t + (d + tiny)) with (t + d + tiny) by ring.
  rewrite <- HA. field. exact P.
Qed.

Lemma firstn_keep : forall (A : Type) (l : list A) a s, (s <= length l)%nat -> firstn s (l ++ [a]) = firstn s l.
Proof. intros A l a s H. rewrite firstn_app. replace (s - length l)%nat with O by lia. cbn. apply app_nil_r. Qed.

Lemma Held_turn : forall c e fl m x y b,
  0 < c_tiny c -> 0 < s_dt y ->
  Held c e fl m x -> turn c (e (Z.of_nat m + 1)%Z) (Z.of_nat m + 1)%Z x = Ok (y, b) -> Held c e fl (S m) y.
Proof.
  intros c e fl m x y b Ht0 Hdy [L P N0 TA W ST HO SS] H.
  pose proof (turn_trace _ _ _ _ _ _ H) as Ha.
  apply turn_inv in H.
  destruct H as (o & d1 & d & count & oL & oD & oA & oR & Hw & Hm & Hp & Ht & Hn & Hd & Hh & Hc & Hav & HL & HD & HA & HR & Htr & Hs).
  set (s := (Z.of_nat m + 1)%Z) in *.
  assert (Hlen : lengths (s_trace y) = lengths (s_trace x) ++ [s_dt y])
    by (unfold lengths; rewrite Ha, map_app; reflexivity).
  assert (LL : length (lengths (s_trace x)) = m) by (rewrite lengths_length; exact L).
  subst d.
  assert (AV : c_avg c = true ->
            s_w y * s_tAvg y == wsum (c_tiny c) (fun i => e_flow (e i)) 1 (lengths (s_trace y))
            /\ s_tAvg y == wsum (c_tiny c) (fun _ => 1) 1 (lengths (s_trace y))
            /\ 0 < s_tAvg y).
  { intro C. rewrite C in Hav.
    pose proof (average_spec (c_tiny c) (e_flow (e s)) (s_w x) (s_dt y) (s_tAvg x) _ _ Ht0 Hdy N0 (W C) (TA C)) as AS.
    rewrite <- Hav in AS. destruct AS as (AS1 & AS2 & AS3).
    rewrite Hlen, !wsum_snoc, LL. replace (1 + Z.of_nat m)%Z with s by (unfold s; lia). repeat split; assumption. }
  set (tl := if o then _ else _) in Htr.
  assert (New : forall ev, In ev (oL ++ oD ++ oA ++ oR ++ tl) ->
            match ev with
            | AtInit _ | Advance _ _ _ => False
            | Log s' t | Out _ s' t _ | OutTime s' _ t _ => s' = s /\ t = s_t y
            end /\ holds c e fl (lengths (s_trace y)) ev).
  { intros ev Hin. apply in_app_or in Hin. destruct Hin as [Hin|Hin].
    { apply logs_form in HL. destruct HL as [-> _]. destruct (_ =? 0)%Z; [|contradiction].
      destruct Hin as [<-|[]]. cbn. auto. }
    apply in_app_or in Hin. destruct Hin as [Hin|Hin].
    { destruct (outputs_in _ _ _ _ _ _ _ _ _ _ _ _ _ _ HD _ Hin) as [[-> | ->] _]; cbn; auto. }
    apply in_app_or in Hin. destruct Hin as [Hin|Hin].
    { destruct (outputs_in _ _ _ _ _ _ _ _ _ _ _ _ _ _ HA _ Hin) as [E C].
      destruct (AV C) as (V1 & V2 & V3).
      assert (M : is_mean (c_tiny c) (fun i => e_flow (e i)) (firstn (Z.to_nat s) (lengths (s_trace y))) (s_w y)).
      { rewrite firstn_all2 by (rewrite Hlen, app_length, LL; cbn; unfold s; lia).
        split; [rewrite <- V2; exact V3 | rewrite <- V2; exact V1]. }
      destruct E as [-> | ->]; cbn; auto. }
    apply in_app_or in Hin. destruct Hin as [Hin|Hin].
    { destruct (outputs_in _ _ _ _ _ _ _ _ _ _ _ _ _ _ HR _ Hin) as [[-> | ->] _]; cbn; auto. }
    unfold tl in Hin. destruct o; [|contradiction]. destruct Hin as [<-|[]]. cbn.
    repeat split; auto. }
  constructor.
  - rewrite Ha, app_length, L. cbn. lia.
  - rewrite Hlen. apply Forall_app. split; [exact P | repeat constructor; exact Hdy].
  - destruct (c_avg c) eqn:C; [destruct (AV eq_refl) as (_ & _ & V); lra|]. injection Hav as _ ->. exact N0.
  - intro C. apply AV. exact C.
  - intro C. apply AV. exact C.
  - intros ev Hin. rewrite Htr in Hin. apply in_app_or in Hin.
    assert (Inc : forall z, In z (advances (s_trace x)) -> In z (advances (s_trace y))).
    { intros z Hz. rewrite Ha. apply in_or_app. left. exact Hz. }
    destruct Hin as [Hin|[<-|Hin]]; [|exact I|].
    + specialize (ST ev Hin). destruct ev; auto; destruct ST as [dd ST]; exists dd; apply Inc; exact ST.
    + destruct (New ev Hin) as [E _]. destruct ev; try contradiction; destruct E as [-> ->];
        exists (s_dt y); rewrite Ha; apply in_or_app; right; left; reflexivity.
  - assert (G : forall l, l = lengths (s_trace y) -> Forall (holds c e fl l) (s_trace y)).
    { intros l El. rewrite Htr. apply Forall_app. split.
      - rewrite Forall_forall in *. intros ev Hin. specialize (HO ev Hin). specialize (SS ev Hin).
        destruct ev as [ | | | k0 s0 t0 v0 | ]; auto. unfold holds in *.
        destruct k0; auto; rewrite El, Hlen, firstn_keep by (rewrite LL; lia); exact HO.
      - constructor; [exact I|]. rewrite El. apply Forall_forall. intros ev Hin. apply New. exact Hin. }
    apply G. reflexivity.
  - intros ev Hin. rewrite Htr in Hin. apply in_app_or in Hin. destruct Hin as [Hin|[<-|Hin]]; [|exact I|].
    + specialize (SS ev Hin). destruct ev; auto; lia.
    + destruct (New ev Hin) as [E _]. destruct ev; try contradiction; destruct E as [-> ->]; unfold s; lia.
Qed.

Lemma Held_run : forall c e ir fl y, sane c -> flowing e -> run c e ir fl = Ok y ->
  Held c e fl (length (advances (s_trace y))) y.
Proof.
  intros c e ir fl y Hc Hf H. apply run_loop in H; [|apply Hc].
  apply (loop_inv c e (Z.to_nat (c_nStep c)) (fun m x b => Held c e fl m x /\ Time c e m x b)) in H.
  - destruct H as (k & b & _ & [H1 H2] & _). pose proof (he_len _ _ _ _ _ H1) as E. rewrite E. exact H1.
  - split; [apply Held_start | apply Time_start; apply Hc].
  - intros m x z b [H1 H2] _ Ht.
    assert (T : Time c e (S m) z b) by (eapply Time_turn; try apply Hc; eauto).
    split; [|exact T]. eapply Held_turn; [apply Hc | apply (ti_dt _ _ _ _ _ T) | exact H1 | exact Ht].
Qed.

Lemma numbered : forall c e ir fl y, c_steady c = false -> run c e ir fl = Ok y ->
  let tr := s_trace y in
  let m := length (advances tr) in
  written Data tr = filter (every (c_nOut c)) (steps m)
  /\ written DataC tr = filter (fun s => every (c_nOutC c) s && negb (c_lazy c && every (c_nOut c) s)) (steps m)
  /\ written Avg tr = filter (every (c_nAvg c)) (steps m)
  /\ written AvgC tr = filter (fun s => every (c_nAvgC c) s && negb (c_lazy c && every (c_nAvg c) s)) (steps m)
  /\ written Rst tr = filter (every (c_nRst c)) (steps m)
  /\ written RstC tr = filter (fun s => every (c_nRstC c) s && negb (c_lazy c && every (c_nRst c) s)) (steps m)
  /\ logged tr = filter (every (Z.abs (c_nLog c))) (steps m).
Proof.
  intros c e ir fl y Hc H. pose proof (Files_run c e ir fl y Hc H) as [? ? ? ? ? ? ? ? ? ? ? ? ?].
  cbv zeta. repeat split; assumption.
Qed.

Lemma held : forall c e ir fl y, sane c -> flowing e -> run c e ir fl = Ok y ->
  stamped (s_trace y) /\ Forall (holds c e fl (lengths (s_trace y))) (s_trace y).
Proof.
  intros c e ir fl y Hc Hf H. pose proof (Held_run c e ir fl y Hc Hf H) as [? ? ? ? ? ? ? ?]. split; assumption.
Qed.
