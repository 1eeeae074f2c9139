(** Reached states and outcomes with in-situ packing (C07). *)
From Coq Require Import List ZArith Lia Bool Arith Permutation.
From Verif Require Import Base.Prelude Base.PreludeFacts Base.MPIModel Base.MPIFacts
  DNDS.IndexMappingModel DNDS.IndexMappingSpec DNDS.IndexMappingProofs
  DNDS.ArrayModel DNDS.ArraySpec DNDS.ArrayProofs DNDS.ArrayCases DNDS.ExchangeModel DNDS.ExchangeSpec
  DNDS.ExchangePlanProofs DNDS.TransferProofs DNDS.MessageProofs DNDS.ExchangeProofs
  DNDS.CreateTypesProofs DNDS.CreateProofs DNDS.CreateLiveProofs DNDS.LiveProofs DNDS.InSituProofs
  DNDS.StrategyProofs.
Import ListNotations.
Local Open Scope Z_scope.

Section Final.
Variable T : Type.
Variable dflt : T.

Lemma insitu_created : forall lens ms l (ws : list (world T)), mapped lens ms -> ready dflt lens ms l ws ->
  exists ts, createMPITypes dflt InSituPack ws ms = Ok ts /\ unchanged father ws (map tw ts).
Proof.
  intros lens ms l ws M R. destruct (plan_exists _ _ M) as [G HP].
  destruct (ready_prep T dflt lens ms G HP l ws R) as [SF [SS Pp]].
  destruct (create_ok T dflt lens ms G HP InSituPack l SF SS ws Pp) as [SS3 [W3 [E [L Tot]]]].
  eexists. split; [exact E|]. rewrite map_map. cbn [made tw].
  split; [rewrite map_length, seq_length, (pp_len _ _ _ _ _ _ _ Pp); auto|].
  intros r h a [w [Hw [-> Ha]]].
  assert (Hr : (r < length lens)%nat) by (rewrite <- (pp_len _ _ _ _ _ _ _ Pp); eapply nth_error_Some_lt; eauto).
  destruct (live_get T lens G _ _ _ _ r L Hr) as [h' [f [s [Af [_ [Rf _]]]]]].
  exists h', f. split; auto. pose proof (pp_rep _ _ _ _ _ _ _ Pp r w Hw) as W.
  destruct (two_arrs _ _ _ _ W) as [fa [sa [E' [R1 _]]]]. rewrite E' in Ha. cbn in Ha. injection Ha as <-.
  eapply same_reads_rep; [exact R1|exact Rf|]. destruct (packed_cells T InSituPack (SF r)) as (A&B&C&D).
  split; auto.
Qed.

Variables (lens : list nat) (ms : list ghostmap) (G : nat -> nat -> list nat).
Hypothesis HP : plan lens ms G.
Notation P := (length lens).
Notation live := (live T lens G false).

Definition nomax (SF : nat -> sarr T) : Prop := forall s, (s < P)%nat -> is_max (slay (SF s)) = false.

Lemma nomax_shaped : forall SF SS SF' SS', nomax SF -> shaped T lens SF SS SF' SS' -> nomax SF'.
Proof. intros SF SS SF' SS' H Sh s Hs. destruct (Sh s Hs) as [(E&_) _]. rewrite E. auto. Qed.

Lemma reached_live : forall l ws ts ws1, is_max l = false -> ready dflt lens ms l ws ->
  createMPITypes dflt InSituPack ws ms = Ok ts -> insitu_reached dflt ts ws1 ->
  exists SF SS, live SF SS ws1 /\ nomax SF /\ length ts = P /\
    at_state ts ws1 = map (tr T lens ms G ws1) (seq 0 P).
Proof.
  intros l ws ts ws1 NMl R Ec Hr. destruct (ready_prep T dflt lens ms G HP l ws R) as [SF [SS Pp]].
  destruct (create_ok T dflt lens ms G HP InSituPack l SF SS ws Pp) as [SS3 [W3 [E [L0 Tot]]]].
  rewrite E in Ec. injection Ec as <-.
  set (ts := map (made T lens ms G InSituPack SF SS3 W3) (seq 0 P)) in *.
  assert (Lt : length ts = P) by (unfold ts; rewrite map_length, seq_length; auto).
  assert (At : forall v, length v = P -> at_state ts v = map (tr T lens ms G v) (seq 0 P)) by (intros; apply at_state_tr; auto).
  enough (X : exists SF' SS', live SF' SS' ws1 /\ nomax SF').
  { destruct X as [SF' [SS' [L' N']]]. exists SF', SS'. split; [exact L'|]. split; [exact N'|]. split; [exact Lt|]. apply At. apply (lv_len _ _ _ _ _ _ _ L'). }
  induction Hr as [|v r b i j x v' Hr [SF1 [SS1 [L1 N1]]] H|v order v' Hr [SF1 [SS1 [L1 N1]]] Ho H|v v' Hr [SF1 [SS1 [L1 N1]]] H].
  - exists (fun r => packed T InSituPack (SF r)), SS3. split.
    + unfold ts. rewrite map_map. cbn [made tw]. exact L0.
    + intros s Hs. destruct (packed_cells T InSituPack (SF s)) as (_&->&_).
      destruct (pp_lay _ _ _ _ _ _ _ Pp s Hs) as [-> _]. auto.
  - destruct (write_live T dflt lens G false _ _ _ _ _ _ _ _ _ L1 H) as [SF' [SS' [L' Sh]]].
    exists SF', SS'. split; auto. eapply nomax_shaped; eauto.
  - rewrite At in H by (apply (lv_len _ _ _ _ _ _ _ L1)). unfold message_pairs_order in Ho. rewrite Lt in Ho.
    pose proof (pull_ok T dflt lens ms G HP SF1 SS1 v L1 N1 order Ho) as X.
    destruct (fits T lens G SF1); [|congruence]. destruct X as [w' [SS' [X1 [X2 [X3 _]]]]].
    assert (w' = v') by congruence. subst w'. exists SF1, SS'. split; auto.
  - rewrite At in H by (apply (lv_len _ _ _ _ _ _ _ L1)).
    pose proof (push_ok T dflt lens ms G HP SF1 SS1 v L1 N1) as X.
    destruct (fits T lens G SF1); [|congruence]. destruct (last_ok lens G); [|congruence].
    destruct X as [w' [SF' [X1 [X2 [X3 _]]]]]. assert (w' = v') by congruence. subst w'.
    exists SF', SS1. split; auto. eapply nomax_shaped; eauto.
Qed.

End Final.

Section Theorems.
Variable T : Type.
Variable dflt : T.
Variables (lens : list nat) (ms : list ghostmap) (l : layout) (ws : list (world T)) (ts : list (trans T)).
Hypothesis M : mapped lens ms.
Hypothesis NMl : is_max l = false.
Hypothesis R : ready dflt lens ms l ws.
Hypothesis Ec : createMPITypes dflt InSituPack ws ms = Ok ts.

Lemma insitu_pull_current : forall ws1 order, insitu_reached dflt ts ws1 -> message_pairs_order (length ts) order ->
  no_empty_message lens ms ws1 ->
  exists ws2, insitu_pull (at_state ts ws1) order = Ok (Some ws2) /\ ghosts_current lens ms ws2 /\
    unchanged father ws1 ws2.
Proof.
  intros ws1 order Hr Ho Ne. destruct (plan_exists _ _ M) as [G HP].
  destruct (reached_live T dflt lens ms G HP l ws ts ws1 NMl R Ec Hr) as [SF [SS [L [N [Lt At]]]]].
  unfold message_pairs_order in Ho. rewrite Lt in Ho. rewrite At.
  pose proof (pull_ok T dflt lens ms G HP SF SS ws1 L N order Ho) as X.
  apply (fits_spec T lens ms G HP SF SS ws1 L N) in Ne. rewrite Ne in X.
  destruct X as [ws2 [SS' [X1 [X2 [X3 X4]]]]]. exists ws2. split; auto. split.
  - apply (ghosts_now T lens ms G HP false SF SS' ws2); auto.
  - apply (live_unchanged_father T lens G false SF SS ws1 SF SS' ws2); auto. intros; split; auto.
Qed.

Lemma insitu_pull_stuck : forall ws1 order, insitu_reached dflt ts ws1 -> message_pairs_order (length ts) order ->
  ~ no_empty_message lens ms ws1 -> insitu_pull (at_state ts ws1) order = Ok None.
Proof.
  intros ws1 order Hr Ho Ne. destruct (plan_exists _ _ M) as [G HP].
  destruct (reached_live T dflt lens ms G HP l ws ts ws1 NMl R Ec Hr) as [SF [SS [L [N [Lt At]]]]].
  unfold message_pairs_order in Ho. rewrite Lt in Ho. rewrite At.
  pose proof (pull_ok T dflt lens ms G HP SF SS ws1 L N order Ho) as X.
  destruct (fits T lens G SF) eqn:F; auto. exfalso. apply Ne. apply (fits_spec T lens ms G HP SF SS ws1 L N). auto.
Qed.

Lemma insitu_push_rows : forall ws1, insitu_reached dflt ts ws1 ->
  no_empty_message lens ms ws1 -> last_has_ghosts lens ms ->
  exists ws2, insitu_push dflt (at_state ts ws1) = Ok (Some ws2) /\ pushed_rows lens ms ws1 ws2 /\
    unchanged son ws1 ws2.
Proof.
  intros ws1 Hr Ne Hl. destruct (plan_exists _ _ M) as [G HP].
  destruct (reached_live T dflt lens ms G HP l ws ts ws1 NMl R Ec Hr) as [SF [SS [L [N [Lt At]]]]].
  rewrite At. pose proof (push_ok T dflt lens ms G HP SF SS ws1 L N) as X.
  apply (fits_spec T lens ms G HP SF SS ws1 L N) in Ne. rewrite Ne in X.
  apply (last_spec T lens ms G HP SF N) in Hl. rewrite Hl in X.
  destruct X as [ws2 [SF' [X1 [B [C E]]]]]. exists ws2. split; auto. split.
  - split; [rewrite (lv_len _ _ _ _ _ _ _ B), (lv_len _ _ _ _ _ _ _ L); auto|].
    intros s h a Ha. destruct (live_father T lens G _ _ _ _ _ _ _ L Ha) as [Hs Ra].
    destruct (live_get T lens G _ _ _ _ s B Hs) as [h' [f [s' [Af [_ [Rf _]]]]]].
    exists h', f. split; auto. destruct (C s Hs) as [(C1&C2&C3&C4&C5) _].
    assert (Ll : length (cells (SF' s)) = length (cells (SF s))) by (rewrite <- (map_length (@length T)), C5, map_length; auto).
    split; [rewrite (r_size _ _ _ _ Ra), (r_size _ _ _ _ Rf); unfold zlen; congruence|].
    intros i Hi. destruct (lv_size _ _ _ _ _ _ _ L s Hs) as [Ls _]. rewrite <- Ls in Hi.
    destruct (E s i Hs Hi) as [[r [k [Hr' [Hin Eq]]]]|[Nn Eq]].
    + left. destruct (live_get T lens G _ _ _ _ r L Hr') as [h0 [f0 [b [_ [Ab [_ Rb]]]]]].
      exists r, k, h0, b. split; [apply (link_ghost lens ms G HP); auto|]. split; auto.
      destruct (link_bounds T lens ms G HP false _ _ _ _ _ _ _ L Hs Hr' Hin) as [B1 B2].
      apply (same_row_srow T h0 b (SS r) k h' f (SF' s) i); auto; [lia|].
      symmetry. apply (link_srow T lens ms G HP false SF' SS ws2 s r i k); auto.
    + right. split.
      * intros r k Hg. pose proof (ghost_of_rank _ _ _ _ _ _ _ HP Hg) as Hr'. apply (link_ghost lens ms G HP) in Hg; auto.
        apply (Nn r k); auto. apply Hg.
      * apply (same_row_srow T h a (SF s) i h' f (SF' s) i); auto; [lia|].
        apply srow_cells; auto; [lia|]. rewrite C4. auto.
  - apply (live_unchanged_son T lens G false SF SS ws1 SF' SS ws2); auto. intros; split; auto.
Qed.

Lemma insitu_push_aborts : forall ws1, insitu_reached dflt ts ws1 ->
  no_empty_message lens ms ws1 -> ~ last_has_ghosts lens ms ->
  insitu_push dflt (at_state ts ws1) = Abort.
Proof.
  intros ws1 Hr Ne Hl. destruct (plan_exists _ _ M) as [G HP].
  destruct (reached_live T dflt lens ms G HP l ws ts ws1 NMl R Ec Hr) as [SF [SS [L [N [Lt At]]]]].
  rewrite At. pose proof (push_ok T dflt lens ms G HP SF SS ws1 L N) as X.
  apply (fits_spec T lens ms G HP SF SS ws1 L N) in Ne. rewrite Ne in X.
  destruct (last_ok lens G) eqn:E; auto. exfalso. apply Hl. apply (last_spec T lens ms G HP SF N). auto.
Qed.

End Theorems.

(** *** a case: rank 1 has ghosts of all rows, also of its own *)
Definition own_pulls : list (list Z) := [[]; [2; 0; 1]].
Definition own_ms : list ghostmap :=
  match setup_pull (map Z.of_nat two_lens) own_pulls with Ok (_, ms) => ms | _ => [] end.
Definition own_calls : list (list (nat * call Z)) :=
  [[(0%nat, CResize 2); (0%nat, CResizeRow 0 2); (0%nat, CSet 0 0 10); (0%nat, CSet 0 1 11)];
   [(0%nat, CResize 1); (0%nat, CResizeRow 0 1); (0%nat, CSet 0 0 20)]].
Definition own_ts : list (trans Z) :=
  match createMPITypes 0 InSituPack (two_ws CSR own_calls) own_ms with Ok ts => ts | _ => [] end.

Lemma own_case : mapped two_lens own_ms /\ ready 0 two_lens own_ms CSR (two_ws CSR own_calls) /\
  createMPITypes 0 InSituPack (two_ws CSR own_calls) own_ms = Ok own_ts /\
  no_empty_message two_lens own_ms (map tw own_ts) /\ last_has_ghosts two_lens own_ms.
Proof.
  split; [left; exists own_pulls; eexists; split; [reflexivity|]; vm_compute; reflexivity|].
  split; [|split; [vm_compute; reflexivity|split]].
  - constructor.
    + reflexivity.
    + intros r w Hw. destruct r as [|[|r]]; cbn in Hw; try (destruct r; discriminate); injection Hw as <-;
        [exists (nth 0 own_calls [])|exists (nth 1 own_calls [])];
        (split; [cbn [nth own_calls map]; cov|vm_compute; reflexivity]).
    + intros r h f [w [Hw [-> Hf]]]. destruct r as [|[|r]]; cbn in Hw; try (destruct r; discriminate); injection Hw as <-;
        vm_compute in Hf; injection Hf as <-; reflexivity.
    + exists 0. intros. exact I.
    + intros r m Hm. destruct r as [|[|r]]; vm_compute in Hm; try (destruct r; discriminate); injection Hm as <-; cbn [ghostIndex].
      1: exists []. 2: exists [2; 0; 1].
      all: split; [|reflexivity].
      all: repeat constructor; do 4 eexists; (split; [vm_compute; reflexivity|]);
         (split; [eexists; split; [vm_compute; reflexivity|split; [reflexivity|vm_compute; reflexivity]]|vm_compute; reflexivity]).
  - intros r k s i [m [q [Hm [Hq Hi]]]].
    destruct r as [|[|r]]; vm_compute in Hm; try (destruct r; discriminate); injection Hm as <-; cbn [ghostIndex] in Hq.
    { destruct k; discriminate. }
    assert (Hs : s = 0%nat \/ s = 1%nat).
    { destruct k as [|[|[|k]]]; cbn in Hq; try (destruct k; discriminate); injection Hq as <-; vm_compute in Hi; injection Hi as <- <-; auto. }
    destruct Hs as [-> | ->].
    + exists 0%nat, 0%nat. do 2 eexists. exists 2. split.
      { do 2 eexists. split; [vm_compute; reflexivity|]. split; [vm_compute; reflexivity|vm_compute; reflexivity]. }
      split; [eexists; split; [vm_compute; reflexivity|split; [reflexivity|vm_compute; reflexivity]]|].
      split; [vm_compute; reflexivity|lia].
    + exists 2%nat, 0%nat. do 2 eexists. exists 1. split.
      { do 2 eexists. split; [vm_compute; reflexivity|]. split; [vm_compute; reflexivity|vm_compute; reflexivity]. }
      split; [eexists; split; [vm_compute; reflexivity|split; [reflexivity|vm_compute; reflexivity]]|].
      split; [vm_compute; reflexivity|lia].
  - intros s Hs. destruct s as [|[|s]]; [| |cbn in Hs; lia].
    + exists 0%nat, 0%nat. do 2 eexists. split; [vm_compute; reflexivity|]. split; [vm_compute; reflexivity|vm_compute; reflexivity].
    + exists 2%nat, 0%nat. do 2 eexists. split; [vm_compute; reflexivity|]. split; [vm_compute; reflexivity|vm_compute; reflexivity].
Qed.
