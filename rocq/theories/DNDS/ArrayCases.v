(** Corollaries and concrete histories for the array theorems. *)
From Coq Require Import List ZArith Lia Bool Arith.
From Verif Require Import Base.Prelude Base.PreludeFacts DNDS.ArrayModel DNDS.ArraySpec DNDS.ArrayProofs.
Import ListNotations.
Local Open Scope Z_scope.

Lemma csr_history : forall T (dflt : T) n cs,
  covered_history dflt (repeat (snew CSR) n) cs ->
  match run dflt {| hp := []; arrs := repeat (new_arr CSR) n |} cs with
  | Ok w => exists ss, history dflt (repeat (snew CSR) n) cs ss /\ world_looks_like w ss
  | Abort => rejected dflt (repeat (snew CSR) n) cs
  | UB => False
  end.
Proof.
  intros T dflt n cs H. pose proof (arrays_refine T dflt (repeat CSR n) cs) as G.
  rewrite !map_repeat_ in G. apply G. exact H.
Qed.

Lemma locate_ok : forall T (dflt : T) ls cs w id a i j p,
  covered_history dflt (map snew ls) cs ->
  run dflt {| hp := []; arrs := map new_arr ls |} cs = Ok w ->
  nth_error (arrs w) id = Some a -> is_csr (lay a) = false ->
  locate (hp w) a i j = Ok p ->
  p = InData (i * stride a + j) /\ 0 <= j < stride a.
Proof.
  intros T dflt ls cs w id a i j p H Hrun Ha Hc Hl.
  assert (Hx : exists n, 0 <= i < size a /\ RowSize (hp w) a i = Ok n /\ 0 <= j < n).
  { unfold locate in Hl.
    destruct ((i <? size a) && (0 <=? i)) eqn:E1; cbn [assert_ bind] in Hl; [|discriminate].
    destruct (RowSize (hp w) a i) as [n| |]; cbn [bind] in Hl; try discriminate.
    destruct ((j <? n) && (0 <=? j)) eqn:E2; cbn [assert_ bind] in Hl; [|discriminate].
    apply andb_true_iff in E1, E2. destruct E1 as [E1 E1'], E2 as [E2 E2'].
    apply Z.ltb_lt in E1, E2. apply Z.leb_le in E1', E2'. exists n. repeat split; auto. }
  destruct Hx as [n [Hi [Hn Hj]]].
  destruct (table_storage _ dflt _ _ _ _ _ _ _ H Hrun Ha Hc n Hi Hn Hj) as [Hle [Hloc _]].
  rewrite Hloc in Hl. injection Hl as <-. split; auto. lia.
Qed.

Lemma table_no_alias : forall T (dflt : T) ls cs w id a i j i' j' p,
  covered_history dflt (map snew ls) cs ->
  run dflt {| hp := []; arrs := map new_arr ls |} cs = Ok w ->
  nth_error (arrs w) id = Some a -> is_csr (lay a) = false ->
  locate (hp w) a i j = Ok p -> locate (hp w) a i' j' = Ok p -> i = i' /\ j = j'.
Proof.
  intros T dflt ls cs w id a i j i' j' p H Hrun Ha Hc H1 H2.
  destruct (locate_ok _ _ _ _ _ _ _ _ _ _ H Hrun Ha Hc H1) as [E1 B1].
  destruct (locate_ok _ _ _ _ _ _ _ _ _ _ H Hrun Ha Hc H2) as [E2 B2].
  rewrite E1 in E2. injection E2 as E. assert (i = i') by nia. subst. split; auto. lia.
Qed.

Lemma copy_reads : forall T (dflt : T) ls cs id o w a b w',
  covered_history dflt (map snew ls) (cs ++ [(id, CCopyFrom o)]) ->
  run dflt {| hp := []; arrs := map new_arr ls |} cs = Ok w ->
  nth_error (arrs w) o = Some b -> do_call dflt w id (CCopyFrom o) = Ok w' ->
  nth_error (arrs w') id = Some a -> same_reads (hp w) b (hp w') a.
Proof.
  intros T dflt ls cs id o w a b w' H Hrun Hb Hcall Ha.
  unfold do_call in Hcall. destruct (nth_error (arrs w) id) eqn:E; [|discriminate].
  rewrite Hb in Hcall. cbn in Hcall. injection Hcall as <-. cbn [arrs hp] in *.
  rewrite nth_error_upd_same in Ha by (eapply nth_error_Some_lt; eauto). injection Ha as <-.
  split; auto.
Qed.

Lemma swap_reads : forall T (dflt : T) ls cs id o w a b w' a' b',
  covered_history dflt (map snew ls) (cs ++ [(id, CSwapWith o)]) ->
  run dflt {| hp := []; arrs := map new_arr ls |} cs = Ok w ->
  nth_error (arrs w) id = Some a -> nth_error (arrs w) o = Some b ->
  do_call dflt w id (CSwapWith o) = Ok w' ->
  nth_error (arrs w') id = Some a' -> nth_error (arrs w') o = Some b' ->
  same_reads (hp w) b (hp w') a' /\ same_reads (hp w) a (hp w') b'.
Proof.
  intros T dflt ls cs id o w a b w' a' b' H Hrun Ha Hb Hcall Ha' Hb'.
  destruct (before_last _ _ _ _ _ _ _ H Hrun) as [ss [W C]].
  pose proof (step_refines _ dflt _ _ _ _ W C) as G. rewrite Hcall in G. destruct G as [ss' [Hin W']].
  destruct C as [s [Hs [t [Ht _]]]]. unfold allowed in Hin. rewrite Hs, Ht in Hin.
  destruct (_ && _); [|contradiction]. destruct Hin as [<-|[]].
  destruct W as [Wl [Wr _]]. destruct W' as [Wl' [Wr' _]].
  pose proof (nth_error_Some_lt _ _ _ _ Hs) as L. pose proof (nth_error_Some_lt _ _ _ _ Ht) as L'.
  split.
  - apply (looks_same _ _ _ _ _ t); apply rep_looks; [eauto|]. apply (Wr' id); auto.
    rewrite !nth_error_upd, upd_length. apply Nat.ltb_lt in L, L'. rewrite L, L', Nat.eqb_refl.
    destruct (Nat.eqb_spec o id); auto. subst. congruence.
  - apply (looks_same _ _ _ _ _ s); apply rep_looks; [eauto|]. apply (Wr' o); auto.
    rewrite nth_error_upd_same; auto. rewrite upd_length; auto.
Qed.


Lemma empty_compress_resize :
  exists w a, run 0 {| hp := []; arrs := [new_arr CSR] |} [(0%nat, CCompress); (0%nat, CResize 2)] = Ok w /\
    nth_error (arrs w) 0 = Some a /\ size a = 2 /\ RowSize (hp w) a 0 = Abort /\
    do_call 0 w 0 (CResizeRow 0 1) = Abort.
Proof. do 2 eexists. repeat (split; [vm_compute; reflexivity|]). vm_compute. reflexivity. Qed.

Lemma narrowing_aliases :
  exists w w' a a', run 0 {| hp := []; arrs := [new_arr Max] |}
      [(0%nat, CResize2 2 3); (0%nat, CResizeRow 0 3); (0%nat, CResizeRow 1 1); (0%nat, CResize2 2 1)] = Ok w /\
    do_call 0 w 0 (CSet 0 1 5) = Ok w' /\ arrs w = [a] /\ arrs w' = [a'] /\
    at_ (hp w) a 1 0 = Ok 0 /\ at_ (hp w') a' 1 0 = Ok 5.
Proof.
  do 4 eexists. repeat (split; [vm_compute; reflexivity|]). vm_compute. reflexivity.
Qed.

Lemma swap_sizes :
  exists w w' a b a', run 0 {| hp := []; arrs := [new_arr Max; new_arr Max] |}
      [(0%nat, CResize2 1 2); (1%nat, CResize2 1 2); (1%nat, CResizeRow 0 2)] = Ok w /\
    arrs w = [a; b] /\ do_call 0 w 0 (CSwapWith 1) = Ok w' /\ nth_error (arrs w') 0 = Some a' /\
    RowSize (hp w) b 0 = Ok 2 /\ RowSize (hp w') a' 0 = Ok 0.
Proof.
  do 5 eexists. repeat (split; [vm_compute; reflexivity|]). vm_compute. reflexivity.
Qed.

Lemma swap_mode :
  exists w w' b b', run 0 {| hp := []; arrs := [new_arr CSR; new_arr CSR] |}
      [(0%nat, CResize 1); (0%nat, CCompress); (1%nat, CResize 1)] = Ok w /\
    nth_error (arrs w) 1 = Some b /\ RowSize (hp w) b 0 = Ok 0 /\
    do_call 0 w 0 (CSwapWith 1) = Ok w' /\ nth_error (arrs w') 0 = Some b' /\
    RowSize (hp w') b' 0 = Abort.
Proof.
  do 4 eexists. repeat (split; [vm_compute; reflexivity|]). vm_compute. reflexivity.
Qed.

Lemma resize_depends :
  exists w1 w2 a1 a2,
    let cs := [(0%nat, CResize2 1 2); (0%nat, CResizeRow 0 2)] in
    run 0 {| hp := []; arrs := [new_arr Max; new_arr Max] |} (cs ++ [(0%nat, CResize2 2 2)]) = Ok w1 /\
    run 0 {| hp := []; arrs := [new_arr Max; new_arr Max] |}
      (cs ++ [(1%nat, CCopyFrom 0); (0%nat, CResize2 2 2)]) = Ok w2 /\
    nth_error (arrs w1) 0 = Some a1 /\ nth_error (arrs w2) 0 = Some a2 /\
    RowSize (hp w1) a1 0 = Ok 2 /\ RowSize (hp w2) a2 0 = Ok 0.
Proof.
  do 4 eexists. repeat (split; [vm_compute; reflexivity|]). vm_compute. reflexivity.
Qed.

(** Solves [covered_history] goals on concrete histories. *)
Ltac cov_side :=
  repeat match goal with
  | |- _ /\ _ => split
  | |- True => exact I
  | |- exists _, _ => eexists
  | |- ~ _ => intros (? & ? & ? & ?); discriminate
  | |- (_ = Max -> _) => intros _
  | |- Forall _ (firstn _ _) => cbn [firstn used]
  | |- Forall _ _ => constructor
  | |- small _ => unfold small; vm_compute; reflexivity
  | |- (_ <= _)%nat => repeat constructor
  | |- _ = _ => reflexivity
  end.
Ltac cov :=
  repeat (apply ch_cons;
    [eexists; split; [reflexivity|]; cbv beta iota; cov_side
    | let s := fresh "s" in let H := fresh "H" in intros s H; vm_compute in H;
      repeat (destruct H as [<-|H]); try contradiction ]);
  apply ch_nil.

Lemma c08_example :
  let cs := [(0%nat, CResize 3); (0%nat, CResizeRow 2 2); (0%nat, CSet 2 1 7); (0%nat, CCompress);
             (0%nat, CSet 2 0 5); (0%nat, CDecompress); (0%nat, CResizeRow 0 1); (0%nat, CResize 4);
             (1%nat, CResizeF [1; 0; 2]%nat); (1%nat, CSet 2 1 9)] in
  covered_history 0 (repeat (snew CSR) 2) cs /\
  exists w a b, run 0 {| hp := []; arrs := repeat (new_arr CSR) 2 |} cs = Ok w /\
    arrs w = [a; b] /\ unc a = [[0]; []; [5; 7]; []] /\ dat b = [0; 0; 9] /\
    at_ (hp w) b 2 1 = Ok 9 /\ row_ (hp w) b 2 = Ok (PData 1).
Proof.
  intro cs. split.
  - unfold cs. cov.
  - do 3 eexists. repeat (split; [vm_compute; reflexivity|]). vm_compute. reflexivity.
Qed.

Lemma c09_example :
  let ls := [Fixed; Max; StaticFixed 2; StaticMax 3] in
  let cs := [(0%nat, CResize2 2 2); (0%nat, CSet 1 0 4); (1%nat, CResize2 2 3); (1%nat, CResizeRow 1 2);
             (1%nat, CSet 1 1 6); (2%nat, CResize 2); (2%nat, CSet 0 1 8); (3%nat, CResize 2);
             (3%nat, CResizeRow 0 3); (3%nat, CSet 0 2 9); (0%nat, CResize2 4 1)] in
  covered_history 0 (map snew ls) cs /\
  exists w a b c d, run 0 {| hp := []; arrs := map new_arr ls |} cs = Ok w /\ arrs w = [a; b; c; d] /\
    dat a = [0; 0; 4; 0] /\ at_ (hp w) b 1 1 = Ok 6 /\ at_ (hp w) b 0 0 = Abort /\
    at_ (hp w) c 0 1 = Ok 8 /\ at_ (hp w) d 0 2 = Ok 9.
Proof.
  intros ls cs. split.
  - unfold cs, ls. cbn [map]. cov.
  - do 5 eexists. repeat (split; [vm_compute; reflexivity|]). vm_compute. reflexivity.
Qed.

Lemma c10_example :
  let cs := [(0%nat, CResize2 2 2); (0%nat, CResizeRow 0 1); (1%nat, CCopyFrom 0);
             (1%nat, CResizeRow 0 2); (0%nat, CSet 0 0 3)] in
  covered_history 0 (map snew [Max; Max]) (cs ++ [(1%nat, CSet 0 1 4)]) /\
  exists w a b, run 0 {| hp := []; arrs := map new_arr [Max; Max] |} cs = Ok w /\ arrs w = [a; b] /\
    RowSize (hp w) a 0 = Ok 1 /\ RowSize (hp w) b 0 = Ok 2 /\ at_ (hp w) a 0 0 = Ok 3 /\
    at_ (hp w) b 0 0 = Ok 0 /\ pSizes a <> pSizes b.
Proof.
  intro cs. split.
  - unfold cs. cbn [map app]. cov.
  - do 3 eexists. repeat (split; [vm_compute; reflexivity|]). vm_compute. discriminate.
Qed.
