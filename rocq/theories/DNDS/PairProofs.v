From Coq Require Import ZArith List Bool Lia.
From Verif Require Import Base.Prelude Base.PreludeFacts DNDS.ArrayModel DNDS.ArraySpec DNDS.ArrayProofs
  DNDS.PairModel DNDS.PairSpec.
Import ListNotations.
Open Scope Z_scope.

Section Proofs.
Variable T : Type.
Variable dflt : T.
Notation sarr := (sarr T).

(** ** The rows of an abstract array *)
Definition rows_of (s : sarr) : list (list T) :=
  map (fun k => match srow s k with Some r => r | None => [] end) (seq 0 (length (cells s))).

Lemma nth_error_seq a n k : (k < n)%nat -> nth_error (seq a n) k = Some (a + k)%nat.
Proof.
  revert a k. induction n; intros a [|k] H; cbn; try lia; [f_equal; lia|].
  rewrite IHn by lia. f_equal. lia.
Qed.

Lemma rows_length (s : sarr) : length (rows_of s) = length (cells s).
Proof. unfold rows_of. rewrite map_length, seq_length. reflexivity. Qed.

Lemma rows_nth h a (s : sarr) k : rep T h a s -> (k < length (cells s))%nat ->
  exists r, nth_error (rows_of s) k = Some r /\ srow s k = Some r.
Proof.
  intros R Hk. destruct (rep_rowsize _ _ _ _ _ R Hk) as (r & row & H1 & _).
  exists r. split; [|exact H1]. unfold rows_of.
  rewrite nth_error_map, nth_error_seq by exact Hk. cbn. rewrite H1. reflexivity.
Qed.

Lemma rep_cell h a (s : sarr) : rep T h a s -> size a = zlen (rows_of s) /\
  (forall k r, nth_error (rows_of s) k = Some r -> RowSize h a (Z.of_nat k) = Ok (zlen r)) /\
  (forall i j, at_ h a i j = cell (rows_of s) i j).
Proof.
  intros R. destruct (rep_looks _ _ _ _ R) as (L1 & L2 & L3).
  split; [unfold zlen in *; rewrite rows_length; exact L1|]. split.
  - intros k r Hk.
    assert (Hl : (k < length (cells s))%nat).
    { rewrite <- rows_length. apply nth_error_Some. congruence. }
    destruct (rows_nth _ _ _ _ R Hl) as (r' & E1 & E2). assert (r' = r) by congruence. subst r'.
    specialize (L2 (Z.of_nat k)). rewrite in_range_nat in L2 by exact Hl.
    destruct L2 as (q & Q1 & Q2). congruence.
  - intros i j. rewrite L3. unfold cell. rewrite rows_length.
    destruct (in_range i (length (cells s))) as [k|] eqn:E; [|reflexivity].
    assert (Hl : (k < length (cells s))%nat).
    { destruct (in_range_cases i (length (cells s))) as [(k' & _ & Hk' & E' & _)|(E' & _)]; congruence. }
    destruct (rows_nth _ _ _ _ R Hl) as (r & E1 & E2). rewrite E1, E2. reflexivity.
Qed.

Lemma shows_rows (w : world T) ss id s : wrep T w ss -> nth_error ss id = Some s -> shows w id (rows_of s).
Proof.
  intros (Hl & Hr & _) Hs.
  destruct (nth_error_lt_Some _ (arrs w) id) as [a Ha]; [pose proof (nth_error_Some_lt _ _ _ _ Hs); lia|].
  exists a. split; [exact Ha|]. apply rep_cell, (Hr _ _ _ Ha Hs).
Qed.

(** ** Reading a pair *)
Lemma in_range_Z i n : in_range i n = if (0 <=? i) && (i <? Z.of_nat n) then Some (Z.to_nat i) else None.
Proof. reflexivity. Qed.

Lemma in_range_app i n m :
  in_range i (n + m) =
  if (0 <=? i) && (i <? Z.of_nat n) then in_range i n
  else option_map (fun k => (n + k)%nat) (in_range (i - Z.of_nat n) m).
Proof.
  unfold in_range. destruct (Z.leb_spec 0 i), (Z.ltb_spec i (Z.of_nat n)); cbn [andb].
  - destruct (Z.ltb_spec i (Z.of_nat (n + m))); [reflexivity|lia].
  - destruct (Z.leb_spec 0 (i - Z.of_nat n)); [|lia]. cbn [andb].
    destruct (Z.ltb_spec i (Z.of_nat (n + m))), (Z.ltb_spec (i - Z.of_nat n) (Z.of_nat m)); try lia; cbn; [|reflexivity].
    f_equal. lia.
  - destruct (Z.leb_spec 0 (i - Z.of_nat n)); [lia|]. reflexivity.
  - lia.
Qed.

Lemma in_range_lt i n k : in_range i n = Some k -> (k < n)%nat /\ i = Z.of_nat k.
Proof.
  intros E. destruct (in_range_cases i n) as [(k' & A & B & C & _)|(E' & _)]; [|congruence].
  assert (k' = k) by congruence. subst. auto.
Qed.

Lemma cell_app (fr sr : list (list T)) i j :
  cell (fr ++ sr) i j =
  if (0 <=? i) && (i <? zlen fr) then cell fr i j else cell sr (i - zlen fr) j.
Proof.
  unfold cell at 1. rewrite app_length, in_range_app. fold (zlen fr).
  destruct ((0 <=? i) && (i <? zlen fr)).
  - unfold cell. destruct (in_range i (length fr)) as [k|] eqn:E; [|reflexivity].
    apply in_range_lt in E. rewrite nth_error_app1 by lia. reflexivity.
  - unfold cell. destruct (in_range (i - zlen fr) (length sr)) as [k|] eqn:E; cbn [option_map]; [|reflexivity].
    rewrite nth_error_app2 by lia. replace (length fr + k - length fr)%nat with k by lia. reflexivity.
Qed.

Lemma shows_pair (w : world T) f s fr sr : shows w f fr -> shows w s sr -> pair_shows w f s (fr ++ sr).
Proof.
  intros (a & Ha & A1 & A2 & A3) (b & Hb & B1 & B2 & B3).
  assert (GA : get_arr w f = Ok a) by (unfold get_arr; rewrite Ha; reflexivity).
  assert (GB : get_arr w s = Ok b) by (unfold get_arr; rewrite Hb; reflexivity).
  split; [|split].
  - unfold pair_Size. rewrite GA. cbn [bind]. rewrite GB. cbn [bind]. rewrite A1, B1.
    unfold zlen. rewrite app_length. f_equal. lia.
  - intros k r Hk. unfold pair_RowSize, pick. rewrite GA. cbn [bind]. rewrite A1.
    destruct (Z.leb_spec 0 (Z.of_nat k)); [|lia].
    destruct (Z.ltb_spec (Z.of_nat k) (zlen fr)) as [L|L]; cbn [andb bind fst snd].
    + rewrite GA. cbn [bind]. apply A2. rewrite nth_error_app1 in Hk by (unfold zlen in L; lia). exact Hk.
    + rewrite GB. cbn [bind]. rewrite nth_error_app2 in Hk by (unfold zlen in L; lia).
      replace (Z.of_nat k - zlen fr) with (Z.of_nat (k - length fr)) by (unfold zlen in *; lia).
      apply B2, Hk.
  - intros i j. unfold pair_at, pick. rewrite GA. cbn [bind]. rewrite A1, cell_app.
    destruct ((0 <=? i) && (i <? zlen fr)); cbn [bind fst snd].
    + rewrite GA. apply A3.
    + rewrite GB. apply B3.
Qed.

(** ** One call on one half *)
Lemma nth_error_ext_ {A} (l l' : list A) : (forall k, nth_error l k = nth_error l' k) -> l = l'.
Proof.
  revert l'. induction l as [|x l IH]; intros [|y l'] H; [reflexivity| | |].
  - specialize (H O). discriminate.
  - specialize (H O). discriminate.
  - f_equal; [specialize (H O); cbn in H; congruence|]. apply IH. intros k. apply (H (S k)).
Qed.

Lemma firstn_upd {A} n l (x : A) r : (l < n)%nat -> firstn n (upd l x r) = upd l x (firstn n r).
Proof.
  revert l r. induction n; intros l r H; [lia|]. destruct r as [|y r]; [destruct l; reflexivity|].
  destruct l as [|l]; cbn; [reflexivity|]. f_equal. apply IHn. lia.
Qed.

(** The rows of [s'] are those of [s] with row [k] replaced. *)
Lemma rows_upd h a s h' a' s' k r' : rep T h a s -> rep T h' a' s' ->
  length (cells s') = length (cells s) -> (k < length (cells s))%nat ->
  srow s' k = Some r' -> (forall q, q <> k -> srow s' q = srow s q) ->
  rows_of s' = upd k r' (rows_of s).
Proof.
  intros R R' L Hk E O. apply nth_error_ext_. intros q.
  destruct (Nat.lt_ge_cases q (length (cells s))) as [Hq|Hq].
  - destruct (rows_nth _ _ _ q R Hq) as (x & X1 & X2).
    assert (Hq' : (q < length (cells s'))%nat) by lia.
    destruct (rows_nth _ _ _ q R' Hq') as (y & Y1 & Y2). rewrite Y1.
    destruct (Nat.eq_dec k q) as [->|N].
    + rewrite nth_error_upd_same by (rewrite rows_length; lia). congruence.
    + rewrite nth_error_upd_other by exact N. rewrite X1. rewrite <- X2, <- Y2. apply O. auto.
  - rewrite (proj2 (nth_error_None _ _)) by (rewrite rows_length; lia).
    symmetry. apply nth_error_None. rewrite upd_length, rows_length. lia.
Qed.

Lemma set_rows h a (s s' : sarr) h' a' i j x : rep T h a s -> rep T h' a' s' ->
  In s' (allowed1 dflt s (CSet i j x)) ->
  exists k l r, i = Z.of_nat k /\ j = Z.of_nat l /\ nth_error (rows_of s) k = Some r /\
    (l < length r)%nat /\ rows_of s' = upd k (upd l x r) (rows_of s).
Proof.
  intros R R' I. cbn [allowed1] in I.
  destruct (in_range i (length (cells s))) as [k|] eqn:Ei; [|destruct I].
  destruct (srow s k) as [r|] eqn:Er; [|destruct I].
  destruct (in_range j (length r)) as [l|] eqn:Ej; [|destruct I].
  destruct I as [I|[]]. apply in_range_lt in Ei, Ej. destruct Ei as [Hk ->], Ej as [Hl ->].
  destruct (rows_nth _ _ _ _ R Hk) as (r0 & X1 & X2). assert (r0 = r) by congruence. subst r0.
  exists k, l, r. repeat (split; [auto|]).
  subst s'. eapply (rows_upd h a s h' a' _ k); eauto.
  - cbn. apply upd_length.
  - unfold srow in *. cbn [with_cells cells used slay].
    destruct (nth_error (cells s) k) as [c|] eqn:Ec; [|discriminate].
    rewrite nth_error_upd_same by exact Hk. rewrite (nth_error_nth (cells s) k [] Ec).
    destruct (is_max (slay s)); [|congruence].
    destruct (nth_error (used s) k) as [n|]; [|discriminate]. cbn [option_map] in *.
    inversion Er; subst. f_equal. apply firstn_upd. rewrite firstn_length in Hl. lia.
  - intros q Hq. unfold srow. cbn [with_cells cells used slay].
    rewrite nth_error_upd_other by auto. reflexivity.
Qed.

Lemma resize_rows h a (s s' : sarr) h' a' i n : rep T h a s -> rep T h' a' s' ->
  In s' (allowed1 dflt s (CResizeRow i n)) ->
  exists k r r', i = Z.of_nat k /\ nth_error (rows_of s) k = Some r /\
    length r' = n /\ firstn (Nat.min n (length r)) r' = firstn (Nat.min n (length r)) r /\
    rows_of s' = upd k r' (rows_of s).
Proof.
  intros R R' I. cbn [allowed1] in I.
  destruct (in_range i (length (cells s))) as [k|] eqn:Ei; [|destruct I].
  apply in_range_lt in Ei. destruct Ei as [Hk ->].
  destruct (rows_nth _ _ _ _ R Hk) as (r & X1 & X2).
  destruct (nth_error_lt_Some _ (cells s) k Hk) as [c Ec].
  assert (Cs : (slay s = CSR /\ In s' (if locked s then []
                   else [with_cells s (upd k (fit dflt n (nth k (cells s) [])) (cells s))])) \/
               (is_max (slay s) = true /\ In s' (if Nat.leb n (width s)
              then [ {| slay := slay s; comp := comp s; width := width s; cells := cells s;
                        used := upd k n (used s) |} ] else []))).
  { destruct (slay s); cbn; try (destruct I; fail); auto. }
  destruct Cs as [[El J]|[El J]].
  - destruct (locked s); [destruct J|]. destruct J as [J|[]].
    rewrite (nth_error_nth (cells s) k [] Ec) in J.
    assert (r = c). { unfold srow in X2. rewrite Ec, El in X2. cbn in X2. congruence. } subst r.
    exists k, c, (fit dflt n c). split; [auto|]. split; [auto|].
    split; [apply fit_length|]. split.
    + unfold fit. rewrite firstn_app, firstn_firstn, firstn_length.
      replace (Nat.min n (length c) - Nat.min n (length c))%nat with O by lia.
      cbn [firstn]. rewrite app_nil_r. f_equal. lia.
    + subst s'. eapply (rows_upd h a s h' a' _ k); eauto.
      * cbn. apply upd_length.
      * unfold srow. cbn [with_cells cells used slay]. rewrite nth_error_upd_same by exact Hk.
        rewrite El. reflexivity.
      * intros q Hq. unfold srow. cbn [with_cells cells used slay].
        rewrite nth_error_upd_other by auto. reflexivity.
  - destruct (Nat.leb_spec n (width s)) as [Hn|]; [|destruct J]. destruct J as [J|[]].
    assert (NC : is_csr (slay s) = false) by (destruct (slay s); try discriminate; reflexivity).
    destruct (r_width _ _ _ _ R NC) as (_ & Fw & _).
    pose proof (r_sizes _ _ _ _ R) as Sz. rewrite El in Sz. destruct Sz as (Ul & _ & _).
    assert (Lc : length c = width s).
    { rewrite Forall_forall in Fw. apply Fw. eapply nth_error_In; eauto. }
    destruct (nth_error_lt_Some _ (used s) k) as [m Em]; [lia|].
    assert (Xr : r = firstn m c).
    { unfold srow in X2. rewrite Ec, El, Em in X2. cbn in X2. congruence. } 
    exists k, r, (firstn n c). split; [auto|]. split; [auto|].
    split; [rewrite firstn_length; lia|]. split.
    + subst r. rewrite !firstn_firstn, firstn_length. f_equal. lia.
    + subst s'. eapply (rows_upd h a s h' a' _ k); eauto.
      * unfold srow. cbn [cells used slay]. rewrite Ec, El.
        rewrite nth_error_upd_same by lia. reflexivity.
      * intros q Hq. unfold srow. cbn [cells used slay].
        rewrite nth_error_upd_other by auto. reflexivity.
Qed.

Lemma compress_rows (s s' : sarr) : In s' (allowed1 dflt s CCompress) -> rows_of s' = rows_of s.
Proof.
  intros [I|[]]. subst s'. destruct (is_csr (slay s)); reflexivity.
Qed.

(** ** One call on a pair *)
Definition plain (c : call T) : Prop :=
  match c with CCopyFrom _ | CSwapWith _ => False | _ => True end.

Lemma allowed_plain ss id s c ss' : plain c -> nth_error ss id = Some s ->
  In ss' (allowed dflt ss id c) -> exists s', In s' (allowed1 dflt s c) /\ ss' = upd id s' ss.
Proof.
  intros P Hs I. unfold allowed in I. rewrite Hs in I.
  destruct c; try destruct P; apply in_map_iff in I; destruct I as (s' & <- & I); eauto.
Qed.

Lemma allowed_plain_nil ss id s c : plain c -> nth_error ss id = Some s ->
  allowed dflt ss id c = [] -> allowed1 dflt s c = [].
Proof.
  intros P Hs I. unfold allowed in I. rewrite Hs in I.
  destruct c; try destruct P; apply map_eq_nil in I; exact I.
Qed.

Lemma one_call w ss id s c : wrep T w ss -> nth_error ss id = Some s -> plain c -> covered ss id c ->
  match do_call dflt w id c with
  | Ok w' => exists s', In s' (allowed1 dflt s c) /\ wrep T w' (upd id s' ss) /\
       (exists h a h' a', rep T h a s /\ rep T h' a' s')
  | Abort => allowed1 dflt s c = []
  | UB => False
  end.
Proof.
  intros W Hs P C. pose proof (step_refines _ dflt _ _ _ _ W C) as G.
  destruct (do_call dflt w id c) as [w'| |]; cbn [good] in G; [|eapply allowed_plain_nil; eauto|exact G].
  destruct G as (ss' & I & W'). destruct (allowed_plain _ _ _ _ _ P Hs I) as (s' & I' & ->).
  exists s'. split; [exact I'|]. split; [exact W'|].
  pose proof (nth_error_Some_lt _ _ _ _ Hs) as L.
  destruct W as (Hl & Hr & _), W' as (Hl' & Hr' & _).
  destruct (nth_error_lt_Some _ (arrs w) id) as [a Ha]; [lia|].
  destruct (nth_error_lt_Some _ (arrs w') id) as [a' Ha']; [rewrite Hl', upd_length; lia|].
  exists (hp w), a, (hp w'), a'. split; [apply (Hr _ _ _ Ha Hs)|].
  apply (Hr' _ _ _ Ha'). apply nth_error_upd_same. exact L.
Qed.

Lemma upd_app_cases (fr sr : list (list T)) k r :
  upd k r (fr ++ sr) = if Nat.ltb k (length fr) then upd k r fr ++ sr else fr ++ upd (k - length fr) r sr.
Proof.
  destruct (Nat.ltb_spec k (length fr)) as [L|L].
  - apply upd_app_l. exact L.
  - replace k with (length fr + (k - length fr))%nat at 1 by lia. apply upd_app_r.
Qed.

Section OnePair.
Variables (f s : nat).
Hypothesis fs : f <> s.

Definition others_same (ss ss' : list sarr) : Prop :=
  length ss' = length ss /\ forall o, o <> f -> o <> s -> nth_error ss' o = nth_error ss o.

Lemma pick_ok w ss sf : wrep T w ss -> nth_error ss f = Some sf -> forall i,
  pick w f s i = if (0 <=? i) && (i <? zlen (rows_of sf)) then Ok (f, i) else Ok (s, i - zlen (rows_of sf)).
Proof.
  intros W Hf i. destruct (shows_rows _ _ _ _ W Hf) as (a & Ha & Sa & _).
  unfold pick, get_arr. rewrite Ha. cbn [bind]. rewrite Sa. reflexivity.
Qed.

Lemma set_refused (sx : sarr) i j x h a : rep T h a sx ->
  allowed1 dflt sx (CSet i j x) = [] -> cell (rows_of sx) i j = Abort.
Proof.
  intros R E. destruct (rep_looks _ _ _ _ R) as (_ & _ & L3). destruct (rep_cell _ _ _ R) as (_ & _ & C3).
  rewrite <- C3, L3. cbn [allowed1] in E.
  destruct (in_range i (length (cells sx))); [|reflexivity].
  destruct (srow sx n); [|reflexivity]. destruct (in_range j (length l)); [discriminate|reflexivity].
Qed.

Lemma one_pcall w ss sf sn c : wrep T w ss -> nth_error ss f = Some sf -> nth_error ss s = Some sn ->
  psmall c ->
  match do_pcall dflt w f s c with
  | Ok w' => exists ss' sf' sn', wrep T w' ss' /\ nth_error ss' f = Some sf' /\ nth_error ss' s = Some sn' /\
      others_same ss ss' /\ length (rows_of sf') = length (rows_of sf) /\
      pstep (rows_of sf ++ rows_of sn) c (rows_of sf' ++ rows_of sn')
  | Abort => refusable (rows_of sf ++ rows_of sn) c
  | UB => False
  end.
Proof.
  intros W Hf Hs P.
  pose proof (nth_error_Some_lt _ _ _ _ Hf) as Lf. pose proof (nth_error_Some_lt _ _ _ _ Hs) as Ls.
  pose proof (pick_ok w ss sf W Hf) as Pk.
  assert (RA : forall id sx, nth_error ss id = Some sx -> exists h a, rep T h a sx).
  { intros id sx Hx. destruct W as (Hl & Hr & _).
    destruct (nth_error_lt_Some _ (arrs w) id) as [a Ha]; [pose proof (nth_error_Some_lt _ _ _ _ Hx); lia|].
    exists (hp w), a. eapply Hr; eauto. }
  assert (OSf : forall x, others_same ss (upd f x ss)).
  { intros x. split; [apply upd_length|]. intros o O1 O2. apply nth_error_upd_other. auto. }
  assert (OSs : forall x, others_same ss (upd s x ss)).
  { intros x. split; [apply upd_length|]. intros o O1 O2. apply nth_error_upd_other. auto. }
  destruct c as [i j x|i n|]; cbn [do_pcall].
  - (* assignment *)
    rewrite Pk. destruct ((0 <=? i) && (i <? zlen (rows_of sf))) eqn:Ei; cbn [bind fst snd].
    + pose proof (one_call w ss f sf (CSet i j x) W Hf I) as G.
      destruct (do_call dflt w f (CSet i j x)) as [w'| |].
      * destruct G as (sf' & I' & W' & h & a & h' & a' & R & R'); [exists sf; auto|].
        destruct (set_rows _ _ _ _ _ _ _ _ _ R R' I') as (k & l & r & -> & -> & Hr & Hl & E).
        exists (upd f sf' ss), sf', sn. split; [exact W'|].
        split; [apply nth_error_upd_same; exact Lf|].
        split; [rewrite nth_error_upd_other by exact fs; exact Hs|]. split; [apply OSf|].
        split; [rewrite E; apply upd_length|]. rewrite E.
        pose proof (nth_error_Some_lt _ _ _ _ Hr) as Lk.
        rewrite <- upd_app_l by exact Lk. constructor; [|exact Hl].
        rewrite nth_error_app1 by exact Lk. exact Hr.
      * cbn [refusable]. rewrite cell_app, Ei. destruct (RA f sf Hf) as (h & a & R).
        eapply set_refused; [exact R|apply G; exists sf; auto].
      * apply G. exists sf. auto.
    + pose proof (one_call w ss s sn (CSet (i - zlen (rows_of sf)) j x) W Hs I) as G.
      destruct (do_call dflt w s (CSet (i - zlen (rows_of sf)) j x)) as [w'| |].
      * destruct G as (sn' & I' & W' & h & a & h' & a' & R & R'); [exists sn; auto|].
        destruct (set_rows _ _ _ _ _ _ _ _ _ R R' I') as (k & l & r & Ek & -> & Hr & Hl & E).
        exists (upd s sn' ss), sf, sn'. split; [exact W'|].
        split; [rewrite nth_error_upd_other by auto; exact Hf|].
        split; [apply nth_error_upd_same; exact Ls|]. split; [apply OSs|].
        split; [reflexivity|]. rewrite E.
        replace i with (Z.of_nat (length (rows_of sf) + k)) by (unfold zlen in Ek; lia).
        rewrite <- upd_app_r. constructor; [|exact Hl].
        rewrite nth_error_app2 by lia.
        replace (length (rows_of sf) + k - length (rows_of sf))%nat with k by lia. exact Hr.
      * cbn [refusable]. rewrite cell_app, Ei. destruct (RA s sn Hs) as (h & a & R).
        eapply set_refused; [exact R|apply G; exists sn; auto].
      * apply G. exists sn. auto.
  - (* resizing a row *)
    rewrite Pk. destruct ((0 <=? i) && (i <? zlen (rows_of sf))) eqn:Ei; cbn [bind fst snd].
    + pose proof (one_call w ss f sf (CResizeRow i n) W Hf I) as G.
      destruct (do_call dflt w f (CResizeRow i n)) as [w'| |].
      * destruct G as (sf' & I' & W' & h & a & h' & a' & R & R'); [exists sf; auto|].
        destruct (resize_rows _ _ _ _ _ _ _ _ R R' I') as (k & r & r' & -> & Hr & Hl & Hp & E).
        exists (upd f sf' ss), sf', sn. split; [exact W'|].
        split; [apply nth_error_upd_same; exact Lf|].
        split; [rewrite nth_error_upd_other by exact fs; exact Hs|]. split; [apply OSf|].
        split; [rewrite E; apply upd_length|]. rewrite E.
        pose proof (nth_error_Some_lt _ _ _ _ Hr) as Lk.
        rewrite <- upd_app_l by exact Lk. econstructor; [|exact Hl|exact Hp].
        rewrite nth_error_app1 by exact Lk. exact Hr.
      * exact I.
      * apply G. exists sf. auto.
    + pose proof (one_call w ss s sn (CResizeRow (i - zlen (rows_of sf)) n) W Hs I) as G.
      destruct (do_call dflt w s (CResizeRow (i - zlen (rows_of sf)) n)) as [w'| |].
      * destruct G as (sn' & I' & W' & h & a & h' & a' & R & R'); [exists sn; auto|].
        destruct (resize_rows _ _ _ _ _ _ _ _ R R' I') as (k & r & r' & Ek & Hr & Hl & Hp & E).
        exists (upd s sn' ss), sf, sn'. split; [exact W'|].
        split; [rewrite nth_error_upd_other by auto; exact Hf|].
        split; [apply nth_error_upd_same; exact Ls|]. split; [apply OSs|].
        split; [reflexivity|]. rewrite E.
        replace i with (Z.of_nat (length (rows_of sf) + k)) by (unfold zlen in Ek; lia).
        rewrite <- upd_app_r. econstructor; [|exact Hl|exact Hp].
        rewrite nth_error_app2 by lia.
        replace (length (rows_of sf) + k - length (rows_of sf))%nat with k by lia. exact Hr.
      * exact I.
      * apply G. exists sn. auto.
  - (* compressing both *)
    pose proof (one_call w ss f sf CCompress W Hf I) as G.
    destruct (do_call dflt w f CCompress) as [w1| |]; cbn [bind].
    + destruct G as (sf' & I' & W' & _); [exists sf; auto|].
      pose proof (compress_rows _ _ I') as E1.
      assert (Hs1 : nth_error (upd f sf' ss) s = Some sn) by (rewrite nth_error_upd_other by exact fs; exact Hs).
      pose proof (one_call w1 (upd f sf' ss) s sn CCompress W' Hs1 I) as G2.
      destruct (do_call dflt w1 s CCompress) as [w2| |].
      * destruct G2 as (sn' & I2 & W2 & _); [exists sn; auto|].
        pose proof (compress_rows _ _ I2) as E2.
        exists (upd s sn' (upd f sf' ss)), sf', sn'. split; [exact W2|].
        split; [rewrite nth_error_upd_other by auto; apply nth_error_upd_same; exact Lf|].
        split; [apply nth_error_upd_same; rewrite upd_length; exact Ls|].
        split. { split; [rewrite !upd_length; reflexivity|]. intros o O1 O2.
                 rewrite !nth_error_upd_other by auto. reflexivity. }
        rewrite E1, E2. split; [reflexivity|]. constructor.
      * cbn [allowed1] in G2. discriminate G2. exists sn. auto.
      * apply G2. exists sn. auto.
    + cbn [allowed1] in G. discriminate G. exists sf. auto.
    + apply G. exists sf. auto.
Qed.

Lemma pair_history : forall pcs w ss sf sn, wrep T w ss -> nth_error ss f = Some sf -> nth_error ss s = Some sn ->
  Forall psmall pcs ->
  match prun dflt w f s pcs with
  | Ok w' => exists ss' sf' sn', wrep T w' ss' /\ nth_error ss' f = Some sf' /\ nth_error ss' s = Some sn' /\
      others_same ss ss' /\ length (rows_of sf') = length (rows_of sf) /\
      psteps (rows_of sf ++ rows_of sn) pcs (rows_of sf' ++ rows_of sn')
  | Abort => exists pcs1 c pcs2 rows, pcs = pcs1 ++ c :: pcs2 /\
      psteps (rows_of sf ++ rows_of sn) pcs1 rows /\ refusable rows c
  | UB => False
  end.
Proof.
  induction pcs as [|c pcs IH]; intros w ss sf sn W Hf Hs F; cbn [prun].
  - exists ss, sf, sn. split; [auto|]. split; [auto|]. split; [auto|]. split; [split; auto|]. split; [auto|constructor].
  - inversion F as [|? ? Pc F']; subst.
    pose proof (one_pcall w ss sf sn c W Hf Hs Pc) as G.
    destruct (do_pcall dflt w f s c) as [w1| |]; cbn [bind].
    + destruct G as (ss1 & sf1 & sn1 & W1 & Hf1 & Hs1 & O1 & L1 & S1).
      specialize (IH w1 ss1 sf1 sn1 W1 Hf1 Hs1 F').
      destruct (prun dflt w1 f s pcs) as [w2| |].
      * destruct IH as (ss2 & sf2 & sn2 & W2 & Hf2 & Hs2 & O2 & L2 & S2).
        exists ss2, sf2, sn2. split; [auto|]. split; [auto|]. split; [auto|].
        split. { destruct O1, O2. split; [congruence|]. intros o A B. rewrite H2, H0 by auto. reflexivity. }
        split; [congruence|]. econstructor; eauto.
      * destruct IH as (p1 & c' & p2 & rows & E & S2 & R). exists (c :: p1), c', p2, rows.
        split; [rewrite E; reflexivity|]. split; [econstructor; eauto|exact R].
      * exact IH.
    + exists [], c, pcs, (rows_of sf ++ rows_of sn). split; [reflexivity|]. split; [constructor|exact G].
    + exact G.
Qed.
End OnePair.

Theorem pair_is_concatenation ls cs w f s pcs :
  covered_history dflt (map snew ls) cs ->
  run dflt {| hp := []; arrs := map new_arr ls |} cs = Ok w ->
  f <> s -> (f < length (arrs w))%nat -> (s < length (arrs w))%nat -> Forall psmall pcs ->
  exists fr sr, shows w f fr /\ shows w s sr /\ pair_shows w f s (fr ++ sr) /\
  match prun dflt w f s pcs with
  | Ok w' => exists fr' sr', shows w' f fr' /\ shows w' s sr' /\ length fr' = length fr /\
      pair_shows w' f s (fr' ++ sr') /\ psteps (fr ++ sr) pcs (fr' ++ sr') /\
      (forall o rows, o <> f -> o <> s -> shows w o rows -> shows w' o rows)
  | Abort => exists pcs1 c pcs2 rows, pcs = pcs1 ++ c :: pcs2 /\
      psteps (fr ++ sr) pcs1 rows /\ refusable rows c
  | UB => False
  end.
Proof.
  intros C Hr N Lf Ls F.
  pose proof (run_refines _ dflt cs _ _ (wrep_new _ [] ls) C) as G. rewrite Hr in G.
  destruct G as (ss & _ & W). pose proof W as (Hl & _ & _).
  destruct (nth_error_lt_Some _ ss f) as [sf Hf]; [lia|].
  destruct (nth_error_lt_Some _ ss s) as [sn Hs]; [lia|].
  exists (rows_of sf), (rows_of sn).
  pose proof (shows_rows _ _ _ _ W Hf) as S1. pose proof (shows_rows _ _ _ _ W Hs) as S2.
  split; [exact S1|]. split; [exact S2|]. split; [apply shows_pair; assumption|].
  pose proof (pair_history f s N pcs w ss sf sn W Hf Hs F) as H.
  destruct (prun dflt w f s pcs) as [w'| |]; [|exact H|exact H].
  destruct H as (ss' & sf' & sn' & W' & Hf' & Hs' & O & L & P).
  exists (rows_of sf'), (rows_of sn').
  pose proof (shows_rows _ _ _ _ W' Hf') as T1. pose proof (shows_rows _ _ _ _ W' Hs') as T2.
  split; [exact T1|]. split; [exact T2|]. split; [exact L|]. split; [apply shows_pair; assumption|].
  split; [exact P|]. intros o rows O1 O2 Sh.
  destruct Sh as (a & Ha & A1 & A2 & A3).
  destruct (nth_error_lt_Some _ ss o) as [so Hso]; [pose proof (nth_error_Some_lt _ _ _ _ Ha); lia|].
  destruct O as (_ & O). assert (Hso' : nth_error ss' o = Some so) by (rewrite O by auto; exact Hso).
  destruct (shows_rows _ _ _ _ W' Hso') as (a' & Ha' & B1 & B2 & B3).
  assert (SA : size a = zlen (rows_of so) /\
    (forall k r, nth_error (rows_of so) k = Some r -> RowSize (hp w) a (Z.of_nat k) = Ok (zlen r)) /\
    (forall i j, at_ (hp w) a i j = cell (rows_of so) i j)).
  { destruct W as (_ & Hrep & _). apply rep_cell, (Hrep _ _ _ Ha Hso). }
  destruct SA as (C1 & C2 & C3).
  assert (Q : rows = rows_of so); [|subst rows; exists a'; auto].
  assert (Len : length rows = length (rows_of so)) by (unfold zlen in *; lia).
  apply nth_error_ext_. intros k.
  destruct (Nat.lt_ge_cases k (length rows)) as [Hk|Hk].
  - destruct (nth_error_lt_Some _ rows k Hk) as [r Er].
    destruct (nth_error_lt_Some _ (rows_of so) k) as [q Eq]; [lia|].
    rewrite Er, Eq. f_equal.
    pose proof (A2 _ _ Er) as Z1. rewrite (C2 _ _ Eq) in Z1. inversion Z1 as [Zl].
    apply nth_error_ext_. intros l.
    assert (Z2 : cell rows (Z.of_nat k) (Z.of_nat l) = cell (rows_of so) (Z.of_nat k) (Z.of_nat l)) by congruence.
    unfold cell in Z2. rewrite !in_range_nat, Er, Eq in Z2 by lia.
    destruct (Nat.lt_ge_cases l (length r)) as [Hl'|Hl'].
    + rewrite !in_range_nat in Z2 by (unfold zlen in Zl; lia).
      destruct (nth_error_lt_Some _ r l Hl') as [x Ex].
      destruct (nth_error_lt_Some _ q l) as [y Ey]; [unfold zlen in Zl; lia|].
      rewrite Ex, Ey in *. congruence.
    + rewrite !(proj2 (nth_error_None _ _)); auto. unfold zlen in Zl; lia.
  - rewrite !(proj2 (nth_error_None _ _)); auto. lia.
Qed.

End Proofs.

(** Two variable-row halves, the son resized and written through the pair. *)
Definition demo_calls : list (pcall Z) :=
  [PResizeRow 3 2; PSet 3 1 8; PSet 0 0 5; PCompressBoth; PSet 1 0 6].
Lemma demo_pair :
  exists w w', run 0 {| hp := []; arrs := map new_arr [CSR; CSR] |}
      [(0%nat, CResizeF [1; 1]%nat); (1%nat, CResize 2)] = Ok w /\
    covered_history 0 (map snew [CSR; CSR]) [(0%nat, CResizeF [1; 1]%nat); (1%nat, CResize 2)] /\
    prun 0 w 0 1 demo_calls = Ok w' /\
    pair_Size w' 0 1 = Ok 4 /\ pair_at w' 0 1 3 1 = Ok 8 /\ pair_at w' 0 1 1 0 = Ok 6 /\
    pair_RowSize w' 0 1 2 = Ok 0 /\ pair_at w' 0 1 2 0 = Abort.
Proof.
  eexists. eexists. split; [vm_compute; reflexivity|]. split; [|split].
  - constructor.
    + eexists. split; [reflexivity|]. repeat constructor.
    + intros ss' [<-|[]]. constructor.
      * eexists. split; [reflexivity|]. cbn. intros (_ & X & _). discriminate.
      * intros ss'' [<-|[]]. constructor.
  - vm_compute; reflexivity.
  - vm_compute. auto 10.
Qed.
