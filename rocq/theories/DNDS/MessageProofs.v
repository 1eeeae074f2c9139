(** The messages of a ghost exchange as lists of element moves (C04, C05, C07). *)
From Coq Require Import List ZArith Lia Bool Arith Permutation.
From Verif Require Import Base.Prelude Base.PreludeFacts Base.MPIModel Base.MPIFacts
  DNDS.IndexMappingModel DNDS.IndexMappingSpec DNDS.IndexMappingProofs DNDS.GhostPullProofs
  DNDS.GhostSearchProofs DNDS.GhostPushProofs
  DNDS.ArrayModel DNDS.ArraySpec DNDS.ArrayProofs DNDS.ExchangeModel DNDS.ExchangeSpec
  DNDS.ExchangePlanProofs DNDS.TransferProofs.
Import ListNotations.
Local Open Scope Z_scope.

Section Messages.
Variable T : Type.
Variable P : nat.
Variable G : nat -> nat -> list nat.

(** first ghost of [r] owned by [s] *)
Definition base (s r : nat) : nat := length (concat (firstn s (ins P G r))).
(** (row of [s], ghost of [r]) *)
Definition linkl (s r : nat) : list (nat * nat) := combine (G s r) (seq (base s r) (length (G s r))).

Lemma ins_nth : forall s r, (s < P)%nat -> nth_error (ins P G r) s = Some (G s r).
Proof. intros. unfold ins. rewrite nth_error_map_seq_lt; auto. Qed.

Lemma base_S : forall s r, (s < P)%nat -> base (S s) r = (base s r + length (G s r))%nat.
Proof.
  intros. unfold base. rewrite (concat_firstn_S _ _ _ _ (ins_nth s r H)), app_length. reflexivity.
Qed.

Lemma ghosts_length : forall r, length (ghosts P G r) = length (concat (ins P G r)).
Proof.
  intros. unfold ghosts, ins. induction (seq 0 P); simpl; auto.
  rewrite !app_length, map_length, IHl. reflexivity.
Qed.

Lemma base_ghosts : forall s r,
  base s r = length (concat (firstn s (map (fun s => map (pair s) (G s r)) (seq 0 P)))).
Proof.
  intros. unfold base, ins. rewrite !firstn_map. induction (firstn s (seq 0 P)); simpl; auto.
  rewrite !app_length, map_length, IHl. reflexivity.
Qed.

Lemma base_bound : forall s r, (s < P)%nat -> (base s r + length (G s r) <= length (ghosts P G r))%nat.
Proof.
  intros. rewrite <- base_S by auto. rewrite ghosts_length. unfold base.
  rewrite <- (firstn_skipn (S s) (ins P G r)) at 2. rewrite concat_app, app_length. lia.
Qed.

Lemma linkl_In : forall s r i k, (s < P)%nat ->
  In (i, k) (linkl s r) <-> nth_error (ghosts P G r) k = Some (s, i).
Proof.
  intros s r i k Hs. unfold linkl. split.
  - intro H. apply In_nth_error in H. destruct H as [v H]. rewrite nth_error_combine in H.
    destruct (nth_error (G s r) v) as [i'|] eqn:E; [|discriminate].
    rewrite nth_error_seq in H. destruct (Nat.ltb_spec v (length (G s r))); [|discriminate].
    injection H as <- <-. unfold ghosts. rewrite base_ghosts.
    rewrite (nth_error_concat _ _ s v (map (pair s) (G s r))).
    + rewrite nth_error_map_, E. reflexivity.
    + rewrite nth_error_map_seq_lt; auto.
    + rewrite map_length; auto.
  - intro H. unfold ghosts in H. destruct (concat_pos _ _ _ _ H) as [s' [v [row [_ [Hr [Hv Hk]]]]]].
    apply nth_error_map_seq in Hr. destruct Hr as [_ ->]. rewrite nth_error_map_ in Hv.
    destruct (nth_error (G s' r) v) as [i'|] eqn:E; [|discriminate]. cbn in Hv. injection Hv as -> ->.
    apply nth_error_In with (n := v). rewrite nth_error_combine, E, nth_error_seq.
    pose proof (nth_error_Some_lt _ _ _ _ E). destruct (Nat.ltb_spec v (length (G s r))); [|lia].
    rewrite Hk, base_ghosts. reflexivity.
Qed.

Lemma linkl_rows : forall s r, map fst (linkl s r) = G s r.
Proof.
  intros. unfold linkl. generalize (base s r). induction (G s r) as [|i l IH]; intro b; simpl; auto.
  rewrite IH. reflexivity.
Qed.

Lemma linkl_slots : forall s r, map snd (linkl s r) = seq (base s r) (length (G s r)).
Proof.
  intros. unfold linkl. generalize (base s r). induction (G s r) as [|i l IH]; intro b; simpl; auto.
  rewrite IH. reflexivity.
Qed.

(** *** datatypes *)
Variables CF CS : nat -> list (list T).
Hypothesis shape : forall s r i k, (s < P)%nat -> (r < P)%nat -> In (i, k) (linkl s r) ->
  clen (CS r) k = clen (CF s) i.

Definition out_blocks (s r : nat) : dtype :=
  map (fun i => (Z.of_nat (clen (CF s) i), Z.of_nat (off (CF s) i))) (G s r).
Definition in_start (s r : nat) : nat := off (CS r) (base s r).
Definition in_span (s r : nat) : nat := off (CS r) (base (S s) r) - off (CS r) (base s r).
Definition in_block (s r : nat) : dtype := [(Z.of_nat (in_span s r), Z.of_nat (in_start s r))].
Definition some_elems (s r : nat) : bool := 0 <? Z.of_nat (in_span s r).

Definition pairs (s r : nat) : list (nat * nat) :=
  concat (map (fun ik => combine (seq (off (CF s) (fst ik)) (clen (CF s) (fst ik)))
                                 (seq (off (CS r) (snd ik)) (clen (CS r) (snd ik)))) (linkl s r)).

Lemma expand_blocks : forall l, expand (map (fun x : nat * nat => (Z.of_nat (fst x), Z.of_nat (snd x))) l) =
  map Z.of_nat (concat (map (fun x => seq (snd x) (fst x)) l)).
Proof.
  unfold expand. induction l as [|[n d] l IH]; auto. cbn [map concat fst snd]. rewrite IH, map_app. f_equal.
  rewrite Nat2Z.id. unfold ranks. rewrite map_map.
  assert (E : forall m a, map (fun x => Z.of_nat d + Z.of_nat x) (seq a m) = map Z.of_nat (seq (d + a) m)).
  { induction m; intros a; auto. cbn [seq map]. rewrite IHm. f_equal; [lia|].
    replace (d + S a)%nat with (S (d + a)) by lia. reflexivity. }
  rewrite E, Nat.add_0_r. reflexivity.
Qed.

Lemma expand_out : forall s r, expand (out_blocks s r) =
  map Z.of_nat (concat (map (fun i => seq (off (CF s) i) (clen (CF s) i)) (G s r))).
Proof.
  intros. unfold out_blocks.
  rewrite <- (map_map (fun i => (clen (CF s) i, off (CF s) i))
                (fun x : nat * nat => (Z.of_nat (fst x), Z.of_nat (snd x)))).
  rewrite expand_blocks, map_map. reflexivity.
Qed.

Lemma expand_in : forall s r, (s < P)%nat -> expand (in_block s r) =
  map Z.of_nat (concat (map (fun k => seq (off (CS r) k) (clen (CS r) k)) (seq (base s r) (length (G s r))))).
Proof.
  intros. unfold in_block.
  change ([(Z.of_nat (in_span s r), Z.of_nat (in_start s r))]) with
    (map (fun x : nat * nat => (Z.of_nat (fst x), Z.of_nat (snd x))) [(in_span s r, in_start s r)]).
  rewrite expand_blocks. cbn [map concat fst snd]. rewrite app_nil_r, seq_rows.
  unfold in_span, in_start. rewrite base_S by auto. reflexivity.
Qed.

Lemma combine_map_map : forall A B A' B' (f : A -> A') (g : B -> B') l l',
  combine (map f l) (map g l') = map (fun x => (f (fst x), g (snd x))) (combine l l').
Proof. induction l; destruct l'; simpl; auto. rewrite IHl. reflexivity. Qed.

Definition zz (x : nat * nat) : Z * Z := (Z.of_nat (fst x), Z.of_nat (snd x)).
Definition swap {A B} (x : A * B) : B * A := (snd x, fst x).

Lemma message_pairs : forall s r, (s < P)%nat -> (r < P)%nat ->
  combine (expand (out_blocks s r)) (expand (in_block s r)) = map zz (pairs s r) /\
  length (expand (out_blocks s r)) = length (expand (in_block s r)).
Proof.
  intros s r Hs Hr. rewrite expand_out, expand_in by auto. split.
  - rewrite combine_map_map. unfold zz. f_equal. unfold pairs, linkl. apply combine_concat.
    + intros i k Hin. rewrite !seq_length. symmetry. apply shape; auto.
    + rewrite seq_length. reflexivity.
  - rewrite !map_length. rewrite <- linkl_slots. rewrite <- (linkl_rows s r) at 1. rewrite !map_map.
    assert (H : forall l, (forall x, In x l -> In x (linkl s r)) ->
      length (concat (map (fun x => seq (off (CF s) (fst x)) (clen (CF s) (fst x))) l)) =
      length (concat (map (fun x => seq (off (CS r) (snd x)) (clen (CS r) (snd x))) l))).
    { induction l as [|[i k] l IH]; intros Hl; auto. cbn [map concat fst snd].
      rewrite !app_length, !seq_length, IH by (intros; apply Hl; right; auto).
      f_equal. symmetry. apply shape; auto. apply Hl. left. auto. }
    apply H. auto.
Qed.

Lemma span_blocks : forall s r, (s < P)%nat -> (r < P)%nat ->
  in_span s r = length (expand (out_blocks s r)).
Proof.
  intros s r Hs Hr. destruct (message_pairs s r Hs Hr) as [_ ->].
  unfold in_block, expand. cbn [map concat fst snd]. rewrite app_nil_r, map_length, ranks_length, Nat2Z.id.
  reflexivity.
Qed.

Lemma no_elems : forall s r, (s < P)%nat -> (r < P)%nat -> some_elems s r = false -> pairs s r = [].
Proof.
  intros s r Hs Hr H. unfold some_elems in H. apply Z.ltb_ge in H.
  destruct (message_pairs s r Hs Hr) as [E L]. rewrite <- span_blocks in L by auto.
  assert (length (map zz (pairs s r)) = 0)%nat.
  { rewrite <- E, combine_length, <- span_blocks by auto. lia. }
  rewrite map_length in H0. destruct (pairs s r); [auto|discriminate].
Qed.

(** the datatype lists of the ranks *)
Definition types_of (b : nat -> bool) (t : nat -> dtype) : list (Z * dtype) :=
  concat (map (fun d => if b d then [(Z.of_nat d, t d)] else []) (seq 0 P)).

Lemma type_for_types : forall b t d, (d < P)%nat ->
  type_for (types_of b t) (Z.of_nat d) = if b d then Some (t d) else None.
Proof.
  intros b t d Hd. unfold types_of, type_for.
  assert (H : forall n a, (a <= d < a + n)%nat ->
    option_map snd (find (fun x : Z * dtype => fst x =? Z.of_nat d)
      (concat (map (fun d => if b d then [(Z.of_nat d, t d)] else []) (seq a n)))) =
    if b d then Some (t d) else None).
  { induction n; intros a Ha; [lia|]. cbn [seq map concat]. destruct (Nat.eq_dec a d).
    - subst a. destruct (b d) eqn:E.
      + cbn [app find fst]. rewrite Z.eqb_refl. reflexivity.
      + cbn [app]. assert (N : forall m c, (d < c)%nat ->
          find (fun x : Z * dtype => fst x =? Z.of_nat d)
            (concat (map (fun d => if b d then [(Z.of_nat d, t d)] else []) (seq c m))) = None).
        { induction m; intros c Hc; auto. cbn [seq map concat]. destruct (b c); cbn [app find fst].
          - destruct (Z.eqb_spec (Z.of_nat c) (Z.of_nat d)); [lia|]. apply IHm. lia.
          - apply IHm. lia. }
        rewrite N by lia. reflexivity.
    - destruct (b a); cbn [app find fst].
      + destruct (Z.eqb_spec (Z.of_nat a) (Z.of_nat d)); [lia|]. apply IHn. lia.
      + apply IHn. lia. }
  apply H. lia.
Qed.

Lemma messages_spec : forall (b : nat -> nat -> bool) (t u : nat -> nat -> dtype) (xs : nat -> nat -> list (Z * Z)),
  (forall s r, (s < P)%nat -> (r < P)%nat ->
     combine (expand (t s r)) (expand (u s r)) = xs s r /\
     length (expand (t s r)) = length (expand (u s r)) /\ (b s r = false -> xs s r = [])) ->
  messages (map (fun s => types_of (b s) (t s)) (seq 0 P))
           (map (fun r => types_of (fun s => b s r) (fun s => u s r)) (seq 0 P)) =
  Ok (Some (map (fun sr => (zz sr, xs (fst sr) (snd sr))) (list_prod (seq 0 P) (seq 0 P)))).
Proof.
  intros b t u xs H. unfold messages. rewrite map_length, seq_length.
  assert (EP : list_prod (ranks P) (ranks P) = map zz (list_prod (seq 0 P) (seq 0 P))).
  { unfold ranks. generalize (seq 0 P) at 2 4. intro l2. induction (seq 0 P); cbn [map list_prod]; auto.
    rewrite IHl, map_app, !map_map. reflexivity. }
  rewrite EP.
  assert (EM : mapM (fun sr => do so <- vget (map (fun s => types_of (b s) (t s)) (seq 0 P)) (fst sr);
                          do ri <- vget (map (fun r => types_of (fun s => b s r) (fun s => u s r)) (seq 0 P)) (snd sr);
                          do o <- match_pair (type_for so (snd sr)) (type_for ri (fst sr));
                          Ok (option_map (fun x => (sr, x)) o))
                    (map zz (list_prod (seq 0 P) (seq 0 P))) =
    Ok (map (fun sr => Some (zz sr, xs (fst sr) (snd sr))) (list_prod (seq 0 P) (seq 0 P)))).
  { apply mapM_intro; [rewrite !map_length; reflexivity|].
    intros n x y Hx Hy. rewrite nth_error_map_ in Hx, Hy.
    destruct (nth_error (list_prod (seq 0 P) (seq 0 P)) n) as [[s r]|] eqn:E; [|discriminate].
    cbn in Hx, Hy. injection Hx as <-. injection Hy as <-. cbn [fst snd].
    apply nth_error_In in E. apply in_prod_iff in E. destruct E as [Es Er]. apply in_seq in Es, Er.
    assert (Hs : (s < P)%nat) by lia. assert (Hr : (r < P)%nat) by lia.
    change (fst (zz (s, r))) with (Z.of_nat s). change (snd (zz (s, r))) with (Z.of_nat r).
    rewrite (vget_of_nat _ _ _ _ (nth_error_map_seq_lt _ (fun s => types_of (b s) (t s)) P s Hs)). cbn [bind].
    rewrite (vget_of_nat _ _ _ _ (nth_error_map_seq_lt _ (fun r => types_of (fun s => b s r) (fun s => u s r)) P r Hr)).
    cbn [bind]. rewrite !type_for_types by auto. destruct (H s r Hs Hr) as [H1 [H2 H3]].
    destruct (b s r) eqn:Eb.
    - cbn [match_pair]. rewrite <- H2. rewrite Nat.leb_refl. cbn [bind option_map]. rewrite H1. reflexivity.
    - cbn [match_pair bind option_map]. rewrite H3 by auto. reflexivity. }
  rewrite EM. cbn [bind].
  match goal with |- context [forallb ?f ?l] => assert (E1 : forallb f l = true) end.
  { apply forallb_forall. intros o Ho. apply in_map_iff in Ho. destruct Ho as [? [<- _]]. reflexivity. }
  rewrite E1. do 2 f_equal. rewrite map_map. generalize (list_prod (seq 0 P) (seq 0 P)).
  induction l; simpl; auto. rewrite IHl. reflexivity.
Qed.

Definition push_types_of (s : nat) : list (Z * dtype) := types_of (some_elems s) (out_blocks s).
Definition pull_types_of (r : nat) : list (Z * dtype) :=
  types_of (fun s => some_elems s r) (fun s => in_block s r).

Definition PP := list_prod (seq 0 P) (seq 0 P).
Definition pull_msgs : list message := map (fun sr => (zz sr, map zz (pairs (fst sr) (snd sr)))) PP.
Definition push_msgs : list message :=
  map (fun sr => (zz sr, map zz (map swap (pairs (snd sr) (fst sr))))) PP.

Lemma pull_messages_spec :
  messages (map push_types_of (seq 0 P)) (map pull_types_of (seq 0 P)) = Ok (Some pull_msgs).
Proof.
  unfold push_types_of, pull_types_of.
  apply (messages_spec some_elems out_blocks in_block (fun s r => map zz (pairs s r))).
  intros s r Hs Hr. destruct (message_pairs s r Hs Hr). split; auto. split; auto.
  intro E. rewrite no_elems; auto.
Qed.

Lemma combine_swap : forall A B (l : list A) (l' : list B), combine l' l = map swap (combine l l').
Proof. induction l; destruct l'; simpl; auto. unfold swap at 1. cbn. rewrite IHl. reflexivity. Qed.

Lemma push_messages_spec :
  messages (map pull_types_of (seq 0 P)) (map push_types_of (seq 0 P)) = Ok (Some push_msgs).
Proof.
  unfold push_types_of, pull_types_of.
  apply (messages_spec (fun r s => some_elems s r) (fun r s => in_block s r) (fun r s => out_blocks s r)
           (fun r s => map zz (map swap (pairs s r)))).
  intros r s Hr Hs. destruct (message_pairs s r Hs Hr) as [E L]. split; [|split; auto].
  - rewrite combine_swap, E, !map_map. reflexivity.
  - intro F. rewrite no_elems; auto.
Qed.

(** *** moves *)
Definition pull_nm : list nmove :=
  concat (map (fun sr => map (fun pq => ((fst sr, fst pq), (snd sr, snd pq))) (pairs (fst sr) (snd sr))) PP).
Definition push_nm : list nmove :=
  concat (map (fun sr => map (fun pq => ((fst sr, snd pq), (snd sr, fst pq))) (pairs (snd sr) (fst sr))) PP).

Lemma pull_all_moves : all_moves pull_msgs = map zmove pull_nm.
Proof.
  unfold all_moves, pull_msgs, pull_nm. rewrite map_map. rewrite <- concat_map_map, map_map. f_equal.
  apply map_ext. intros [s r]. unfold moves_of. cbn [fst snd]. rewrite !map_map. reflexivity.
Qed.
Lemma push_all_moves : all_moves push_msgs = map zmove push_nm.
Proof.
  unfold all_moves, push_msgs, push_nm. rewrite map_map. rewrite <- concat_map_map, map_map. f_equal.
  apply map_ext. intros [s r]. unfold moves_of. cbn [fst snd]. rewrite !map_map. reflexivity.
Qed.

Lemma pairs_In : forall s r p q, (s < P)%nat -> (r < P)%nat ->
  In (p, q) (pairs s r) <-> exists i k j, In (i, k) (linkl s r) /\ (j < clen (CF s) i)%nat /\
    p = (off (CF s) i + j)%nat /\ q = (off (CS r) k + j)%nat.
Proof.
  intros s r p q Hs Hr. unfold pairs. rewrite in_concat. split.
  - intros [l [Hl Hin]]. apply in_map_iff in Hl. destruct Hl as [[i k] [<- Hik]]. cbn [fst snd] in Hin.
    apply In_nth_error in Hin. destruct Hin as [j Hj]. rewrite nth_error_combine, !nth_error_seq in Hj.
    destruct (Nat.ltb_spec j (clen (CF s) i)); [|discriminate].
    destruct (Nat.ltb_spec j (clen (CS r) k)); [|discriminate]. injection Hj as <- <-.
    exists i, k, j. auto.
  - intros [i [k [j [Hik [Hj [-> ->]]]]]]. eexists. split.
    + apply in_map_iff. exists (i, k). split; [reflexivity|auto].
    + cbn [fst snd]. apply nth_error_In with (n := j). rewrite nth_error_combine, !nth_error_seq.
      rewrite (shape s r i k) by auto. destruct (Nat.ltb_spec j (clen (CF s) i)); [reflexivity|lia].
Qed.

Lemma pull_nm_In : forall s p r q, In ((s, p), (r, q)) pull_nm <->
  (s < P)%nat /\ (r < P)%nat /\ In (p, q) (pairs s r).
Proof.
  clear shape. intros. unfold pull_nm. rewrite in_concat. split.
  - intros [l [Hl Hin]]. apply in_map_iff in Hl. destruct Hl as [[s' r'] [<- Hsr]].
    apply in_prod_iff in Hsr. destruct Hsr as [A B]. apply in_seq in A, B.
    apply in_map_iff in Hin. destruct Hin as [[p' q'] [E Hin]]. cbn [fst snd] in *. injection E as -> -> -> ->.
    repeat split; auto; lia.
  - intros [Hs [Hr H]]. eexists. split.
    + apply in_map_iff. exists (s, r). split; [reflexivity|]. apply in_prod_iff. split; apply in_seq; lia.
    + apply in_map_iff. exists (p, q). auto.
Qed.

Lemma push_nm_In : forall s p r q, In ((r, q), (s, p)) push_nm <->
  (s < P)%nat /\ (r < P)%nat /\ In (p, q) (pairs s r).
Proof.
  clear shape. intros. unfold push_nm. rewrite in_concat. split.
  - intros [l [Hl Hin]]. apply in_map_iff in Hl. destruct Hl as [[s' r'] [<- Hsr]].
    apply in_prod_iff in Hsr. destruct Hsr as [A B]. apply in_seq in A, B.
    apply in_map_iff in Hin. destruct Hin as [[p' q'] [E Hin]]. cbn [fst snd] in *. injection E as -> -> -> ->.
    repeat split; auto; lia.
  - intros [Hs [Hr H]]. eexists. split.
    + apply in_map_iff. exists (r, s). split; [reflexivity|]. apply in_prod_iff. split; apply in_seq; lia.
    + apply in_map_iff. exists (p, q). auto.
Qed.

End Messages.
