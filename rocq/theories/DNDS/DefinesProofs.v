From Coq Require Import List ZArith Lia Bool Arith Ascii.
From Verif Require Import Base.Prelude Base.PreludeFacts DNDS.DefinesModel DNDS.DefinesSpec.
Import ListNotations.
Local Open Scope Z_scope.
Ltac Zify.zify_post_hook ::= Z.div_mod_to_equations.

Lemma will_add_overflow_exact : forall lo hi v inc,
  lo <= 0 <= hi -> lo <= v <= hi -> lo <= inc <= hi -> - hi - 1 <= lo ->
  signedIntWillAddOverflow lo hi v inc =
  Ok (negb ((lo <=? v + inc) && (v + inc <=? hi))).
Proof.
  intros. unfold signedIntWillAddOverflow, tarith.
  destruct (Z.ltb_spec 0 inc).
  - destruct (Z.leb_spec lo (hi - inc)); [|lia].
    destruct (Z.leb_spec (hi - inc) hi); [|lia]. simpl.
    destruct (Z.ltb_spec (hi - inc) v); simpl.
    + destruct (Z.leb_spec (v + inc) hi); [lia|]. rewrite andb_false_r. reflexivity.
    + destruct (Z.ltb_spec inc 0); [lia|]. simpl.
      destruct (Z.leb_spec (v + inc) hi); [|lia].
      destruct (Z.leb_spec lo (v + inc)); [|lia]. reflexivity.
  - simpl. destruct (Z.ltb_spec inc 0).
    + destruct (Z.leb_spec lo (lo - inc)); [|lia].
      destruct (Z.leb_spec (lo - inc) hi); [|lia]. simpl.
      destruct (Z.ltb_spec v (lo - inc)); simpl.
      * destruct (Z.leb_spec lo (v + inc)); [lia|]. reflexivity.
      * destruct (Z.leb_spec lo (v + inc)); [|lia].
        destruct (Z.leb_spec (v + inc) hi); [|lia]. reflexivity.
    + simpl. destruct (Z.leb_spec lo (v + inc)); [|lia].
      destruct (Z.leb_spec (v + inc) hi); [|lia]. reflexivity.
Qed.

Lemma safe_add_exact : forall lo hi v inc,
  lo <= 0 <= hi -> lo <= v <= hi -> lo <= inc <= hi -> - hi - 1 <= lo ->
  signedIntSafeAdd lo hi v inc =
  if (lo <=? v + inc) && (v + inc <=? hi) then Ok (v + inc) else Abort.
Proof.
  intros. unfold signedIntSafeAdd. rewrite will_add_overflow_exact by auto. simpl.
  unfold tarith. destruct ((lo <=? v + inc) && (v + inc <=? hi)); reflexivity.
Qed.

Lemma accumulate_nonneg : forall lo hi l acc,
  lo <= 0 <= hi -> - hi - 1 <= lo -> 0 <= acc ->
  Forall (fun x => 0 <= x <= hi) l -> acc <= hi ->
  accumulate lo hi acc l =
  if acc + zsum l <=? hi then Ok (psums acc l) else Abort.
Proof.
  induction l as [|x l IH]; intros acc Hr Hb Ha Hl Hh.
  - unfold zsum; simpl. destruct (Z.leb_spec (acc + 0) hi); [reflexivity|lia].
  - inversion Hl; subst. simpl. rewrite safe_add_exact by lia.
    assert (Hn : 0 <= zsum l).
    { apply zsum_nonneg. eapply Forall_impl; [|eassumption]. simpl; intros; lia. }
    change (zsum (x :: l)) with (x + zsum l).
    destruct (Z.leb_spec lo (acc + x)); [|lia].
    destruct (Z.leb_spec (acc + x) hi); simpl.
    + rewrite IH by (auto; lia).
      replace (acc + (x + zsum l)) with (acc + x + zsum l) by lia.
      destruct (acc + x + zsum l <=? hi); reflexivity.
    + destruct (Z.leb_spec (acc + (x + zsum l)) hi); [lia|reflexivity].
Qed.

Lemma accumulate_Ok : forall lo hi l acc st,
  accumulate lo hi acc l = Ok st -> st = psums acc l.
Proof.
  induction l as [|x l IH]; simpl; intros acc st H.
  - congruence.
  - inv_bind. unfold signedIntSafeAdd, tarith in H0.
    inv_bind. destruct v1; [discriminate|].
    destruct ((lo <=? acc + x) && (acc + x <=? hi)); [|discriminate].
    injection H0 as <-. rewrite (IH _ _ H1) in H. congruence.
Qed.

Lemma divide_ceil_exact : forall a b, 0 <= a -> 0 < b ->
  exists c, divide_ceil a b = Ok c /\ (c - 1) * b < a <= c * b.
Proof.
  intros. unfold divide_ceil, cdiv, crem.
  destruct (Z.eqb_spec b 0); [lia|]. simpl. eexists; split; [reflexivity|].
  rewrite Z.quot_div_nonneg, Z.rem_mod_nonneg by lia.
  destruct (Z.eqb_spec (a mod b) 0); lia.
Qed.

Lemma divCeil_value : forall l r, 0 <= l -> 0 < r ->
  divCeil l r = Ok (if l =? 0 then 0 else 1).
Proof.
  intros. unfold divCeil, cdiv, crem.
  destruct (Z.eqb_spec r 0); [lia|]. simpl.
  rewrite Z.quot_div_nonneg, Z.rem_mod_nonneg by lia.
  destruct (Z.eqb_spec l 0), (Z.eqb_spec (l / r + l mod r) 0); auto; try lia.
  - subst. rewrite Z.div_0_l, Z.mod_0_l in n0 by lia. lia.
  - assert (0 <= l / r) by (apply Z.div_pos; lia).
    assert (0 <= l mod r) by (apply Z.mod_pos_bound; lia).
    assert (l / r = 0) by lia. assert (l mod r = 0) by lia.
    pose proof (Z.div_mod l r). nia.
Qed.

Lemma cmod_exact : forall a b, 0 < b -> cmod a b = Ok (a mod b).
Proof.
  intros. unfold cmod, crem. destruct (Z.eqb_spec b 0); [lia|]. simpl. f_equal.
  pose proof (Z.quot_rem' a b). pose proof (Z.rem_bound_abs a b ltac:(lia)).
  destruct (Z.ltb_spec (Z.rem a b) 0).
  - apply Z.mod_unique with (q := Z.quot a b - 1); lia.
  - apply Z.mod_unique with (q := Z.quot a b); lia.
Qed.

Lemma checkUniform_exact : forall l v,
  checkUniformVector l = Some v <-> l <> [] /\ forall x, In x l -> x = v.
Proof.
  intros [|a l] v; simpl.
  - split; [discriminate | intros [H _]; congruence].
  - destruct (forallb (fun x => x =? a) l) eqn:E.
    + rewrite forallb_forall in E. split.
      * intro H; injection H as <-. split; [discriminate|].
        intros x [->|Hx]; auto. apply Z.eqb_eq; auto.
      * intros [_ H]. f_equal. apply H; auto.
    + split; [discriminate|]. intros [_ H]. exfalso.
      assert (forallb (fun x => x =? a) l = true); [|congruence].
      apply forallb_forall. intros x Hx. apply Z.eqb_eq.
      rewrite (H a) by auto. apply H; auto.
Qed.

(** *** iterateIdentical *)
Definition indexed_from (p : nat) (l : list Z) := combine (seq p (length l)) l.
Definition matches_from p1 l1 p2 l2 :=
  map (fun p : (nat * Z) * (nat * Z) => (snd (fst p), fst (fst p), fst (snd p)))
    (filter (fun p => snd (fst p) =? snd (snd p))
            (list_prod (indexed_from p1 l1) (indexed_from p2 l2))).

Lemma filter_none : forall A (f : A -> bool) l,
  (forall x, In x l -> f x = false) -> filter f l = [].
Proof.
  induction l; simpl; intros H; auto. rewrite H by auto. apply IHl; auto.
Qed.

Lemma indexed_from_In : forall l p i x, In (i, x) (indexed_from p l) -> In x l.
Proof. intros. eapply in_combine_r; eauto. Qed.

Lemma matches_from_nil_r : forall l1 p1 p2, matches_from p1 l1 p2 [] = [].
Proof.
  intros. unfold matches_from, indexed_from. simpl.
  assert (forall (l : list (nat*Z)), list_prod l (@nil (nat * Z)) = []) as ->; [|reflexivity].
  induction l; simpl; auto.
Qed.

Lemma matches_from_cons_l : forall x l1 p1 l2 p2,
  (forall y, In y l2 -> x < y) ->
  matches_from p1 (x :: l1) p2 l2 = matches_from (S p1) l1 p2 l2.
Proof.
  intros. unfold matches_from, indexed_from. simpl.
  rewrite filter_app, map_app.
  rewrite filter_none; [reflexivity|].
  intros [[i a] [j b]] Hin. apply in_map_iff in Hin. destruct Hin as [[j' b'] [He Hin]].
  injection He as <- <- <- <-. simpl. apply Z.eqb_neq.
  apply in_combine_r in Hin. specialize (H _ Hin). lia.
Qed.

Lemma list_prod_filter_skip : forall (l : list (nat*Z)) (y : nat * Z) (r : list (nat * Z)),
  (forall i a, In (i, a) l -> a <> snd y) ->
  filter (fun p : (nat*Z)*(nat*Z) => snd (fst p) =? snd (snd p)) (list_prod l (y :: r)) =
  filter (fun p => snd (fst p) =? snd (snd p)) (list_prod l r).
Proof.
  induction l as [|[i a] l IH]; intros y r H; [reflexivity|].
  cbn [list_prod]. rewrite !filter_app. cbn [map filter fst snd].
  destruct (Z.eqb_spec a (snd y)).
  - exfalso. apply (H i a); simpl; auto.
  - rewrite IH; [reflexivity|]. intros; apply (H i0); simpl; auto.
Qed.

Lemma matches_from_cons_r : forall l1 p1 y l2 p2,
  (forall x, In x l1 -> y <> x) ->
  matches_from p1 l1 p2 (y :: l2) = matches_from p1 l1 (S p2) l2.
Proof.
  intros. unfold matches_from. unfold indexed_from at 2. cbn [length seq combine].
  rewrite list_prod_filter_skip; [reflexivity|].
  intros i a Hin E. simpl in E. apply indexed_from_In in Hin.
  apply (H _ Hin). auto.
Qed.

Lemma matches_from_cons_eq : forall x l1 p1 l2 p2,
  (forall y, In y l2 -> x < y) -> (forall y, In y l1 -> x < y) ->
  matches_from p1 (x :: l1) p2 (x :: l2) =
  (x, p1, p2) :: matches_from (S p1) l1 (S p2) l2.
Proof.
  intros. unfold matches_from at 1. unfold indexed_from at 1. cbn [length seq combine].
  cbn [list_prod]. rewrite filter_app, map_app.
  unfold indexed_from at 1. cbn [length seq combine map filter fst snd].
  rewrite Z.eqb_refl. cbn [map fst snd app]. f_equal.
  rewrite filter_none.
  - cbn [map app]. apply matches_from_cons_r. intros z Hz. specialize (H0 _ Hz). lia.
  - intros [[i a] [j b]] Hin. apply in_map_iff in Hin. destruct Hin as [[j' b'] [He Hin]].
    injection He as <- <- <- <-. simpl. apply Z.eqb_neq.
    apply in_combine_r in Hin. specialize (H _ Hin). lia.
Qed.

Lemma iterateIdentical_from_spec : forall S (F : S -> Z -> nat -> nat -> S * bool) l1 p1 l2 p2 s,
  sasc l1 -> sasc l2 ->
  iterateIdentical_from F l1 p1 l2 p2 s = visit F (matches_from p1 l1 p2 l2) s.
Proof.
  intros S F. induction l1 as [|x l1 IH1]; intros p1.
  - intros [|y l2] p2 s _ _; reflexivity.
  - induction l2 as [|y l2 IH2]; intros p2 s H1 H2.
    + rewrite matches_from_nil_r. reflexivity.
    + pose proof (proj1 (sasc_cons _ _) H1) as [H1t H1h].
      pose proof (proj1 (sasc_cons _ _) H2) as [H2t H2h].
      simpl iterateIdentical_from.
      destruct (Z.ltb_spec x y).
      * rewrite matches_from_cons_l.
        -- replace (p1 + 1)%nat with (Datatypes.S p1) by lia. apply IH1; auto.
        -- intros z [<-|Hz]; auto. specialize (H2h _ Hz). lia.
      * destruct (Z.ltb_spec y x).
        -- rewrite matches_from_cons_r.
           ++ replace (p2 + 1)%nat with (Datatypes.S p2) by lia. apply IH2; auto.
           ++ intros z [<-|Hz]; [lia|]. specialize (H1h _ Hz). lia.
        -- assert (x = y) by lia. subst y.
           rewrite matches_from_cons_eq by auto. simpl.
           destruct (F s x p1 p2) as [s' []]; auto.
           replace (p1 + 1)%nat with (Datatypes.S p1) by lia.
           replace (p2 + 1)%nat with (Datatypes.S p2) by lia. apply IH1; auto.
Qed.

Lemma iterateIdentical_spec : forall S (F : S -> Z -> nat -> nat -> S * bool) l1 l2 s,
  sasc l1 -> sasc l2 -> iterateIdentical F l1 l2 s = visit F (matches l1 l2) s.
Proof. intros. apply iterateIdentical_from_spec; auto. Qed.

Lemma matches_complete : forall l1 l2 x i j,
  In (x, i, j) (matches l1 l2) <-> nth_error l1 i = Some x /\ nth_error l2 j = Some x.
Proof.
  assert (Hc : forall (l : list Z) p i x, In (i, x) (combine (seq p (length l)) l) <->
      (p <= i)%nat /\ nth_error l (i - p) = Some x).
  { induction l as [|a l IH]; intros p i x.
    - simpl. split; [tauto|]. intros [_ H]. destruct (i - p)%nat; discriminate.
    - simpl. rewrite IH. split.
      + intros [E | [H1 H2]].
        * injection E as <- <-. split; auto. rewrite Nat.sub_diag. reflexivity.
        * split; [lia|]. replace (i - p)%nat with (S (i - S p)) by lia. auto.
      + intros [H1 H2]. destruct (Nat.eq_dec p i).
        * subst. rewrite Nat.sub_diag in H2. simpl in H2. left; congruence.
        * right. split; [lia|]. replace (i - p)%nat with (S (i - S p)) in H2 by lia. auto. }
  intros. unfold matches, indexed. rewrite in_map_iff. split.
  - intros [[[a b] [c d]] [E H]]. simpl in E. injection E as <- <- <-.
    apply filter_In in H. destruct H as [H He]. simpl in He. apply Z.eqb_eq in He. subst d.
    apply in_prod_iff in H. rewrite !Hc, !Nat.sub_0_r in H. tauto.
  - intros [H1 H2]. exists ((i, x), (j, x)). split; [reflexivity|].
    apply filter_In. split; [|simpl; apply Z.eqb_refl].
    apply in_prod_iff. rewrite !Hc, !Nat.sub_0_r. repeat split; auto; lia.
Qed.

(** *** strings *)
Lemma split_from_nonempty : forall d s cur, split_from d cur s <> [].
Proof.
  induction s; simpl; intros; [discriminate|].
  destruct (Ascii.eqb a d); [discriminate|auto].
Qed.

Lemma split_from_join : forall d s cur,
  join d (split_from d cur s) = cur ++ s.
Proof.
  induction s as [|c s IH]; intros cur; simpl.
  - rewrite app_nil_r. reflexivity.
  - destruct (Ascii.eqb_spec c d).
    + subst. specialize (IH []). pose proof (split_from_nonempty d s []).
      destruct (split_from d [] s) as [|q qs] eqn:E; [congruence|].
      simpl in *. rewrite IH. reflexivity.
    + rewrite IH, <- app_assoc. reflexivity.
Qed.

Lemma split_from_nodelim : forall d s cur, ~ In d cur ->
  forall p, In p (split_from d cur s) -> ~ In d p.
Proof.
  induction s as [|c s IH]; intros cur Hc p Hp; simpl in Hp.
  - destruct Hp as [<-|[]]; auto.
  - destruct (Ascii.eqb_spec c d).
    + destruct Hp as [<-|Hp]; auto. eapply (IH []); eauto.
    + apply (IH (cur ++ [c])); auto. rewrite in_app_iff. simpl. intros [H|[H|[]]]; auto.
Qed.

Lemma split_from_pieces : forall d ps cur p, ~ In d cur -> ~ In d p ->
  Forall (fun q => ~ In d q) ps ->
  split_from d cur (join d (p :: ps)) = (cur ++ p) :: ps.
Proof.
  assert (H0 : forall d p cur s, ~ In d p -> split_from d cur (p ++ s) = split_from d (cur ++ p) s).
  { induction p as [|c p IH]; intros cur s Hp; simpl.
    - rewrite app_nil_r. reflexivity.
    - destruct (Ascii.eqb_spec c d); [exfalso; apply Hp; simpl; auto|].
      rewrite IH by (intro; apply Hp; simpl; auto). rewrite <- app_assoc. reflexivity. }
  induction ps as [|q ps IH]; intros cur p Hc Hp Hps.
  - simpl. rewrite <- (app_nil_r p) at 1. rewrite H0 by auto. reflexivity.
  - inversion Hps; subst.
    change (join d (p :: q :: ps)) with (p ++ d :: join d (q :: ps)).
    rewrite H0 by auto. simpl split_from. rewrite Ascii.eqb_refl. f_equal.
    apply (IH [] q); auto.
Qed.

Lemma split_join : forall d p ps,
  Forall (fun q => ~ In d q) (p :: ps) -> splitSString (join d (p :: ps)) d = p :: ps.
Proof.
  intros. inversion H; subst. unfold splitSString. apply (split_from_pieces d ps [] p); auto.
Qed.

Lemma join_split : forall d s, join d (splitSString s d) = s.
Proof. intros. apply (split_from_join d s []). Qed.

Lemma ascii_list_eqb_eq : forall a b, ascii_list_eqb a b = true <-> a = b.
Proof.
  induction a as [|x a IH]; intros [|y b]; simpl; try (split; [discriminate|discriminate]).
  - tauto.
  - rewrite andb_true_iff, Ascii.eqb_eq, IH. split; [intros [-> ->]; auto|].
    intro H; injection H; auto.
Qed.

Lemma hasSuffix_exact : forall s t, sstringHasSuffix s t = true <-> exists p, s = p ++ t.
Proof.
  intros. unfold sstringHasSuffix. destruct (Nat.ltb_spec (length s) (length t)).
  - split; [discriminate|]. intros [p ->]. rewrite app_length in H. lia.
  - rewrite ascii_list_eqb_eq. split.
    + intro E. exists (firstn (length s - length t) s). rewrite <- E at 2.
      symmetry; apply firstn_skipn.
    + intros [p ->]. rewrite app_length.
      replace (length p + length t - length t)%nat with (length p + 0)%nat by lia.
      rewrite skipn_app, Nat.add_0_r, skipn_all, Nat.sub_diag. reflexivity.
Qed.

Lemma join_split_full : forall d s, join d (splitSString s d) = s /\
  Forall (fun q => ~ In d q) (splitSString s d).
Proof.
  split; [apply join_split|]. apply Forall_forall. intros p Hp.
  eapply split_from_nodelim; [|exact Hp]. intros [].
Qed.

Lemma psums_map : forall l a,
  psums a l = map (fun i => a + zsum (firstn i l)) (seq 0 (S (length l))).
Proof.
  intros. apply nth_error_ext. intro i. rewrite nth_error_map_, nth_error_seq.
  destruct (Nat.ltb_spec i (S (length l))).
  - rewrite psums_nth by lia. reflexivity.
  - simpl. apply nth_error_None. rewrite psums_length. lia.
Qed.

Lemma row_starts_exact : forall sizes,
  Forall (fun s => 0 <= s <= int64_max) sizes ->
  AccumulateRowSize int64_min int64_max sizes =
  (if zsum sizes <=? int64_max
   then Ok (map (fun i => zsum (firstn i sizes)) (seq 0 (S (length sizes))))
   else Abort).
Proof.
  intros. unfold AccumulateRowSize. rewrite accumulate_nonneg by (auto; unfold int64_min, int64_max; lia).
  rewrite Z.add_0_l. rewrite psums_map. destruct (zsum sizes <=? int64_max); reflexivity.
Qed.

Lemma divCeil_wrong : exists l r, 0 <= l /\ 0 < r /\
  ~ exists c, divCeil l r = Ok c /\ (c - 1) * r < l <= c * r.
Proof.
  exists 5, 2. split; [lia|]. split; [lia|]. intros [c [E H]].
  vm_compute in E. injection E as <-. lia.
Qed.

Lemma cmod_spec : forall a b, 0 < b ->
  exists m q, cmod a b = Ok m /\ 0 <= m < b /\ a = q * b + m.
Proof.
  intros. exists (a mod b), (a / b). rewrite cmod_exact by auto. split; auto. lia.
Qed.

Lemma checkedIndexTo32_exact : forall v,
  checkedIndexTo32 v = if in_int32 v then Ok v else Abort.
Proof.
  intros. unfold checkedIndexTo32, in_int32.
  destruct (Z.ltb_spec int32_max v), (Z.ltb_spec v int32_min),
    (Z.leb_spec int32_min v), (Z.leb_spec v int32_max); simpl; auto; lia.
Qed.

Lemma size_t_to_signed_exact : forall hi v,
  (v <= hi -> size_t_to_signed hi v = Ok v) /\
  (hi < v -> size_t_to_signed hi v = Abort).
Proof. intros; unfold size_t_to_signed; split; intros; destruct (Z.leb_spec v hi); auto; lia. Qed.
