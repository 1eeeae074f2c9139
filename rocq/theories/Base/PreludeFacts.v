(** Lemmas about [Prelude].  Proof support only. *)
From Coq Require Import List ZArith Lia Bool Arith Permutation Sorted.
From Verif Require Import Base.Prelude.
Import ListNotations.
Local Open Scope Z_scope.

Lemma bind_Ok : forall A B (m : res A) (f : A -> res B) b,
  bind m f = Ok b -> exists a, m = Ok a /\ f a = Ok b.
Proof. intros A B [a| |] f b H; simpl in H; try discriminate; eauto. Qed.

Lemma assert_Ok : forall b u, assert_ b = Ok u -> b = true.
Proof. intros [] u H; [reflexivity | discriminate]. Qed.

Ltac inv_bind :=
  repeat match goal with
  | H : bind _ _ = Ok _ |- _ =>
      let a := fresh "v" in let H1 := fresh "H" in
      apply bind_Ok in H; destruct H as [a [H1 H]]
  | H : assert_ _ = Ok _ |- _ => apply assert_Ok in H
  | H : Ok _ = Ok _ |- _ => injection H as H
  end.

(** *** nth_error / upd *)
Lemma nth_error_ext : forall A (l l' : list A),
  (forall i, nth_error l i = nth_error l' i) -> l = l'.
Proof.
  induction l as [|x l IH]; intros [|y l'] H; auto.
  - specialize (H O); discriminate.
  - specialize (H O); discriminate.
  - f_equal.
    + specialize (H O); simpl in H; congruence.
    + apply IH; intro i; apply (H (S i)).
Qed.

Lemma upd_length : forall A n (x : A) l, length (upd n x l) = length l.
Proof. induction n; destruct l; simpl; auto. Qed.

Lemma nth_error_upd_same : forall A n (x : A) l,
  (n < length l)%nat -> nth_error (upd n x l) n = Some x.
Proof. induction n; destruct l; simpl; intros; try lia; auto. apply IHn; lia. Qed.

Lemma nth_error_upd_other : forall A n m (x : A) l,
  n <> m -> nth_error (upd n x l) m = nth_error l m.
Proof.
  induction n; destruct l, m; simpl; intros; auto; try lia; try (apply IHn; lia).
Qed.

Lemma upd_out : forall A n (x : A) l, (length l <= n)%nat -> upd n x l = l.
Proof. induction n; destruct l; simpl; intros; auto; try lia. rewrite IHn; auto; lia. Qed.

Lemma nth_error_upd : forall A n m (x : A) l,
  nth_error (upd n x l) m =
  if Nat.eqb n m then (if Nat.ltb n (length l) then Some x else None) else nth_error l m.
Proof.
  intros. destruct (Nat.eqb_spec n m).
  - subst. destruct (Nat.ltb_spec m (length l)).
    + apply nth_error_upd_same; auto.
    + rewrite upd_out by lia. apply nth_error_None; lia.
  - apply nth_error_upd_other; auto.
Qed.

Lemma nth_error_app_l : forall A (l l' : list A) n,
  (n < length l)%nat -> nth_error (l ++ l') n = nth_error l n.
Proof. intros; apply nth_error_app1; auto. Qed.

Lemma nth_error_seq : forall s n i,
  nth_error (seq s n) i = if Nat.ltb i n then Some (s + i)%nat else None.
Proof.
  intros s n i. destruct (Nat.ltb_spec i n).
  - rewrite nth_error_nth' with (d := O) by (rewrite seq_length; lia).
    rewrite seq_nth by lia. reflexivity.
  - apply nth_error_None. rewrite seq_length; lia.
Qed.

Lemma nth_error_map_ : forall A B (f : A -> B) l i,
  nth_error (map f l) i = option_map f (nth_error l i).
Proof. induction l; destruct i; simpl; auto. Qed.

Lemma nth_error_skipn : forall A k (l : list A) i,
  nth_error (skipn k l) i = nth_error l (k + i).
Proof. induction k; destruct l; simpl; intros; auto. destruct i; auto. Qed.

Lemma nth_error_firstn : forall A k (l : list A) i,
  nth_error (firstn k l) i = if Nat.ltb i k then nth_error l i else None.
Proof.
  induction k; intros.
  - simpl. destruct i; reflexivity.
  - destruct l as [|x l]; simpl.
    + destruct i; simpl; auto. destruct (Nat.ltb (S i) (S k)); auto.
    + destruct i; simpl; auto. rewrite IHk.
      change (Nat.ltb (S i) (S k)) with (Nat.ltb i k). reflexivity.
Qed.

Lemma nth_error_Some_lt : forall A (l : list A) i x,
  nth_error l i = Some x -> (i < length l)%nat.
Proof. intros. apply nth_error_Some. congruence. Qed.

Lemma nth_error_lt_Some : forall A (l : list A) i,
  (i < length l)%nat -> exists x, nth_error l i = Some x.
Proof.
  intros. destruct (nth_error l i) eqn:E; eauto.
  apply nth_error_None in E; lia.
Qed.

Lemma nth_error_concat : forall A (ll : list (list A)) r v row,
  nth_error ll r = Some row -> (v < length row)%nat ->
  nth_error (concat ll) (length (concat (firstn r ll)) + v) = nth_error row v.
Proof.
  induction ll as [|l ll IH]; intros r v row Hr Hv.
  - destruct r; discriminate.
  - destruct r; simpl in *.
    + injection Hr as ->. rewrite nth_error_app1 by lia. reflexivity.
    + rewrite app_length, nth_error_app2 by lia.
      replace (length l + length (concat (firstn r ll)) + v - length l)%nat
        with (length (concat (firstn r ll)) + v)%nat by lia.
      apply IH; auto.
Qed.

(** *** vget / vat / vset *)
Lemma vget_Ok : forall A (l : list A) i x,
  vget l i = Ok x <-> 0 <= i /\ nth_error l (Z.to_nat i) = Some x.
Proof.
  intros. unfold vget. destruct (Z.ltb_spec i 0).
  - split; [discriminate | lia].
  - destruct (nth_error l (Z.to_nat i)); split; intros H1.
    + injection H1 as ->; split; [lia|reflexivity].
    + destruct H1 as [_ H1]; congruence.
    + discriminate.
    + destruct H1; discriminate.
Qed.

Lemma vget_of_nat : forall A (l : list A) n x,
  nth_error l n = Some x -> vget l (Z.of_nat n) = Ok x.
Proof. intros. apply vget_Ok. rewrite Nat2Z.id. split; [lia|auto]. Qed.

Lemma vat_of_nat : forall A (l : list A) n x,
  nth_error l n = Some x -> vat l (Z.of_nat n) = Ok x.
Proof.
  intros. unfold vat. destruct (Z.ltb_spec (Z.of_nat n) 0); [lia|].
  rewrite Nat2Z.id, H. reflexivity.
Qed.

(** *** psums / zsum *)
Lemma psums_length : forall l a, length (psums a l) = S (length l).
Proof. induction l; simpl; intros; auto. Qed.

Lemma psums_nth : forall l a i, (i <= length l)%nat ->
  nth_error (psums a l) i = Some (a + zsum (firstn i l)).
Proof.
  induction l as [|x l IH]; intros a [|i] Hi; simpl in *; try lia; f_equal; try lia.
  rewrite IH by lia. f_equal. unfold zsum; simpl. lia.
Qed.

Lemma zsum_app : forall l l', zsum (l ++ l') = zsum l + zsum l'.
Proof. induction l; simpl; intros; auto. unfold zsum in *; simpl. rewrite IHl. lia. Qed.

Lemma zsum_nonneg : forall l, Forall (fun x => 0 <= x) l -> 0 <= zsum l.
Proof. induction 1; unfold zsum in *; simpl; lia. Qed.

Lemma zsum_firstn_S : forall l i x, nth_error l i = Some x ->
  zsum (firstn (S i) l) = zsum (firstn i l) + x.
Proof.
  induction l; destruct i; simpl; intros; try discriminate.
  - injection H as ->. unfold zsum; simpl; lia.
  - specialize (IHl _ _ H). unfold zsum in *. simpl in *. lia.
Qed.

Lemma zsum_firstn_mono : forall l i j,
  Forall (fun x => 0 <= x) l -> (i <= j)%nat -> zsum (firstn i l) <= zsum (firstn j l).
Proof.
  intros l i j Hl Hij. revert l Hl i Hij.
  induction j; intros l Hl i Hij.
  - replace i with O by lia. lia.
  - destruct i.
    + simpl firstn at 1. unfold zsum at 1; simpl. apply zsum_nonneg.
      apply Forall_forall. intros x Hx.
      rewrite Forall_forall in Hl. apply Hl.
      rewrite <- (firstn_skipn (S j) l). apply in_or_app; auto.
    + destruct l as [|x l]; simpl; [lia|]. unfold zsum in *; simpl.
      inversion Hl; subst. specialize (IHj l H2 i ltac:(lia)). lia.
Qed.

(** *** lower_bound *)
Lemma lb_loop_spec : forall A (comp : A -> bool) l k,
  (k <= length l)%nat ->
  (forall i x, nth_error l i = Some x -> (i < k)%nat -> comp x = true) ->
  (forall i x, nth_error l i = Some x -> (k <= i)%nat -> comp x = false) ->
  forall fuel first len, (len <= fuel)%nat -> (first <= k <= first + len)%nat ->
  (first + len <= length l)%nat ->
  lb_loop comp l fuel first len = k.
Proof.
  intros A comp l k Hk Ht Hf.
  induction fuel; intros first len Hfu Hk1 Hlen; simpl.
  - lia.
  - destruct len as [|len'] eqn:El; [lia|]. rewrite <- El in *.
    assert (Hhalf : (Nat.div2 len < len)%nat) by (apply Nat.lt_div2; lia).
    replace (match len' with O => O | S n' => S (Nat.div2 n') end) with (Nat.div2 len)
      by (rewrite El; reflexivity).
    destruct (nth_error_lt_Some _ l (first + Nat.div2 len)) as [x Hx]; [lia|].
    rewrite Hx. destruct (comp x) eqn:Ec.
    + apply IHfuel; try lia.
      assert (~ (k <= first + Nat.div2 len)%nat).
      { intro. rewrite (Hf _ _ Hx) in Ec by lia. discriminate. }
      lia.
    + apply IHfuel; try lia.
      assert (~ (first + Nat.div2 len < k)%nat).
      { intro. rewrite (Ht _ _ Hx) in Ec by lia. discriminate. }
      lia.
Qed.

Lemma lower_bound_spec : forall A (comp : A -> bool) l k,
  (k <= length l)%nat ->
  (forall i x, nth_error l i = Some x -> (i < k)%nat -> comp x = true) ->
  (forall i x, nth_error l i = Some x -> (k <= i)%nat -> comp x = false) ->
  lower_bound comp l = k.
Proof. intros. unfold lower_bound. eapply lb_loop_spec; eauto; lia. Qed.

(** A list partitioned by [comp] always has such a [k]. *)
Lemma partition_point : forall A (comp : A -> bool) (l : list A),
  (forall i j x y, (i <= j)%nat -> nth_error l i = Some x -> nth_error l j = Some y ->
     comp y = true -> comp x = true) ->
  exists k, (k <= length l)%nat /\
  (forall i x, nth_error l i = Some x -> (i < k)%nat -> comp x = true) /\
  (forall i x, nth_error l i = Some x -> (k <= i)%nat -> comp x = false).
Proof.
  induction l as [|a l IH]; intros Hp.
  - exists O. simpl. repeat split; auto; intros [|i]; discriminate.
  - destruct IH as [k [Hk [Ht Hf]]].
    { intros i j x y Hij Hx Hy. apply (Hp (S i) (S j) x y); simpl; auto; lia. }
    destruct (comp a) eqn:Ea.
    + exists (S k). simpl. split; [lia|]. split.
      * intros [|i] x Hx Hi; simpl in Hx; [congruence|]. apply (Ht i); auto; lia.
      * intros [|i] x Hx Hi; [lia|]. simpl in Hx. apply (Hf i); auto; lia.
    + exists O. split; [lia|]. split; [lia|].
      intros i x Hx _. destruct (comp x) eqn:Ex; auto.
      rewrite (Hp O i a x) in Ea; auto; lia.
Qed.

(** ascending lists, by positions *)
Definition asc (l : list Z) : Prop :=
  forall i j x y, (i <= j)%nat -> nth_error l i = Some x -> nth_error l j = Some y -> x <= y.
Definition sasc (l : list Z) : Prop :=
  forall i j x y, (i < j)%nat -> nth_error l i = Some x -> nth_error l j = Some y -> x < y.

Lemma sasc_asc : forall l, sasc l -> asc l.
Proof.
  intros l H i j x y Hij Hx Hy. destruct (Nat.eq_dec i j).
  - subst. assert (x = y) by congruence. lia.
  - assert (x < y) by (eapply (H i j); eauto; lia). lia.
Qed.

Lemma sasc_NoDup : forall l, sasc l -> NoDup l.
Proof.
  intros l H. apply NoDup_nth_error. intros i j Hi Heq.
  destruct (nth_error_lt_Some _ l i Hi) as [x Hx].
  destruct (lt_eq_lt_dec i j) as [[C|C]|C]; auto.
  - assert (x < x) by (eapply (H i j); eauto; congruence). lia.
  - assert (x < x) by (eapply (H j i); eauto; congruence). lia.
Qed.

Lemma sasc_cons : forall a l, sasc (a :: l) <-> (sasc l /\ forall x, In x l -> a < x).
Proof.
  split.
  - intro H. split.
    + intros i j x y Hij Hx Hy. apply (H (S i) (S j)); simpl; auto; lia.
    + intros x Hx. apply In_nth_error in Hx. destruct Hx as [n Hn].
      apply (H O (S n)); simpl; auto; lia.
  - intros [H H1] i j x y Hij Hx Hy. destruct i, j; simpl in *; try lia.
    + injection Hx as <-. apply H1. eapply nth_error_In; eauto.
    + apply (H i j); auto; lia.
Qed.

Lemma asc_cons : forall a l, asc (a :: l) <-> (asc l /\ forall x, In x l -> a <= x).
Proof.
  split.
  - intro H. split.
    + intros i j x y Hij Hx Hy. apply (H (S i) (S j)); simpl; auto; lia.
    + intros x Hx. apply In_nth_error in Hx. destruct Hx as [n Hn].
      apply (H O (S n)); simpl; auto; lia.
  - intros [H H1] i j x y Hij Hx Hy. destruct i, j; simpl in *; try lia.
    + injection Hx as <-. injection Hy as <-. lia.
    + injection Hx as <-. apply H1. eapply nth_error_In; eauto.
    + apply (H i j); auto; lia.
Qed.

Lemma sasc_nil : sasc [].
Proof. intros [|i] j x y; discriminate. Qed.

Lemma lb_lt_sasc_found : forall l i q, sasc l -> nth_error l i = Some q -> lb_lt l q = i.
Proof.
  intros l i q H Hi. unfold lb_lt. apply lower_bound_spec.
  - apply nth_error_Some_lt in Hi; lia.
  - intros j x Hx Hj. apply Z.ltb_lt. apply (H j i); auto.
  - intros j x Hx Hj. apply Z.ltb_ge. apply (sasc_asc _ H i j); auto.
Qed.

Lemma lb_lt_asc_spec : forall l q, asc l ->
  (lb_lt l q <= length l)%nat /\
  (forall i x, nth_error l i = Some x -> (i < lb_lt l q)%nat -> x < q) /\
  (forall i x, nth_error l i = Some x -> (lb_lt l q <= i)%nat -> q <= x).
Proof.
  intros l q H.
  destruct (partition_point _ (fun x => x <? q) l) as [k [Hk [Ht Hf]]].
  { intros i j x y Hij Hx Hy Hc. apply Z.ltb_lt in Hc. apply Z.ltb_lt.
    assert (x <= y) by (eapply (H i j); eauto). lia. }
  assert (lb_lt l q = k) as -> by (apply lower_bound_spec; auto).
  split; auto. split.
  - intros i x Hx Hi. specialize (Ht _ _ Hx Hi). apply Z.ltb_lt; auto.
  - intros i x Hx Hi. specialize (Hf _ _ Hx Hi). apply Z.ltb_ge; auto.
Qed.

Lemma lb_le_asc_spec : forall l q, asc l ->
  (lb_le l q <= length l)%nat /\
  (forall i x, nth_error l i = Some x -> (i < lb_le l q)%nat -> x <= q) /\
  (forall i x, nth_error l i = Some x -> (lb_le l q <= i)%nat -> q < x).
Proof.
  intros l q H.
  destruct (partition_point _ (fun x => x <=? q) l) as [k [Hk [Ht Hf]]].
  { intros i j x y Hij Hx Hy Hc. apply Z.leb_le in Hc. apply Z.leb_le.
    assert (x <= y) by (eapply (H i j); eauto). lia. }
  assert (lb_le l q = k) as -> by (apply lower_bound_spec; auto).
  split; auto. split.
  - intros i x Hx Hi. specialize (Ht _ _ Hx Hi). apply Z.leb_le; auto.
  - intros i x Hx Hi. specialize (Hf _ _ Hx Hi). apply Z.leb_gt; auto.
Qed.

(** *** sort / unique *)
Lemma zinsert_perm : forall x l, Permutation (x :: l) (zinsert x l).
Proof.
  induction l as [|y l IH]; simpl; auto.
  destruct (x <=? y); auto.
  rewrite perm_swap. constructor. exact IH.
Qed.

Lemma zsort_perm : forall l, Permutation l (zsort l).
Proof.
  induction l as [|x l IH]; simpl; auto.
  unfold zsort in *; simpl. rewrite <- zinsert_perm. constructor. exact IH.
Qed.

Lemma zinsert_asc : forall x l, asc l -> asc (zinsert x l).
Proof.
  induction l as [|y l IH]; intros H; simpl.
  - apply asc_cons; split; auto. intros z [].
  - destruct (Z.leb_spec x y).
    + apply asc_cons; split; auto. intros z [->|Hz]; [lia|].
      apply asc_cons in H. destruct H as [_ H]. specialize (H _ Hz). lia.
    + apply asc_cons in H. destruct H as [Hl Hy].
      apply asc_cons; split; auto. intros z Hz.
      apply (Permutation_in _ (Permutation_sym (zinsert_perm x l))) in Hz.
      destruct Hz as [->|Hz]; [lia|auto].
Qed.

Lemma asc_nil : asc [].
Proof. intros [|i] j x y; discriminate. Qed.

Lemma zsort_asc : forall l, asc (zsort l).
Proof.
  induction l; simpl. apply asc_nil. apply zinsert_asc; auto.
Qed.

Lemma zuniq_In : forall l x, In x (zuniq l) <-> In x l.
Proof.
  induction l as [|a l IH]; intros x; [simpl; tauto|].
  cbn [zuniq]. destruct (zuniq l) as [|y t] eqn:E.
  - specialize (IH x). simpl in *. tauto.
  - pose proof (IH y) as IHy. specialize (IH x).
    destruct (Z.eqb_spec a y) as [->|_].
    + simpl in *. split; [tauto|]. intros [->|]; [left; reflexivity | tauto].
    + simpl in *. tauto.
Qed.

Lemma zuniq_sasc : forall l, asc l -> sasc (zuniq l).
Proof.
  induction l as [|a l IH]; intros H; [apply sasc_nil|].
  apply asc_cons in H. destruct H as [Hl Ha]. specialize (IH Hl).
  cbn [zuniq]. destruct (zuniq l) as [|y t] eqn:E.
  - apply sasc_cons; split; [apply sasc_nil|]. intros x [].
  - destruct (Z.eqb_spec a y); auto.
    apply sasc_cons; split; auto.
    assert (Hy : In y l) by (apply zuniq_In; rewrite E; left; auto).
    intros x [->|Hx].
    + specialize (Ha _ Hy). lia.
    + apply sasc_cons in IH. destruct IH as [_ IH].
      specialize (IH _ Hx). specialize (Ha _ Hy). lia.
Qed.

Lemma zsort_uniq_sasc : forall l, sasc (zuniq (zsort l)).
Proof. intros; apply zuniq_sasc, zsort_asc. Qed.

Lemma zsort_uniq_In : forall l x, In x (zuniq (zsort l)) <-> In x l.
Proof.
  intros. rewrite zuniq_In. split; intro H.
  - eapply Permutation_in; [apply Permutation_sym, zsort_perm | auto].
  - eapply Permutation_in; [apply zsort_perm | auto].
Qed.

Lemma mapM_nth : forall A B (f : A -> res B) l ys, mapM f l = Ok ys ->
  length ys = length l /\
  forall i x, nth_error l i = Some x -> exists y, f x = Ok y /\ nth_error ys i = Some y.
Proof.
  induction l as [|a l IH]; simpl; intros ys H.
  - injection H as <-. split; auto. intros [|i]; discriminate.
  - inv_bind. subst. destruct (IH _ H1) as [Hl Hn]. split; [simpl; lia|].
    intros [|i] x Hx; simpl in Hx.
    + injection Hx as <-. simpl; eauto.
    + simpl; eauto.
Qed.

Lemma mapM_Ok_ex : forall A B (f : A -> res B) l,
  (forall x, In x l -> exists y, f x = Ok y) -> exists ys, mapM f l = Ok ys.
Proof.
  induction l as [|a l IH]; simpl; intros H; eauto.
  destruct (H a) as [y Hy]; auto. destruct IH as [ys Hys]; auto.
  exists (y :: ys). rewrite Hy; simpl. rewrite Hys. reflexivity.
Qed.

Lemma mapM_map : forall A B (f : A -> res B) (g : A -> B) l,
  (forall x, In x l -> f x = Ok (g x)) -> mapM f l = Ok (map g l).
Proof.
  induction l as [|a l IH]; simpl; intros H; auto.
  rewrite H by auto; simpl. rewrite IH by auto. reflexivity.
Qed.
