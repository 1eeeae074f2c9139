(** Proofs about the tables of derivatives (C51). *)
From Coq Require Import List ZArith Bool Lia.
From Verif Require Import Base.Prelude Base.PreludeFacts Geom.BaseFnModel Geom.BaseFnSpec Geom.BaseFnProofs.
Import ListNotations.
Local Open Scope Z_scope.

Lemma times_app : forall a ds es, times a (ds ++ es) = (times a ds + times a es)%nat.
Proof. intros. unfold times. rewrite filter_app, app_length. auto. Qed.
Lemma times_repeat : forall a b n, times a (repeat b n) = if axis_eqb a b then n else 0%nat.
Proof.
  intros a b n. unfold times. induction n as [|n IH]; cbn [repeat filter]; [destruct (axis_eqb a b); auto|].
  destruct (axis_eqb a b) eqn:E; cbn [length]; lia.
Qed.
Lemma times_total : forall ds, (times AX ds + times AY ds + times AZ ds = length ds)%nat.
Proof. induction ds as [|[| |] ds IH]; unfold times in *; cbn [filter axis_eqb length]; lia. Qed.
Lemma times_none : forall a ds, ~ In a ds -> times a ds = 0%nat.
Proof.
  induction ds as [|b ds IH]; intros H; auto. unfold times in *. cbn [filter].
  destruct (axis_eqb a b) eqn:E; [exfalso; apply H; left; destruct a, b; auto; discriminate|]. apply IH. intros X; apply H; right; auto.
Qed.

(** all multi-indices of order at most k, listed by their counts *)
Definition small_lists (axes : list axis) (k : nat) : list (list axis) := flat_map (sequences axes) (seq 0 (S k)).

Lemma in_sequences : forall axes n ds, In ds (sequences axes n) <-> length ds = n /\ Forall (fun a => In a axes) ds.
Proof.
  induction n as [|n IH]; intros ds; cbn [sequences].
  - split; [intros [<-|[]]; auto|]. intros [H _]. destruct ds; [left; auto|discriminate].
  - rewrite in_flat_map. split.
    + intros [es [He Hd]]. apply in_map_iff in Hd. destruct Hd as [a [<- Ha]]. apply IH in He. destruct He. cbn. split; [lia|constructor; auto].
    + intros [H F]. destruct ds as [|a es]; [discriminate|]. inversion F; subst. exists es. split; [apply IH; auto|]. apply in_map_iff. eauto.
Qed.

Lemma in_small_lists : forall axes k ds, In ds (small_lists axes k) <-> (length ds <= k)%nat /\ Forall (fun a => In a axes) ds.
Proof.
  intros axes k ds. unfold small_lists. rewrite in_flat_map. split.
  - intros [n [Hn Hd]]. apply in_seq in Hn. apply in_sequences in Hd. destruct Hd. split; auto. lia.
  - intros [H F]. exists (length ds). split; [apply in_seq; lia|]. apply in_sequences; auto.
Qed.

Definition subset (l l' : list index3) : bool := forallb (fun m => existsb (same3 m) l') l.
Lemma same3_eq : forall a b, same3 a b = true <-> a = b.
Proof.
  intros [[a0 a1] a2] [[b0 b1] b2]. unfold same3. rewrite !andb_true_iff, !Z.eqb_eq. split.
  - intros [[-> ->] ->]. auto.
  - intros H. injection H as -> -> ->. auto.
Qed.
Lemma subset_ok : forall l l', subset l l' = true -> forall m, In m l -> In m l'.
Proof.
  intros l l' H m Hm. unfold subset in H. rewrite forallb_forall in H. specialize (H m Hm). apply existsb_exists in H.
  destruct H as [b [Hb E]]. apply same3_eq in E. subst. auto.
Qed.

Fixpoint nodupb (l : list index3) : bool :=
  match l with [] => true | a :: l' => negb (existsb (same3 a) l') && nodupb l' end.
Definition table_check (axes : list axis) (sizes : list Z) (table : list index3) : bool :=
  (length sizes =? 4)%nat && nodupb table &&
  forallb (fun k => let n := nth k sizes 0 in
     let S := map (fun ds => multi_Z (multi ds)) (small_lists axes k) in
     subset (firstn (Z.to_nat n) table) S && subset S (firstn (Z.to_nat n) table)) (seq 0 4).

Lemma nodupb_ok : forall l, nodupb l = true -> NoDup l.
Proof.
  induction l as [|a l IH]; intros H; [constructor|]. cbn in H. apply andb_true_iff in H. destruct H as [A B].
  constructor; auto. intros Hi. apply negb_true_iff in A. assert (existsb (same3 a) l = true); [|congruence].
  apply existsb_exists. exists a. split; auto. apply same3_eq; auto.
Qed.

Lemma table_ok : forall axes sizes table, table_check axes sizes table = true -> lists_multi_indices axes sizes table.
Proof.
  intros axes sizes table H. unfold table_check in H. rewrite !andb_true_iff in H. destruct H as [[H1 H2] H3].
  apply Nat.eqb_eq in H1. split; auto. split; [apply nodupb_ok; auto|].
  intros k n Hn m. rewrite forallb_forall in H3.
  assert (Hk : (k < 4)%nat) by (rewrite <- H1; apply nth_error_Some; congruence).
  specialize (H3 k ltac:(apply in_seq; lia)). rewrite (nth_error_nth _ _ _ Hn) in H3. cbv zeta in H3. apply andb_true_iff in H3. destruct H3 as [A B].
  split; intros Hm.
  - apply (subset_ok _ _ A) in Hm. apply in_map_iff in Hm. destruct Hm as [ds [<- Hd]]. apply in_small_lists in Hd. exists ds. tauto.
  - destruct Hm as [ds [Hd [F ->]]]. apply (subset_ok _ _ B). apply (in_map (fun ds => multi_Z (multi ds))). apply in_small_lists; auto.
Qed.

Lemma table3 : lists_multi_indices [AX; AY; AZ] ndiffSizC diffOperatorOrderList.
Proof. apply table_ok. vm_compute. reflexivity. Qed.
Lemma table2 : lists_multi_indices [AX; AY] ndiffSizC2D diffOperatorOrderList2D.
Proof. apply table_ok. vm_compute. reflexivity. Qed.

(** *** combinations and axes of an index *)
Definition count_of (axes : list axis) (m : index3) : Z :=
  let '(a, b, c) := m in
  zlen (filter (fun ds => same3 (multi_Z (multi ds)) m) (sequences axes (Z.to_nat (a + b + c)))).

Lemma combs3 : map (count_of [AX; AY; AZ]) diffOperatorOrderList = diffNCombs.
Proof. vm_compute. reflexivity. Qed.
Lemma combs2 : map (count_of [AX; AY]) diffOperatorOrderList2D = diffNCombs2D.
Proof. vm_compute. reflexivity. Qed.

Lemma map_vat : forall A B (f : A -> B) l l' i x, map f l = l' -> vat l i = Ok x -> vat l' i = Ok (f x).
Proof.
  intros A B f l l' i x <- E. unfold vat in *. destruct (i <? 0); [discriminate|]. rewrite nth_error_map_.
  destruct (nth_error l (Z.to_nat i)); [|discriminate]. injection E as ->. auto.
Qed.

Lemma sequence_count : forall axes k (m : nat * nat * nat), (let '(a, b, c) := m in a + b + c = k)%nat ->
  count_of axes (multi_Z m) = zlen (filter (fun ds => multi_eqb (multi ds) m) (sequences axes k)).
Proof.
  intros axes k [[a b] c] H. unfold count_of, multi_Z at 1. replace (Z.to_nat (Z.of_nat a + Z.of_nat b + Z.of_nat c)) with k by lia.
  f_equal. apply filter_ext. intros ds. unfold multi, multi_Z, same3, multi_eqb.
  destruct (Z.eqb_spec (Z.of_nat (times AX ds)) (Z.of_nat a)), (Nat.eqb_spec (times AX ds) a); try lia;
  destruct (Z.eqb_spec (Z.of_nat (times AY ds)) (Z.of_nat b)), (Nat.eqb_spec (times AY ds) b); try lia;
  destruct (Z.eqb_spec (Z.of_nat (times AZ ds)) (Z.of_nat c)), (Nat.eqb_spec (times AZ ds) c); try lia; auto.
Qed.

Lemma combinations3 : forall i m, vat diffOperatorOrderList i = Ok (multi_Z m) ->
  vat diffNCombs i = Ok (zlen (filter (fun ds => multi_eqb (multi ds) m) (sequences [AX; AY; AZ] (let '(a, b, c) := m in a + b + c)%nat))).
Proof. intros i m H. rewrite (map_vat _ _ _ _ _ _ _ combs3 H). f_equal. apply sequence_count. destruct m as [[a b] c]; auto. Qed.
Lemma combinations2 : forall i m, vat diffOperatorOrderList2D i = Ok (multi_Z m) ->
  vat diffNCombs2D i = Ok (zlen (filter (fun ds => multi_eqb (multi ds) m) (sequences [AX; AY] (let '(a, b, c) := m in a + b + c)%nat))).
Proof. intros i m H. rewrite (map_vat _ _ _ _ _ _ _ combs2 H). f_equal. apply sequence_count. destruct m as [[a b] c]; auto. Qed.

Lemma dims_check3 : map (fun '(m, d) => diffOperatorIJK2I (axes_of m d)) (combine diffOperatorOrderList diffOperatorDimList) = map Z.of_nat (seq 0 20).
Proof. vm_compute. reflexivity. Qed.
Lemma dims_check2 : map (fun '(m, d) => diffOperatorIJK2I2D (axes_of m d)) (combine diffOperatorOrderList2D diffOperatorDimList2D) = map Z.of_nat (seq 0 10).
Proof. vm_compute. reflexivity. Qed.

Lemma vat_combine : forall A B (l : list A) (l' : list B) i a b, vat l i = Ok a -> vat l' i = Ok b -> vat (combine l l') i = Ok (a, b).
Proof.
  intros A B l l' i a b Ha Hb. unfold vat in *. destruct (i <? 0); [discriminate|]. revert l' Ha Hb. generalize (Z.to_nat i). clear i.
  induction l as [|x l IH]; intros n l' Ha Hb; [destruct n; discriminate|]. destruct l' as [|y l']; [destruct n; discriminate|].
  destruct n as [|n]; cbn in *; [congruence|]. apply IH; auto.
Qed.

Lemma vat_range : forall n i v, vat (map Z.of_nat (seq 0 n)) i = Ok v -> v = i.
Proof.
  intros n i v H. unfold vat in H. destruct (Z.ltb_spec i 0); [discriminate|]. rewrite nth_error_map_ in H.
  destruct (nth_error (seq 0 n) (Z.to_nat i)) as [k|] eqn:E; [|discriminate]. cbn in H. injection H as <-.
  assert (Hl : (Z.to_nat i < n)%nat) by (rewrite <- (seq_length n 0); apply nth_error_Some; congruence).
  pose proof (@seq_nth n 0 (Z.to_nat i) 0%nat Hl) as Hn. rewrite (nth_error_nth _ _ _ E) in Hn. lia.
Qed.

Lemma dims3 : forall i m d, vat diffOperatorOrderList i = Ok m -> vat diffOperatorDimList i = Ok d ->
  diffOperatorIJK2I (axes_of m d) = i.
Proof. intros i m d Hm Hd. apply (vat_range 20). apply (map_vat _ _ _ _ _ i _ dims_check3 (vat_combine _ _ _ _ _ _ _ Hm Hd)). Qed.
Lemma dims2 : forall i m d, vat diffOperatorOrderList2D i = Ok m -> vat diffOperatorDimList2D i = Ok d ->
  diffOperatorIJK2I2D (axes_of m d) = i.
Proof. intros i m d Hm Hd. apply (vat_range 10). apply (map_vat _ _ _ _ _ i _ dims_check2 (vat_combine _ _ _ _ _ _ _ Hm Hd)). Qed.

Lemma ndof_ok : forall k, (k <= 3)%nat ->
  GetNDof 2 (Z.of_nat k) = Ok (nth k ndiffSizC2D 0) /\ GetNDof 3 (Z.of_nat k) = Ok (nth k ndiffSizC 0).
Proof. intros k H. do 4 (destruct k as [|k]; [split; reflexivity|]). lia. Qed.
