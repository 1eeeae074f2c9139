From Coq Require Import List ZArith Bool Permutation Lia.
From Verif Require Import Base.Prelude Base.PreludeFacts Base.MPIModel Geom.VtkModel.
Import ListNotations.
Local Open Scope Z_scope.

Section Put.
Variable A : Type.

Lemma zlen_concat (l : list (list A)) : zlen (concat l) = zsum (map zlen l).
Proof.
  induction l as [|x m IH]; auto. cbn [concat map]. unfold zlen in *. rewrite app_length.
  change (zsum (Z.of_nat (length x) :: map (fun l => Z.of_nat (length l)) m))
    with (Z.of_nat (length x) + zsum (map (fun l => Z.of_nat (length l)) m)).
  rewrite <- IH. lia.
Qed.

Lemma write_at_block (bs : list (list A)) r b :
  (r < length bs)%nat -> length b = length (nth r bs []) ->
  write_at (concat bs) (zsum (map zlen (firstn r bs))) b = Ok (concat (upd r b bs)).
Proof.
  intros Hr Hb. rewrite <- zlen_concat.
  assert (E : bs = firstn r bs ++ nth r bs [] :: skipn (S r) bs).
  { rewrite <- (firstn_skipn r bs) at 1. f_equal.
    clear Hb. revert bs Hr; induction r; intros [|x bs] Hr; cbn in *; try lia; auto.
    apply IHr; lia. }
  assert (U : upd r b bs = firstn r bs ++ b :: skipn (S r) bs).
  { clear E Hb. revert bs Hr; induction r; intros [|x bs] Hr; cbn in *; try lia; auto.
    f_equal. apply IHr; lia. }
  rewrite U. set (X := firstn r bs) in *. set (C := skipn (S r) bs) in *.
  set (m := nth r bs []) in *. rewrite E.
  rewrite !concat_app. cbn [concat].
  unfold write_at.
  destruct (_ || _) eqn:G.
  { apply orb_true_iff in G. rewrite !Z.ltb_lt in G. unfold zlen in G.
    rewrite !app_length in G. lia. }
  unfold zlen. rewrite Nat2Z.id.
  rewrite firstn_app, Nat.sub_diag, firstn_O, app_nil_r, firstn_all.
  rewrite Hb, <- app_length, (app_assoc (concat X) m (concat C)).
  rewrite skipn_app, skipn_all, Nat.sub_diag. reflexivity.
Qed.

Definition shaped (parts bs : list (list A)) : Prop := map (@length A) bs = map (@length A) parts.

Lemma shaped_firstn parts bs r : shaped parts bs ->
  zsum (map zlen (firstn r bs)) = zsum (map zlen (firstn r parts)).
Proof.
  unfold shaped. intros H. f_equal. unfold zlen.
  rewrite <- !(map_map (@length A) Z.of_nat), <- !firstn_map, H. reflexivity.
Qed.
Lemma shaped_nth parts bs r : shaped parts bs -> length (nth r bs []) = length (nth r parts []).
Proof. unfold shaped. intros H. rewrite <- !(map_nth (@length A)), H. reflexivity. Qed.
Lemma shaped_upd parts bs r : shaped parts bs -> shaped parts (upd r (nth r parts []) bs).
Proof.
  unfold shaped. revert parts bs. induction r; intros [|p parts] [|b bs] H; cbn in *; try congruence.
  injection H as H1 H2. f_equal; auto.
Qed.
Lemma shaped_len parts bs : shaped parts bs -> length bs = length parts.
Proof. intros H. rewrite <- (map_length (@length A) bs), H, map_length. reflexivity. Qed.

Definition fill_in (parts bs : list (list A)) (s : list nat) :=
  fold_left (fun bs r => upd r (nth r parts []) bs) s bs.

Lemma fill_in_nth parts : forall s bs i, length bs = length parts -> (i < length parts)%nat ->
  nth i (fill_in parts bs s) [] = if in_dec Nat.eq_dec i s then nth i parts [] else nth i bs [].
Proof.
  induction s as [|r s IH]; intros bs i L Li; cbn [fill_in fold_left]; auto.
  fold (fill_in parts (upd r (nth r parts []) bs) s). rewrite IH by (rewrite ?upd_length; auto).
  assert (U : nth i (upd r (nth r parts []) bs) [] = if Nat.eqb i r then nth i parts [] else nth i bs []).
  { clear IH. rewrite <- L in Li. clear L. destruct (Nat.eqb_spec i r) as [<-|N].
    - apply nth_error_nth. rewrite nth_error_upd_same by auto. reflexivity.
    - pose proof (nth_error_upd_other _ r i (nth r parts []) bs) as E.
      unfold nth_error in E. rewrite <- (nth_default_eq i (upd _ _ _)), <- (nth_default_eq i bs).
      unfold nth_default. rewrite nth_error_upd_other by auto. reflexivity. }
  destruct (in_dec Nat.eq_dec i s) as [I|I]; destruct (in_dec Nat.eq_dec i (r :: s)) as [J|J]; auto.
  - destruct J; right; auto.
  - destruct J as [->|J]; [|tauto]. rewrite U, Nat.eqb_refl. auto.
  - rewrite U. destruct (Nat.eqb_spec i r); auto. subst. destruct J; left; auto.
Qed.
Lemma fill_in_len parts : forall s bs, length (fill_in parts bs s) = length bs.
Proof. induction s; intros bs; cbn; auto. fold (fill_in parts (upd a (nth a parts []) bs) s). rewrite IHs, upd_length. auto. Qed.
Lemma fill_in_all parts bs s : length bs = length parts -> Permutation s (seq 0 (length parts)) -> fill_in parts bs s = parts.
Proof.
  intros L Pm. apply (nth_ext _ _ [] []); rewrite fill_in_len; auto. intros i Li.
  rewrite fill_in_nth by lia. destruct (in_dec _ _ _) as [|N]; auto.
  destruct N. eapply Permutation_in; [apply Permutation_sym; eauto|]. apply in_seq. lia.
Qed.
End Put.

Lemma put_fold A (parts : list (list (option A))) calls s : forall bs, shaped _ parts bs ->
  length calls = length parts ->
  (forall r c, nth_error calls r = Some c -> fst c = zsum (map zlen (firstn r parts)) /\ snd c = nth r parts []) ->
  Forall (fun r => (r < length parts)%nat) s ->
  foldM (fun d r => match nth_error calls r with
                    | None => UB
                    | Some c => match write_at d (fst c) (snd c) with Ok d' => Ok d' | _ => Abort end
                    end) (concat bs) s = Ok (concat (fill_in _ parts bs s)).
Proof.
  induction s as [|r s IH]; intros bs Sh L C F; cbn [foldM]; auto.
  apply Forall_cons_iff in F as [Fr F].
  destruct (nth_error calls r) as [c|] eqn:Ec.
  2:{ apply nth_error_None in Ec. lia. }
  destruct (C _ _ Ec) as [Co Cd]. rewrite Co, Cd.
  rewrite <- (shaped_firstn _ parts bs r Sh).
  rewrite write_at_block; [| rewrite (shaped_len _ _ _ Sh); lia | symmetry; apply shaped_nth; auto].
  cbn [bind]. rewrite IH; auto using shaped_upd.
Qed.

Lemma concat_repeat A (x : A) : forall l, concat (map (fun n => repeat x n) l) = repeat x (list_sum l).
Proof. induction l; cbn; auto. rewrite IHl, repeat_app. auto. Qed.

Lemma put_ok A (parts : list (list (option A))) calls n s :
  length calls = length parts -> n = zsum (map zlen parts) ->
  (forall r c, nth_error calls r = Some c -> fst c = zsum (map zlen (firstn r parts)) /\ snd c = nth r parts []) ->
  Permutation s (seq 0 (length parts)) ->
  put n calls s = Ok (concat parts).
Proof.
  intros L N C Pm. unfold put.
  assert (Hn : forall l : list (list (option A)), 0 <= zsum (map zlen l)).
  { intros l. rewrite <- zlen_concat. unfold zlen. lia. }
  assert (Q : (0 <=? n) && forallb (fun c => 0 <=? fst c) calls = true).
  { apply andb_true_iff. split; [subst; apply Z.leb_le, Hn|]. apply forallb_forall. intros c Hc.
    apply In_nth_error in Hc as [r Hc]. destruct (C _ _ Hc) as [-> _]. apply Z.leb_le, Hn. }
  rewrite Q. cbn [assert_ bind].
  assert (E : repeat None (Z.to_nat n) = concat (map (fun k => repeat (@None A) k) (map (@length _) parts))).
  { rewrite concat_repeat. f_equal. subst n. rewrite <- zlen_concat. unfold zlen. rewrite Nat2Z.id.
    clear. induction parts; cbn; auto. rewrite app_length. f_equal. exact IHparts. }
  rewrite E. rewrite (put_fold A parts).
  - rewrite fill_in_all; auto. rewrite !map_length. auto.
  - unfold shaped. rewrite !map_map. apply map_ext. intros. apply repeat_length.
  - auto.
  - auto.
  - apply Forall_forall. intros r Hr. apply (Permutation_in r Pm) in Hr. apply in_seq in Hr. lia.
Qed.

(** The offsets of consecutive parts. *)
Lemma exclusive_nth l i x : nth_error l i = Some x -> nth_error (exclusive l) i = Some (zsum (firstn i l)).
Proof.
  intros H. unfold exclusive, scan_sum. rewrite nth_error_map.
  assert (L : (i < length l)%nat) by (eapply nth_error_Some_lt; eauto).
  assert (E : nth_error (map (fun i => zsum (firstn (S i) l)) (seq 0 (length l))) i = Some (zsum (firstn (S i) l))).
  { rewrite nth_error_map, nth_error_seq. rewrite (proj2 (Nat.ltb_lt _ _) L). reflexivity. }
  assert (C : forall A B (a : list A) (b : list B) k u v, nth_error a k = Some u -> nth_error b k = Some v -> nth_error (combine a b) k = Some (u, v)).
  { induction a; intros [|] [|] ? ? U V; cbn in *; try discriminate; auto. congruence. }
  rewrite (C _ _ _ _ _ _ _ E H). cbn [option_map fst snd]. f_equal.
  rewrite (zsum_firstn_S l i x H). lia.
Qed.
Lemma exclusive_len l : length (exclusive l) = length l.
Proof. unfold exclusive, scan_sum. rewrite map_length, combine_length, map_length, seq_length. lia. Qed.

Lemma nth_combine_some A B (a : list A) (b : list B) k u v :
  nth_error (combine a b) k = Some (u, v) <-> nth_error a k = Some u /\ nth_error b k = Some v.
Proof.
  revert b k. induction a as [|x a IH]; intros [|y b] [|k]; cbn; split; try (intros [? ?]; discriminate); try discriminate;
    try (intros [A1 A2]; congruence); try (intros H; split; congruence); apply IH.
Qed.
