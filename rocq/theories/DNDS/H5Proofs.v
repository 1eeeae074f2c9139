From Coq Require Import List ZArith Bool Permutation String Lia.
From Verif Require Import Base.Prelude Base.PreludeFacts Base.MPIModel Base.MPIFacts
  DNDS.H5Model DNDS.H5Spec.
Import ListNotations.
Local Open Scope Z_scope.

(** ** The group *)

Lemma dset_set_same f name d : dset f name <> None -> dset (set_dset f name d) name = Some d.
Proof.
  induction f as [|[k e] t IH]; cbn [dset set_dset]; [congruence|].
  destruct (String.eqb k name) eqn:E; cbn [dset]; rewrite E; auto.
Qed.

Lemma dset_set_other f name other d :
  other <> name -> dset (set_dset f name d) other = dset f other.
Proof.
  intros N. induction f as [|[k e] t IH]; cbn [dset set_dset]; auto.
  destruct (String.eqb k name) eqn:E; cbn [dset].
  - apply String.eqb_eq in E; subst. destruct (String.eqb name other) eqn:E2; auto.
    apply String.eqb_eq in E2; congruence.
  - rewrite IH; auto.
Qed.

(** ** Slabs that follow one another *)

Lemma zlen_concat_firstn (l : list (list Z)) r :
  zlen (List.concat (firstn r l)) = zsum (map zlen (firstn r l)).
Proof.
  generalize (firstn r l) as m. intros m. induction m as [|x m IH]; auto.
  cbn [List.concat map]. unfold zlen in *. rewrite app_length.
  change (zsum (Z.of_nat (List.length x) :: map (fun l => Z.of_nat (List.length l)) m))
    with (Z.of_nat (List.length x) + zsum (map (fun l => Z.of_nat (List.length l)) m)).
  rewrite <- IH. lia.
Qed.

Lemma zlen_concat (l : list (list Z)) : zlen (List.concat l) = zsum (map zlen l).
Proof. rewrite <- (firstn_all l), zlen_concat_firstn. reflexivity. Qed.

Lemma write_at_block (bs : list (list Z)) r b :
  (r < List.length bs)%nat -> List.length b = List.length (nth r bs []) ->
  write_at (List.concat bs) (zsum (map zlen (firstn r bs))) b = Ok (List.concat (upd r b bs)).
Proof.
  intros Hr Hb.
  rewrite <- zlen_concat_firstn.
  assert (E : bs = firstn r bs ++ nth r bs [] :: skipn (S r) bs).
  { rewrite <- (firstn_skipn r bs) at 1. f_equal.
    clear Hb. revert bs Hr; induction r; intros [|x bs] Hr; cbn in *; try lia; auto.
    apply IHr; lia. }
  assert (U : upd r b bs = firstn r bs ++ b :: skipn (S r) bs).
  { clear E Hb. revert bs Hr; induction r; intros [|x bs] Hr; cbn in *; try lia; auto.
    f_equal. apply IHr; lia. }
  rewrite U. set (A := firstn r bs) in *. set (C := skipn (S r) bs) in *.
  set (m := nth r bs []) in *. rewrite E.
  rewrite !concat_app. cbn [List.concat].
  unfold write_at.
  destruct (_ || _) eqn:G.
  { apply orb_true_iff in G. rewrite !Z.ltb_lt in G. unfold zlen in G.
    rewrite !app_length in G. lia. }
  unfold zlen. rewrite Nat2Z.id.
  rewrite firstn_app, Nat.sub_diag, firstn_O, app_nil_r, firstn_all.
  rewrite Hb, <- app_length, (app_assoc (List.concat A) m (List.concat C)).
  rewrite skipn_app, skipn_all, Nat.sub_diag. reflexivity.
Qed.

Definition fill_in (parts : list (list Z)) (bs : list (list Z)) (s : list nat) :=
  fold_left (fun bs r => upd r (nth r parts []) bs) s bs.

Definition shaped (parts bs : list (list Z)) : Prop :=
  map (@List.length Z) bs = map (@List.length Z) parts.

Lemma shaped_firstn parts bs r : shaped parts bs ->
  zsum (map zlen (firstn r bs)) = zsum (map zlen (firstn r parts)).
Proof.
  unfold shaped. intros H. f_equal. unfold zlen.
  rewrite <- !(map_map (@List.length Z) Z.of_nat), <- !firstn_map, H. reflexivity.
Qed.

Lemma shaped_nth parts bs r : shaped parts bs ->
  List.length (nth r bs []) = List.length (nth r parts []).
Proof.
  unfold shaped. intros H.
  rewrite <- !(map_nth (@List.length Z)), H. reflexivity.
Qed.

Lemma shaped_upd parts bs r : shaped parts bs -> shaped parts (upd r (nth r parts []) bs).
Proof.
  unfold shaped. revert parts bs. induction r; intros [|p parts] [|b bs] H; cbn in *; try congruence.
  injection H as H1 H2. f_equal; auto.
Qed.

Lemma slabs_fold f name parts calls s : forall bs,
  shaped parts bs -> List.length calls = List.length parts ->
  (forall r c, nth_error calls r = Some c ->
      (w_off c = start parts r \/ nth r parts [] = [] /\ w_off c = 0) /\
      w_data c = nth r parts []) ->
  Forall (fun r => (r < List.length parts)%nat) s ->
  foldM (fun g r => match nth_error calls r with
                    | Some c => write_slab g name c
                    | None => UB
                    end) ((name, List.concat bs) :: f) s
  = Ok ((name, List.concat (fill_in parts bs s)) :: f).
Proof.
  induction s as [|r s IH]; intros bs Sh L C F; cbn [foldM]; auto.
  apply Forall_cons_iff in F as [Fr F].
  destruct (nth_error calls r) as [c|] eqn:Ec.
  2:{ apply nth_error_None in Ec. lia. }
  destruct (C _ _ Ec) as [Co Cd].
  unfold write_slab. cbn [dset]. rewrite String.eqb_refl.
  rewrite Cd.
  assert (Lb : List.length bs = List.length parts).
  { rewrite <- (map_length (@List.length Z) bs), Sh, map_length. reflexivity. }
  assert (Wr : write_at (List.concat bs) (w_off c) (nth r parts []) =
               Ok (List.concat (upd r (nth r parts []) bs))).
  { rewrite <- (write_at_block bs r); [| lia | symmetry; apply shaped_nth; auto].
    rewrite (shaped_firstn _ _ r Sh).
    destruct Co as [Co|[Ce Co]]; rewrite Co; auto.
    pose proof (write_at_block bs r (nth r parts []) ltac:(lia)
      ltac:(symmetry; apply shaped_nth; auto)) as B.
    rewrite (shaped_firstn _ _ r Sh) in B. rewrite B, Ce.
    replace (upd r [] bs) with bs.
    - unfold write_at. rewrite (proj2 (Z.ltb_ge (zlen (List.concat bs)) (0 + zlen (@nil Z))))
        by (unfold zlen; cbn; lia).
      reflexivity.
    - pose proof (shaped_nth _ _ r Sh) as Sn. rewrite Ce in Sn. cbn in Sn.
      apply length_zero_iff_nil in Sn. clear - Sn. revert bs Sn.
      induction r; intros [|b bs] Sn; cbn in *; subst; auto. rewrite <- IHr; auto. }
  rewrite Wr.
  cbn [bind set_dset]. rewrite String.eqb_refl.
  rewrite IH; auto using shaped_upd.
Qed.

Lemma fill_in_length parts s : forall bs, List.length (fill_in parts bs s) = List.length bs.
Proof.
  induction s as [|r s IH]; intros bs; cbn [fill_in fold_left]; auto.
  change (List.length (fill_in parts (upd r (nth r parts []) bs) s) = List.length bs).
  rewrite IH, upd_length. reflexivity.
Qed.

Lemma fill_in_nth parts s : forall bs i,
  List.length bs = List.length parts -> (i < List.length parts)%nat ->
  (In i s \/ nth_error bs i = nth_error parts i) ->
  nth_error (fill_in parts bs s) i = nth_error parts i.
Proof.
  induction s as [|r s IH]; intros bs i L Hi H.
  - destruct H as [[]|H]; auto.
  - change (nth_error (fill_in parts (upd r (nth r parts []) bs) s) i = nth_error parts i).
    apply IH; [rewrite upd_length; auto|auto|].
    destruct (in_dec Nat.eq_dec i s) as [I|I]; auto. right.
    destruct (Nat.eq_dec r i) as [->|N].
    + rewrite nth_error_upd_same by lia. symmetry. apply nth_error_nth'; auto.
    + rewrite nth_error_upd_other by auto. destruct H as [[?|?]|?]; congruence || tauto.
Qed.

Lemma fill_in_all parts bs s :
  List.length bs = List.length parts -> any_order (List.length parts) s ->
  fill_in parts bs s = parts.
Proof.
  intros L P. apply nth_error_ext. intros i.
  destruct (Nat.lt_ge_cases i (List.length parts)) as [H|H].
  - apply fill_in_nth; auto. left. eapply Permutation_in; [symmetry; apply P|].
    apply in_seq. lia.
  - rewrite (proj2 (nth_error_None _ _)); [|rewrite fill_in_length; lia].
    symmetry. apply nth_error_None; auto.
Qed.

Lemma zeros_concat (parts : list (list Z)) :
  repeat 0 (Z.to_nat (total parts)) = List.concat (map (fun p => repeat 0 (List.length p)) parts).
Proof.
  unfold total. rewrite <- zlen_concat. unfold zlen. rewrite Nat2Z.id.
  induction parts as [|p t IH]; auto. cbn [List.concat map].
  rewrite app_length, repeat_app, IH. reflexivity.
Qed.

Lemma start_nonneg parts r : 0 <= start parts r.
Proof. unfold start. rewrite <- zlen_concat_firstn. unfold zlen. lia. Qed.
Lemma total_nonneg parts : 0 <= total parts.
Proof. unfold total. rewrite <- zlen_concat. unfold zlen. lia. Qed.

(** The ranks' slabs follow one another: whatever the order of the writes, the
    dataset is the concatenation. *)
Lemma write_dataset_ok f name parts calls s :
  parts <> [] -> List.length calls = List.length parts ->
  (forall r c, nth_error calls r = Some c ->
      w_global c = total parts /\
      (w_off c = start parts r \/ nth r parts [] = [] /\ w_off c = 0) /\
      w_data c = nth r parts []) ->
  dset f name = None -> any_order (List.length parts) s ->
  write_dataset f name calls s = Ok ((name, List.concat parts) :: f).
Proof.
  intros NE L C D P. unfold write_dataset.
  replace (forallb _ calls) with true.
  2:{ symmetry. apply forallb_forall. intros c I. apply In_nth_error in I as [r Er].
      destruct (C _ _ Er) as (-> & Co & _). pose proof (start_nonneg parts r).
      pose proof (total_nonneg parts). apply andb_true_iff; rewrite !Z.leb_le.
      split; [lia|]. destruct Co as [->|[_ ->]]; lia. }
  cbn [assert_ bind].
  destruct calls as [|c0 cs]; [destruct parts; cbn in L; congruence|].
  destruct (C 0%nat c0 eq_refl) as (G0 & _).
  replace (forallb _ (c0 :: cs)) with true.
  2:{ symmetry. apply forallb_forall. intros c I. apply In_nth_error in I as [r Er].
      destruct (C _ _ Er) as (-> & _). rewrite G0. apply Z.eqb_refl. }
  rewrite D, G0, zeros_concat.
  rewrite slabs_fold with (parts := parts); auto.
  - rewrite fill_in_all; auto. rewrite map_length; auto.
  - unfold shaped. rewrite map_map. apply map_ext. intros a; apply repeat_length.
  - intros r c E. apply C in E; tauto.
  - apply Forall_forall. intros x I. eapply Permutation_in in I; [|apply P].
    apply in_seq in I; lia.
Qed.

(** ** Writing parts *)

Definition offset_parts (parts : list (list Z)) : list (list Z) :=
  let n := List.length parts in
  map (fun r => if Nat.eqb r (n - 1) then [start parts r; total parts] else [start parts r])
    (seq 0 n).

Lemma start_all parts : start parts (List.length parts) = total parts.
Proof. unfold start, total. rewrite firstn_all. reflexivity. Qed.

Lemma start_S parts r : (r < List.length parts)%nat ->
  start parts (S r) = start parts r + zlen (nth r parts []).
Proof.
  unfold start. revert r. induction parts as [|p t IH]; intros r H; cbn [List.length] in H; [lia|].
  destruct r; [cbn [firstn map nth]; unfold zsum; cbn; lia|].
  change (firstn (S (S r)) (p :: t)) with (p :: firstn (S r) t).
  change (firstn (S r) (p :: t)) with (p :: firstn r t).
  cbn [map nth].
  change (zlen p + zsum (map zlen (firstn (S r) t))
          = zlen p + zsum (map zlen (firstn r t)) + zlen (nth r t [])).
  rewrite IH by lia. lia.
Qed.

Lemma start_mono parts r k : (r <= k <= List.length parts)%nat -> start parts r <= start parts k.
Proof.
  intros [H1 H2]. induction H1; [lia|].
  rewrite start_S by lia. unfold zlen. specialize (IHle ltac:(lia)). lia.
Qed.

Lemma ones_sum (parts : list (list Z)) : forall a n,
  (forall r, In r (seq a n) -> r <> (List.length parts - 1)%nat) ->
  zsum (map zlen (map (fun r => if Nat.eqb r (List.length parts - 1)
                                then [start parts r; total parts] else [start parts r])
                    (seq a n))) = Z.of_nat n.
Proof.
  intros a n. revert a. induction n as [|n IH]; intros a H; auto.
  cbn [seq map].
  destruct (Nat.eqb_spec a (List.length parts - 1)) as [E|E].
  { exfalso. apply (H a); auto. left; auto. }
  match goal with |- zsum (?x :: ?l) = _ => change (zsum (x :: l)) with (x + zsum l) end.
  rewrite IH; [|intros r I; apply H; right; auto].
  unfold zlen. cbn [List.length]. lia.
Qed.

Lemma offset_parts_length parts : List.length (offset_parts parts) = List.length parts.
Proof. unfold offset_parts. rewrite map_length, seq_length. reflexivity. Qed.

Lemma firstn_seq k a n : (k <= n)%nat -> firstn k (seq a n) = seq a k.
Proof.
  revert a k. induction n as [|n IH]; intros a [|k] H; cbn; auto; try lia.
  f_equal. apply IH. lia.
Qed.

Lemma offset_parts_start parts r : (r < List.length parts)%nat ->
  start (offset_parts parts) r = Z.of_nat r.
Proof.
  intros H. unfold start, offset_parts. rewrite firstn_map, firstn_seq by lia.
  apply ones_sum. intros k I. apply in_seq in I. lia.
Qed.

Lemma nth_offset_parts parts r : (r < List.length parts)%nat ->
  nth r (offset_parts parts) [] =
  if Nat.eqb r (List.length parts - 1) then [start parts r; total parts] else [start parts r].
Proof.
  intros H. apply nth_error_nth. unfold offset_parts.
  rewrite nth_error_map, (nth_error_nth' _ 0%nat) by (rewrite seq_length; auto).
  cbn [option_map]. rewrite seq_nth by auto. reflexivity.
Qed.

Lemma offset_parts_total parts : parts <> [] ->
  total (offset_parts parts) = Z.of_nat (List.length parts) + 1.
Proof.
  intros NE. assert (L : (0 < List.length parts)%nat) by (destruct parts; cbn; [congruence|lia]).
  rewrite <- start_all, offset_parts_length.
  replace (List.length parts) with (S (List.length parts - 1)) at 1 by lia.
  rewrite start_S by (rewrite offset_parts_length; lia).
  rewrite offset_parts_start, nth_offset_parts by lia. rewrite Nat.eqb_refl.
  unfold zlen; cbn [List.length]. lia.
Qed.

Lemma offset_parts_concat parts : parts <> [] ->
  List.concat (offset_parts parts) = map (start parts) (seq 0 (S (List.length parts))).
Proof.
  intros NE. assert (L : (0 < List.length parts)%nat) by (destruct parts; cbn; [congruence|lia]).
  unfold offset_parts. remember (List.length parts - 1)%nat as k eqn:K.
  replace (List.length parts) with (S k) by lia.
  rewrite !seq_S, !map_app, concat_app. cbn [map Nat.add].
  rewrite Nat.eqb_refl. cbn [List.concat]. rewrite app_nil_r, <- app_assoc.
  f_equal.
  - assert (G : forall a n, (a + n <= k)%nat ->
        List.concat (map (fun r => if Nat.eqb r k then [start parts r; total parts]
                              else [start parts r]) (seq a n)) = map (start parts) (seq a n)).
    { intros a n. revert a. induction n as [|n IH]; intros a H; auto.
      cbn [seq map List.concat]. destruct (Nat.eqb_spec a k); [lia|].
      rewrite IH by lia. reflexivity. }
    apply G. lia.
  - cbn [app]. f_equal. f_equal. rewrite <- start_all. f_equal. lia.
Qed.

Lemma nth_scan_sum l r : (r < List.length l)%nat ->
  nth_error (scan_sum l) r = Some (zsum (firstn (S r) l)).
Proof.
  intros H. unfold scan_sum. rewrite nth_error_map, (nth_error_nth' _ 0%nat) by (rewrite seq_length; auto).
  cbn [option_map]. rewrite seq_nth by auto. reflexivity.
Qed.

Lemma nth_error_combine {A B} (l : list A) (m : list B) i :
  nth_error (combine l m) i =
  match nth_error l i, nth_error m i with Some a, Some b => Some (a, b) | _, _ => None end.
Proof.
  revert m i. induction l as [|a l IH]; intros [|b m] [|i]; cbn; auto.
  - destruct (nth_error l i); auto.
Qed.

Lemma u64_small x : 0 <= x < 2 ^ 64 -> u64 x = x.
Proof. intros H. unfold u64. apply Z.mod_small; auto. Qed.
Lemma i64_small x : 0 <= x <= int64_max -> i64 x = x.
Proof.
  unfold i64, int64_max. intros H. rewrite Z.mod_small by lia.
  destruct (Z.ltb_spec x (2 ^ 63)); lia.
Qed.

Lemma nth_seq0 n r : (r < n)%nat -> nth_error (seq 0 n) r = Some r.
Proof.
  intros H. rewrite (nth_error_nth' _ 0%nat) by (rewrite seq_length; auto).
  rewrite seq_nth by auto. reflexivity.
Qed.

Lemma nth_error_lt {A} (l : list A) r : (r < List.length l)%nat -> exists x, nth_error l r = Some x.
Proof.
  intros H. destruct (nth_error l r) eqn:E; eauto. apply nth_error_None in E; lia.
Qed.

Section Parts.
  Variable parts : list (list Z).
  Hypothesis NE : parts <> [].
  Hypothesis Small : total parts <= int64_max.

  Let sizes := map zlen parts.
  Let incl := map u64 (scan_sum sizes).
  Let starts := map (fun p => u64 (fst p - snd p)) (combine incl sizes).

  Lemma parts_pos : (0 < List.length parts)%nat.
  Proof. destruct parts; cbn; [congruence|lia]. Qed.

  Lemma start_le r : (r <= List.length parts)%nat -> start parts r <= total parts.
  Proof. intros. rewrite <- start_all. apply start_mono. lia. Qed.

  Lemma incl_nth r : (r < List.length parts)%nat -> nth_error incl r = Some (start parts (S r)).
  Proof.
    intros H. unfold incl, sizes. rewrite nth_error_map, nth_scan_sum by (rewrite map_length; auto).
    cbn [option_map]. rewrite firstn_map.
    change (zsum (map zlen (firstn (S r) parts))) with (start parts (S r)).
    rewrite u64_small; auto. pose proof (start_le (S r) H). pose proof (start_nonneg parts (S r)).
    unfold int64_max in Small. lia.
  Qed.

  Lemma starts_nth r : (r < List.length parts)%nat -> nth_error starts r = Some (start parts r).
  Proof.
    intros H. unfold starts. rewrite nth_error_map, nth_error_combine, incl_nth by auto.
    unfold sizes. rewrite nth_error_map, (nth_error_nth' _ []) by auto. cbn [option_map fst snd].
    rewrite start_S by auto. rewrite u64_small.
    - f_equal. lia.
    - pose proof (start_le r ltac:(lia)). pose proof (start_nonneg parts r).
      unfold int64_max in Small. lia.
  Qed.

  Lemma incl_length : List.length incl = List.length parts.
  Proof. unfold incl, sizes, scan_sum. rewrite !map_length, seq_length; rewrite ?map_length; reflexivity. Qed.

  Lemma glob_total : last_or0 incl = total parts.
  Proof.
    unfold last_or0. pose proof parts_pos as P.
    assert (G : forall (l : list Z) d, (0 < List.length l)%nat ->
        nth_error l (List.length l - 1) = Some (last l d)).
    { induction l as [|x [|y l] IH]; intros d H; cbn [List.length] in *; [lia|reflexivity|].
      specialize (IH d ltac:(lia)).
      replace (S (S (List.length l)) - 1)%nat with (S (S (List.length l) - 1)) by lia.
      cbn [nth_error]. rewrite IH. reflexivity. }
    specialize (G incl 0). rewrite incl_length in G. specialize (G P).
    rewrite incl_nth in G by lia. injection G as G. rewrite <- G.
    replace (S (List.length parts - 1)) with (List.length parts) by lia.
    apply start_all.
  Qed.

  Lemma starts_length : List.length starts = List.length parts.
  Proof.
    unfold starts. rewrite map_length, combine_length, incl_length. unfold sizes.
    rewrite map_length. lia.
  Qed.

  Lemma write_parts_ok f name s1 s2 :
    dset f name = None -> dset f (offsets_name name) = None ->
    any_order (List.length parts) s1 -> any_order (List.length parts) s2 ->
    write_vector f name parts (map (fun _ => off_parts) parts) s1 s2 =
    Ok ((offsets_name name, map (start parts) (seq 0 (S (List.length parts))))
          :: (name, List.concat parts) :: f).
  Proof.
    intros D1 D2 P1 P2. unfold write_vector.
    destruct (map (fun _ => off_parts) parts) as [|o l] eqn:M.
    { apply map_eq_nil in M. congruence. }
    assert (I : forall x, In x (o :: l) -> x = off_parts).
    { intros x I. rewrite <- M in I. apply in_map_iff in I as (? & <- & _); auto. }
    rewrite (I o) by (left; auto).
    change (kind_of off_parts) with KParts. cbv iota.
    replace (forallb _ (off_parts :: l)) with true.
    2:{ symmetry. apply forallb_forall. intros x [<-|X]; auto.
        rewrite (I x) by (right; auto). reflexivity. }
    cbv zeta. fold sizes. fold incl. fold starts.
    rewrite glob_total, (i64_small (total parts)) by (pose proof (total_nonneg parts); lia).
    rewrite write_dataset_ok with (parts := parts); auto.
    - cbn [bind].
      rewrite write_dataset_ok with (parts := offset_parts parts).
      + rewrite offset_parts_concat; auto.
      + intros E. apply NE. apply length_zero_iff_nil. rewrite <- offset_parts_length, E. auto.
      + rewrite map_length, combine_length, seq_length, starts_length, offset_parts_length. lia.
      + intros r c E. rewrite nth_error_map, nth_error_combine in E.
        destruct (Nat.lt_ge_cases r (List.length parts)) as [H|H].
        2:{ rewrite (proj2 (nth_error_None (seq 0 _) r)) in E by (rewrite seq_length; auto).
            discriminate. }
        rewrite nth_seq0, starts_nth in E by auto. cbn [option_map fst snd] in E.
        injection E as <-. unfold offset_call.
        pose proof (start_le r ltac:(lia)). pose proof (start_nonneg parts r).
        rewrite i64_small by lia. cbn [w_global w_off w_data].
        rewrite offset_parts_total, offset_parts_start, nth_offset_parts; auto.
      + cbn [dset]. destruct (String.eqb_spec name (offsets_name name)) as [E|E]; auto.
        exfalso. unfold offsets_name in E.
        assert (Le := f_equal String.length E).
        assert (A : forall a b, String.length (a ++ b)%string = (String.length a + String.length b)%nat).
        { induction a; intros; cbn; auto. }
        rewrite A in Le. cbn in Le. lia.
      + rewrite offset_parts_length. auto.
    - rewrite map_length, combine_length, starts_length. lia.
    - intros r c E. rewrite nth_error_map, nth_error_combine in E.
      destruct (Nat.lt_ge_cases r (List.length parts)) as [H|H].
      2:{ rewrite (proj2 (nth_error_None starts r)) in E by (rewrite starts_length; auto).
          discriminate. }
      rewrite starts_nth, (nth_error_nth' _ []) in E by auto. cbn [option_map fst snd] in E.
      injection E as <-. cbn [w_global w_off w_data].
      pose proof (start_le r ltac:(lia)). pose proof (start_nonneg parts r).
      rewrite i64_small by lia. auto.
  Qed.
End Parts.

Lemma tiled_concat parts : tiled parts (List.concat parts).
Proof.
  split; [apply zlen_concat|].
  intros r j x Hr Hj. unfold start. rewrite <- zlen_concat_firstn. unfold zlen. rewrite Nat2Z.id.
  rewrite <- (firstn_skipn r parts) at 1.
  rewrite concat_app, nth_error_app2 by lia.
  replace (_ + j - _)%nat with j by lia.
  assert (E : skipn r parts = nth r parts [] :: skipn (S r) parts).
  { clear Hj. revert parts Hr; induction r; intros [|y bs] Hr; cbn in *; try lia; auto.
    apply IHr; lia. }
  rewrite E. cbn [List.concat]. rewrite nth_error_app1; auto.
  apply nth_error_Some. congruence.
Qed.

Lemma tiled_unique parts d : tiled parts d -> d = List.concat parts.
Proof.
  intros [L T]. symmetry. apply nth_error_ext. intros i.
  destruct (nth_error (List.concat parts) i) as [x|] eqn:E.
  - symmetry.
    assert (X : forall (ps : list (list Z)) i x, nth_error (List.concat ps) i = Some x ->
        exists r j, (r < List.length ps)%nat /\ nth_error (nth r ps []) j = Some x /\
          i = (Z.to_nat (start ps r) + j)%nat).
    { clear. induction ps as [|p ps IH]; intros i x E; cbn [List.concat] in E.
      - destruct i; discriminate.
      - destruct (Nat.lt_ge_cases i (List.length p)) as [H|H].
        + rewrite nth_error_app1 in E by auto. exists 0%nat, i. cbn. repeat split; auto; lia.
        + rewrite nth_error_app2 in E by auto. apply IH in E as (r & j & Hr & Hj & Q).
          exists (S r), j. split; [cbn; lia|]. split; [exact Hj|].
          unfold start in *. cbn [firstn map].
          match goal with |- context [zsum (?x :: ?l)] => change (zsum (x :: l)) with (x + zsum l) end.
          assert (0 <= zsum (map zlen (firstn r ps))).
          { rewrite <- zlen_concat_firstn. unfold zlen; lia. }
          unfold zlen at 1. lia. }
    destruct (X _ _ _ E) as (r & j & Hr & Hj & ->). apply T; auto.
  - symmetry. apply nth_error_None. apply nth_error_None in E.
    unfold total in L. rewrite <- zlen_concat in L. unfold zlen in L. lia.
Qed.

(** ** Reading *)

Definition stored (f : file) (name : string) (parts : list (list Z)) : Prop :=
  dset f name = Some (List.concat parts) /\
  dset f (offsets_name name) = Some (map (start parts) (seq 0 (S (List.length parts)))).

Lemma slice_parts parts r : (r < List.length parts)%nat ->
  slice (List.concat parts) (start parts r) (zlen (nth r parts [])) = Ok (nth r parts []).
Proof.
  intros Hr. unfold slice.
  pose proof (start_nonneg parts r).
  pose proof (start_S parts r Hr) as S1.
  assert (S2 : start parts (S r) <= total parts).
  { rewrite <- start_all. apply start_mono. lia. }
  destruct (_ || _) eqn:G.
  { rewrite !orb_true_iff, !Z.ltb_lt in G. rewrite zlen_concat in G. unfold total in S2.
    unfold zlen at 1 in G. lia. }
  f_equal. unfold start. rewrite <- zlen_concat_firstn. unfold zlen. rewrite !Nat2Z.id.
  replace (List.concat parts) with (List.concat (firstn r parts ++ skipn r parts))
    by (rewrite firstn_skipn; auto).
  assert (E : skipn r parts = nth r parts [] :: skipn (S r) parts).
  { clear -Hr. revert parts Hr; induction r; intros [|y bs] Hr; cbn in *; try lia; auto.
    apply IHr; lia. }
  rewrite concat_app, skipn_app, skipn_all, Nat.sub_diag, E.
  cbn [skipn app List.concat].
  rewrite firstn_app, Nat.sub_diag, firstn_O, app_nil_r, firstn_all. reflexivity.
Qed.

Lemma skipn_S_nth {A} (l : list A) : forall r d, (r < List.length l)%nat ->
  skipn r l = nth r l d :: skipn (S r) l.
Proof.
  intros r d. revert l. induction r; intros [|y bs] Hr; cbn in *; try lia; auto.
  apply IHr; lia.
Qed.

Lemma query_unknown f name parts r : stored f name parts -> (r < List.length parts)%nat ->
  query f name (List.length parts) r off_unknown =
  Ok (zlen (nth r parts []), {| g_size := total parts; g_off := start parts r |}).
Proof.
  intros [D1 D2] Hr. unfold query. change (kind_of off_unknown) with KUnknown. cbv iota.
  rewrite D1, D2.
  set (ro := map (start parts) (seq 0 (S (List.length parts)))).
  assert (Lr : List.length ro = S (List.length parts)) by (unfold ro; rewrite map_length, seq_length; auto).
  replace (zlen ro =? _) with true by (symmetry; apply Z.eqb_eq; unfold zlen; lia).
  unfold read_slab. rewrite D2. fold ro.
  assert (N : forall k, (k <= List.length parts)%nat -> nth k ro 0 = start parts k).
  { intros k Hk. unfold ro. rewrite nth_indep with (d' := start parts 0) by (fold ro; lia).
    rewrite map_nth, seq_nth by lia. f_equal. }
  assert (Sl : slice ro (Z.of_nat r) 2 = Ok [start parts r; start parts (S r)]).
  { unfold slice. destruct (_ || _) eqn:G.
    { rewrite !orb_true_iff, !Z.ltb_lt in G. unfold zlen in G. lia. }
    f_equal. rewrite Nat2Z.id. change (Z.to_nat 2) with 2%nat.
    rewrite (skipn_S_nth ro r 0), (skipn_S_nth ro (S r) 0) by lia.
    cbn [firstn]. rewrite !N by lia. reflexivity. }
  rewrite Sl. cbn [bind]. change (vget [start parts r; start parts (S r)] 0) with (Ok (start parts r)).
  change (vget [start parts r; start parts (S r)] 1) with (Ok (start parts (S r))).
  cbn [bind]. rewrite start_S by auto.
  assert (0 <= zlen (nth r parts [])) by (unfold zlen; lia).
  replace (start parts r <=? _) with true by (symmetry; apply Z.leb_le; lia).
  cbn [assert_ bind]. do 2 f_equal; [lia|]. f_equal. apply zlen_concat.
Qed.

Lemma kind_dist a b : 0 <= b -> kind_of {| g_size := a; g_off := b |} = KDist.
Proof.
  intros H. unfold kind_of. cbn [g_off g_size off_unknown].
  destruct (Z.eqb_spec b (-9223372036854775808)); [lia|].
  destruct (Z.eqb_spec b (-2)); [lia|]. destruct (Z.eqb_spec b (-1)); [lia|].
  destruct (Z.leb_spec 0 b); [auto|lia].
Qed.

Lemma fetch_dist f name parts r null : stored f name parts -> (r < List.length parts)%nat ->
  (null = true -> nth r parts [] = []) ->
  fetch f name (zlen (nth r parts [])) {| g_size := total parts; g_off := start parts r |} null
  = Ok (nth r parts [], negb null).
Proof.
  intros [D1 D2] Hr Hn. unfold fetch. rewrite kind_dist by apply start_nonneg.
  destruct null.
  - rewrite Hn by auto. cbn. rewrite D1. reflexivity.
  - rewrite orb_true_r. cbn [assert_ bind negb]. unfold read_slab. cbn [g_off]. rewrite D1, slice_parts; auto.
Qed.

(** Ranks that skip the transfer: a fresh vector and an empty part. *)
Definition skips (parts : list (list Z)) (fresh : list bool) : list bool :=
  map (fun x : list Z * bool => snd x && (zlen (fst x) =? 0)) (combine parts fresh).

Lemma nth_combine_skips parts fresh r : List.length fresh = List.length parts ->
  (r < List.length parts)%nat ->
  nth_error (skips parts fresh) r = Some (nth r fresh false && (zlen (nth r parts []) =? 0)).
Proof.
  intros L H. unfold skips. rewrite nth_error_map, nth_error_combine.
  rewrite (nth_error_nth' parts []), (nth_error_nth' fresh false) by lia. reflexivity.
Qed.

Lemma mapM_intro {A B} (f : A -> res B) l r : List.length r = List.length l ->
  (forall i x y, nth_error l i = Some x -> nth_error r i = Some y -> f x = Ok y) ->
  mapM f l = Ok r.
Proof.
  revert r. induction l as [|x l IH]; intros [|y r] L H; cbn in *; try lia; auto.
  rewrite (H 0%nat x y eq_refl eq_refl). cbn [bind]. rewrite (IH r); auto.
  intros i a b Ha Hb. apply (H (S i)); auto.
Qed.

Lemma read_stored f coll name parts fresh :
  stored f name parts -> List.length fresh = List.length parts ->
  read_vector f coll name (ask fresh) =
  if coll && existsb id (skips parts fresh) && negb (forallb id (skips parts fresh)) then UB
  else Ok (combine parts (places parts)).
Proof.
  intros St L. unfold read_vector.
  set (n := List.length (ask fresh)).
  assert (Ln : n = List.length parts) by (unfold n, ask; rewrite map_length; auto).
  set (qs := map (fun r => (zlen (nth r parts []), {| g_size := total parts; g_off := start parts r |}))
               (seq 0 (List.length parts))).
  assert (Lq : List.length qs = List.length parts) by (unfold qs; rewrite map_length, seq_length; auto).
  assert (Nq : forall r, (r < List.length parts)%nat -> nth_error qs r =
       Some (zlen (nth r parts []), {| g_size := total parts; g_off := start parts r |})).
  { intros r H. unfold qs. rewrite nth_error_map, nth_seq0 by auto. reflexivity. }
  assert (Na : forall r, (r < List.length parts)%nat ->
     nth_error (ask fresh) r = Some (off_unknown, nth r fresh false)).
  { intros r H. unfold ask. rewrite nth_error_map, (nth_error_nth' fresh false) by lia. reflexivity. }
  rewrite (mapM_intro _ _ qs).
  2:{ rewrite combine_length, seq_length. fold n. lia. }
  2:{ intros r x y Hx Hy. rewrite nth_error_combine in Hx.
      destruct (Nat.lt_ge_cases r (List.length parts)) as [H|H].
      2:{ rewrite (proj2 (nth_error_None qs r)) in Hy by lia. discriminate. }
      rewrite nth_seq0, Na in Hx by lia. injection Hx as <-. rewrite Nq in Hy by auto.
      injection Hy as <-. cbn [fst snd]. rewrite Ln. apply query_unknown; auto. }
  cbn [bind].
  set (vs := combine parts (map negb (skips parts fresh))).
  assert (Ls : List.length (skips parts fresh) = List.length parts).
  { unfold skips. rewrite map_length, combine_length. lia. }
  rewrite (mapM_intro _ _ vs).
  2:{ unfold vs. rewrite !combine_length, map_length, Ls. unfold n in Ln. lia. }
  2:{ intros r x y Hx Hy. rewrite nth_error_combine in Hx.
      destruct (Nat.lt_ge_cases r (List.length parts)) as [H|H].
      2:{ rewrite (proj2 (nth_error_None qs r)) in Hx by lia. discriminate. }
      rewrite Nq, Na in Hx by auto. injection Hx as <-.
      unfold vs in Hy. rewrite nth_error_combine, nth_error_map, nth_combine_skips in Hy by auto.
      rewrite (nth_error_nth' parts []) in Hy by auto. cbn [option_map] in Hy. injection Hy as <-.
      apply fetch_dist; auto. intros E. apply andb_true_iff in E as [_ E].
      apply Z.eqb_eq in E. unfold zlen in E. apply length_zero_iff_nil. lia. }
  cbn [bind].
  assert (F1 : forallb snd vs = negb (existsb id (skips parts fresh))).
  { unfold vs. clear -Ls. revert Ls. generalize (skips parts fresh) as sk. revert parts.
    induction parts as [|p t IH]; intros [|b sk] H; cbn in *; try lia; auto.
    rewrite IH by lia. destruct b; auto. }
  assert (F2 : existsb snd vs = negb (forallb id (skips parts fresh))).
  { unfold vs. clear -Ls. revert Ls. generalize (skips parts fresh) as sk. revert parts.
    induction parts as [|p t IH]; intros [|b sk] H; cbn in *; try lia; auto.
    rewrite IH by lia. destruct b; auto. }
  rewrite F1, F2, negb_involutive.
  destruct (_ && _ && _); auto. f_equal. f_equal.
  - unfold vs. clear -Ls. revert Ls. generalize (skips parts fresh) as sk. revert parts.
    induction parts as [|p t IH]; intros [|b sk] H; cbn in *; try lia; auto.
    rewrite IH by lia. auto.
  - unfold qs. rewrite map_map. reflexivity.
Qed.

Lemma offsets_name_neq name : offsets_name name <> name.
Proof.
  intros E. unfold offsets_name in E.
  assert (Le := f_equal String.length E).
  assert (A : forall a b, String.length (a ++ b)%string = (String.length a + String.length b)%nat).
  { induction a; intros; cbn; auto. }
  rewrite A in Le. cbn in Le. lia.
Qed.

(** ** Nothing written is changed later *)

Lemma foldM_inv {A T} (f : T -> A -> res T) (P : T -> Prop) l : forall s s',
  (forall s a s', P s -> f s a = Ok s' -> P s') -> P s -> foldM f s l = Ok s' -> P s'.
Proof.
  induction l as [|a l IH]; intros s s' H Ps E; cbn [foldM] in E; [congruence|].
  destruct (f s a) eqn:Fa; cbn [bind] in E; try discriminate. eauto.
Qed.

Lemma write_dataset_keeps f name calls s f' k d :
  write_dataset f name calls s = Ok f' -> dset f k = Some d -> dset f' k = Some d.
Proof.
  unfold write_dataset. intros W D.
  destruct (assert_ _); cbn [bind] in W; try discriminate.
  destruct calls as [|c0 cs]; [discriminate|]. destruct (forallb _ _) in W; [|discriminate].
  destruct (dset f name) eqn:Dn; [discriminate|].
  assert (N : k <> name) by congruence.
  assert (N' : String.eqb name k = false) by (apply String.eqb_neq; congruence).
  eapply (foldM_inv _ (fun g => dset g k = Some d)); [| |exact W].
  - intros g r g' Hg Hw. cbv beta in Hw. destruct (nth_error (c0 :: cs) r); [|discriminate].
    unfold write_slab in Hw. destruct (dset g name) eqn:Dg; [|discriminate].
    destruct (write_at _ _ _); inversion Hw. rewrite dset_set_other; auto.
  - cbn [dset]. rewrite N'. auto.
Qed.

Lemma write_vector_keeps f name parts offs s1 s2 f' k d :
  write_vector f name parts offs s1 s2 = Ok f' -> dset f k = Some d -> dset f' k = Some d.
Proof.
  unfold write_vector. intros W D. destruct offs as [|o0 os]; [discriminate|].
  destruct (kind_of o0); try discriminate; destruct (forallb _ (o0 :: os)); try discriminate.
  - eapply write_dataset_keeps; eauto.
  - cbv zeta in W. match type of W with bind ?m _ = _ => destruct m eqn:W1 end; try discriminate.
    cbn [bind] in W. eapply write_dataset_keeps; [eauto|]. eapply write_dataset_keeps; eauto.
  - match type of W with bind ?m _ = _ => destruct m eqn:W1 end; try discriminate.
    cbn [bind] in W. eapply write_dataset_keeps; [eauto|]. eapply write_dataset_keeps; eauto.
Qed.

Lemma later_keeps f g k d : later f g -> dset f k = Some d -> dset g k = Some d.
Proof. induction 1; auto. intros D. eapply write_vector_keeps; eauto. Qed.

(** ** The statements *)

Lemma parts_tile f name parts s1 s2 :
  parts <> [] -> total parts <= int64_max ->
  dset f name = None -> dset f (offsets_name name) = None ->
  any_order (List.length parts) s1 -> any_order (List.length parts) s2 ->
  exists f' d,
    write_vector f name parts (map (fun _ => off_parts) parts) s1 s2 = Ok f' /\
    dset f' name = Some d /\ tiled parts d /\
    forall other, other <> name -> other <> offsets_name name -> dset f' other = dset f other.
Proof.
  intros NE Sm D1 D2 P1 P2. eexists. exists (List.concat parts).
  split; [apply write_parts_ok; auto|]. cbn [dset].
  pose proof (offsets_name_neq name) as N.
  rewrite (proj2 (String.eqb_neq _ _) N), String.eqb_refl.
  split; [auto|]. split; [apply tiled_concat|].
  intros o O1 O2. rewrite (proj2 (String.eqb_neq (offsets_name name) o)) by congruence.
  rewrite (proj2 (String.eqb_neq name o)) by congruence. auto.
Qed.

Lemma write_parts_stored f name parts s1 s2 f' :
  parts <> [] -> total parts <= int64_max ->
  any_order (List.length parts) s1 -> any_order (List.length parts) s2 ->
  dset f name = None -> dset f (offsets_name name) = None ->
  write_vector f name parts (map (fun _ => off_parts) parts) s1 s2 = Ok f' ->
  stored f' name parts.
Proof.
  intros NE Sm P1 P2 D1 D2 W. rewrite write_parts_ok in W; auto. injection W as <-.
  pose proof (offsets_name_neq name) as N.
  split; cbn [dset]; rewrite ?(proj2 (String.eqb_neq _ _) N), ?String.eqb_refl; auto.
Qed.

Lemma stored_later f g name parts : later f g -> stored f name parts -> stored g name parts.
Proof. intros H [A B]. split; eapply later_keeps; eauto. Qed.

Lemma read_back f name parts s1 s2 f' g coll fresh :
  parts <> [] -> total parts <= int64_max ->
  dset f name = None -> dset f (offsets_name name) = None ->
  any_order (List.length parts) s1 -> any_order (List.length parts) s2 ->
  write_vector f name parts (map (fun _ => off_parts) parts) s1 s2 = Ok f' ->
  later f' g ->
  List.length fresh = List.length parts ->
  (coll = true -> Forall (fun p => p <> []) parts \/ Forall (fun b => b = false) fresh) ->
  read_vector g coll name (ask fresh) = Ok (combine parts (places parts)).
Proof.
  intros NE Sm D1 D2 P1 P2 W La Lf C.
  assert (St : stored g name parts) by (eapply stored_later; eauto using write_parts_stored).
  rewrite read_stored with (parts := parts); auto.
  destruct coll; cbn [andb]; auto.
  replace (existsb id (skips parts fresh)) with false; auto. symmetry.
  destruct (existsb _ _) eqn:E; auto. apply existsb_exists in E as (b & I & Hb).
  unfold id in Hb; subst b. unfold skips in I. apply in_map_iff in I as ((p & b) & Hb & I).
  cbn [fst snd] in Hb. apply andb_true_iff in Hb as [-> Hz].
  destruct (C eq_refl) as [F|F]; rewrite Forall_forall in F.
  - apply in_combine_l in I. apply F in I. exfalso. apply I. apply Z.eqb_eq in Hz.
    unfold zlen in Hz. apply length_zero_iff_nil. lia.
  - apply in_combine_r in I. apply F in I. discriminate.
Qed.

Lemma other_rank_count f name parts coll fresh :
  stored f name parts -> fresh <> [] -> List.length fresh <> List.length parts ->
  read_vector f coll name (ask fresh) = Abort.
Proof.
  intros [D1 D2] NE L. unfold read_vector. destruct fresh as [|b bs]; [congruence|].
  set (n := List.length (ask (b :: bs))).
  assert (Ln : n = List.length (b :: bs)) by (unfold n, ask; rewrite map_length; auto).
  unfold ask. cbn [map]. rewrite Ln. cbn [List.length seq combine mapM fst snd].
  unfold query at 1. change (kind_of off_unknown) with KUnknown. cbv iota. rewrite D1, D2.
  replace (zlen _ =? _) with false; [reflexivity|].
  symmetry. apply Z.eqb_neq. unfold zlen. rewrite map_length, seq_length.
  cbn [List.length] in *. lia.
Qed.

Lemma other_rank_count_aborts f name parts s1 s2 f' g coll fresh :
  parts <> [] -> total parts <= int64_max ->
  dset f name = None -> dset f (offsets_name name) = None ->
  any_order (List.length parts) s1 -> any_order (List.length parts) s2 ->
  write_vector f name parts (map (fun _ => off_parts) parts) s1 s2 = Ok f' ->
  later f' g ->
  fresh <> [] -> List.length fresh <> List.length parts ->
  read_vector g coll name (ask fresh) = Abort.
Proof.
  intros. apply (other_rank_count g name parts); eauto using stored_later, write_parts_stored.
Qed.

(** Writing at the places a read reported gives the same two datasets. *)
Lemma write_places_ok parts f name s1 s2 :
  parts <> [] ->
  dset f name = None -> dset f (offsets_name name) = None ->
  any_order (List.length parts) s1 -> any_order (List.length parts) s2 ->
  write_vector f name parts (places parts) s1 s2 =
    Ok ((offsets_name name, map (start parts) (seq 0 (S (List.length parts))))
          :: (name, List.concat parts) :: f).
Proof.
  intros NE D1 D2 P1 P2. unfold write_vector.
  assert (Lp : List.length (places parts) = List.length parts) by (unfold places; rewrite map_length, seq_length; auto).
  assert (Np : forall r, (r < List.length parts)%nat ->
     nth_error (places parts) r = Some {| g_size := total parts; g_off := start parts r |}).
  { intros r H. unfold places. rewrite nth_error_map, nth_seq0 by auto. reflexivity. }
  assert (K : forall o, In o (places parts) -> kind_of o = KDist).
  { intros o I. unfold places in I. apply in_map_iff in I as (? & <- & _).
    apply kind_dist, start_nonneg. }
  destruct (places parts) as [|o l] eqn:M.
  { destruct parts; cbn in *; congruence. }
  rewrite (K o) by (left; auto).
  replace (forallb _ (o :: l)) with true.
  2:{ symmetry. apply forallb_forall. intros x I. rewrite (K x I). auto. }
  rewrite <- M in *. clear M.
  rewrite write_dataset_ok with (parts := parts); auto.
  - cbn [bind]. rewrite write_dataset_ok with (parts := offset_parts parts).
    + rewrite offset_parts_concat; auto.
    + intros E. apply NE. apply length_zero_iff_nil. rewrite <- offset_parts_length, E. auto.
    + rewrite map_length, combine_length, seq_length, Lp, offset_parts_length. lia.
    + intros r c E. rewrite nth_error_map, nth_error_combine in E.
      destruct (Nat.lt_ge_cases r (List.length parts)) as [H|H].
      2:{ rewrite (proj2 (nth_error_None (seq 0 _) r)) in E by (rewrite seq_length; auto).
          discriminate. }
      rewrite nth_seq0, Np in E by auto. injection E as <-. unfold offset_call.
      cbn [w_global w_off w_data fst snd g_off g_size].
      rewrite offset_parts_total, offset_parts_start, nth_offset_parts; auto.
    + cbn [dset]. rewrite (proj2 (String.eqb_neq name (offsets_name name))); auto.
      intros E; symmetry in E; apply offsets_name_neq in E; auto.
    + rewrite offset_parts_length. auto.
  - rewrite map_length, combine_length, Lp. lia.
  - intros r c E. rewrite nth_error_map, nth_error_combine in E.
    destruct (Nat.lt_ge_cases r (List.length parts)) as [H|H].
    2:{ rewrite (proj2 (nth_error_None (places parts) r)) in E by lia. discriminate. }
    rewrite Np, (nth_error_nth' _ []) in E by auto. cbn [option_map fst snd] in E.
    injection E as <-. auto.
Qed.

Lemma rewrite_at_places f g name name' parts s1 s2 f' fresh coll out s3 s4 :
  parts <> [] -> total parts <= int64_max ->
  dset f name = None -> dset f (offsets_name name) = None ->
  any_order (List.length parts) s1 -> any_order (List.length parts) s2 ->
  any_order (List.length parts) s3 -> any_order (List.length parts) s4 ->
  write_vector f name parts (map (fun _ => off_parts) parts) s1 s2 = Ok f' ->
  List.length fresh = List.length parts ->
  read_vector f' coll name (ask fresh) = Ok out ->
  dset g name' = None -> dset g (offsets_name name') = None ->
  write_vector g name' (map fst out) (map snd out) s3 s4 =
  write_vector g name' parts (map (fun _ => off_parts) parts) s3 s4.
Proof.
  intros NE Sm D1 D2 P1 P2 P3 P4 W Lf R D3 D4.
  rewrite read_stored with (parts := parts) in R by eauto using write_parts_stored.
  destruct (_ && _) in R; [discriminate|]. injection R as <-.
  assert (Lp : List.length (places parts) = List.length parts) by (unfold places; rewrite map_length, seq_length; auto).
  assert (F1 : forall {A B} (l : list A) (m : list B), List.length m = List.length l ->
     map fst (combine l m) = l /\ map snd (combine l m) = m).
  { clear. intros A B. induction l as [|a l IH]; intros [|b m] H; cbn in *; try lia; auto.
    destruct (IH m ltac:(lia)) as [-> ->]; auto. }
  destruct (F1 _ _ parts (places parts) Lp) as [-> ->].
  rewrite write_places_ok, write_parts_ok; auto.
Qed.

Lemma one_round_trip f name v n s1 s2 f' g coll fresh :
  (0 < n)%nat -> any_order n s1 ->
  dset f name = None ->
  write_vector f name (repeat v n) (repeat off_one n) s1 s2 = Ok f' ->
  later f' g -> v <> [] ->
  read_vector g coll name (map (fun b => (off_one, b)) fresh) = Ok (map (fun _ => (v, off_one)) fresh).
Proof.
  intros Hn P D W La Hv.
  assert (Dg : dset g name = Some v).
  { eapply later_keeps; [eauto|]. clear La g coll fresh.
    unfold write_vector in W.
    destruct n as [|n]; [lia|]. cbn [repeat] in W.
    change (kind_of off_one) with KOne in W. cbv iota zeta in W.
    match type of W with (if ?b then _ else _) = _ => replace b with true in W end.
    2:{ symmetry. apply forallb_forall. intros o [<-|I]; auto. apply repeat_spec in I; subst; auto. }
    rewrite write_dataset_ok with (parts := v :: repeat [] n) in W.
    - injection W as <-. cbn [dset]. rewrite String.eqb_refl. cbn [List.concat].
      replace (List.concat (repeat [] n)) with (@nil Z); [rewrite app_nil_r; auto|].
      clear. induction n; cbn; auto.
    - discriminate.
    - rewrite map_length, combine_length, seq_length. cbn [List.length]. rewrite !repeat_length. lia.
    - assert (T : forall k, zsum (map zlen (firstn k (v :: repeat [] n))) =
                    match k with O => 0 | _ => zlen v end).
      { intros [|k]; auto. cbn [firstn map].
        match goal with |- zsum (?x :: ?l) = _ => change (zsum (x :: l)) with (x + zsum l) end.
        replace (zsum (map zlen (firstn k (repeat [] n)))) with 0; [lia|].
        clear. revert k. induction n; intros [|k]; auto. cbn [repeat firstn map].
        match goal with |- _ = zsum (?x :: ?l) => change (zsum (x :: l)) with (x + zsum l) end.
        rewrite <- IHn. reflexivity. }
      intros r c E. rewrite nth_error_map, nth_error_combine in E.
      destruct (Nat.lt_ge_cases r (S n)) as [H|H].
      2:{ rewrite (proj2 (nth_error_None (seq 0 _) r)) in E; [discriminate|].
          rewrite seq_length; cbn [List.length]; rewrite repeat_length; auto. }
      rewrite nth_seq0 in E by (cbn [List.length]; rewrite repeat_length; auto).
      assert (Nr : nth_error (v :: repeat v n) r = Some v).
      { destruct r; auto. cbn [nth_error]. apply nth_error_repeat. lia. }
      rewrite Nr in E. cbn [option_map fst snd] in E. injection E as <-.
      cbn [w_global w_off w_data]. unfold total, start. rewrite T.
      split.
      + rewrite <- (firstn_all (v :: repeat [] n)), T. reflexivity.
      + assert (Nn : forall k, nth k (repeat (@nil Z) n) [] = []).
        { clear. induction n; intros [|k]; cbn; auto. }
        destruct r; cbn [Nat.eqb nth]; auto.
    - auto.
    - cbn [List.length]. rewrite repeat_length. auto. }
  unfold read_vector.
  set (n' := List.length (map (fun b : bool => (off_one, b)) fresh)).
  assert (Ln : n' = List.length fresh) by (unfold n'; rewrite map_length; auto).
  rewrite (mapM_intro _ _ (map (fun _ => (zlen v, off_one)) fresh)).
  2:{ rewrite combine_length, seq_length, !map_length. lia. }
  2:{ intros r x y Hx Hy. rewrite nth_error_map in Hy. rewrite nth_error_combine, nth_error_map in Hx.
      destruct (nth_error fresh r) eqn:E; [|discriminate].
      rewrite nth_seq0 in Hx by (rewrite Ln; apply nth_error_Some; congruence).
      injection Hx as <-. injection Hy as <-. cbn [fst snd]. unfold query.
      change (kind_of off_one) with KOne. cbv iota. rewrite Dg. reflexivity. }
  cbn [bind].
  rewrite (mapM_intro _ _ (map (fun _ => (v, true)) fresh)).
  2:{ rewrite combine_length, !map_length. lia. }
  2:{ intros r x y Hx Hy. rewrite nth_error_map in Hy.
      rewrite nth_error_combine, !nth_error_map in Hx.
      destruct (nth_error fresh r) as [b|] eqn:E; [|discriminate].
      injection Hx as <-. injection Hy as <-. cbn [fst snd]. unfold fetch.
      change (kind_of off_one) with KOne. cbv iota.
      replace (b && (zlen v =? 0)) with false.
      2:{ symmetry. apply andb_false_iff. right. apply Z.eqb_neq. unfold zlen.
          destruct v; cbn [List.length]; [congruence|lia]. }
      unfold read_slab. rewrite Dg. unfold slice.
      rewrite (proj2 (Z.ltb_ge (zlen v) (0 + zlen v))) by lia.
      rewrite (proj2 (Z.ltb_ge (zlen v) 0)) by (unfold zlen; lia).
      cbn [Z.ltb Z.compare orb bind]. rewrite Z.eqb_refl. cbn [assert_ bind].
      change (Z.to_nat 0) with 0%nat. unfold zlen. rewrite Nat2Z.id. cbn [skipn].
      rewrite firstn_all. reflexivity. }
  cbn [bind].
  replace (forallb snd (map (fun _ : bool => (v, true)) fresh)) with true.
  2:{ symmetry. apply forallb_forall. intros x I. apply in_map_iff in I as (? & <- & _). auto. }
  rewrite andb_false_r. cbn [andb]. f_equal. rewrite !map_map. cbn [fst snd].
  clear. induction fresh; cbn; congruence.
Qed.

(** ** What does not work *)

Lemma explicit_offset_empty f name parts fresh :
  stored f name parts -> List.length fresh = List.length parts ->
  read_vector f false name (combine (places parts) fresh) =
  Ok (combine (map (fun _ => []) parts) (places parts)).
Proof.
  intros [D1 D2] L. unfold read_vector.
  assert (Lp : List.length (places parts) = List.length parts) by (unfold places; rewrite map_length, seq_length; auto).
  assert (Np : forall r, (r < List.length parts)%nat ->
     nth_error (places parts) r = Some {| g_size := total parts; g_off := start parts r |}).
  { intros r H. unfold places. rewrite nth_error_map, nth_seq0 by auto. reflexivity. }
  set (n' := List.length (combine (places parts) fresh)).
  assert (Ln : n' = List.length parts) by (unfold n'; rewrite combine_length; lia).
  rewrite (mapM_intro _ _ (map (fun o => (0, o)) (places parts))).
  2:{ rewrite combine_length, seq_length, map_length, combine_length. lia. }
  2:{ intros r x y Hx Hy. rewrite nth_error_map in Hy. rewrite !nth_error_combine in Hx.
      destruct (Nat.lt_ge_cases r (List.length parts)) as [H|H].
      2:{ rewrite (proj2 (nth_error_None (places parts) r)) in Hy by lia. discriminate. }
      rewrite Np in Hx, Hy by auto. rewrite (nth_error_nth' fresh false), nth_seq0 in Hx by lia.
      injection Hx as <-. injection Hy as <-. cbn [fst snd]. unfold query.
      rewrite kind_dist by apply start_nonneg. rewrite D1. reflexivity. }
  cbn [bind].
  rewrite (mapM_intro _ _ (map (fun b => ([], negb b)) fresh)).
  2:{ rewrite !map_length, combine_length, map_length, combine_length. lia. }
  2:{ intros r x y Hx Hy. rewrite nth_error_map in Hy.
      rewrite !nth_error_combine, nth_error_map in Hx.
      destruct (Nat.lt_ge_cases r (List.length parts)) as [H|H].
      2:{ rewrite (proj2 (nth_error_None fresh r)) in Hy by lia. discriminate. }
      rewrite Np in Hx by auto. rewrite (nth_error_nth' fresh false) in Hx, Hy by lia.
      injection Hx as <-. injection Hy as <-. cbn [fst snd]. rewrite andb_true_r.
      unfold fetch. rewrite kind_dist by apply start_nonneg.
      destruct (nth r fresh false); cbn [Z.eqb orb negb assert_ bind]; [rewrite D1; auto|].
      unfold read_slab. rewrite D1. cbn [g_off]. unfold slice.
      assert (start parts r <= total parts) by (rewrite <- start_all; apply start_mono; lia).
      pose proof (start_nonneg parts r).
      destruct (_ || _) eqn:G.
      { rewrite !orb_true_iff, !Z.ltb_lt, zlen_concat in G. unfold total in *. lia. }
      reflexivity. }
  cbn [bind andb]. f_equal. rewrite !map_map. cbn [fst snd]. rewrite map_id. f_equal.
  clear -L. revert fresh L. induction parts; intros [|b fresh] L; cbn in *; try lia; auto.
  f_equal. apply IHparts. lia.
Qed.

Lemma explicit_offset f name parts s1 s2 f' g fresh :
  parts <> [] -> total parts <= int64_max ->
  dset f name = None -> dset f (offsets_name name) = None ->
  any_order (List.length parts) s1 -> any_order (List.length parts) s2 ->
  write_vector f name parts (map (fun _ => off_parts) parts) s1 s2 = Ok f' ->
  later f' g -> List.length fresh = List.length parts ->
  read_vector g false name (combine (places parts) fresh) =
  Ok (combine (map (fun _ => []) parts) (places parts)).
Proof. intros. apply explicit_offset_empty; eauto using stored_later, write_parts_stored. Qed.

Lemma collective_stuck f name parts s1 s2 f' g fresh p q :
  parts <> [] -> total parts <= int64_max ->
  dset f name = None -> dset f (offsets_name name) = None ->
  any_order (List.length parts) s1 -> any_order (List.length parts) s2 ->
  write_vector f name parts (map (fun _ => off_parts) parts) s1 s2 = Ok f' ->
  later f' g -> List.length fresh = List.length parts ->
  nth_error parts p = Some [] -> nth_error fresh p = Some true ->
  (exists x t, nth_error parts q = Some (x :: t)) ->
  read_vector g true name (ask fresh) = UB.
Proof.
  intros NE Sm D1 D2 P1 P2 W La Lf Hp Hf (x & t & Hq).
  rewrite read_stored with (parts := parts) by eauto using stored_later, write_parts_stored.
  assert (E1 : existsb id (skips parts fresh) = true).
  { apply existsb_exists. exists true. split; auto. unfold skips. apply in_map_iff.
    exists ([], true). split; auto. eapply nth_error_In with (n := p).
    rewrite nth_error_combine, Hp, Hf. reflexivity. }
  assert (E2 : forallb id (skips parts fresh) = false).
  { destruct (forallb _ _) eqn:F; auto. rewrite forallb_forall in F.
    assert (H : (q < List.length parts)%nat) by (apply nth_error_Some; congruence).
    pose proof (nth_combine_skips parts fresh q Lf H) as S.
    apply nth_error_In in S. apply F in S. unfold id in S. apply andb_true_iff in S as [_ S].
    rewrite (nth_error_nth _ _ _ Hq) in S. apply Z.eqb_eq in S. unfold zlen in S. cbn [List.length] in S. lia. }
  rewrite E1, E2. reflexivity.
Qed.
