From Coq Require Import List ZArith Lia Bool Arith.
From Verif Require Import Base.Prelude Base.PreludeFacts Base.MPIModel
  DNDS.DefinesModel DNDS.DefinesProofs DNDS.IndexMappingModel DNDS.IndexMappingSpec.
Import ListNotations.
Local Open Scope Z_scope.

(** *** flat enumeration *)
Fixpoint flat_from (p : nat) (lens : list nat) : list (nat * nat) :=
  match lens with
  | [] => []
  | l :: t => map (fun v => (p, v)) (seq 0 l) ++ flat_from (S p) t
  end.

Lemma flat_flat_from : forall lens, flat lens = flat_from 0 lens.
Proof.
  intro lens. unfold flat.
  assert (H : forall l p (f : nat -> nat),
    (forall i, (i < length l)%nat -> f (p + i)%nat = nth i l O) ->
    concat (map (fun r => map (fun v => (r, v)) (seq 0 (f r))) (seq p (length l))) =
    flat_from p l).
  { induction l as [|x l IH]; intros p f Hf; simpl; auto.
    rewrite <- (IH (S p) f).
    - f_equal. f_equal. f_equal. specialize (Hf O). simpl in Hf.
      rewrite Nat.add_0_r in Hf. apply Hf. lia.
    - intros i Hi. specialize (Hf (S i)). simpl in Hf.
      replace (S p + i)%nat with (p + S i)%nat by lia. apply Hf. lia. }
  apply (H lens O (fun r => nth r lens O)). intros; reflexivity.
Qed.

Lemma flat_from_nth : forall lens p q r v,
  nth_error (flat_from p lens) q = Some (r, v) <->
  (p <= r)%nat /\ (exists l, nth_error lens (r - p) = Some l /\ (v < l)%nat) /\
  q = (list_sum (firstn (r - p) lens) + v)%nat.
Proof.
  induction lens as [|l lens IH]; intros p q r v.
  - simpl. split.
    + destruct q; discriminate.
    + intros [_ [[l [H _]] _]]. destruct (r - p)%nat; discriminate.
  - simpl flat_from. destruct (le_lt_dec l q) as [Hq|Hq].
    + rewrite nth_error_app2 by (rewrite map_length, seq_length; lia).
      rewrite map_length, seq_length, IH. split.
      * intros [H1 [[l' [H2 H3]] H4]].
        replace (r - p)%nat with (S (r - S p)) by lia. split; [lia|]. split; [eauto|].
        simpl. lia.
      * intros [H1 [[l' [H2 H3]] H4]]. destruct (Nat.eq_dec r p).
        -- subst r. rewrite Nat.sub_diag in *. simpl in *. injection H2 as <-. lia.
        -- replace (r - p)%nat with (S (r - S p)) in * by lia. simpl in H2, H4.
           split; [lia|]. split; [eauto|]. lia.
    + rewrite nth_error_app1 by (rewrite map_length, seq_length; lia).
      rewrite nth_error_map_, nth_error_seq.
      destruct (Nat.ltb_spec q l); [|lia]. simpl. split.
      * intro E. injection E as <- <-. split; [lia|]. rewrite Nat.sub_diag. simpl.
        split; [eauto|lia].
      * intros [H1 [[l' [H2 H3]] H4]]. destruct (Nat.eq_dec r p).
        -- subst r. rewrite Nat.sub_diag in *. simpl in *. subst. reflexivity.
        -- replace (r - p)%nat with (S (r - S p)) in * by lia. simpl in H2, H4. lia.
Qed.

Lemma flat_from_length : forall lens p, length (flat_from p lens) = list_sum lens.
Proof.
  induction lens; simpl; intros; auto. rewrite app_length, map_length, seq_length, IHlens. auto.
Qed.

Lemma flat_nth : forall lens q r v,
  nth_error (flat lens) q = Some (r, v) <->
  (exists l, nth_error lens r = Some l /\ (v < l)%nat) /\
  q = (list_sum (firstn r lens) + v)%nat.
Proof.
  intros. rewrite flat_flat_from, flat_from_nth, Nat.sub_0_r. intuition lia.
Qed.

Lemma flat_length : forall lens, length (flat lens) = list_sum lens.
Proof. intros; rewrite flat_flat_from; apply flat_from_length. Qed.

Lemma item_at_spec : forall lens q r v,
  item_at lens q = Some (r, v) <->
  (exists l, nth_error lens r = Some l /\ (v < l)%nat) /\
  q = Z.of_nat (list_sum (firstn r lens) + v).
Proof.
  intros. unfold item_at. destruct (Z.ltb_spec q 0).
  - split; [discriminate|]. intros [_ ?]. lia.
  - rewrite flat_nth. split; intros [H1 H2]; split; auto; lia.
Qed.

Lemma item_at_None : forall lens q,
  item_at lens q = None <-> q < 0 \/ Z.of_nat (list_sum lens) <= q.
Proof.
  intros. unfold item_at. destruct (Z.ltb_spec q 0).
  - intuition lia.
  - rewrite nth_error_None, flat_length. lia.
Qed.

(** *** offsets *)
Definition zlens (lens : list nat) : list Z := map Z.of_nat lens.
Definition gom (lens : list nat) : gomap :=
  {| RankLengths := zlens lens; RankOffsets := psums 0 (zlens lens) |}.

Lemma zsum_zlens : forall l, zsum (zlens l) = Z.of_nat (list_sum l).
Proof. induction l; simpl; auto. unfold zsum in *; simpl. rewrite IHl. lia. Qed.

Lemma firstn_zlens : forall i l, firstn i (zlens l) = zlens (firstn i l).
Proof. intros. unfold zlens. apply firstn_map. Qed.

Lemma zlens_length : forall l, length (zlens l) = length l.
Proof. intros; apply map_length. Qed.

Lemma zlens_nonneg : forall l, Forall (fun x => 0 <= x) (zlens l).
Proof. induction l; constructor; auto. lia. Qed.

Lemma list_sum_firstn_le : forall l i, (list_sum (firstn i l) <= list_sum l)%nat.
Proof. induction l; destruct i; simpl; try lia. specialize (IHl i); lia. Qed.

Lemma list_sum_firstn_mono : forall l i j, (i <= j)%nat ->
  (list_sum (firstn i l) <= list_sum (firstn j l))%nat.
Proof.
  induction l; destruct i, j; simpl; intros; try lia. specialize (IHl i j ltac:(lia)); lia.
Qed.

Lemma list_sum_firstn_S : forall l i x, nth_error l i = Some x ->
  list_sum (firstn (S i) l) = (list_sum (firstn i l) + x)%nat.
Proof.
  induction l; destruct i; simpl; intros; try discriminate.
  - injection H as ->. lia.
  - specialize (IHl _ _ H). simpl in IHl. lia.
Qed.

Lemma offsets_loop_Ok : forall lens acc,
  0 <= acc -> acc + zsum (zlens lens) <= int64_max ->
  offsets_loop acc (zlens lens) = Ok (psums acc (zlens lens)).
Proof.
  induction lens as [|l lens IH]; intros acc Ha Hb; simpl; auto.
  unfold zsum in *; simpl in Hb. change (fold_right Z.add 0 (zlens lens)) with (zsum (zlens lens)) in *.
  assert (0 <= zsum (zlens lens)) by (apply zsum_nonneg, zlens_nonneg).
  unfold tarith. destruct (Z.leb_spec int64_min (acc + Z.of_nat l)); [|unfold int64_min in *; lia].
  destruct (Z.leb_spec (acc + Z.of_nat l) int64_max); [|lia]. simpl.
  destruct (Z.leb_spec 0 (acc + Z.of_nat l)); [|lia]. simpl.
  fold (zlens lens). rewrite IH by (unfold zsum in *; lia). reflexivity.
Qed.

Lemma align_Ok : forall lens, Z.of_nat (list_sum lens) <= int64_max ->
  setMPIAlignBcast (zlens lens) = Ok (gom lens).
Proof.
  intros. unfold setMPIAlignBcast. rewrite offsets_loop_Ok; auto; try lia.
  rewrite zsum_zlens. lia.
Qed.

Lemma off_nth : forall lens i, (i <= length lens)%nat ->
  nth_error (psums 0 (zlens lens)) i = Some (Z.of_nat (list_sum (firstn i lens))).
Proof.
  intros. rewrite psums_nth by (rewrite zlens_length; auto).
  rewrite firstn_zlens, zsum_zlens. reflexivity.
Qed.

Lemma off_nth_inv : forall lens i x, nth_error (psums 0 (zlens lens)) i = Some x ->
  (i <= length lens)%nat /\ x = Z.of_nat (list_sum (firstn i lens)).
Proof.
  intros. assert (i <= length lens)%nat.
  { apply nth_error_Some_lt in H. rewrite psums_length, zlens_length in H. lia. }
  rewrite off_nth in H by auto. split; auto. congruence.
Qed.

Lemma lb_le_offsets : forall lens q r v, item_at lens q = Some (r, v) ->
  lb_le (psums 0 (zlens lens)) q = S r.
Proof.
  intros lens q r v E. apply item_at_spec in E. destruct E as [[l [Hl Hv]] Hq].
  assert (Hr : (r < length lens)%nat) by (eapply nth_error_Some_lt; eauto).
  unfold lb_le. apply lower_bound_spec.
  - rewrite psums_length, zlens_length. lia.
  - intros i x Hx Hi. apply off_nth_inv in Hx. destruct Hx as [_ ->].
    apply Z.leb_le. pose proof (list_sum_firstn_mono lens i r ltac:(lia)). lia.
  - intros i x Hx Hi. apply off_nth_inv in Hx. destruct Hx as [_ ->].
    apply Z.leb_gt. pose proof (list_sum_firstn_mono lens (S r) i ltac:(lia)).
    rewrite (list_sum_firstn_S _ _ _ Hl) in H. lia.
Qed.

Lemma gsearch_gom : forall lens q,
  gsearch (gom lens) q =
  match item_at lens q with
  | Some (r, v) => Some (Z.of_nat r, Z.of_nat v)
  | None => None
  end.
Proof.
  intros. unfold gsearch.
  assert (Hne : exists a t, RankOffsets (gom lens) = a :: t).
  { simpl. destruct (zlens lens); simpl; eauto. }
  destruct Hne as [a [t Hne]]. rewrite Hne. rewrite <- Hne. clear a t Hne.
  simpl RankOffsets. simpl RankLengths. unfold zlen. rewrite zlens_length.
  destruct (item_at lens q) as [[r v]|] eqn:E.
  - rewrite (lb_le_offsets _ _ _ _ E).
    apply item_at_spec in E. destruct E as [[l [Hl Hv]] Hq].
    assert (Hr : (r < length lens)%nat) by (eapply nth_error_Some_lt; eauto).
    replace (Z.of_nat (S r) - 1) with (Z.of_nat r) by lia.
    destruct (Z.ltb_spec (Z.of_nat r) (Z.of_nat (length lens))); [|lia].
    destruct (Z.leb_spec 0 (Z.of_nat r)); [|lia]. simpl.
    rewrite (vget_of_nat _ _ _ _ (off_nth lens r ltac:(lia))).
    do 2 f_equal. lia.
  - apply item_at_None in E. destruct E as [E|E].
    + assert (lb_le (psums 0 (zlens lens)) q = O) as ->.
      { unfold lb_le. apply lower_bound_spec; [lia| |].
        - intros; lia.
        - intros i x Hx Hi. apply off_nth_inv in Hx. destruct Hx as [_ ->].
          apply Z.leb_gt. lia. }
      simpl. destruct (Z.ltb_spec (-1) (Z.of_nat (length lens))); reflexivity.
    + assert (lb_le (psums 0 (zlens lens)) q = S (length lens)) as ->.
      { unfold lb_le. apply lower_bound_spec.
        - rewrite psums_length, zlens_length. lia.
        - intros i x Hx Hi. apply off_nth_inv in Hx. destruct Hx as [_ ->].
          apply Z.leb_le. pose proof (list_sum_firstn_le lens i). lia.
        - intros i x Hx Hi. apply nth_error_Some_lt in Hx.
          rewrite psums_length, zlens_length in Hx. lia. }
      destruct (Z.ltb_spec (Z.of_nat (S (length lens)) - 1) (Z.of_nat (length lens))); [lia|].
      reflexivity.
Qed.

Lemma toGlobal_gom : forall lens r v,
  (r < length lens)%nat -> (v <= nth r lens 0)%nat ->
  toGlobal (gom lens) (Z.of_nat r) (Z.of_nat v) =
  Ok (Z.of_nat (list_sum (firstn r lens) + v)).
Proof.
  intros lens r v Hr Hv. unfold toGlobal. simpl RankLengths. simpl RankOffsets.
  unfold zlen. rewrite zlens_length.
  destruct (Z.leb_spec 0 (Z.of_nat r)); [|lia].
  destruct (Z.leb_spec (Z.of_nat r) (Z.of_nat (length lens))); [|lia]. simpl.
  destruct (Z.leb_spec 0 (Z.of_nat v)); [|lia]. simpl.
  replace (Z.of_nat r + 1) with (Z.of_nat (S r)) by lia.
  rewrite (vget_of_nat _ _ _ _ (off_nth lens (S r) ltac:(lia))). cbn [bind].
  rewrite (vget_of_nat _ _ _ _ (off_nth lens r ltac:(lia))). cbn [bind].
  destruct (nth_error_lt_Some _ lens r Hr) as [l Hl].
  rewrite (list_sum_firstn_S _ _ _ Hl).
  rewrite (nth_error_nth _ _ 0%nat Hl) in Hv.
  destruct (Z.leb_spec (Z.of_nat v) (Z.of_nat (list_sum (firstn r lens) + l) -
     Z.of_nat (list_sum (firstn r lens)))); [|lia]. simpl. f_equal. lia.
Qed.

Lemma globalSize_gom : forall lens, globalSize (gom lens) = Z.of_nat (length (flat lens)).
Proof.
  intros. unfold globalSize. simpl RankOffsets.
  assert (H : forall l a, last (psums a l) 0 = a + zsum l /\ psums a l <> []).
  { induction l as [|x l IH]; intros a; simpl; [unfold zsum; simpl; split; [lia|discriminate]|].
    destruct (IH (a + x)) as [E Hn]. split; [|discriminate].
    destruct (psums (a + x) l) eqn:Ep; [congruence|]. rewrite E. unfold zsum; simpl. lia. }
  destruct (H (zlens lens) 0) as [E Hn]. destruct (psums 0 (zlens lens)); [congruence|].
  rewrite E, zsum_zlens, flat_length. lia.
Qed.

Lemma offsets_loop_inv : forall l acc offs, offsets_loop acc l = Ok offs -> offs = psums acc l.
Proof.
  induction l as [|x l IH]; simpl; intros acc offs H; [congruence|].
  inv_bind. unfold tarith in H0.
  destruct ((int64_min <=? acc + x) && (acc + x <=? int64_max)); [|discriminate].
  injection H0 as <-. rewrite (IH _ _ H2) in H. congruence.
Qed.

Lemma align_inv : forall lens g, setMPIAlignBcast (map Z.of_nat lens) = Ok g -> g = gom lens.
Proof.
  intros. unfold setMPIAlignBcast in H. inv_bind. apply offsets_loop_inv in H0. subst. reflexivity.
Qed.

Lemma toGlobal_item : forall lens r v, (r < length lens)%nat -> (v < nth r lens 0)%nat ->
  exists q, toGlobal (gom lens) (Z.of_nat r) (Z.of_nat v) = Ok q /\ item_at lens q = Some (r, v).
Proof.
  intros. eexists. split; [apply toGlobal_gom; lia|]. apply item_at_spec. split; auto.
  destruct (nth_error_lt_Some _ lens r H) as [l Hl]. exists l. split; auto.
  rewrite (nth_error_nth _ _ 0%nat Hl) in H0. auto.
Qed.

Lemma align_total : forall lens, Z.of_nat (length (flat lens)) <= int64_max ->
  exists g, setMPIAlignBcast (map Z.of_nat lens) = Ok g.
Proof. intros. rewrite flat_length in H. exists (gom lens). apply align_Ok; auto. Qed.

Lemma search_spec : forall lens g q, setMPIAlignBcast (map Z.of_nat lens) = Ok g ->
  gsearch g q = match item_at lens q with
                | Some (r, v) => Some (Z.of_nat r, Z.of_nat v)
                | None => None
                end.
Proof. intros. apply align_inv in H. subst. apply gsearch_gom. Qed.

Lemma to_global_spec : forall lens g r v, setMPIAlignBcast (map Z.of_nat lens) = Ok g ->
  (r < length lens)%nat -> (v < nth r lens 0)%nat ->
  exists q, toGlobal g (Z.of_nat r) (Z.of_nat v) = Ok q /\ item_at lens q = Some (r, v).
Proof. intros. apply align_inv in H. subst. apply toGlobal_item; auto. Qed.

Lemma local_global_local : forall lens g r v,
  setMPIAlignBcast (map Z.of_nat lens) = Ok g ->
  (r < length lens)%nat -> (v < nth r lens 0)%nat ->
  exists q, toGlobal g (Z.of_nat r) (Z.of_nat v) = Ok q /\
            gsearch g q = Some (Z.of_nat r, Z.of_nat v).
Proof.
  intros. destruct (to_global_spec _ _ _ _ H H0 H1) as [q [Hq Hi]]. exists q. split; auto.
  rewrite (search_spec _ _ _ H), Hi. reflexivity.
Qed.

Lemma global_local_global : forall lens g q,
  setMPIAlignBcast (map Z.of_nat lens) = Ok g ->
  (0 <= q < globalSize g ->
     exists rk v, gsearch g q = Some (rk, v) /\ toGlobal g rk v = Ok q /\
       0 <= rk < Z.of_nat (length lens) /\ 0 <= v < Z.of_nat (nth (Z.to_nat rk) lens 0%nat)) /\
  (~ 0 <= q < globalSize g -> gsearch g q = None).
Proof.
  intros lens g q H. pose proof (search_spec _ _ q H) as Hs. apply align_inv in H. subst.
  rewrite globalSize_gom, flat_length, Hs. split; intro Hq.
  - destruct (item_at lens q) as [[r v]|] eqn:E.
    + pose proof E as E0. apply item_at_spec in E. destruct E as [[l [Hl Hv]] Hqq].
      assert (r < length lens)%nat by (eapply nth_error_Some_lt; eauto).
      exists (Z.of_nat r), (Z.of_nat v). split; auto.
      rewrite Nat2Z.id, (nth_error_nth _ _ 0%nat Hl). split; [|lia].
      rewrite Hqq. apply toGlobal_gom; auto. rewrite (nth_error_nth _ _ 0%nat Hl). lia.
    + apply item_at_None in E. lia.
  - destruct (item_at lens q) as [[r v]|] eqn:E; auto. exfalso. apply Hq.
    assert (item_at lens q <> None) as N by congruence. rewrite item_at_None in N. lia.
Qed.

Lemma global_size_spec : forall lens g, setMPIAlignBcast (map Z.of_nat lens) = Ok g ->
  globalSize g = Z.of_nat (length (flat lens)).
Proof. intros. apply align_inv in H. subst. apply globalSize_gom. Qed.

Lemma to_global_accepts_end :
  exists lens g r v q, setMPIAlignBcast (map Z.of_nat lens) = Ok g /\
    (r < length lens)%nat /\ ~ (v < nth r lens 0)%nat /\
    toGlobal g (Z.of_nat r) (Z.of_nat v) = Ok q /\ ~ owned_by lens r q.
Proof.
  exists [1; 1]%nat. eexists. exists 0%nat, 1%nat. eexists.
  split; [vm_compute; reflexivity|]. split; [simpl; lia|]. split; [simpl; lia|].
  split; [vm_compute; reflexivity|]. intros [v Hv]. vm_compute in Hv. discriminate.
Qed.

Lemma to_global_rank_ub :
  exists lens g, setMPIAlignBcast (map Z.of_nat lens) = Ok g /\
    toGlobal g (Z.of_nat (length lens)) 0 = UB.
Proof. exists [1]%nat. eexists. split; vm_compute; reflexivity. Qed.
