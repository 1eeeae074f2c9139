(** Lemmas about the collectives, for segment tables [seg s r] (what rank [s]
    sends to rank [r]).  Proof support only. *)
From Coq Require Import List ZArith Lia Bool Arith.
From Verif Require Import Base.Prelude Base.PreludeFacts Base.MPIModel.
Import ListNotations.
Local Open Scope Z_scope.

Definition zlensl {A} (ss : list (list A)) : list Z := map zlen ss.

Lemma zsum_zlensl : forall A (ss : list (list A)), zsum (zlensl ss) = zlen (concat ss).
Proof.
  induction ss; simpl; auto. unfold zsum in *; simpl. rewrite IHss.
  unfold zlen. rewrite app_length. lia.
Qed.

Lemma zlensl_firstn : forall A i (ss : list (list A)), firstn i (zlensl ss) = zlensl (firstn i ss).
Proof. intros. apply firstn_map. Qed.

Lemma zlensl_psums_nth : forall A (ss : list (list A)) i, (i <= length ss)%nat ->
  nth_error (psums 0 (zlensl ss)) i = Some (zlen (concat (firstn i ss))).
Proof.
  intros. rewrite psums_nth by (unfold zlensl; rewrite map_length; auto).
  rewrite zlensl_firstn, zsum_zlensl. reflexivity.
Qed.

Lemma skipn_length_app : forall A (l l' : list A), skipn (length l) (l ++ l') = l'.
Proof. intros. rewrite skipn_app, skipn_all, Nat.sub_diag. reflexivity. Qed.

Lemma firstn_length_app : forall A (l l' : list A), firstn (length l) (l ++ l') = l.
Proof. intros. rewrite firstn_app, firstn_all, Nat.sub_diag. simpl. apply app_nil_r. Qed.

Lemma concat_split : forall A (ss : list (list A)) i x, nth_error ss i = Some x ->
  concat ss = concat (firstn i ss) ++ x ++ concat (skipn (S i) ss).
Proof.
  induction ss; destruct i; simpl; intros; try discriminate.
  - injection H as ->. reflexivity.
  - rewrite (IHss _ _ H). rewrite app_assoc. simpl. reflexivity.
Qed.

Lemma concat_firstn_S : forall A (ss : list (list A)) i x, nth_error ss i = Some x ->
  concat (firstn (S i) ss) = concat (firstn i ss) ++ x.
Proof.
  induction ss; destruct i; intros x H; try discriminate.
  - simpl in *. injection H as ->. rewrite app_nil_r. reflexivity.
  - change (firstn (S (S i)) (a :: ss)) with (a :: firstn (S i) ss).
    change (firstn (S i) (a :: ss)) with (a :: firstn i ss).
    cbn [concat]. rewrite (IHss i x H), app_assoc. reflexivity.
Qed.

Lemma slice_concat : forall A (ss : list (list A)) i x, nth_error ss i = Some x ->
  slice (concat ss) (zlen (concat (firstn i ss))) (zlen x) = Ok x.
Proof.
  intros. unfold slice, zlen.
  destruct (Z.ltb_spec (Z.of_nat (length (concat (firstn i ss)))) 0); [lia|].
  destruct (Z.ltb_spec (Z.of_nat (length x)) 0); [lia|].
  rewrite (concat_split _ _ _ _ H).
  destruct (Z.ltb_spec (Z.of_nat (length (concat (firstn i ss) ++ x ++ concat (skipn (S i) ss))))
     (Z.of_nat (length (concat (firstn i ss))) + Z.of_nat (length x))) as [C|C].
  - rewrite !app_length in C. lia.
  - simpl orb. cbv iota. rewrite !Nat2Z.id, skipn_length_app, firstn_length_app. reflexivity.
Qed.

Lemma ranks_nth : forall n i, (i < n)%nat -> nth_error (ranks n) i = Some (Z.of_nat i).
Proof.
  intros. unfold ranks. rewrite nth_error_map_, nth_error_seq.
  destruct (Nat.ltb_spec i n); [reflexivity|lia].
Qed.

Lemma ranks_length : forall n, length (ranks n) = n.
Proof. intros. unfold ranks. rewrite map_length, seq_length. auto. Qed.

Lemma nth_error_combine : forall A B (l : list A) (l' : list B) i,
  nth_error (combine l l') i =
  match nth_error l i, nth_error l' i with Some a, Some b => Some (a, b) | _, _ => None end.
Proof.
  induction l; destruct l', i; simpl; auto.
  destruct (nth_error l i); auto.
Qed.

(** mapM over an indexed list *)
Lemma mapM_intro : forall A B (f : A -> res B) l ys,
  length ys = length l ->
  (forall i x y, nth_error l i = Some x -> nth_error ys i = Some y -> f x = Ok y) ->
  mapM f l = Ok ys.
Proof.
  induction l as [|a l IH]; destruct ys as [|y ys]; simpl; intros Hl H; try discriminate; auto.
  rewrite (H O a y) by auto. simpl. rewrite (IH ys); auto.
  intros i x z. apply (H (S i)).
Qed.

Lemma alltoall_spec : forall A P (t : nat -> nat -> A),
  alltoall (map (fun s => map (t s) (seq 0 P)) (seq 0 P)) =
  Ok (map (fun r => map (fun s => t s r) (seq 0 P)) (seq 0 P)).
Proof.
  intros. unfold alltoall. rewrite map_length, seq_length.
  apply mapM_intro.
  - unfold ranks. rewrite !map_length. reflexivity.
  - intros r x y Hx Hy. unfold ranks in Hx. rewrite nth_error_map_ in Hx, Hy.
    destruct (nth_error (seq 0 P) r) as [r'|] eqn:E; [|discriminate].
    rewrite nth_error_seq in E. destruct (Nat.ltb_spec r P); [|discriminate].
    injection E as <-. simpl in Hx, Hy. injection Hx as <-. injection Hy as <-.
    apply mapM_intro.
    + rewrite !map_length. reflexivity.
    + intros s x y Hx Hy. rewrite nth_error_map_ in Hx, Hy.
      destruct (nth_error (seq 0 P) s) as [s'|] eqn:E; [|discriminate].
      simpl in Hx, Hy. injection Hx as <-. injection Hy as <-.
      apply vget_of_nat. rewrite nth_error_map_, nth_error_seq.
      destruct (Nat.ltb_spec r P); [reflexivity|lia].
Qed.

(** writing segments one after the other *)
Lemma write_at_next : forall A (done rest seg : list A),
  (length seg <= length rest)%nat ->
  write_at (done ++ rest) (zlen done) seg = Ok ((done ++ seg) ++ skipn (length seg) rest).
Proof.
  intros. unfold write_at, zlen.
  destruct (Z.ltb_spec (Z.of_nat (length done)) 0); [lia|].
  destruct (Z.ltb_spec (Z.of_nat (length (done ++ rest)))
              (Z.of_nat (length done) + Z.of_nat (length seg))) as [C|C].
  - rewrite app_length in C. lia.
  - simpl orb. cbv iota. rewrite Nat2Z.id, firstn_length_app, skipn_app.
    replace (length done + length seg - length done)%nat with (length seg) by lia.
    rewrite (skipn_all2 done) by lia. rewrite app_nil_l, app_assoc. reflexivity.
Qed.

Section A2AV.
  Variable A : Type.
  Variable P : nat.
  Variable seg : nat -> nat -> list A.

  Definition send_segs s := map (fun r => seg s r) (seq 0 P).
  Definition recv_segs r := map (fun s => seg s r) (seq 0 P).

  Lemma alltoallv_spec : forall snds rcvs,
    length snds = P -> length rcvs = P ->
    (forall s x, nth_error snds s = Some x ->
        sv_buf x = concat (send_segs s) /\ sv_cnt x = zlensl (send_segs s) /\
        sv_dis x = psums 0 (zlensl (send_segs s))) ->
    (forall r w, nth_error rcvs r = Some w ->
        length (rv_buf w) = length (concat (recv_segs r)) /\
        rv_cnt w = zlensl (recv_segs r) /\
        rv_dis w = psums 0 (zlensl (recv_segs r))) ->
    alltoallv snds rcvs = Ok (map (fun r => concat (recv_segs r)) (seq 0 P)).
  Proof.
    intros snds rcvs Hls Hlr Hs Hr. unfold alltoallv. apply mapM_intro.
    { rewrite combine_length, ranks_length, map_length, seq_length. lia. }
    intros r [rz w] y Hx Hy.
    rewrite nth_error_combine in Hx.
    destruct (nth_error (ranks (length rcvs)) r) eqn:E1; [|discriminate].
    destruct (nth_error rcvs r) as [w'|] eqn:E2; [|discriminate].
    injection Hx as -> ->.
    assert (HrP : (r < P)%nat) by (apply nth_error_Some_lt in E2; lia).
    rewrite ranks_nth in E1 by lia. injection E1 as <-.
    rewrite nth_error_map_, nth_error_seq in Hy.
    destruct (Nat.ltb_spec r P); [|lia]. simpl in Hy. injection Hy as <-.
    destruct (Hr _ _ E2) as [Hb [Hc Hd]].
    (* generalise over the senders still to be processed *)
    assert (G : forall n k buf,
      (k + n)%nat = P ->
      (exists rest, buf = concat (firstn k (recv_segs r)) ++ rest /\
                    length buf = length (concat (recv_segs r))) ->
      foldM (fun buf sx =>
          let '(s, x) := (sx : Z * a2av_send A) in
          do c <- vget (sv_cnt x) (Z.of_nat r);
          do d <- vget (sv_dis x) (Z.of_nat r);
          do c' <- vget (rv_cnt w) s;
          do d' <- vget (rv_dis w) s;
          do sg <- slice (sv_buf x) d c;
          if c =? c' then write_at buf d' sg else UB)
        buf (skipn k (combine (ranks (length snds)) snds)) = Ok (concat (recv_segs r))).
    { induction n; intros k buf Hk [rest [Hbuf Hlen]].
      - rewrite skipn_all2 by (rewrite combine_length, ranks_length; lia).
        simpl. rewrite firstn_all2 in Hbuf by (unfold recv_segs; rewrite map_length, seq_length; lia).
        subst buf. rewrite app_length in Hlen. destruct rest; [|simpl in Hlen; lia].
        rewrite app_nil_r. reflexivity.
      - destruct (nth_error_lt_Some _ snds k ltac:(lia)) as [x Hx].
        assert (Hsk : skipn k (combine (ranks (length snds)) snds) =
           (Z.of_nat k, x) :: skipn (S k) (combine (ranks (length snds)) snds)).
        { apply nth_error_ext. intros [|i].
          - rewrite nth_error_skipn, Nat.add_0_r, nth_error_combine.
            rewrite ranks_nth by lia. rewrite Hx. reflexivity.
          - rewrite nth_error_skipn. replace (k + S i)%nat with (S k + i)%nat by lia. symmetry; apply (nth_error_skipn _ (S k)). }
        rewrite Hsk. cbn [foldM].
        destruct (Hs _ _ Hx) as [Hsb [Hsc Hsd]].
        assert (Hseg : nth_error (send_segs k) r = Some (seg k r)).
        { unfold send_segs. rewrite nth_error_map_, nth_error_seq.
          destruct (Nat.ltb_spec r P); [reflexivity|lia]. }
        assert (Hseg' : nth_error (recv_segs r) k = Some (seg k r)).
        { unfold recv_segs. rewrite nth_error_map_, nth_error_seq.
          destruct (Nat.ltb_spec k P); [reflexivity|lia]. }
        rewrite Hsc, (vget_of_nat _ _ r (zlen (seg k r)))
          by (unfold zlensl; rewrite nth_error_map_, Hseg; reflexivity).
        cbn [bind].
        rewrite Hsd, (vget_of_nat _ _ r (zlen (concat (firstn r (send_segs k)))))
          by (apply zlensl_psums_nth; unfold send_segs; rewrite map_length, seq_length; lia).
        cbn [bind].
        rewrite Hc, (vget_of_nat _ _ k (zlen (seg k r)))
          by (unfold zlensl; rewrite nth_error_map_, Hseg'; reflexivity).
        cbn [bind].
        rewrite Hd, (vget_of_nat _ _ k (zlen (concat (firstn k (recv_segs r)))))
          by (apply zlensl_psums_nth; unfold recv_segs; rewrite map_length, seq_length; lia).
        cbn [bind].
        rewrite Hsb, (slice_concat _ _ _ _ Hseg). cbn [bind]. rewrite Z.eqb_refl.
        assert (Hfit : (length (seg k r) <= length rest)%nat).
        { subst buf. rewrite app_length, (concat_split _ _ _ _ Hseg'), !app_length in Hlen. lia. }
        subst buf. rewrite write_at_next by auto. cbn [bind].
        rewrite <- Hd, <- Hc. apply IHn; [lia|].
        exists (skipn (length (seg k r)) rest). split.
        + f_equal. symmetry. apply concat_firstn_S; auto.
        + rewrite !app_length, skipn_length. rewrite app_length in Hlen. lia. }
    specialize (G P O (rv_buf w) ltac:(lia)). simpl skipn in G. apply G.
    exists (rv_buf w). split; auto.
  Qed.
End A2AV.
