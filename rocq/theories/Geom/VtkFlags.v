From Coq Require Import List ZArith Bool Arith Permutation Lia.
From Verif Require Import Base.Prelude Base.PreludeFacts Base.MPIModel Geom.ElemModel Geom.AdjModel Geom.VtkModel Geom.VtkSpec Geom.VtkPut.
Import ListNotations.
Local Open Scope Z_scope.

Lemma zip_ok : forall ns bs, length bs = length ns -> zip ns bs = Ok (combine ns bs).
Proof. induction ns as [|n ns IH]; intros [|b bs] H; cbn in *; try discriminate; auto. rewrite IH by lia. auto. Qed.

Lemma nth_combine_eq A B (a : list A) (b : list B) k u v :
  nth_error a k = Some u -> nth_error b k = Some v -> nth_error (combine a b) k = Some (u, v).
Proof. intros. apply nth_combine_some; auto. Qed.

Lemma in_combine_nth A B (a : list A) (b : list B) u v :
  In (u, v) (combine a b) <-> exists k, nth_error a k = Some u /\ nth_error b k = Some v.
Proof.
  split.
  - intros H. apply In_nth_error in H as [k H]. exists k. apply nth_combine_some; auto.
  - intros [k H]. apply (nth_error_In _ k). apply nth_combine_some; auto.
Qed.

(** The bits of a vector of flags. *)
Definition B (fl : list Z) (l : nat) (b : Z) : bool :=
  match nth_error fl l with Some f => Z.testbit f b | None => false end.

Definition is_q (l : nat) (b : Z) (q : Z * Z) : bool := Nat.eqb (Z.to_nat (fst q)) l && (snd q =? b).
Definition good_q (n : nat) (q : Z * Z) : Prop := 0 <= fst q < Z.of_nat n /\ 0 <= snd q < 8.

Lemma vset_ok A (l : list A) i x : 0 <= i < zlen l -> vset l i x = Ok (upd (Z.to_nat i) x l).
Proof.
  intros H. unfold vset, zlen in *. destruct (Z.ltb_spec i 0); [lia|]. destruct (Z.leb_spec (Z.of_nat (length l)) i); [lia|]. auto.
Qed.
Lemma vget_ok A (l : list A) i : 0 <= i < zlen l -> exists x, vget l i = Ok x /\ nth_error l (Z.to_nat i) = Some x.
Proof.
  intros H. unfold zlen in H. destruct (nth_error_lt_Some _ l (Z.to_nat i)) as [x E]; [lia|]. exists x. split; auto. apply vget_Ok. split; [lia|auto].
Qed.

Lemma mark_node_ok fl q : good_q (length fl) q ->
  exists fl', mark_node fl q = Ok fl' /\ length fl' = length fl /\
    forall l b, 0 <= b -> B fl' l b = B fl l b || is_q l b q.
Proof.
  destruct q as [i s]. unfold good_q, is_q. cbn [fst snd]. intros [Hi Hs]. unfold mark_node. cbn [fst snd].
  destruct (vget_ok _ fl i) as [v [E N]]; [unfold zlen; lia|]. rewrite E. cbn [bind].
  unfold shl1. destruct (Z.leb_spec 0 s); [|lia]. destruct (Z.ltb_spec s 32); [|lia]. cbn [andb bind].
  rewrite vset_ok by (unfold zlen; lia).
  eexists. split; [reflexivity|]. split; [apply upd_length|]. intros l b Hb. unfold B.
  assert (L : (Z.to_nat i < length fl)%nat) by lia.
  destruct (Nat.eqb_spec (Z.to_nat i) l) as [<-|N'].
  - rewrite nth_error_upd_same by auto. rewrite N, Z.lor_spec, Z.pow2_bits_eqb by lia. cbn. auto.
  - rewrite nth_error_upd_other by auto. cbn. rewrite orb_false_r. auto.
Qed.
Lemma mark_nodes_ok : forall qs fl, Forall (good_q (length fl)) qs ->
  exists fl', foldM mark_node fl qs = Ok fl' /\ length fl' = length fl /\
    forall l b, 0 <= b -> B fl' l b = B fl l b || existsb (is_q l b) qs.
Proof.
  induction qs as [|q qs IH]; intros fl F; cbn [foldM].
  - exists fl. repeat split; auto. intros. cbn. rewrite orb_false_r. auto.
  - apply Forall_cons_iff in F as [Fq F]. destruct (mark_node_ok fl q Fq) as (f1 & E & L & H). rewrite E. cbn [bind].
    destruct (IH f1) as (f2 & E2 & L2 & H2). { rewrite L; auto. } exists f2. split; auto. split; [lia|].
    intros l b Hb. rewrite H2, H by auto. cbn. rewrite orb_assoc. auto.
Qed.

Definition corner_list (c : cell) : list (Z * Z) := combine (c_nodes c) (c_bits c).
Definition good_cell (n : nat) (c : cell) : Prop := length (c_bits c) = length (c_nodes c) /\ Forall (good_q n) (corner_list c).

Lemma mark_cells_ok : forall cs fl, Forall (good_cell (length fl)) cs ->
  exists fl', foldM mark_cell fl cs = Ok fl' /\ length fl' = length fl /\
    forall l b, 0 <= b -> B fl' l b = B fl l b || existsb (is_q l b) (concat (map corner_list cs)).
Proof.
  induction cs as [|c cs IH]; intros fl F; cbn [foldM].
  - exists fl. repeat split; auto. intros. cbn. rewrite orb_false_r. auto.
  - apply Forall_cons_iff in F as [[Lc Fc] F]. unfold mark_cell at 1, corners. rewrite zip_ok by auto. cbn [bind].
    destruct (mark_nodes_ok (corner_list c) fl Fc) as (f1 & E & L & H). unfold corner_list in E. rewrite E. cbn [bind].
    destruct (IH f1) as (f2 & E2 & L2 & H2). { rewrite L; auto. } exists f2. split; auto. split; [lia|].
    intros l b Hb. rewrite H2, H by auto. cbn [map concat]. rewrite existsb_app, orb_assoc. auto.
Qed.
Lemma B_repeat n l b : B (repeat 1 n) l b = (Nat.ltb l n && (b =? 0)).
Proof.
  unfold B. destruct (Nat.ltb_spec l n) as [L|L].
  - rewrite (nth_error_nth' _ 1) by (rewrite repeat_length; auto). rewrite nth_repeat. cbn [andb].
    destruct (Z.eqb_spec b 0) as [->|N]; auto. destruct b; auto; try congruence.
  - rewrite (proj2 (nth_error_None _ _)); auto. rewrite repeat_length. auto.
Qed.

(** The flags of the ghosts, at their owners. *)
Lemma merge_ok start n : forall msgs fl, zlen fl = n ->
  exists fl', foldM (merge_one start n) fl msgs = Ok fl' /\ length fl' = length fl /\
    forall l b, (l < length fl)%nat -> 0 <= b -> B fl' l b = B fl l b || existsb (fun q => (fst q =? start + Z.of_nat l) && Z.testbit (snd q) b) msgs.
Proof.
  induction msgs as [|[g v] ms IH]; intros fl L; cbn [foldM].
  - exists fl. repeat split; auto. intros. cbn. rewrite orb_false_r. auto.
  - assert (X : exists f1, merge_one start n fl (g, v) = Ok f1 /\ length f1 = length fl /\
      forall l b, (l < length fl)%nat -> 0 <= b -> B f1 l b = B fl l b || ((g =? start + Z.of_nat l) && Z.testbit v b)).
    { unfold merge_one. cbn [fst snd]. destruct (Z.leb_spec start g); cbn [andb].
      2:{ exists fl. repeat split; auto. intros l b Hl Hb. destruct (Z.eqb_spec g (start + Z.of_nat l)); [lia|]. cbn. rewrite orb_false_r; auto. }
      destruct (Z.ltb_spec g (start + n)).
      2:{ exists fl. repeat split; auto. intros l b Hl Hb. unfold zlen in L. destruct (Z.eqb_spec g (start + Z.of_nat l)); [lia|]. cbn. rewrite orb_false_r; auto. }
      destruct (vget_ok _ fl (g - start)) as [w [E N]]; [lia|]. rewrite E. cbn [bind]. rewrite vset_ok by lia.
      eexists. split; [reflexivity|]. split; [apply upd_length|]. intros l b Hl Hb. unfold B.
      destruct (Z.eqb_spec g (start + Z.of_nat l)) as [->|N'].
      - replace (Z.to_nat (start + Z.of_nat l - start)) with l in * by lia. rewrite nth_error_upd_same by auto. rewrite N, Z.lor_spec. cbn. auto.
      - rewrite nth_error_upd_other by lia. cbn. rewrite orb_false_r. auto. }
    destruct X as (f1 & E & L1 & H). rewrite E. cbn [bind]. destruct (IH f1) as (f2 & E2 & L2 & H2). { unfold zlen in *. lia. }
    exists f2. split; auto. split; [lia|]. intros l b Hl Hb. rewrite H2, H by lia. cbn. rewrite orb_assoc. auto.
Qed.

Section Mesh.
Variable P : Type.
Notation mesh := (list (part P)).
Implicit Types m : mesh.

Lemma before_zsum m r : zsum (firstn r (map nOwn m)) = Z.of_nat (nodes_before m r).
Proof.
  unfold nodes_before, all_nodes. rewrite firstn_map. generalize (firstn r m) as l. clear.
  induction l as [|p l IH]; auto. cbn [map concat]. rewrite app_length. unfold zsum in *. cbn [fold_right]. rewrite IH. unfold nOwn, zlen. lia.
Qed.
Lemma starts_nth m r : (r <= length m)%nat -> nth_error (starts (map nOwn m)) r = Some (Z.of_nat (nodes_before m r)).
Proof. intros H. unfold starts. rewrite psums_nth by (rewrite map_length; auto). rewrite before_zsum. reflexivity. Qed.

Lemma before_S m r p : nth_error m r = Some p -> nodes_before m (S r) = (nodes_before m r + length (p_nodes p))%nat.
Proof.
  intros H. unfold nodes_before, all_nodes.
  replace (firstn (S r) m) with (firstn r m ++ [p]).
  { rewrite map_app, concat_app, app_length. cbn. rewrite app_nil_r. auto. }
  revert r H. induction m as [|q m IH]; intros [|r] H; cbn in *; try discriminate; [congruence|]. f_equal. auto.
Qed.
Lemma before_mono m : forall r s, (r <= s)%nat -> (nodes_before m r <= nodes_before m s)%nat.
Proof.
  intros r s H. induction H as [|s H IH]; auto. destruct (nth_error m s) as [p|] eqn:E.
  - rewrite (before_S _ _ _ E). lia.
  - apply nth_error_None in E. unfold nodes_before in *. rewrite (firstn_all2 (n := S s)) by lia. rewrite (firstn_all2 (n := s)) in IH by lia. auto.
Qed.
Lemma before_all m r p : nth_error m r = Some p -> (nodes_before m r + length (p_nodes p) <= length (all_nodes m))%nat.
Proof.
  intros H. rewrite <- (before_S _ _ _ H). assert (L : (S r <= length m)%nat) by (apply nth_error_Some_lt in H; lia).
  apply (before_mono m) in L. unfold nodes_before in L at 2. rewrite firstn_all in L. auto.
Qed.
Lemma all_nth m r p i : nth_error m r = Some p -> (i < length (p_nodes p))%nat ->
  nth_error (all_nodes m) (nodes_before m r + i) = nth_error (p_nodes p) i.
Proof.
  intros H L. unfold all_nodes, nodes_before. unfold all_nodes. rewrite <- firstn_map.
  apply nth_error_concat; auto. rewrite nth_error_map, H. auto.
Qed.
Lemma same_rank m r s p q i j : nth_error m r = Some p -> nth_error m s = Some q ->
  (i < length (p_nodes p))%nat -> (j < length (p_nodes q))%nat ->
  (nodes_before m r + i = nodes_before m s + j)%nat -> r = s /\ i = j.
Proof.
  intros Hp Hq Hi Hj E. assert (r = s); [|subst; split; auto; lia].
  destruct (Nat.lt_trichotomy r s) as [L|[L|L]]; auto; exfalso.
  - pose proof (before_mono m (S r) s L). rewrite (before_S _ _ _ Hp) in H. lia.
  - pose proof (before_mono m (S s) r L). rewrite (before_S _ _ _ Hq) in H. lia.
Qed.
Lemma find_rank m : forall g, (g < length (all_nodes m))%nat ->
  exists r p i, nth_error m r = Some p /\ (i < length (p_nodes p))%nat /\ g = (nodes_before m r + i)%nat.
Proof.
  unfold all_nodes, nodes_before, all_nodes. induction m as [|p m IH]; intros g H; cbn in *; [lia|].
  rewrite app_length in H. destruct (Nat.lt_ge_cases g (length (p_nodes p))) as [L|L].
  - exists 0%nat, p, g. auto.
  - destruct (IH (g - length (p_nodes p))%nat) as (r & q & i & E & Li & G); [lia|]. exists (S r), q, i. repeat split; auto.
    cbn. rewrite app_length. lia.
Qed.

(** Some cell uses node [g] moved by [b]. *)
Definition used m (g b : Z) : Prop := exists r j c n, cell_of m r j c /\ has_corner m true r c n g b.

Lemma good_of m r p : distributed m -> nth_error m r = Some p ->
  Forall (good_cell (length (p_nodes p) + length (p_ghosts p))) (p_cells p).
Proof.
  intros D H. apply Forall_forall. intros c Hc. apply In_nth_error in Hc as [j Hc].
  destruct (d_cells _ _ D r j c p) as (_ & _ & L & Fn & Fb); [exists p; auto|auto|].
  split; auto. apply Forall_forall. intros [l b] I. apply in_combine_nth in I as (k & K1 & K2).
  rewrite Forall_forall in Fn, Fb. specialize (Fn l (nth_error_In _ _ K1)). specialize (Fb b (nth_error_In _ _ K2)).
  unfold good_q, nOwn, zlen in *. cbn. lia.
Qed.
Lemma mark_part_ok m r p : distributed m -> nth_error m r = Some p ->
  exists fl, mark_part p = Ok fl /\ length fl = (length (p_nodes p) + length (p_ghosts p))%nat /\
    forall l b, (l < length fl)%nat -> 0 <= b -> (B fl l b = true <-> b = 0 \/ In (Z.of_nat l, b) (concat (map corner_list (p_cells p)))).
Proof.
  intros D H. unfold mark_part.
  destruct (mark_cells_ok (p_cells p) (repeat 1 (length (p_nodes p) + length (p_ghosts p)))) as (fl & E & L & X).
  { rewrite repeat_length. eapply good_of; eauto. }
  rewrite repeat_length in L. exists fl. split; auto. split; auto. intros l b Hl Hb. rewrite X by auto. rewrite B_repeat.
  rewrite (proj2 (Nat.ltb_lt _ _)) by lia. cbn [andb]. rewrite orb_true_iff, Z.eqb_eq, existsb_exists.
  split; (intros [A|A]; [left; auto|right]).
  - destruct A as ([u v] & I & Q). unfold is_q in Q. cbn in Q. apply andb_true_iff in Q as [Q1 Q2].
    apply Nat.eqb_eq in Q1. apply Z.eqb_eq in Q2. subst v.
    assert (0 <= u).
    { pose proof (good_of _ _ _ D H) as G. rewrite Forall_forall in G. apply in_concat in I as (x & I1 & I2). apply in_map_iff in I1 as (c & <- & I1).
      destruct (G c I1) as [_ F]. rewrite Forall_forall in F. destruct (F _ I2). cbn in *. lia. }
    replace (Z.of_nat l) with u by lia. auto.
  - exists (Z.of_nat l, b). split; auto. unfold is_q. cbn. rewrite Nat2Z.id, Nat.eqb_refl, Z.eqb_refl. auto.
Qed.

Lemma corner_used m r p l b : nth_error m r = Some p -> In (l, b) (concat (map corner_list (p_cells p))) ->
  forall g, node_number m r l g -> used m g b.
Proof.
  intros H I g G. apply in_concat in I as (x & I1 & I2). apply in_map_iff in I1 as (c & <- & I1).
  apply In_nth_error in I1 as [j I1]. apply in_combine_nth in I2 as (n & N1 & N2).
  exists r, j, c, n. split; [exists p; auto|]. exists l. auto.
Qed.
Lemma used_corner m g b : used m g b -> exists r p l, nth_error m r = Some p /\ In (l, b) (concat (map corner_list (p_cells p))) /\ node_number m r l g.
Proof.
  intros (r & j & c & n & (p & Hp & Hc) & l & N1 & G & N2). exists r, p, l. repeat split; auto.
  apply in_concat. exists (corner_list c). split; [apply in_map; eapply nth_error_In; eauto|]. apply in_combine_nth. eauto.
Qed.

Lemma flags_ok m : distributed m -> exists fls, flags m = Ok fls /\ length fls = length m /\
  forall r p fl, nth_error m r = Some p -> nth_error fls r = Some fl -> length fl = length (p_nodes p) /\
    forall l b, (l < length (p_nodes p))%nat -> 0 <= b -> (B fl l b = true <-> b = 0 \/ used m (Z.of_nat (nodes_before m r + l)) b).
Proof.
  intros D. unfold flags.
  destruct (mapM_Ok_ex _ _ mark_part m) as [f0 E0].
  { intros p I. apply In_nth_error in I as [r I]. destruct (mark_part_ok _ _ _ D I) as (fl & E & _). eauto. }
  rewrite E0. cbn [bind]. destruct (mapM_nth _ _ _ _ _ E0) as [L0 N0].
  set (msgs := concat (map sent (combine m f0))).
  assert (F0 : forall r p fl, nth_error m r = Some p -> nth_error f0 r = Some fl -> length fl = (length (p_nodes p) + length (p_ghosts p))%nat /\
    forall l b, (l < length fl)%nat -> 0 <= b -> (B fl l b = true <-> b = 0 \/ In (Z.of_nat l, b) (concat (map corner_list (p_cells p))))).
  { intros r p fl Hp Hf. destruct (N0 _ _ Hp) as (fl' & E & Hf'). destruct (mark_part_ok _ _ _ D Hp) as (fl2 & E2 & X).
    assert (fl2 = fl) by congruence. subst. auto. }
  assert (M : forall s p fl, nth_error m s = Some p -> length fl = (length (p_nodes p) + length (p_ghosts p))%nat ->
    forall start, exists out, merge msgs start (p, fl) = Ok out /\ length out = length (p_nodes p) /\
      forall l b, (l < length (p_nodes p))%nat -> 0 <= b -> B out l b = B fl l b || existsb (fun q => (fst q =? start + Z.of_nat l) && Z.testbit (snd q) b) msgs).
  { intros s p fl Hp Lf start. unfold merge. cbn [fst snd].
    destruct (merge_ok start (nOwn p) msgs (firstn (length (p_nodes p)) fl)) as (out & E & L & X).
    { unfold zlen, nOwn, zlen. rewrite firstn_length. lia. }
    rewrite firstn_length in *. exists out. split; auto. split; [lia|]. intros l b Hl Hb. rewrite X by lia.
    f_equal. unfold B. rewrite nth_error_firstn. rewrite (proj2 (Nat.ltb_lt _ _)) by auto. auto. }
  destruct (mapM_Ok_ex _ _ (fun q => merge msgs (fst q) (snd q)) (combine (starts (map nOwn m)) (combine m f0))) as [fls E].
  { intros [s [p fl]] I. apply in_combine_nth in I as (r & _ & I). apply nth_combine_some in I as [I1 I2]. cbn [fst snd].
    destruct (M r p fl I1 (proj1 (F0 _ _ _ I1 I2)) s) as (out & E & _). eauto. }
  exists fls. split; auto. destruct (mapM_nth _ _ _ _ _ E) as [L N].
  split. { rewrite L, !combine_length. unfold starts. rewrite psums_length, map_length. lia. }
  intros r p fl Hp Hf.
  assert (Lr : (r < length m)%nat) by (eapply nth_error_Some_lt; eauto).
  destruct (nth_error_lt_Some _ f0 r) as [g0 Hg]; [lia|].
  destruct (N r (Z.of_nat (nodes_before m r), (p, g0))) as (y & Y1 & Y2).
  { apply nth_combine_eq; [apply starts_nth; lia|apply nth_combine_eq; auto]. }
  cbn [fst snd] in Y1. assert (y = fl) by congruence. subst y.
  destruct (F0 _ _ _ Hp Hg) as [Lg Xg]. destruct (M r p g0 Hp Lg (Z.of_nat (nodes_before m r))) as (out & E1 & L1 & X1).
  assert (out = fl) by congruence. subst out. split; auto. intros l b Hl Hb. rewrite X1, orb_true_iff, existsb_exists by auto.
  rewrite Xg by (auto; lia). split.
  - intros [[A|A]|A]; auto.
    + right. eapply corner_used; eauto. exists p. split; auto. left. unfold nOwn, zlen. lia.
    + destruct A as ([g v] & I & Q). cbn [fst snd] in Q. apply andb_true_iff in Q as [Q1 Q2]. apply Z.eqb_eq in Q1.
      unfold msgs in I. apply in_concat in I as (x & I1 & I2). apply in_map_iff in I1 as ([q fq] & <- & I1).
      apply in_combine_nth in I1 as (s & S1 & S2). unfold sent in I2. cbn [fst snd] in I2.
      apply in_combine_nth in I2 as (k & K1 & K2). rewrite nth_error_skipn in K2.
      destruct (F0 _ _ _ S1 S2) as [Lq Xq].
      assert (Lk : (length (p_nodes q) + k < length fq)%nat) by (eapply nth_error_Some_lt; eauto).
      specialize (Xq _ b Lk Hb). unfold B in Xq. rewrite K2 in Xq. apply Xq in Q2 as [->|Q2]; auto.
      right. subst g. eapply corner_used; eauto. exists q. split; auto. right.
      unfold nOwn, zlen. split; [lia|]. replace (Z.to_nat _) with k by lia.
      rewrite K1. f_equal. lia.
  - intros [A|A]; auto. apply used_corner in A as (s & q & l' & Hq & I & (q' & Hq' & G)).
    assert (q' = q) by congruence. subst q'. destruct G as [[G1 G2]|[G1 G2]].
    + destruct (same_rank m r s p q l (Z.to_nat l')) as [-> ->]; auto; try (unfold nOwn, zlen in *; lia).
      left. right. rewrite Z2Nat.id by lia. congruence.
    + right. destruct (nth_error_lt_Some _ f0 s) as [fq Hfq]; [apply nth_error_Some_lt in Hq; lia|].
      destruct (F0 _ _ _ Hq Hfq) as [Lq Xq].
      assert (K : (Z.to_nat (l' - nOwn q) < length (p_ghosts q))%nat) by (eapply nth_error_Some_lt; eauto).
      destruct (nth_error_lt_Some _ fq (Z.to_nat l')) as [v Hv]; [unfold nOwn, zlen in *; lia|].
      exists (Z.of_nat (nodes_before m r + l), v). split.
      * unfold msgs. apply in_concat. exists (sent (q, fq)). split.
        -- apply in_map_iff. exists (q, fq). split; auto. apply in_combine_nth. eauto.
        -- unfold sent. cbn [fst snd]. apply in_combine_nth. exists (Z.to_nat (l' - nOwn q)). split; auto.
           rewrite nth_error_skipn. rewrite <- Hv. f_equal. unfold nOwn, zlen in *. lia.
      * cbn [fst snd]. apply andb_true_iff. split; [apply Z.eqb_eq; lia|].
        specialize (Xq (Z.to_nat l') b). unfold B in Xq. rewrite Hv in Xq. apply Xq; auto; [unfold nOwn, zlen in *; lia|].
        right. rewrite Z2Nat.id by (unfold nOwn, zlen in *; lia). auto.
Qed.
End Mesh.
