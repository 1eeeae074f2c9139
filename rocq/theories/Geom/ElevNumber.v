(** The numbers given out in an elevation. *)
From Coq Require Import Reals List ZArith Bool Permutation Lia Lra Arith.
From Verif Require Import Base.Prelude Base.PreludeFacts Geom.ElemModel Geom.PeriodicModel Geom.PeriodicSpec
  Geom.ElevModel Geom.ElevSpec Geom.ElevProofs.
Import ListNotations.
Local Open Scope Z_scope.

Lemma zlen_app A (a b : list A) : zlen (a ++ b) = zlen a + zlen b.
Proof. unfold zlen. rewrite app_length. lia. Qed.
Lemma zlen_nonneg A (a : list A) : 0 <= zlen a.
Proof. unfold zlen. lia. Qed.
Lemma zlen_cons A x (a : list A) : zlen (x :: a) = zlen a + 1.
Proof. unfold zlen. cbn [length]. lia. Qed.
Lemma to_nat_zlen A (a : list A) : Z.to_nat (zlen a) = length a.
Proof. unfold zlen. lia. Qed.
Lemma news_app a b : news (a ++ b) = news a ++ news b.
Proof. apply flat_map_app. Qed.

Lemma ask_cells_app m : forall a b i r, ask_cells m i (a ++ b) = Ok r ->
  exists x y, ask_cells m i a = Ok x /\ ask_cells m (i + zlen a) b = Ok y /\ r = x ++ y.
Proof.
  induction a as [|c a IH]; intros b i r H.
  - exists [], r. cbn in *. rewrite Z.add_0_r. auto.
  - cbn [app ask_cells] in H. apply bind_Ok in H. destruct H as (x & H1 & H). apply bind_Ok in H. destruct H as (y & H2 & H).
    injection H as <-. apply IH in H2. destruct H2 as (u & v & A & B & ->).
    exists (x :: u), v. cbn [ask_cells]. rewrite H1, A. cbn [bind]. rewrite zlen_cons. split; auto. split; auto.
    now replace (i + (zlen a + 1)) with (i + 1 + zlen a) by lia.
Qed.
Lemma ask_cells_app_ok m : forall a b i x y, ask_cells m i a = Ok x -> ask_cells m (i + zlen a) b = Ok y -> ask_cells m i (a ++ b) = Ok (x ++ y).
Proof.
  induction a as [|c a IH]; intros b i x y A B.
  - cbn in *. injection A as <-. now rewrite Z.add_0_r in B.
  - cbn [app ask_cells] in *. apply bind_Ok in A. destruct A as (r & A1 & A). apply bind_Ok in A. destruct A as (s & A2 & A). injection A as <-.
    rewrite A1. cbn [bind]. rewrite (IH b (i + 1) s y A2). reflexivity.
    rewrite zlen_cons in B. now replace (i + 1 + zlen a) with (i + (zlen a + 1)) by lia.
Qed.
Lemma ask_parts_cells m : forall ps i infos, ask_parts m i ps = Ok infos ->
  ask_cells m i (concat (map p_cells ps)) = Ok (concat (map snd infos)) /\ map fst infos = map p_coords ps.
Proof.
  induction ps as [|p ps IH]; intros i infos H; cbn [ask_parts] in H.
  - injection H as <-. auto.
  - apply bind_Ok in H. destruct H as (rows & H1 & H). apply bind_Ok in H. destruct H as (t & H2 & H). injection H as <-.
    destruct (IH _ _ H2) as [A B]. cbn [map concat fst snd]. split.
    + now apply ask_cells_app_ok.
    + now rewrite B.
Qed.
Lemma ask_cells_nth m : forall cs i rows, ask_cells m i cs = Ok rows -> length rows = length cs /\
  forall j c, nth_error cs j = Some c -> exists r, ask_cell m (i + Z.of_nat j) c = Ok r /\ nth_error rows j = Some r.
Proof.
  induction cs as [|c cs IH]; intros i rows H; cbn [ask_cells] in H.
  - injection H as <-. split; auto. intros [|j] c; discriminate.
  - apply bind_Ok in H. destruct H as (r & H1 & H). apply bind_Ok in H. destruct H as (rs & H2 & H). injection H as <-.
    destruct (IH _ _ H2) as [A B]. split; [cbn; lia|]. intros [|j] c' N; cbn in N.
    + injection N as <-. exists r. rewrite Z.add_0_r. auto.
    + destruct (B _ _ N) as (r' & E & F). exists r'. split; auto. rewrite Nat2Z.inj_succ. now replace (i + Z.succ (Z.of_nat j)) with (i + 1 + Z.of_nat j) by lia.
Qed.
Lemma ask_cells_ok m : forall cs i, (forall j c, nth_error cs j = Some c -> exists r, ask_cell m (i + Z.of_nat j) c = Ok r) -> exists rows, ask_cells m i cs = Ok rows.
Proof.
  induction cs as [|c cs IH]; intros i H; cbn [ask_cells]; eauto.
  destruct (H 0%nat c eq_refl) as (r & E). rewrite Z.add_0_r in E. rewrite E. cbn [bind].
  destruct (IH (i + 1)) as (rows & F).
  - intros j c' N. destruct (H (S j) c' N) as (r' & E'). exists r'. rewrite Nat2Z.inj_succ in E'. now replace (i + 1 + Z.of_nat j) with (i + Z.succ (Z.of_nat j)) by lia.
  - rewrite F. cbn. eauto.
Qed.
Lemma ask_parts_ok m : forall ps i rows, ask_cells m i (concat (map p_cells ps)) = Ok rows -> exists infos, ask_parts m i ps = Ok infos.
Proof.
  induction ps as [|p ps IH]; intros i rows H; cbn [ask_parts]; eauto.
  cbn [map concat] in H. apply ask_cells_app in H. destruct H as (x & y & A & B & ->). rewrite A. cbn [bind].
  destruct (IH _ _ B) as (t & E). rewrite E. cbn. eauto.
Qed.

(** an answer, its entry and the coordinates *)
Definition val (X2 : list vec) (a : answer) (e : entry) : Prop :=
  match e with
  | Node g => snd a = None /\ 0 <= g /\ nth_error X2 (Z.to_nat g) = Some (fst a)
  | Ask p => snd a = Some p
  end.
Lemma Forall2_impl A B (R S : A -> B -> Prop) l l' : (forall a b, R a b -> S a b) -> Forall2 R l l' -> Forall2 S l l'.
Proof. induction 2; constructor; auto. Qed.
Lemma Forall2_nth A B (R : A -> B -> Prop) : forall l l', Forall2 R l l' -> length l = length l' /\
  (forall i a, nth_error l i = Some a -> exists b, nth_error l' i = Some b /\ R a b) /\
  (forall i b, nth_error l' i = Some b -> exists a, nth_error l i = Some a /\ R a b).
Proof.
  induction 1 as [|a b l l' H F IH].
  - split; auto. split; intros [|i] x; discriminate.
  - destruct IH as (A1 & A2 & A3). split; [cbn; lia|]. split; intros [|i] x N; cbn in *; eauto; injection N as <-; eauto.
Qed.

Lemma number_val : forall l P Q, Forall2 (val (P ++ news l ++ Q)) l (number (zlen P) l).
Proof.
  induction l as [|[x [p|]] l IH]; intros P Q; cbn [number]; constructor; auto.
  - reflexivity.
  - split; [reflexivity|]. split; [apply zlen_nonneg|]. rewrite to_nat_zlen, nth_error_app2, Nat.sub_diag by lia. reflexivity.
  - specialize (IH (P ++ [x]) Q). rewrite zlen_app in IH. change (zlen [x]) with 1 in IH. rewrite <- app_assoc in IH. exact IH.
Qed.
Lemma number_rows_val : forall rows P Q, Forall2 (Forall2 (val (P ++ news (concat rows) ++ Q))) rows (number_rows (zlen P) rows).
Proof.
  induction rows as [|r rows IH]; intros P Q; cbn [number_rows concat]; constructor.
  - rewrite news_app, <- (app_assoc (news r)). apply number_val.
  - specialize (IH (P ++ news r) Q). rewrite zlen_app, <- app_assoc in IH. rewrite news_app, <- (app_assoc (news r)). exact IH.
Qed.
Lemma Forall2_app_ A B (R : A -> B -> Prop) a a' b b' : Forall2 R a b -> Forall2 R a' b' -> Forall2 R (a ++ a') (b ++ b').
Proof. induction 1; cbn; auto. Qed.
Lemma number_parts_val : forall infos P, Forall2 (Forall2 (val (P ++ concat (new_coords infos)))) (concat (map snd infos)) (number_parts (zlen P) infos).
Proof.
  induction infos as [|[X rows] infos IH]; intro P; cbn [number_parts map concat snd]; [constructor|].
  unfold new_coords. cbn [map concat fst snd]. fold (new_coords infos). apply Forall2_app_.
  - pose proof (number_rows_val rows (P ++ X) (concat (new_coords infos))) as H.
    rewrite zlen_app in H. rewrite <- !app_assoc in *. exact H.
  - specialize (IH (P ++ X ++ news (concat rows))). rewrite !zlen_app, Z.add_assoc in IH. rewrite <- !app_assoc in *. exact IH.
Qed.

(** *** bounds and injectivity *)
Lemma number_bounds : forall l b g, In (Node g) (number b l) -> b <= g < b + zlen (news l).
Proof.
  induction l as [|[x [p|]] l IH]; intros b g H; cbn [number] in H.
  - destruct H.
  - destruct H as [H|H]; [discriminate|]. apply IH in H. exact H.
  - change (news ((x, None) :: l)) with (x :: news l). rewrite zlen_cons. pose proof (zlen_nonneg _ (news l)). destruct H as [H|H].
    + injection H as <-. lia.
    + apply IH in H. lia.
Qed.
Lemma number_cover : forall l b g, b <= g < b + zlen (news l) -> In (Node g) (number b l).
Proof.
  induction l as [|[x [p|]] l IH]; intros b g H; cbn [number].
  - cbn in H. unfold zlen in H. cbn in H. lia.
  - right. apply IH. exact H.
  - change (news ((x, None) :: l)) with (x :: news l) in H. rewrite zlen_cons in H. destruct (Z.eq_dec b g) as [->|N].
    + now left.
    + right. apply IH. lia.
Qed.
Lemma number_inj : forall l b k k' g, nth_error (number b l) k = Some (Node g) -> nth_error (number b l) k' = Some (Node g) -> k = k'.
Proof.
  induction l as [|[x [p|]] l IH]; intros b [|k] [|k'] g H H'; cbn in H, H'; try discriminate; auto.
  - f_equal. eauto.
  - injection H as <-. apply nth_error_In, number_bounds in H'. lia.
  - injection H' as <-. apply nth_error_In, number_bounds in H. lia.
  - f_equal. eauto.
Qed.
Lemma rows_bounds : forall rows b row g, In row (number_rows b rows) -> In (Node g) row -> b <= g < b + zlen (news (concat rows)).
Proof.
  induction rows as [|r rows IH]; intros b row g H K; cbn [number_rows] in H; [destruct H|].
  cbn [concat]. rewrite news_app, zlen_app. pose proof (zlen_nonneg _ (news r)). pose proof (zlen_nonneg _ (news (concat rows))). destruct H as [<-|H].
  - apply number_bounds in K. lia.
  - specialize (IH _ _ _ H K). lia.
Qed.
Lemma rows_cover : forall rows b g, b <= g < b + zlen (news (concat rows)) -> exists row, In row (number_rows b rows) /\ In (Node g) row.
Proof.
  induction rows as [|r rows IH]; intros b g H; cbn [number_rows concat] in *.
  - cbn in H. unfold zlen in H. cbn in H. lia.
  - rewrite news_app, zlen_app in H. destruct (Z_lt_dec g (b + zlen (news r))) as [L|L].
    + exists (number b r). split; [now left|]. apply number_cover. lia.
    + destruct (IH (b + zlen (news r)) g) as (row & A & B); [lia|]. exists row. split; auto. now right.
Qed.
Definition at_ (rows : list (list entry)) (i k : nat) (e : entry) : Prop := exists row, nth_error rows i = Some row /\ nth_error row k = Some e.
Lemma at_in rows i k e : at_ rows i k e -> exists row, In row rows /\ In e row.
Proof. intros (row & A & B). exists row. split; eapply nth_error_In; eauto. Qed.
Lemma rows_inj : forall rows b i k i' k' g, at_ (number_rows b rows) i k (Node g) -> at_ (number_rows b rows) i' k' (Node g) -> i = i' /\ k = k'.
Proof.
  induction rows as [|r rows IH]; intros b i k i' k' g (row & A & B) (row' & A' & B'); cbn [number_rows] in *.
  - destruct i; discriminate.
  - destruct i as [|i], i' as [|i']; cbn in A, A'.
    + injection A as <-. injection A' as <-. split; auto. eapply number_inj; eauto.
    + injection A as <-. apply nth_error_In, number_bounds in B. apply nth_error_In in A'. apply nth_error_In in B'. pose proof (rows_bounds _ _ _ _ A' B'). lia.
    + injection A' as <-. apply nth_error_In, number_bounds in B'. apply nth_error_In in A. apply nth_error_In in B. pose proof (rows_bounds _ _ _ _ A B). lia.
    + destruct (IH (b + zlen (news r)) i k i' k' g) as [-> ->]; auto; [exists row; auto|exists row'; auto].
Qed.
Lemma parts_lower : forall infos b row g, In row (number_parts b infos) -> In (Node g) row -> b <= g.
Proof.
  induction infos as [|[X rows] infos IH]; intros b row g H K; cbn [number_parts] in H; [destruct H|].
  pose proof (zlen_nonneg _ X). pose proof (zlen_nonneg _ (news (concat rows))). apply in_app_or in H. destruct H as [H|H].
  - pose proof (rows_bounds _ _ _ _ H K). lia.
  - specialize (IH _ _ _ H K). lia.
Qed.
Lemma parts_inj : forall infos b i k i' k' g, at_ (number_parts b infos) i k (Node g) -> at_ (number_parts b infos) i' k' (Node g) -> i = i' /\ k = k'.
Proof.
  induction infos as [|[X rows] infos IH]; intros b i k i' k' g (row & A & B) (row' & A' & B'); cbn [number_parts] in *.
  - destruct i; discriminate.
  - set (l1 := number_rows (b + zlen X) rows) in *.
    destruct (le_lt_dec (length l1) i) as [G|L], (le_lt_dec (length l1) i') as [G'|L'].
    + rewrite nth_error_app2 in A, A' by auto. destruct (IH (b + zlen X + zlen (news (concat rows))) (i - length l1)%nat k (i' - length l1)%nat k' g) as [E ->]; [exists row; split; eauto|exists row'; split; eauto|]. split; auto. lia.
    + rewrite nth_error_app2 in A by auto. rewrite nth_error_app1 in A' by auto. exfalso.
      apply nth_error_In in A, A', B, B'. pose proof (parts_lower _ _ _ _ A B). pose proof (rows_bounds _ _ _ _ A' B'). lia.
    + rewrite nth_error_app1 in A by auto. rewrite nth_error_app2 in A' by auto. exfalso.
      apply nth_error_In in A, A', B, B'. pose proof (parts_lower _ _ _ _ A' B'). pose proof (rows_bounds _ _ _ _ A B). lia.
    + rewrite nth_error_app1 in A, A' by auto. eapply rows_inj; [exists row; split; eauto|exists row'; split; eauto].
Qed.

(** *** the old nodes *)
Lemma renumber_from_bounds : forall infos b g h, 0 <= g -> renumber_from (sizes infos) b g = Ok h -> b <= h.
Proof.
  induction infos as [|[X rows] infos IH]; intros b g h G H; cbn [sizes map renumber_from fst snd] in H; [discriminate|].
  pose proof (zlen_nonneg _ X). pose proof (zlen_nonneg _ (news (concat rows))).
  destruct (g <? zlen X) eqn:E.
  - injection H as <-. lia.
  - apply IH in H; lia.
Qed.
Lemma renumber_from_coord : forall infos P g h, 0 <= g -> renumber_from (sizes infos) (zlen P) g = Ok h ->
  0 <= h /\ exists x, nth_error (concat (map fst infos)) (Z.to_nat g) = Some x /\ nth_error (P ++ concat (new_coords infos)) (Z.to_nat h) = Some x.
Proof.
  induction infos as [|[X rows] infos IH]; intros P g h G H; cbn [sizes map renumber_from fst snd] in H; [discriminate|].
  pose proof (zlen_nonneg _ P). pose proof (zlen_nonneg _ X). unfold new_coords. cbn [map concat fst snd]. fold (new_coords infos).
  destruct (g <? zlen X) eqn:E.
  - injection H as <-. split; [lia|]. assert (Z.to_nat g < length X)%nat by (unfold zlen in E; lia).
    destruct (nth_error_lt_Some _ X _ H) as (x & Hx). exists x. rewrite nth_error_app1 by auto. split; auto.
    rewrite nth_error_app2 by (unfold zlen; lia). replace (Z.to_nat (zlen P + g) - length P)%nat with (Z.to_nat g) by (unfold zlen; lia).
    rewrite <- !app_assoc, nth_error_app1 by auto. exact Hx.
  - specialize (IH (P ++ X ++ news (concat rows)) (g - zlen X) h ltac:(lia)).
    rewrite !zlen_app in IH. specialize (IH H). destruct IH as (L & x & A & B). split; auto. exists x. split.
    + rewrite nth_error_app2 by (unfold zlen in *; lia). replace (Z.to_nat g - length X)%nat with (Z.to_nat (g - zlen X)) by (unfold zlen in *; lia). exact A.
    + rewrite <- !app_assoc in *. exact B.
Qed.
Lemma renumber_from_inj : forall infos b g g' h, 0 <= g -> 0 <= g' -> renumber_from (sizes infos) b g = Ok h -> renumber_from (sizes infos) b g' = Ok h -> g = g'.
Proof.
  induction infos as [|[X rows] infos IH]; intros b g g' h G G' H H'; cbn [sizes map renumber_from fst snd] in H, H'; [discriminate|].
  pose proof (zlen_nonneg _ X). pose proof (zlen_nonneg _ (news (concat rows))).
  destruct (g <? zlen X) eqn:E, (g' <? zlen X) eqn:E'.
  - injection H as <-. injection H' as E2. lia.
  - injection H as <-. apply renumber_from_bounds in H'; lia.
  - injection H' as <-. apply renumber_from_bounds in H; lia.
  - assert (g - zlen X = g' - zlen X) by (eapply IH; eauto; lia). lia.
Qed.
Lemma renumber_from_not_new : forall infos b g h row, 0 <= g -> renumber_from (sizes infos) b g = Ok h -> In row (number_parts b infos) -> ~ In (Node h) row.
Proof.
  induction infos as [|[X rows] infos IH]; intros b g h row G H I K; cbn [sizes map renumber_from fst snd] in H; [discriminate|].
  cbn [number_parts] in I. pose proof (zlen_nonneg _ X). pose proof (zlen_nonneg _ (news (concat rows))).
  apply in_app_or in I. destruct (g <? zlen X) eqn:E.
  - injection H as <-. destruct I as [I|I].
    + pose proof (rows_bounds _ _ _ _ I K). lia.
    + pose proof (parts_lower _ _ _ _ I K). lia.
  - destruct I as [I|I].
    + pose proof (rows_bounds _ _ _ _ I K). apply renumber_from_bounds in H; lia.
    + rewrite Z.add_assoc in H. eapply IH; [|exact H|exact I|exact K]. lia.
Qed.
Lemma renumber_from_total : forall infos b g, 0 <= g < zlen (concat (map fst infos)) -> exists h, renumber_from (sizes infos) b g = Ok h.
Proof.
  induction infos as [|[X rows] infos IH]; intros b g G; cbn [sizes map renumber_from fst snd concat] in *.
  - unfold zlen in G. cbn in G. lia.
  - rewrite zlen_app in G. destruct (g <? zlen X) eqn:E; eauto. apply IH. lia.
Qed.
Lemma parts_cover : forall infos b g, b <= g < b + zlen (concat (new_coords infos)) ->
  (exists g1, 0 <= g1 /\ renumber_from (sizes infos) b g1 = Ok g) \/ exists row, In row (number_parts b infos) /\ In (Node g) row.
Proof.
  induction infos as [|[X rows] infos IH]; intros b g G; cbn [number_parts sizes map renumber_from fst snd] in *.
  - unfold zlen in G. cbn in G. lia.
  - unfold new_coords in G. cbn [map concat fst snd] in G. fold (new_coords infos) in G. rewrite !zlen_app in G.
    pose proof (zlen_nonneg _ X). pose proof (zlen_nonneg _ (news (concat rows))).
    destruct (Z_lt_dec g (b + zlen X)) as [L1|L1].
    + left. exists (g - b). split; [lia|]. destruct (g - b <? zlen X) eqn:E; [f_equal; lia|lia].
    + destruct (Z_lt_dec g (b + zlen X + zlen (news (concat rows)))) as [L2|L2].
      * right. destruct (rows_cover rows (b + zlen X) g) as (row & A & B); [lia|]. exists row. split; auto. apply in_or_app. now left.
      * destruct (IH (b + zlen X + zlen (news (concat rows))) g) as [(g1 & A & B)|(row & A & B)]; [lia| |].
        -- left. exists (g1 + zlen X). split; [lia|]. destruct (g1 + zlen X <? zlen X) eqn:E; [lia|].
           replace (g1 + zlen X - zlen X) with g1 by lia. now rewrite Z.add_assoc.
        -- right. exists row. split; auto. apply in_or_app. now right.
Qed.
