(** Elevation of a sound mesh succeeds; boundary elements. *)
From Coq Require Import Reals List ZArith Bool Permutation Lia Lra Arith.
From Verif Require Import Base.Prelude Base.PreludeFacts Geom.ElemModel Geom.ElemSpec Geom.ElemProofs Geom.PeriodicModel Geom.PeriodicSpec Geom.PeriodicProofs
  Geom.ElevModel Geom.ElevSpec Geom.ElevProofs Geom.ElevNumber Geom.ElevShare Geom.ElevMore.
Import ListNotations.
Local Open Scope Z_scope.

(** *** places with periods *)
Lemma trans_ext p u v id u' : TransCoord p u id = Ok u' -> same_vec 3 u v -> exists v', TransCoord p v id = Ok v' /\ same_vec 3 u' v'.
Proof.
  intros H E. unfold TransCoord in *. apply bind_Ok in H. destruct H as (i & -> & H). apply bind_Ok in H. destruct H as (Q & HQ & H).
  apply bind_Ok in H. destruct H as (c & Hc & H). apply bind_Ok in H. destruct H as (t & Ht & H). cbn [bind]. rewrite HQ. cbn [bind]. rewrite Hc. cbn [bind]. rewrite Ht. cbn [bind].
  injection H as <-. eexists. split; [reflexivity|]. exact (fwd_ext Q c t u v E).
Qed.
Lemma bits_ext p u v b u' : GetCoordByBits p u b = Ok u' -> same_vec 3 u v -> exists v', GetCoordByBits p v b = Ok v' /\ same_vec 3 u' v'.
Proof.
  assert (ST : forall (x : bool) id u v u', (if x then TransCoord p u id else Ok u) = Ok u' -> same_vec 3 u v -> exists v', (if x then TransCoord p v id else Ok v) = Ok v' /\ same_vec 3 u' v').
  { intros [|] id a c a' H E; [eapply trans_ext; eauto|]. injection H as <-. eauto. }
  unfold GetCoordByBits. intros H E. destruct (b =? 0); [injection H as <-; eauto|].
  apply bind_Ok in H. destruct H as (r1 & H1 & H). apply bind_Ok in H. destruct H as (r2 & H2 & H).
  destruct (ST _ _ _ _ _ H1 E) as (v1 & -> & E1). cbn [bind]. destruct (ST _ _ _ _ _ H2 E1) as (v2 & -> & E2). cbn [bind]. exact (ST _ _ _ _ _ H E2).
Qed.
Lemma map_fst_combine A B (a : list A) (b : list B) : length a = length b -> map fst (combine a b) = a.
Proof. revert b. induction a as [|x a IH]; intros [|y b] L; cbn in *; try discriminate; auto. f_equal. auto. Qed.
Lemma map_snd_combine A B (a : list A) (b : list B) : length a = length b -> map snd (combine a b) = b.
Proof. revert b. induction a as [|x a IH]; intros [|y b] L; cbn in *; try discriminate; auto. f_equal. auto. Qed.
Lemma periodic_place m c k x b : periodic m = true -> length (c_bits c) = length (c_nodes c) -> well_formed 3 (info m) -> place m c k = Ok (x, b) ->
  exists qs xs z, ExtractElevNodeSpanNodes (c_type c) k (combine (c_nodes c) (c_bits c)) = Ok qs /\ Forall2 (seen m) qs xs /\
    b = bitandReduce (map snd qs) /\ GetCoordByBits (info m) x b = Ok z /\ same_vec 3 z (mean xs).
Proof.
  intros P L W H. unfold place, coords_on_cell in H. rewrite P, (proj2 (Nat.eqb_eq _ _) L) in H. apply bind_Ok in H. destruct H as (cs & CS & H).
  apply bind_Ok in H. destruct H as (sp & SP & H). apply bind_Ok in H. destruct H as (bs & BS & H). apply bind_Ok in H. destruct H as (y & Y & H). injection H as <- <-.
  assert (N1 := ExtractElevNodeSpanNodes_nat _ _ snd (c_type c) k (combine (c_nodes c) (c_bits c))). rewrite map_snd_combine, BS in N1 by auto.
  destruct (ExtractElevNodeSpanNodes (c_type c) k (combine (c_nodes c) (c_bits c))) as [qs| |] eqn:Q; cbn in N1; try discriminate. injection N1 as ->.
  destruct (span_mapM _ _ _ _ _ _ _ _ CS Q) as (ys & Y1 & Y2). assert (ys = sp) by congruence. subst ys.
  destruct (bits_back _ _ _ _ W Y) as (z & Z1 & Z2). exists qs, sp, z. split; auto. split; [|auto].
  clear -Y2. revert sp Y2. induction qs as [|g s IH]; intros sp H; cbn in H.
  - injection H as <-. constructor.
  - apply bind_Ok in H. destruct H as (v & V & H). apply bind_Ok in H. destruct H as (vs & VS & H). injection H as <-. constructor; auto.
    apply bind_Ok in V. destruct V as (w & W & V). apply vget_Ok in W. exists w. split; auto.
Qed.

(** *** everything in a cell is distinct *)
Lemma nodup_nodes m o infos i c c2 : facts m o infos -> sound_cells m -> point_neighbours m -> same_places m -> conforming m ->
  is_cell m i c -> nth_error (o_cells o) i = Some c2 -> NoDup (c_nodes c2).
Proof.
  intros F SC PN SP CF C C2. destruct (cell_shape _ _ _ _ _ F SC C) as (n & c2' & old & new & N & C2' & T & ND & LO & LN & MO & B & NB).
  assert (c2' = c2) by congruence. subst c2'. destruct (SC _ _ C) as [SL NDc]. destruct (mapM_nth _ _ _ _ _ MO) as [_ M].
  assert (OLD : forall k h, nth_error old k = Some h -> exists g, nth_error (c_nodes c) k = Some g /\ renumber (sizes infos) g = Ok h).
  { intros k h K. destruct (nth_error (c_nodes c) k) as [g|] eqn:G.
    - destruct (M _ _ G) as (h' & R & K'). assert (h' = h) by congruence. subst. eauto.
    - apply nth_error_None in G. assert (k < length old)%nat by (apply nth_error_Some; congruence). lia. }
  assert (NEW : forall k h, nth_error new k = Some h -> new_node m o i k h /\ exists s, is_span c k s).
  { intros k h K. assert (G : new_node m o i k h).
    { exists c, c2. split; auto. split; auto. rewrite ND, nth_error_app2 by lia. now replace (GetNumNodes (c_type c) + k - length old)%nat with k by lia. }
    split; auto. destruct (new_node_fact _ _ _ _ _ _ F SC G) as (c' & s & x & ow & e & b & C' & S & _). assert (c' = c) by (unfold is_cell in *; congruence). subst c'. eauto. }
  apply NoDup_nth_error. intros p q PL E. rewrite ND in *.
  destruct (nth_error (old ++ new) p) as [h|] eqn:HP; [|apply nth_error_None in HP; lia]. symmetry in E.
  destruct (lt_dec p (length old)) as [Lp|Lp], (lt_dec q (length old)) as [Lq|Lq].
  - rewrite nth_error_app1 in HP, E by auto. destruct (OLD _ _ HP) as (g & G1 & R1). destruct (OLD _ _ E) as (g' & G2 & R2).
    rewrite (renumber_inj _ _ _ _ R1 R2) in G1. apply (proj1 (NoDup_nth_error (c_nodes c)) NDc); [lia|congruence].
  - rewrite nth_error_app1 in HP by auto. rewrite nth_error_app2 in E by lia. destruct (OLD _ _ HP) as (g & G1 & R1). destruct (NEW _ _ E) as (G2 & _).
    exfalso. eapply new_not_old; eauto.
  - rewrite nth_error_app2 in HP by lia. rewrite nth_error_app1 in E by auto. destruct (OLD _ _ E) as (g & G1 & R1). destruct (NEW _ _ HP) as (G2 & _).
    exfalso. eapply new_not_old; eauto.
  - rewrite nth_error_app2 in HP, E by lia. destruct (NEW _ _ HP) as (G1 & s1 & S1). destruct (NEW _ _ E) as (G2 & s2 & S2).
    pose proof (different_node_f _ _ _ _ _ _ _ _ _ _ _ _ F SC PN SP CF C C S1 S2 G1 G2) as P.
    pose proof (span_distinct _ _ _ _ _ _ SL NDc S1 S2 P). lia.
Qed.

(** *** boundary elements *)
Definition fit (c2 : cell) (b2n : list Z) (f : nat) : list (list Z * ElemType) :=
  match ExtractFaceNodes (c_type c2) f (c_nodes c2) with
  | Ok fn => if includes (zsort fn) (zsort b2n) then [(fn, GetFaceType (c_type c2) f)] else []
  | _ => []
  end.
Lemma face_fold c2 b2n : forall l st st', foldM (face_step c2 b2n) st l = Ok st' ->
  st' = ((fst st + length (flat_map (fit c2 b2n) l))%nat, last (flat_map (fit c2 b2n) l) (snd st)).
Proof.
  induction l as [|f l IH]; intros [n q] st' H; cbn [foldM] in H.
  - injection H as <-. cbn. now rewrite Nat.add_0_r.
  - apply bind_Ok in H. destruct H as (st1 & H1 & H). unfold face_step in H1. apply bind_Ok in H1. destruct H1 as (ft & T & H1). apply bind_Ok in H1. destruct H1 as (fn & FN & H1).
    unfold ObtainFace in T. apply bind_Ok in T. destruct T as (u & _ & T). injection T as <-. cbn [flat_map]. unfold fit at 1 3. rewrite FN. injection H1 as <-. apply IH in H. rewrite H.
    destruct (includes (zsort fn) (zsort b2n)); cbn [app fst snd]; [|reflexivity]. f_equal; [cbn [length]; lia|]. cbn [last].
    destruct (flat_map (fit c2 b2n) l) as [|a r]; auto. clear. revert a. induction r as [|b l IH]; intro a; auto. cbn [last]. apply IH.
Qed.
Lemma face_fold_total c2 b2n : length (c_nodes c2) = GetNumNodes (c_type c2) -> NoDup (c_nodes c2) ->
  forall l st, (forall f, In f l -> (f < GetNumFaces (c_type c2))%nat) -> exists st', foldM (face_step c2 b2n) st l = Ok st'.
Proof.
  intros L ND. induction l as [|f l IH]; intros st B; cbn [foldM]; eauto. unfold face_step at 1. assert (Lf : (f < GetNumFaces (c_type c2))%nat) by (apply B; now left).
  destruct (faces_well_formed _ _ f (c_nodes c2) Lf L ND) as (fn & E & _). unfold ObtainFace. rewrite (proj2 (Nat.ltb_lt _ _) Lf). cbn [assert_ bind]. rewrite E. cbn [bind]. apply IH. intros f' I. apply B. now right.
Qed.

Lemma fill_bnd_fact sz cells2 lo hi b b2 : fill_bnd sz cells2 lo hi b = Ok b2 -> exists c2 b2n f,
  lo <= b_cell b < hi /\ vget cells2 (b_cell b) = Ok c2 /\ mapM (renumber sz) (b_nodes b) = Ok b2n /\ b_cell b2 = b_cell b /\
  (f < GetNumFaces (c_type c2))%nat /\ ExtractFaceNodes (c_type c2) f (c_nodes c2) = Ok (b_nodes b2) /\ b_type b2 = GetFaceType (c_type c2) f /\ incl b2n (b_nodes b2).
Proof.
  unfold fill_bnd. destruct ((lo <=? b_cell b) && (b_cell b <? hi)) eqn:R; [|discriminate]. intro H. apply bind_Ok in H. destruct H as (c2 & C & H).
  apply bind_Ok in H. destruct H as (b2n & N & H). apply bind_Ok in H. destruct H as (st & S & H). destruct (Nat.eqb (fst st) 1) eqn:E; [|discriminate]. injection H as <-. cbn [b_type b_nodes b_cell].
  apply face_fold in S. subst st. cbn [fst snd] in *. apply Nat.eqb_eq in E. cbn [Nat.add] in E.
  destruct (flat_map (fit c2 b2n) (seq 0 (GetNumFaces (c_type c2)))) as [|[fn ft] [|]] eqn:FM; cbn in E; try discriminate. cbn [last fst snd].
  assert (I : In (fn, ft) (flat_map (fit c2 b2n) (seq 0 (GetNumFaces (c_type c2))))) by (rewrite FM; now left).
  apply in_flat_map in I. destruct I as (f & If & I). apply in_seq in If. unfold fit in I. destruct (ExtractFaceNodes (c_type c2) f (c_nodes c2)) as [fn'| |] eqn:EF; [|destruct I..].
  destruct (includes (zsort fn') (zsort b2n)) eqn:INC; [|destruct I]. destruct I as [I|[]]. injection I as -> <-.
  exists c2, b2n, f. apply andb_true_iff in R. repeat split; auto; try lia. now apply includes_sort_incl.
Qed.
Lemma fill_bnds_in sz cells2 : forall ps lo bs, fill_bnds sz cells2 lo ps = Ok bs ->
  length bs = length (concat (map p_bnds ps)) /\
  forall j b, nth_error (concat (map p_bnds ps)) j = Some b -> exists b2 lo' hi', nth_error bs j = Some b2 /\ fill_bnd sz cells2 lo' hi' b = Ok b2.
Proof.
  induction ps as [|p ps IH]; intros lo bs H; cbn [fill_bnds map concat] in *.
  - injection H as <-. split; auto. intros [|j] b; discriminate.
  - apply bind_Ok in H. destruct H as (b1 & H1 & H). apply bind_Ok in H. destruct H as (t & H2 & H). injection H as <-.
    destruct (mapM_nth _ _ _ _ _ H1) as [L1 N1]. destruct (IH _ _ H2) as [L2 N2]. rewrite !app_length. split; [lia|].
    intros j b J. destruct (lt_dec j (length (p_bnds p))) as [L|L].
    + rewrite nth_error_app1 in J by auto. destruct (N1 _ _ J) as (b2 & F & G). exists b2. do 2 eexists. split; [|exact F]. rewrite nth_error_app1; auto. lia.
    + rewrite nth_error_app2 in J by lia. destruct (N2 _ _ J) as (b2 & lo' & hi' & G & F). exists b2, lo', hi'. split; auto. rewrite nth_error_app2 by lia. now rewrite L1.
Qed.
Lemma boundary m o j b : elevate m = Ok o -> sound_cells m -> nth_error (concat (map p_bnds (parts m))) j = Some b -> exists b2 c2 f,
  nth_error (o_bnds o) j = Some b2 /\ b_cell b2 = b_cell b /\ nth_error (o_cells o) (Z.to_nat (b_cell b)) = Some c2 /\
  (f < GetNumFaces (c_type c2))%nat /\ ExtractFaceNodes (c_type c2) f (c_nodes c2) = Ok (b_nodes b2) /\ b_type b2 = GetFaceType (c_type c2) f /\
  forall g, In g (b_nodes b) -> exists h, renamed m o g h /\ In h (b_nodes b2).
Proof.
  intros EL SC J. destruct (elevate_all _ _ EL) as (infos & F & FB). destruct (fill_bnds_in _ _ _ _ _ FB) as [_ A]. destruct (A _ _ J) as (b2 & lo & hi & J2 & H).
  apply fill_bnd_fact in H. destruct H as (c2 & b2n & f & _ & V & M & E & Lf & EF & T & I). apply vget_Ok in V. destruct V as [_ V]. exists b2, c2, f. repeat split; auto.
  intros g G. apply In_nth_error in G. destruct G as (k & K). destruct (mapM_nth _ _ _ _ _ M) as [_ M2]. destruct (M2 _ _ K) as (h & R & K2). exists h. split; [eapply renumber_renamed; eauto|].
  apply I. eapply nth_error_In; eauto.
Qed.

(** *** where new nodes are *)
Lemma plain_near m o i k g : elevate m = Ok o -> sound_cells m -> periodic m = false -> new_node m o i k g ->
  exists c s xs y, is_cell m i c /\ is_span c k s /\ Forall2 (coord1 m) s xs /\ coord2 o g y /\ (dist2 y (mean xs) < / 10 ^ 20)%R.
Proof.
  intros EL SC NP G. destruct (elevate_facts _ _ EL) as (infos & F). destruct (new_node_fact _ _ _ _ _ _ F SC G) as (c & s & x & ow & e & b & C & S & P & _).
  destruct (near_place _ _ _ _ _ EL SC G) as (c' & x' & b' & y & C' & P' & X & D). assert (c' = c) by (unfold is_cell in *; congruence). subst c'. assert (x' = x) by congruence. subst x'.
  destruct (plain_place _ _ _ _ _ _ NP P S) as (xs & XS & -> & _). exists c, s, xs, y. auto.
Qed.
Lemma plain_middle m o i k g : elevate m = Ok o -> sound_cells m -> point_neighbours m -> conforming m -> periodic m = false -> new_node m o i k g ->
  exists c s xs y, is_cell m i c /\ is_span c k s /\ Forall2 (coord1 m) s xs /\ coord2 o g y /\ same_vec 3 y (mean xs).
Proof.
  intros EL SC PN CF NP G. destruct (elevate_facts _ _ EL) as (infos & F). destruct (new_node_fact _ _ _ _ _ _ F SC G) as (c & s & x & ow & e & b & C & S & P & _).
  destruct (exact_place _ _ _ _ _ EL SC PN (plain_same_places _ NP) CF G) as (c' & x' & b' & y & C' & P' & X & D). assert (c' = c) by (unfold is_cell in *; congruence). subst c'. assert (x' = x) by congruence. subst x'.
  destruct (plain_place _ _ _ _ _ _ NP P S) as (xs & XS & -> & _). exists c, s, xs, y. auto.
Qed.
Lemma periodic_middle m o i k g b : elevate m = Ok o -> sound_cells m -> point_neighbours m -> same_places m -> conforming m -> complete m -> periodic m = true ->
  new_node m o i k g -> new_bits m o i k b ->
  exists c qs xs y z, is_cell m i c /\ ExtractElevNodeSpanNodes (c_type c) k (combine (c_nodes c) (c_bits c)) = Ok qs /\ Forall2 (seen m) qs xs /\
    coord2 o g y /\ GetCoordByBits (info m) y b = Ok z /\ same_vec 3 z (mean xs) /\ b = bitandReduce (map snd qs).
Proof.
  intros EL SC PN SP CF CM PE G B. destruct (elevate_facts _ _ EL) as (infos & F).
  destruct (exact_place _ _ _ _ _ EL SC PN SP CF G) as (c & x & b1 & y & C & P & X & D).
  destruct (new_bits_fact _ _ _ _ _ _ F SC (fun j a CA => proj1 (proj2 (proj2 (proj2 (CM j a CA))) PE)) PE B) as (c' & x' & C' & P').
  assert (c' = c) by (unfold is_cell in *; congruence). subst c'. assert (b1 = b) by congruence. subst b1.
  destruct (CM _ _ C) as (_ & _ & _ & PB). destruct (PB PE) as [BL W]. destruct (periodic_place _ _ _ _ _ PE BL W P) as (qs & xs & z & Q & XS & EB & Z1 & Z2).
  assert (SY : same_vec 3 x y) by (intros t T; symmetry; auto). destruct (bits_ext _ _ _ _ _ Z1 SY) as (z' & Z3 & Z4). exists c, qs, xs, y, z'. do 5 (split; auto). split; auto.
  intros t T. rewrite <- Z4 by auto. auto.
Qed.
Lemma distinct_nodes m o i c2 : elevate m = Ok o -> sound_cells m -> point_neighbours m -> same_places m -> conforming m -> nth_error (o_cells o) i = Some c2 -> NoDup (c_nodes c2).
Proof.
  intros EL SC PN SP CF C2. destruct (elevate_facts _ _ EL) as (infos & F). destruct (nth_error (all_cells m) i) as [c|] eqn:C; [eapply nodup_nodes; eauto|].
  apply nth_error_None in C. destruct (cells_length _ _ _ F) as [_ L]. assert (i < length (o_cells o))%nat by (apply nth_error_Some; congruence). lia.
Qed.
Lemma numbers m o : elevate m = Ok o ->
  (forall g h h', renamed m o g h -> renamed m o g h' -> h = h') /\ (forall g g' h, renamed m o g h -> renamed m o g' h -> g = g') /\
  (sound_cells m -> forall i k g g1, new_node m o i k g -> ~ renamed m o g1 g).
Proof. intro EL. split; [apply renamed_fun|]. split; [intros; eapply renamed_inj; eauto|]. intros; eapply new_old_differ; eauto. Qed.
