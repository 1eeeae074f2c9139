(** Shape, places and success of an elevation. *)
From Coq Require Import Reals List ZArith Bool Permutation Lia Lra Arith.
From Verif Require Import Base.Prelude Base.PreludeFacts Geom.ElemModel Geom.ElemSpec Geom.ElemProofs Geom.PeriodicModel Geom.PeriodicSpec Geom.PeriodicProofs
  Geom.ElevModel Geom.ElevSpec Geom.ElevProofs Geom.ElevNumber Geom.ElevShare.
Import ListNotations.
Local Open Scope Z_scope.

(** *** old nodes *)
Lemma renumber_from_renamed : forall infos b g h, 0 <= g -> renumber_from (sizes infos) b g = Ok h ->
  exists l p r q, infos = l ++ p :: r /\ 0 <= q < zlen (fst p) /\ g = zlen (concat (map fst l)) + q /\ h = b + zlen (concat (new_coords l)) + q.
Proof.
  induction infos as [|[X rows] infos IH]; intros b g h G H; cbn [sizes map renumber_from fst snd] in H; [discriminate|].
  destruct (g <? zlen X) eqn:E.
  - injection H as <-. exists [], (X, rows), infos, g. cbn [app map concat new_coords fst]. change (zlen (@nil vec)) with 0. repeat split; lia.
  - apply IH in H; [|lia]. destruct H as (l & p & r & q & -> & Q & A & B). exists ((X, rows) :: l), p, r, q. split; auto. split; auto.
    unfold new_coords in *. cbn [map concat fst snd]. rewrite !zlen_app. split; lia.
Qed.
Lemma nth_split_map A B (f : A -> B) l p r : map f (l ++ p :: r) = map f l ++ f p :: map f r.
Proof. now rewrite map_app. Qed.
Lemma renumber_renamed m o infos g h : facts m o infos -> renumber (sizes infos) g = Ok h -> renamed m o g h.
Proof.
  intros F H. unfold renumber in H. destruct (g <? 0) eqn:G; [discriminate|]. apply renumber_from_renamed in H; [|lia].
  destruct H as (l & p & r & q & E & Q & A & B). pose proof (f_fst _ _ _ F) as FF. pose proof (f_X _ _ _ F) as FX. rewrite E, nth_split_map in FF. rewrite E in FX. unfold new_coords in FX. rewrite nth_split_map in FX.
  symmetry in FF. apply map_eq_app in FF. destruct FF as (pl & pr & E2 & M1 & M2). destruct pr as [|pp pr]; cbn [map] in M2; [discriminate|]. injection M2 as M2 M3.
  exists pl, pp, pr, (new_coords l), (fst p ++ news (concat (snd p))), (map (fun p => fst p ++ news (concat (snd p))) r), q.
  split; auto. split; auto. split.
  - apply (f_equal (@length _)) in M1. rewrite !map_length in M1. unfold new_coords. now rewrite map_length.
  - rewrite M1, M2. repeat split; auto; lia.
Qed.
Lemma renumber_coord m o infos g h : facts m o infos -> renumber (sizes infos) g = Ok h -> exists x, coord1 m g x /\ coord2 o h x.
Proof.
  intros F H. unfold renumber in H. destruct (g <? 0) eqn:G; [discriminate|]. apply (renumber_from_coord infos [] g h) in H; [|lia].
  destruct H as (L & x & A & B). exists x. rewrite (f_fst _ _ _ F) in A. split; split; auto; [lia|]. now rewrite (f_X _ _ _ F).
Qed.
Lemma renamed_bounds m o g h : renamed m o g h -> 0 <= g < zlen (all_coords m).
Proof.
  intros (l & p & r & l2 & X & r2 & q & P & _ & _ & Q & -> & _). pose proof (zlen_nonneg _ (concat (map p_coords l))).
  unfold all_coords. rewrite P, map_app, concat_app, zlen_app. cbn [map concat]. rewrite zlen_app. pose proof (zlen_nonneg _ (concat (map p_coords r))). lia.
Qed.
Lemma app_cut A (l l' : list A) p p' r r' : length l = length l' -> l ++ p :: r = l' ++ p' :: r' -> l = l' /\ p = p' /\ r = r'.
Proof.
  revert l'. induction l as [|a l IH]; intros [|b l'] L E; try discriminate; cbn in *.
  - injection E as -> ->. auto.
  - injection E as -> E. destruct (IH l') as (-> & -> & ->); auto.
Qed.
Lemma concat_cut (A : Type) : forall (l l' : list (list A)) p p' r r' q q', l ++ p :: r = l' ++ p' :: r' -> 0 <= q < zlen p -> 0 <= q' < zlen p' ->
  zlen (concat l) + q = zlen (concat l') + q' -> length l = length l' /\ q = q'.
Proof.
  induction l as [|a l IH]; intros [|b l'] p p' r r' q q' E Q Q' H; cbn [app] in E.
  - injection E as -> ->. unfold zlen in *. cbn in *. split; lia.
  - injection E as -> ->. exfalso. cbn [concat] in H. rewrite zlen_app in H. unfold zlen at 1 in H. cbn [concat length] in H. pose proof (zlen_nonneg _ (concat l')). lia.
  - injection E as -> E. exfalso. cbn [concat] in H. rewrite zlen_app in H. unfold zlen at 3 in H. cbn [concat length] in H. pose proof (zlen_nonneg _ (concat l)). lia.
  - injection E as -> E. cbn [concat] in H. rewrite !zlen_app in H. destruct (IH l' p p' r r' q q' E Q Q') as [A1 A2]; [lia|]. cbn. auto.
Qed.
Lemma renamed_fun m o g h h' : renamed m o g h -> renamed m o g h' -> h = h'.
Proof.
  intros (l & p & r & l2 & X & r2 & q & P & O & L & Q & G & H) (l' & p' & r' & l2' & X' & r2' & q' & P' & O' & L' & Q' & G' & H').
  assert (E : map p_coords l ++ p_coords p :: map p_coords r = map p_coords l' ++ p_coords p' :: map p_coords r').
  { rewrite <- !nth_split_map. now rewrite <- P, <- P'. }
  destruct (concat_cut _ _ _ _ _ _ _ q q' E) as [A1 A2]; auto; [lia|]. rewrite !map_length in A1.
  destruct (app_cut _ l2 l2' X X' r2 r2') as (-> & _ & _); [lia|congruence|]. lia.
Qed.

(** old and new entries of a cell *)
Lemma cell_shape m o infos i c : facts m o infos -> sound_cells m -> is_cell m i c -> exists n c2 old new,
  GetElemElevation_O1O2_NumNode (c_type c) = Some n /\ nth_error (o_cells o) i = Some c2 /\ c_type c2 = GetElemElevation_O1O2_ElevatedType (c_type c) /\
  c_nodes c2 = old ++ new /\ length old = GetNumNodes (c_type c) /\ length new = n /\ mapM (renumber (sizes infos)) (c_nodes c) = Ok old /\
  c_bits c2 = c_bits c ++ skipn (length (c_bits c)) (c_bits c2) /\ c_nb c2 = c_nb c.
Proof.
  intros F SC C. destruct (row_fact _ _ _ _ _ F C) as (n & er & N & E & L & R).
  destruct (cell_fact _ _ _ _ _ F C) as (r & er' & c2 & _ & E' & V & C2' & FC). assert (er' = er) by congruence. subst er'.
  unfold fill_cell in FC. cbn [fst snd] in FC. apply bind_Ok in FC. destruct FC as (old & O & FC). apply bind_Ok in FC. destruct FC as (new & W & FC). injection FC as <-.
  exists n. eexists. exists old, (map fst new). split; [exact N|]. split; [exact C2'|]. cbn [c_type c_nodes c_bits c_nb]. split; auto. split; auto.
  destruct (mapM_nth _ _ _ _ _ O) as [LO _]. destruct (SC _ _ C) as [SL _]. split; [lia|].
  destruct (mapM_nth _ _ _ _ _ W) as [LW W2]. rewrite combine_length, seq_length, Nat.min_id in LW. rewrite map_length. split; [lia|]. split; auto. split; auto.
  destruct (periodic m).
  - rewrite skipn_app, skipn_all, Nat.sub_diag. reflexivity.
  - now rewrite skipn_all, app_nil_r.
Qed.
Lemma elevated_count t n : GetElemElevation_O1O2_NumNode t = Some n -> (GetNumNodes t + n)%nat = GetNumNodes (GetElemElevation_O1O2_ElevatedType t).
Proof. destruct t; cbn; intro H; try discriminate; injection H as <-; reflexivity. Qed.

Lemma shape m o : elevate m = Ok o -> sound_cells m ->
  length (o_cells o) = length (all_cells m) /\ Forall2 (fun p X => exists new, X = p_coords p ++ new) (parts m) (o_coords o) /\
  forall i c, is_cell m i c -> exists c2, nth_error (o_cells o) i = Some c2 /\ c_type c2 = GetElemElevation_O1O2_ElevatedType (c_type c) /\
    length (c_nodes c2) = GetNumNodes (c_type c2) /\ c_nb c2 = c_nb c /\ firstn (length (c_bits c)) (c_bits c2) = c_bits c /\
    forall k g, nth_error (c_nodes c) k = Some g -> exists h x, nth_error (c_nodes c2) k = Some h /\ renamed m o g h /\ coord1 m g x /\ coord2 o h x.
Proof.
  intros EL SC. destruct (elevate_facts _ _ EL) as (infos & F). split; [apply (cells_length _ _ _ F)|]. split.
  - rewrite (f_X _ _ _ F). pose proof (f_fst _ _ _ F) as FF. clear -FF. revert FF. generalize (parts m). induction infos as [|p infos IH]; intros [|q ps] FF; cbn in *; try discriminate; constructor.
    + injection FF as A B. exists (news (concat (snd p))). now rewrite A.
    + injection FF as A B. auto.
  - intros i c C. destruct (cell_shape _ _ _ _ _ F SC C) as (n & c2 & old & new & N & C2 & T & ND & LO & LN & MO & B & NB). exists c2. split; auto. split; auto. split.
    + rewrite ND, app_length, T, <- (elevated_count _ _ N). lia.
    + split; auto. split; [rewrite B at 1; now rewrite firstn_app, Nat.sub_diag, firstn_all, app_nil_r|].
      intros k g K. destruct (mapM_nth _ _ _ _ _ MO) as [_ M]. destruct (M _ _ K) as (h & R & KH). destruct (renumber_coord _ _ _ _ _ F R) as (x & X1 & X2).
      exists h, x. rewrite ND, nth_error_app1 by (apply nth_error_Some; congruence). split; auto. split; [eapply renumber_renamed; eauto|auto].
Qed.

Lemma renumber_inj infos g g' h : renumber (sizes infos) g = Ok h -> renumber (sizes infos) g' = Ok h -> g = g'.
Proof. unfold renumber. destruct (g <? 0) eqn:A; [discriminate|]. destruct (g' <? 0) eqn:B; [discriminate|]. apply renumber_from_inj; lia. Qed.
Lemma new_not_old m o infos i k g g1 : facts m o infos -> sound_cells m -> new_node m o i k g -> renumber (sizes infos) g1 = Ok g -> False.
Proof.
  intros F SC G R. assert (exists row, In row (number_parts 0 infos) /\ In (Node g) row) as (row & I & J).
  { destruct (new_node_fact _ _ _ _ _ _ F SC G) as (c & s & x & ow & e & b & C & S & P & OW & (er & A1 & A2) & V & E). destruct e as [g'|p].
    - subst g'. exists er. split; eapply nth_error_In; eauto.
    - destruct E as (j & row & J & RW & LK). apply look_near in LK. exists row. split; [apply vget_Ok in RW; destruct RW; eapply nth_error_In; eauto|].
      assert (In g (near_nodes (concat (o_coords o)) row x)) by (rewrite LK; now left). now apply near_nodes_in in H. }
  unfold renumber in R. destruct (g1 <? 0) eqn:L; [discriminate|]. eapply renumber_from_not_new; eauto. lia.
Qed.
Lemma new_old_differ m o i k g g1 : elevate m = Ok o -> sound_cells m -> new_node m o i k g -> ~ renamed m o g1 g.
Proof.
  intros EL SC G R. destruct (elevate_facts _ _ EL) as (infos & F).
  destruct (renumber_from_total infos 0 g1) as (h & H). { rewrite (f_fst _ _ _ F). apply (renamed_bounds _ _ _ _ R). }
  assert (H' : renumber (sizes infos) g1 = Ok h). { unfold renumber. pose proof (renamed_bounds _ _ _ _ R). destruct (g1 <? 0) eqn:L; [lia|]. exact H. }
  pose proof (renumber_renamed _ _ _ _ _ F H') as R'. rewrite (renamed_fun _ _ _ _ _ R R') in G. eapply new_not_old; eauto.
Qed.
Lemma renamed_inj m o g g' h : elevate m = Ok o -> renamed m o g h -> renamed m o g' h -> g = g'.
Proof.
  intros EL R R'. destruct (elevate_facts _ _ EL) as (infos & F).
  assert (T : forall g, renamed m o g h -> renumber (sizes infos) g = Ok h).
  { intros g1 R1. destruct (renumber_from_total infos 0 g1) as (h1 & H). { rewrite (f_fst _ _ _ F). apply (renamed_bounds _ _ _ _ R1). }
    assert (H' : renumber (sizes infos) g1 = Ok h1). { unfold renumber. pose proof (renamed_bounds _ _ _ _ R1). destruct (g1 <? 0) eqn:L; [lia|]. exact H. }
    pose proof (renumber_renamed _ _ _ _ _ F H'). now rewrite (renamed_fun _ _ _ _ _ R1 H0). }
  eapply renumber_inj; eauto.
Qed.

(** every node is an old one or a new one of some cell *)
Lemma every_node m o g x : elevate m = Ok o -> sound_cells m -> coord2 o g x -> (exists g1, renamed m o g1 g) \/ exists i k, new_node m o i k g.
Proof.
  intros EL SC (G & X). destruct (elevate_facts _ _ EL) as (infos & F).
  assert (B : 0 <= g < 0 + zlen (concat (new_coords infos))). { split; auto. rewrite <- (f_X _ _ _ F). assert (Z.to_nat g < length (concat (o_coords o)))%nat by (apply nth_error_Some; congruence). unfold zlen. lia. }
  destruct (parts_cover _ _ _ B) as [(g1 & L & R)|(row & I & J)].
  - left. exists g1. eapply renumber_renamed; eauto. unfold renumber. destruct (g1 <? 0) eqn:E; [lia|]. exact R.
  - right. apply In_nth_error in I. destruct I as (i & I). apply In_nth_error in J. destruct J as (k & J). exists i, k.
    destruct (nth_error (all_cells m) i) as [c|] eqn:C.
    2:{ apply nth_error_None in C. destruct (cells_length _ _ _ F) as [A _]. assert (i < length (number_parts 0 infos))%nat by (apply nth_error_Some; congruence). lia. }
    destruct (cell_fact _ _ _ _ _ F C) as (r & er' & c2 & _ & E' & V & C2' & FC). assert (er' = row) by congruence. subst er'.
    unfold fill_cell in FC. cbn [fst snd] in FC. apply bind_Ok in FC. destruct FC as (old & O & FC). apply bind_Ok in FC. destruct FC as (new & W & FC). injection FC as <-.
    exists c. eexists. split; auto. split; [exact C2'|]. cbn [c_nodes]. apply mapM_nth in O. destruct O as [LO _]. destruct (SC _ _ C) as [SL _].
    rewrite nth_error_app2 by lia. replace (GetNumNodes (c_type c) + k - length old)%nat with k by lia. rewrite nth_error_map.
    destruct (mapM_nth _ _ _ _ _ W) as [LW W2]. destruct (W2 k (k, Node g)) as (gb & FS & NK); [now apply nth_error_indexed|]. rewrite NK. cbn.
    unfold fill_span in FS. cbn [fst snd] in FS. apply bind_Ok in FS. destruct FS as (x' & _ & FS). now injection FS as <-.
Qed.

(** *** places *)
Lemma near_place m o i k g : elevate m = Ok o -> sound_cells m -> new_node m o i k g ->
  exists c x b y, is_cell m i c /\ place m c k = Ok (x, b) /\ coord2 o g y /\ (dist2 y x < / 10 ^ 20)%R.
Proof.
  intros EL SC G. destruct (elevate_facts _ _ EL) as (infos & F).
  destruct (new_node_fact _ _ _ _ _ _ F SC G) as (c & s & x & ow & e & b & C & S & P & OW & A & V & E). exists c, x, b. destruct e as [g'|p].
  - subst g'. exists x. destruct V as (_ & V1 & V2). repeat split; auto. apply near_iff, near_self. intros q _. reflexivity.
  - destruct E as (j & row & J & RW & LK). apply look_near in LK. assert (I : In g (near_nodes (concat (o_coords o)) row x)) by (rewrite LK; now left).
    apply near_nodes_in in I. destruct I as (_ & y & Y & N). exists y. apply vget_Ok in Y. destruct Y. repeat split; auto. now apply near_iff.
Qed.
Lemma exact_place m o i k g : elevate m = Ok o -> sound_cells m -> point_neighbours m -> same_places m -> conforming m -> new_node m o i k g ->
  exists c x b y, is_cell m i c /\ place m c k = Ok (x, b) /\ coord2 o g y /\ same_vec 3 y x.
Proof.
  intros EL SC PN SP CF G. destruct (elevate_facts _ _ EL) as (infos & F).
  destruct (new_node_fact _ _ _ _ _ _ F SC G) as (c & s & x & ow & e & b & C & S & P & _).
  destruct (resolved_conf _ _ _ _ _ _ _ _ _ _ F SC PN SP CF G C S P) as (h & q & d & s' & y & by_ & _ & _ & _ & _ & _ & SV & X).
  exists c, x, b, y. repeat split; auto; try apply X. intros z Z1. symmetry. auto.
Qed.

Lemma gather_mapM A B (f : A -> res B) l r ids x : mapM f l = Ok r -> gather l ids = Ok x -> exists y, gather r ids = Ok y /\ mapM f x = Ok y.
Proof.
  intros M. destruct (mapM_nth _ _ _ _ _ M) as [L N]. revert x. induction ids as [|k ids IH]; intros x H; cbn in H.
  - injection H as <-. exists []. auto.
  - destruct (nth_error l k) as [a|] eqn:K; [|discriminate]. cbn in H. apply bind_Ok in H. destruct H as (xs & H & E). injection E as <-.
    destruct (IH _ H) as (ys & G & Q). destruct (N _ _ K) as (b & Fb & Kb). exists (b :: ys). unfold gather in *. cbn [mapM]. rewrite Kb. cbn [bind]. rewrite G, Fb. cbn. now rewrite Q.
Qed.
Lemma span_mapM A B (f : A -> res B) t k l r x : mapM f l = Ok r -> ExtractElevNodeSpanNodes t k l = Ok x -> exists y, ExtractElevNodeSpanNodes t k r = Ok y /\ mapM f x = Ok y.
Proof.
  intros M H. unfold ExtractElevNodeSpanNodes in *. apply bind_Ok in H. destruct H as (u & A1 & H). apply bind_Ok in H. destruct H as (row & A2 & H). apply bind_Ok in H. destruct H as (ids & A3 & H).
  rewrite A1. cbn [bind]. rewrite A2. cbn [bind]. rewrite A3. cbn [bind]. eapply gather_mapM; eauto.
Qed.
(** without periods a new node is the mean of the nodes around it *)
Lemma plain_place m c k x b s : periodic m = false -> place m c k = Ok (x, b) -> is_span c k s -> exists xs, Forall2 (coord1 m) s xs /\ x = mean xs /\ b = 0.
Proof.
  intros NP P S. unfold place, coords_on_cell in P. rewrite NP in P. apply bind_Ok in P. destruct P as (cs & CS & P). apply bind_Ok in P. destruct P as (sp & SP & P). injection P as <- <-.
  destruct (span_mapM _ _ _ _ _ _ _ _ CS S) as (y & Y1 & Y2). assert (y = sp) by congruence. subst y. exists sp. split; auto.
  clear -Y2. revert sp Y2. induction s as [|g s IH]; intros sp H; cbn in H.
  - injection H as <-. constructor.
  - apply bind_Ok in H. destruct H as (v & V & H). apply bind_Ok in H. destruct H as (vs & VS & H). injection H as <-. constructor; auto. apply vget_Ok in V. exact V.
Qed.
Lemma mean_perm xs ys : Permutation xs ys -> same_vec 3 (mean xs) (mean ys).
Proof.
  intros P i _. unfold mean. rewrite (Permutation_length P). f_equal. induction P; cbn; try lra.
Qed.
Lemma Forall2_perm A B (R : A -> B -> Prop) (fn : forall a b b', R a b -> R a b' -> b = b') : forall l l', Permutation l l' -> forall x y, Forall2 R l x -> Forall2 R l' y -> Permutation x y.
Proof.
  induction 1 as [|a l l' P IH|a b l|l l' l'' P1 IH1 P2 IH2]; intros x y X Y.
  - inversion X; subst. inversion Y; subst. constructor.
  - inversion X as [|? u ? us A1 A2]; subst. inversion Y as [|? v ? vs B1 B2]; subst. rewrite (fn _ _ _ A1 B1). constructor. auto.
  - inversion X as [|? u ? us A1 A2]; subst. inversion A2 as [|? u' ? us' A3 A4]; subst. inversion Y as [|? v ? vs B1 B2]; subst. inversion B2 as [|? v' ? vs' B3 B4]; subst.
    rewrite (fn _ _ _ A1 B3), (fn _ _ _ A3 B1). assert (us' = vs') as ->.
    { clear -A4 B4 fn. revert vs' B4. induction A4; intros vs' B4; inversion B4; subst; auto. f_equal; eauto. }
    apply perm_swap.
  - assert (exists z, Forall2 R l' z) as (z & Z1).
    { clear -P1 X. revert x X. induction P1 as [|a l l' P IH|a b l|l l' l'' P1 IH1 P2 IH2]; intros w W.
      - eauto.
      - inversion W as [|? u ? us A1 A2]; subst. destruct (IH _ A2). eauto.
      - inversion W as [|? u ? us A1 A2]; subst. inversion A2; subst. eauto.
      - destruct (IH1 _ W). eauto. }
    rewrite (IH1 _ _ X Z1). eauto.
Qed.
Lemma coord1_fun m g x y : coord1 m g x -> coord1 m g y -> x = y.
Proof. intros [_ A] [_ B]. congruence. Qed.
Lemma plain_same_places m : periodic m = false -> same_places m.
Proof.
  intros NP i j a b k l s s' [x bx] [y by_] Ca Cb Sa Sb P Px Py. cbn [fst].
  destruct (plain_place _ _ _ _ _ _ NP Px Sa) as (xs & X & -> & _). destruct (plain_place _ _ _ _ _ _ NP Py Sb) as (ys & Y & -> & _).
  apply mean_perm. eapply Forall2_perm; [apply (coord1_fun m)| |exact X|exact Y]. exact P.
Qed.
(** with periods, the node moved by its bits is the mean of the nodes moved by theirs *)
Lemma bits_back p x y b : well_formed 3 p -> GetCoordBackByBits p x b = Ok y -> exists z, GetCoordByBits p y b = Ok z /\ same_vec 3 z x.
Proof.
  intros W H. destruct (bits_coord p b x W) as [_ (z & Z1 & Z2)]. rewrite H in Z1. cbn [bind] in Z1. eauto.
Qed.
