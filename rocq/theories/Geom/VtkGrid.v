From Coq Require Import List ZArith Bool Arith Permutation Lia.
From Verif Require Import Base.Prelude Base.PreludeFacts Base.MPIModel Geom.ElemModel Geom.AdjModel Geom.VtkModel Geom.VtkSpec Geom.VtkPut Geom.VtkFlags Geom.VtkNumber Geom.VtkRecreate Geom.VtkFile.
Import ListNotations.
Local Open Scope Z_scope.

Section Grid.
Variable P : Type.
Variable turn : P -> Z -> res P.
Notation mesh := (list (part P)).
Implicit Types m : mesh.

(** What one rank lists for cell [c]. *)
Definition drawn m (periodic : bool) (all : list (Z * Z)) (r : nat) (c : cell) (ty : Z) (ids : list Z) : Prop :=
  vtk_type (c_type c) = Some ty /\ exists s ps, vtk_shape ty = Some (s, ps) /\ s = ElemType_to_ParamSpace (c_type c) /\ length ids = length ps /\
    forall k id, nth_error ids k = Some id -> exists n g b,
      belongs (c_type c) n ty k /\ has_corner m periodic r c n g b /\ 0 <= id /\ nth_error all (Z.to_nat id) = Some (g, b).

Lemma conn_ok m periodic all r p new ks : distributed m -> nth_error m r = Some p -> shows P turn m periodic all r p new ks ->
  (periodic = false -> forall g, 0 <= g < zlen (all_nodes m) -> nth_error all (Z.to_nat g) = Some (g, 0)) ->
  exists idss tys, conn_part (Z.of_nat (nodes_before m r)) p new [] = Ok (tys, map zlen idss, concat idss) /\
    length idss = length (p_cells p) /\ length tys = length (p_cells p) /\
    forall j c, nth_error (p_cells p) j = Some c -> exists ty ids, nth_error tys j = Some ty /\ nth_error idss j = Some ids /\ drawn m periodic all r c ty ids.
Proof.
  intros D Hp S A. unfold conn_part.
  assert (C : forall j c, nth_error (p_cells p) j = Some c -> c_type c <> UnknownElem /\ length (c_nodes c) = GetNumNodes (c_type c) /\
      length (c_bits c) = length (c_nodes c) /\ Forall (fun l => 0 <= l < nOwn p + zlen (p_ghosts p)) (c_nodes c) /\ Forall (fun b => 0 <= b < 8) (c_bits c)).
  { intros j c H. apply (d_cells _ _ D r j c p); auto. exists p. auto. }
  destruct (mapM_Ok_ex _ _ (fun c => ToVTKVertsAndData (c_type c) (c_nodes c)) (p_cells p)) as [heads H1].
  { intros c I. apply In_nth_error in I as [j I]. destruct (C _ _ I) as (T & L & _). destruct (table_ok _ T) as (ty & ns & s & ps & E & _ & _ & _ & _ & R).
    destruct (verts_ok (c_type c) (c_nodes c) ty ns E) as (v & V & _); [|eauto]. intros k n K. unfold zlen. rewrite L. apply (R _ _ K). }
  rewrite H1. cbn [bind]. destruct (mapM_nth _ _ _ _ _ H1) as [L1 N1].
  set (rows := match new with None => map (fun _ => None) (p_cells p) | Some n => map (fun x => Some x) (n_cells n) end).
  assert (RW : length rows = length (p_cells p) /\ forall j c, nth_error (p_cells p) j = Some c -> exists o, nth_error rows j = Some o /\
     match o with None => periodic = false | Some row => periodic = true /\ length row = length (c_nodes c) /\
       forall n id, nth_error row n = Some id -> exists g b, has_corner m true r c n g b /\ 0 <= id /\ nth_error all (Z.to_nat id) = Some (g, b) end).
  { pose proof (s_rows _ _ _ _ _ _ _ _ _ S) as X. unfold rows. destruct new as [nw|].
    - destruct X as (X1 & X2 & X3). rewrite map_length. split; auto. intros j c H. destruct (nth_error_lt_Some _ (n_cells nw) j) as [row R]; [apply in_nth in H; lia|].
      exists (Some row). rewrite nth_error_map, R. split; auto. destruct (X3 _ _ _ H R) as [Y1 Y2]. auto.
    - rewrite map_length. split; auto. intros j c H. exists None. rewrite nth_error_map, H. auto. }
  destruct RW as [LR RW].
  assert (ONE : forall j c o, nth_error (p_cells p) j = Some c -> nth_error rows j = Some o -> exists ids v ty, conn_cell (Z.of_nat (nodes_before m r)) p (c, o) = Ok ids /\
     ToVTKVertsAndData (c_type c) (c_nodes c) = Ok (ty, v) /\ length ids = length v /\ drawn m periodic all r c ty ids).
  { intros j c o H Ho. destruct (C _ _ H) as (T & L & Lb & Fn & Fb). destruct (table_ok _ T) as (ty & ns & s & ps & E & E0 & E2 & E3 & E4 & R).
    destruct (verts_ok (c_type c) (c_nodes c) ty ns E) as (v & V & Lv & Nv). { intros k n K. unfold zlen. rewrite L. apply (R _ _ K). }
    destruct (RW _ _ H) as (o' & Ho' & X). assert (o' = o) by congruence. subst o'. destruct o as [row|]; unfold conn_cell; cbn [fst snd].
    - destruct X as (-> & Lrow & X). destruct (verts_ok (c_type c) row ty ns E) as (w & W & Lw & Nw). { intros k n K. unfold zlen. rewrite Lrow, L. apply (R _ _ K). }
      rewrite W. cbn [bind snd]. exists w, v, ty. split; auto. split; auto. split; [lia|]. split; auto. exists s, ps. repeat split; auto; [lia|].
      intros k id K. destruct (nth_error_lt_Some _ ns k) as [n Hn]; [apply in_nth in K; lia|]. destruct (Nw _ _ Hn) as (x & X1 & X2). assert (x = id) by congruence. subst x.
      destruct (X _ _ X2) as (g & b & G1 & G2 & G3). exists (Z.to_nat n), g, b. split; [apply (R _ _ Hn)|auto].
    - rewrite V. cbn [bind snd]. rewrite Forall_forall in Fn.
      assert (LG : forall l, 0 <= l < nOwn p + zlen (p_ghosts p) -> exists g, local2global (Z.of_nat (nodes_before m r)) p l = Ok g /\ node_number m r l g /\ 0 <= g < zlen (all_nodes m)).
      { intros l Hl. unfold local2global, UnInitIndex. destruct (Z.eqb_spec l int64_min) as [Q|_]; [vm_compute in Q; lia|]. destruct (Z.ltb_spec l 0); [lia|].
        destruct (Z.ltb_spec l (nOwn p)).
        - eexists. split; [reflexivity|]. split; [exists p; split; auto|]. pose proof (before_all P m r p Hp). unfold nOwn, zlen in *. lia.
        - destruct (vget_ok _ (p_ghosts p) (l - nOwn p)) as (g & G1 & G2); [lia|]. exists g. split.
          + apply vget_Ok in G1 as [G1 _]. unfold vat. destruct (Z.ltb_spec (l - nOwn p) 0); [lia|]. rewrite G2. auto.
          + split; [exists p; split; auto|]. apply nth_error_In in G2. apply (d_ghosts _ _ D r p g Hp G2). }
      assert (Vin : forall l, In l v -> 0 <= l < nOwn p + zlen (p_ghosts p)).
      { intros l I. apply In_nth_error in I as [k I]. destruct (nth_error_lt_Some _ ns k) as [n Hn]; [apply in_nth in I; lia|].
        destruct (Nv _ _ Hn) as (x & X1 & X2). assert (x = l) by congruence. subst x. apply Fn. eapply nth_error_In; eauto. }
      destruct (mapM_Ok_ex _ _ (local2global (Z.of_nat (nodes_before m r)) p) v) as [ids I1]. { intros l I. destruct (LG l (Vin l I)) as (g & G & _). eauto. }
      destruct (mapM_nth _ _ _ _ _ I1) as [LI NI]. exists ids, v, ty. split; auto. split; auto. split; auto. split; auto. exists s, ps. repeat split; auto; [lia|].
      intros k id K. destruct (nth_error_lt_Some _ ns k) as [n Hn]; [apply in_nth in K; lia|]. destruct (Nv _ _ Hn) as (l & X1 & X2).
      destruct (NI _ _ X1) as (y & Y1 & Y2). assert (y = id) by congruence. subst y. destruct (LG l (Vin l (nth_error_In _ _ X1))) as (g & G1 & G2 & G3).
      assert (g = id) by congruence. subst g. exists (Z.to_nat n), id, 0. split; [apply (R _ _ Hn)|]. split; [|split; [lia|auto]].
      exists l. rewrite X. auto. }
  destruct (mapM_Ok_ex _ _ (conn_cell (Z.of_nat (nodes_before m r)) p) (combine (p_cells p) rows)) as [idss H2].
  { intros [c o] I. apply in_combine_nth in I as (j & I1 & I2). destruct (ONE _ _ _ I1 I2) as (ids & v & ty & X & _). eauto. }
  rewrite H2. cbn [bind]. destruct (mapM_nth _ _ _ _ _ H2) as [L2 N2]. rewrite combine_length in L2.
  exists idss, (map fst heads). cbn [app].
  assert (ALL : forall j c, nth_error (p_cells p) j = Some c -> exists h ids, nth_error heads j = Some h /\ nth_error idss j = Some ids /\ length ids = length (snd h) /\ drawn m periodic all r c (fst h) ids).
  { intros j c H. destruct (N1 _ _ H) as (h & Hh1 & Hh2). destruct (nth_error_lt_Some _ rows j) as [o Ho]; [apply in_nth in H; lia|].
    destruct (N2 j (c, o)) as (ids & I1 & I2); [apply nth_combine_eq; auto|]. destruct (ONE _ _ _ H Ho) as (ids' & v & ty & X1 & X2 & X3 & X4).
    assert (ids' = ids) by congruence. assert (h = (ty, v)) by congruence. subst. exists (ty, v), ids. auto. }
  split.
  - f_equal. f_equal. f_equal. apply nth_error_ext. intros j. rewrite !nth_error_map. destruct (nth_error (p_cells p) j) as [c|] eqn:H.
    + destruct (ALL _ _ H) as (h & ids & X1 & X2 & X3 & _). rewrite X1, X2. cbn. unfold zlen. rewrite X3. auto.
    + apply nth_error_None in H. rewrite (proj2 (nth_error_None heads j)), (proj2 (nth_error_None idss j)); auto; lia.
  - split; [lia|]. split; [rewrite map_length; lia|]. intros j c H. destruct (ALL _ _ H) as (h & ids & X1 & X2 & X3 & X4).
    exists (fst h), ids. rewrite nth_error_map, X1. auto.
Qed.

(** ** All ranks *)
Lemma exist_list A B (R : nat -> A -> B -> Prop) : forall (l : list A), (forall i x, nth_error l i = Some x -> exists y, R i x y) ->
  exists ys, length ys = length l /\ forall i x y, nth_error l i = Some x -> nth_error ys i = Some y -> R i x y.
Proof.
  intros l. revert R. induction l as [|x l IH]; intros R H.
  - exists []. split; auto. intros [|i] ? ? E; discriminate.
  - destruct (H 0%nat x eq_refl) as [y Hy]. destruct (IH (fun i => R (S i))) as (ys & L & F). { intros i z Hz. apply (H (S i) z Hz). }
    exists (y :: ys). split; [cbn; auto|]. intros [|i] a b Ha Hb; cbn in *.
    + congruence.
    + eapply F; eauto.
Qed.

Lemma cells_before_zsum m r : zsum (firstn r (map (fun p => zlen (p_cells p)) m)) = Z.of_nat (cells_before m r).
Proof.
  unfold cells_before. rewrite firstn_map. rewrite <- zsum_zlen_nat. rewrite map_map. auto.
Qed.
Lemma zsum_all l : zsum l = zsum (firstn (length l) l).
Proof. rewrite firstn_all. auto. Qed.

Lemma nth_of_error A (l : list A) r x d : nth_error l r = Some x -> nth r l d = x.
Proof. intros H. eapply nth_error_nth; eauto. Qed.

Lemma same_zlen A B (l : list (list A)) (l' : list (list B)) : length l = length l' -> (forall r a b, nth_error l r = Some a -> nth_error l' r = Some b -> length a = length b) ->
  map zlen l = map zlen l'.
Proof.
  intros L H. apply nth_error_ext. intros r. rewrite !nth_error_map. destruct (nth_error l r) as [a|] eqn:E.
  - destruct (nth_error_lt_Some _ l' r) as [b Hb]; [apply in_nth in E; lia|]. rewrite Hb. cbn. unfold zlen. rewrite (H _ _ _ E Hb). auto.
  - apply nth_error_None in E. rewrite (proj2 (nth_error_None l' r)) by lia. auto.
Qed.

Lemma no_none A (l : list A) : ~ In None (map Some l).
Proof. intros I. apply in_map_iff in I as (x & Q & _). discriminate. Qed.

Theorem file_ok m periodic (news : list (option (newpart P))) kss : distributed m -> length news = length m -> length kss = length m ->
  (forall r p new ks, nth_error m r = Some p -> nth_error news r = Some new -> nth_error kss r = Some ks -> shows P turn m periodic (concat kss) r p new ks) ->
  (periodic = false -> forall g, 0 <= g < zlen (all_nodes m) -> nth_error (concat kss) (Z.to_nat g) = Some (g, 0)) ->
  NoDup (concat kss) ->
  (forall g b, In (g, b) (concat kss) <-> 0 <= g < zlen (all_nodes m) /\ (b = 0 \/ exists r j c n, cell_of m r j c /\ has_corner m periodic r c n g b)) ->
  exists vs, build m news (map (fun _ => []) m) = Ok vs /\
   (exists f, (forall s1 s2 s3 s4, any_order m s1 -> any_order m s2 -> any_order m s3 -> any_order m s4 -> print_grid m news vs s1 s2 s3 s4 = Ok f) /\
      picture turn m periodic (concat kss) f) /\
   (forall D (data : nat -> Z -> D), exists vals, (forall s, any_order m s -> print_cells m vs data s = Ok vals) /\ length vals = cells_before m (length m) /\
      forall r j c, cell_of m r j c -> nth_error vals (cells_before m r + j) = Some (Some (data r (Z.of_nat j)))) /\
   (forall D (data : nat -> Z -> D), exists vals, (forall s, any_order m s -> print_points m news vs data s = Ok vals) /\ length vals = length (concat kss) /\
      forall k g b, nth_error (concat kss) k = Some (g, b) -> exists r p i, nth_error m r = Some p /\ 0 <= i < nOwn p /\ g = Z.of_nat (nodes_before m r) + i /\
        nth_error vals k = Some (Some (data r i))).
Proof.
  intros D LN LK SH PL ND KI.
  assert (SH' : forall r p, nth_error m r = Some p -> exists new ks, nth_error news r = Some new /\ nth_error kss r = Some ks /\ shows P turn m periodic (concat kss) r p new ks).
  { intros r p H. pose proof (in_nth _ _ _ _ H). destruct (nth_error_lt_Some _ news r) as [new Hn]; [lia|]. destruct (nth_error_lt_Some _ kss r) as [ks Hk]; [lia|]. exists new, ks. split; auto. }
  (* what each rank lists *)
  destruct (exist_list (part P) (list (list Z) * list Z) (fun r p q => forall new, nth_error news r = Some new ->
     conn_part (Z.of_nat (nodes_before m r)) p new [] = Ok (snd q, map zlen (fst q), concat (fst q)) /\
     length (fst q) = length (p_cells p) /\ length (snd q) = length (p_cells p) /\
     forall j c, nth_error (p_cells p) j = Some c -> exists ty ids, nth_error (snd q) j = Some ty /\ nth_error (fst q) j = Some ids /\ drawn m periodic (concat kss) r c ty ids) m)
    as (loc & LL & LOC).
  { intros r p Hp. destruct (SH' _ _ Hp) as (new & ks & Hn & Hk & S). destruct (conn_ok m periodic _ r p new ks D Hp S PL) as (idss & tys & X).
    exists (idss, tys). intros new' Hn'. assert (new' = new) by congruence. subst. exact X. }
  assert (LC : forall r p, nth_error m r = Some p -> exists q, nth_error loc r = Some q /\ length (fst q) = length (p_cells p) /\ length (snd q) = length (p_cells p)).
  { intros r p Hp. destruct (nth_error_lt_Some _ loc r) as [q Hq]; [apply in_nth in Hp; lia|]. exists q. split; auto.
    destruct (SH' _ _ Hp) as (new & _ & Hn & _). destruct (LOC _ _ _ Hp Hq new Hn) as (_ & X1 & X2 & _). auto. }
  set (trip := fun q : list (list Z) * list Z => (snd q, map zlen (fst q), concat (fst q))).
  assert (M : mapM (fun q => let '(s, (p, (n, o))) := q in conn_part s p n o)
              (combine (starts (map nOwn m)) (combine m (combine news (map (fun _ => []) m)))) = Ok (map trip loc)).
  { assert (G : forall (h : Z * (part P * (option (newpart P) * list Z)) -> res (list Z * list Z * list Z)) l ys, length l = length ys -> (forall i x y, nth_error l i = Some x -> nth_error ys i = Some y -> h x = Ok y) -> mapM h l = Ok ys).
    { clear. intros h. induction l as [|x l IH]; intros [|y ys] L H; cbn in L; try discriminate; auto. cbn. rewrite (H 0%nat x y eq_refl eq_refl). cbn [bind].
      rewrite (IH ys); auto. intros i. apply (H (S i)). }
    apply G.
    - rewrite !combine_length, !map_length. unfold starts. rewrite psums_length, map_length. lia.
    - intros r [s [p [n o]]] y H1 H2. apply nth_combine_some in H1 as [H1 H3]. apply nth_combine_some in H3 as [H3 H4]. apply nth_combine_some in H4 as [H4 H5].
      rewrite nth_error_map in H5. rewrite H3 in H5. cbn in H5. injection H5 as <-.
      rewrite starts_nth in H1 by (apply in_nth in H3; lia). injection H1 as <-. rewrite nth_error_map in H2. destruct (nth_error loc r) as [q|] eqn:Hq; [|discriminate].
      cbn in H2. injection H2 as <-. destruct (LOC _ _ _ H3 Hq n H4) as (X & _). exact X. }
  unfold build. rewrite M. cbn [bind]. eexists. split; [reflexivity|].
  set (sizes := map (fun t : list Z * list Z * list Z => zsum (snd (fst t))) (map trip loc)).
  set (nodes := map out_size (combine m news)).
  set (cells := map (fun p => zlen (p_cells p)) m).
  set (conns := map (fun t : list Z * list Z * list Z => zlen (snd t)) (map trip loc)).
  set (vs := map _ _).
  (* totals *)
  assert (SZ : sizes = map zlen (map (fun q : list (list Z) * list Z => concat (fst q)) loc)).
  { unfold sizes. rewrite !map_map. apply map_ext. intros q. cbn. rewrite zlen_concat. auto. }
  assert (CN : conns = sizes). { unfold conns. rewrite SZ, !map_map. auto. }
  assert (NO : nodes = map zlen kss).
  { unfold nodes. apply nth_error_ext. intros r. rewrite !nth_error_map. destruct (nth_error m r) as [p|] eqn:Hp.
    - destruct (SH' _ _ Hp) as (new & ks & Hn & Hk & S). rewrite (nth_combine_eq _ _ _ _ r p new), Hk; auto. cbn. f_equal. apply (s_size _ _ _ _ _ _ _ _ _ S).
    - apply nth_error_None in Hp. rewrite (proj2 (nth_error_None (combine m news) r)), (proj2 (nth_error_None kss r)); auto; [lia|]. rewrite combine_length. lia. }
  assert (LV : length vs = length m).
  { unfold vs. rewrite map_length, !combine_length, map_length, !exclusive_len. unfold sizes, nodes, cells. rewrite !map_length, combine_length. lia. }
  assert (V : forall r v p q, nth_error vs r = Some v -> nth_error m r = Some p -> nth_error loc r = Some q ->
     v_off v = psums (zsum (firstn r sizes)) (map zlen (fst q)) /\ v_type v = snd q /\ v_conn v = concat (fst q) /\
     v_node_off v = zsum (firstn r nodes) /\ v_cell_off v = Z.of_nat (cells_before m r) /\
     v_conn_size v = zsum sizes /\ v_ncell v = zsum cells /\ v_nnode v = zsum nodes).
  { intros r v p q Hv Hp Hq. unfold vs in Hv. rewrite nth_error_map in Hv. destruct (nth_error (combine (map trip loc) _) r) as [[t [so [no co]]]|] eqn:X; [|discriminate].
    cbn in Hv. injection Hv as <-. apply nth_combine_some in X as [X1 X2]. apply nth_combine_some in X2 as [X2 X3]. apply nth_combine_some in X3 as [X3 X4].
    rewrite nth_error_map, Hq in X1. cbn in X1. injection X1 as <-.
    assert (E1 : exists a, nth_error sizes r = Some a) by (apply nth_error_lt_Some; apply in_nth in X2; rewrite exclusive_len in X2; auto).
    assert (E2 : exists a, nth_error nodes r = Some a) by (apply nth_error_lt_Some; apply in_nth in X3; rewrite exclusive_len in X3; auto).
    assert (E3 : exists a, nth_error cells r = Some a) by (apply nth_error_lt_Some; apply in_nth in X4; rewrite exclusive_len in X4; auto).
    destruct E1 as [a1 E1], E2 as [a2 E2], E3 as [a3 E3]. apply exclusive_nth in E1, E2, E3.
    rewrite E1 in X2. rewrite E2 in X3. rewrite E3 in X4. injection X2 as <-. injection X3 as <-. injection X4 as <-. cbn.
    rewrite map_add_psums, Z.add_0_l, CN. unfold cells. rewrite cells_before_zsum. repeat split; auto. }
  assert (V' : forall r p, nth_error m r = Some p -> exists v q, nth_error vs r = Some v /\ nth_error loc r = Some q).
  { intros r p Hp. apply in_nth in Hp. destruct (nth_error_lt_Some _ vs r) as [v Hv]; [lia|]. destruct (nth_error_lt_Some _ loc r) as [q Hq]; [lia|]. eauto. }
  assert (PV : forall r v, nth_error vs r = Some v -> exists p q, nth_error m r = Some p /\ nth_error loc r = Some q).
  { intros r v H. apply in_nth in H. destruct (nth_error_lt_Some _ m r) as [p Hp]; [lia|]. destruct (nth_error_lt_Some _ loc r) as [q Hq]; [lia|]. eauto. }
  clearbody vs. destruct vs as [|v0 vs']. { destruct m; [exfalso; apply (d_some _ _ D); auto|discriminate]. }
  assert (TOT : v_conn_size v0 = zsum sizes /\ v_ncell v0 = zsum cells /\ v_nnode v0 = zsum nodes).
  { destruct (PV 0%nat v0 eq_refl) as (p & q & Hp & Hq). destruct (V 0%nat v0 p q eq_refl Hp Hq) as (_ & _ & _ & _ & _ & X1 & X2 & X3). auto. }
  destruct TOT as (T1 & T2 & T3).
  set (VS := v0 :: vs') in *.
  assert (CB : zsum cells = Z.of_nat (cells_before m (length m))).
  { rewrite (zsum_all cells). unfold cells. rewrite map_length. apply cells_before_zsum. }
  set (allids := concat (map fst loc)). set (alltys := concat (map snd loc)).
  assert (CF : map (@length _) (map fst loc) = map (fun p => length (p_cells p)) m /\ map (@length _) (map snd loc) = map (fun p => length (p_cells p)) m).
  { split; apply nth_error_ext; intros r; rewrite !nth_error_map; destruct (nth_error m r) as [p|] eqn:Hp.
    1,3: destruct (LC _ _ Hp) as (q & Hq & A1 & A2); rewrite Hq; cbn; congruence.
    all: apply nth_error_None in Hp; rewrite (proj2 (nth_error_None loc r)) by lia; auto. }
  destruct CF as [CF1 CF2].
  assert (CL : forall A (ll : list (list A)), length (concat ll) = list_sum (map (@length A) ll)).
  { clear. induction ll; auto. cbn. rewrite app_length. f_equal. auto. }
  assert (CB1 : forall r, length (concat (firstn r (map fst loc))) = cells_before m r).
  { intros r. unfold cells_before. rewrite !CL, map_map, <- !firstn_map, CF1. auto. }
  assert (CB2 : forall r, length (concat (firstn r (map snd loc))) = cells_before m r).
  { intros r. unfold cells_before. rewrite !CL, map_map, <- !firstn_map, CF2. auto. }
  assert (LA : length allids = cells_before m (length m)). { rewrite <- CB1, firstn_all2; auto. rewrite map_length. lia. }
  assert (LT : length alltys = cells_before m (length m)). { rewrite <- CB2, firstn_all2; auto. rewrite map_length. lia. }
  assert (AI : forall r j p q, nth_error m r = Some p -> nth_error loc r = Some q -> (j < length (p_cells p))%nat ->
    nth_error allids (cells_before m r + j) = nth_error (fst q) j /\ nth_error alltys (cells_before m r + j) = nth_error (snd q) j).
  { intros r j p q Hp Hq Hj. destruct (LC _ _ Hp) as (q' & Hq' & A1 & A2). assert (q' = q) by congruence. subst q'. split.
    - rewrite <- CB1. unfold allids. rewrite (nth_error_concat _ _ r j (fst q)); auto; [|lia]. rewrite nth_error_map, Hq. auto.
    - rewrite <- CB2. unfold alltys. rewrite (nth_error_concat _ _ r j (snd q)); auto; [|lia]. rewrite nth_error_map, Hq. auto. }
  assert (SS : zsum sizes = Z.of_nat (length (concat allids))).
  { rewrite SZ, zsum_zlen_nat. unfold allids. f_equal. f_equal. clear. induction loc; cbn; auto. rewrite IHloc, concat_app. auto. }
  set (szs := map (fun q : list (list Z) * list Z => map zlen (fst q)) loc).
  assert (SC : concat szs = map zlen allids). { unfold szs, allids. rewrite concat_map, map_map. auto. }
  assert (SB : forall r, zsum (concat (firstn r szs)) = zsum (firstn r sizes)).
  { intros r. rewrite SZ. unfold szs. rewrite !map_map, !firstn_map. clear. generalize (firstn r loc) as l. induction l as [|q l IH]; auto.
    cbn [map concat]. rewrite zsum_app, IH, <- zlen_concat. auto. }
  assert (ZB : forall r, zsum (map zlen (firstn r szs)) = Z.of_nat (cells_before m r)).
  { intros r. rewrite zsum_zlen_nat. f_equal. rewrite <- CB1. unfold szs. rewrite firstn_map, firstn_map, !CL, !map_map. f_equal. apply map_ext. intros. rewrite map_length. auto. }
  (* the parts of the points *)
  set (ppts := map out_points (combine m news)).
  assert (PP : map zlen ppts = nodes).
  { rewrite NO. apply same_zlen. { unfold ppts. rewrite map_length, combine_length. lia. }
    intros r a b Ha Hb. unfold ppts in Ha. rewrite nth_error_map in Ha. destruct (nth_error (combine m news) r) as [[p new]|] eqn:X; [|discriminate].
    apply nth_combine_some in X as [X1 X2]. cbn in Ha. injection Ha as <-. specialize (SH _ _ _ _ X1 X2 Hb). apply (s_len _ _ _ _ _ _ _ _ _ SH). }
  assert (NZ : zsum nodes = zlen (concat kss)). { rewrite NO, <- zlen_concat. auto. }
  assert (ORD : forall s A (parts : list (list A)), any_order m s -> length parts = length m -> Permutation s (seq 0 (length parts))).
  { intros s A parts O ->. exact O. }
  split; [|split].
  - (* the grid *)
    exists {| f_ncells := zsum cells; f_npoints := zsum nodes; f_nconn := zsum sizes;
          f_points := concat ppts; f_offsets := map Some (psums 0 (map zlen allids));
          f_types := map Some alltys; f_conn := map Some (concat allids) |}.
    split.
    + intros s1 s2 s3 s4 O1 O2 O3 O4. unfold print_grid, VS. fold VS.
      assert (A1 : (zsum (map out_size (combine m news)) =? v_nnode v0) = true) by (rewrite T3; apply Z.eqb_refl). rewrite A1.
      assert (A2 : (zsum (map (fun p => zlen (p_cells p)) m) =? v_ncell v0) = true) by (rewrite T2; apply Z.eqb_refl). rewrite A2. cbn [assert_ bind].
      rewrite (put_ok _ ppts).
      2:{ unfold ppts. rewrite !map_length, !combine_length. lia. }
      2:{ rewrite T3, PP. auto. }
      2:{ intros r c Hc. rewrite nth_error_map in Hc. destruct (nth_error (combine VS (combine m news)) r) as [[v [p new]]|] eqn:X; [|discriminate].
          cbn in Hc. injection Hc as <-. apply nth_combine_some in X as [X1 X2]. apply nth_combine_some in X2 as [X2 X3]. cbn [fst snd].
          destruct (PV _ _ X1) as (_ & q & _ & Hq). destruct (V _ _ _ _ X1 X2 Hq) as (_ & _ & _ & Y & _). rewrite Y. rewrite <- firstn_map, PP. split; auto.
          symmetry. apply nth_of_error. unfold ppts. rewrite nth_error_map, (nth_combine_eq _ _ _ _ r p new); auto. }
      2:{ apply ORD; auto. unfold ppts. rewrite map_length, combine_length. lia. }
      cbn [bind].
      assert (A3 : forallb (fun q => zlen (v_off (fst q)) =? zlen (p_cells (snd q)) + 1) (combine VS m) = true).
      { apply forallb_forall. intros [v p] I. apply in_combine_nth in I as (r & I1 & I2). cbn [fst snd]. destruct (LC _ _ I2) as (q & Hq & A3 & A4).
        destruct (V _ _ _ _ I1 I2 Hq) as (Y & _). rewrite Y. apply Z.eqb_eq. unfold zlen. rewrite psums_length, map_length. lia. }
      rewrite A3. cbn [assert_ bind].
      set (opar := map (map (@Some Z)) (oparts 0 szs)).
      assert (LS : length szs = length m) by (unfold szs; rewrite map_length; auto).
      assert (LO : length opar = length m) by (unfold opar; rewrite map_length, oparts_len; auto).
      assert (ZO : forall n, map zlen (firstn n opar) = map zlen (firstn n (oparts 0 szs))).
      { intros n. unfold opar. rewrite firstn_map, map_map. apply map_ext. intros. unfold zlen. rewrite map_length. auto. }
      assert (CO : concat opar = map Some (psums 0 (map zlen allids))).
      { unfold opar. rewrite <- concat_map, oparts_concat, SC; auto. intros Q. rewrite Q in LS. destruct m; [apply (d_some _ _ D); auto|discriminate]. }
      rewrite (put_ok _ opar).
      2:{ rewrite map_length, !combine_length, seq_length. lia. }
      2:{ rewrite <- zlen_concat, CO, T2, CB. unfold zlen. rewrite map_length, psums_length, map_length, LA. lia. }
      2:{ intros r c Hc. rewrite nth_error_map in Hc. destruct (nth_error (combine (seq 0 (length VS)) (combine VS m)) r) as [[r' [v p]]|] eqn:X; [|discriminate].
          cbn in Hc. injection Hc as <-. apply nth_combine_some in X as [X0 X2]. apply nth_combine_some in X2 as [X1 X2]. cbn [fst snd].
          rewrite nth_error_seq in X0. destruct (Nat.ltb_spec r (length VS)) as [Lr|]; [|discriminate]. injection X0 as <-. cbn [Nat.add].
          destruct (LC _ _ X2) as (q & Hq & B1 & B2). destruct (V _ _ _ _ X1 X2 Hq) as (Y1 & _ & _ & _ & Y5 & _). rewrite Y1, Y5. split.
          - rewrite ZO, oparts_before by lia. rewrite ZB. auto.
          - symmetry. apply nth_of_error. unfold opar. rewrite nth_error_map. rewrite (oparts_nth szs 0 r (map zlen (fst q))).
            + replace (length vs' - 0)%nat with (length m - 1)%nat by (cbn in LV; lia). cbn [option_map]. rewrite SB, map_length, B1, LS, Z.add_0_l. auto.
            + unfold szs. rewrite nth_error_map, Hq. auto. }
      2:{ apply ORD; auto. }
      cbn [bind]. rewrite CO.
      set (tpar := map (map (@Some Z)) (map snd loc)).
      assert (ZT : forall n, map zlen (firstn n tpar) = map zlen (firstn n (map snd loc))).
      { intros n. unfold tpar. rewrite (firstn_map (map Some)), map_map. apply map_ext. intros. unfold zlen. rewrite map_length. auto. }
      rewrite (put_ok _ tpar).
      2:{ unfold tpar. rewrite !map_length. lia. }
      2:{ unfold tpar. rewrite <- zlen_concat, <- concat_map. unfold zlen. rewrite map_length. fold alltys. rewrite LT, T2, CB. auto. }
      2:{ intros r c Hc. rewrite nth_error_map in Hc. destruct (nth_error VS r) as [v|] eqn:X1; [|discriminate]. cbn in Hc. injection Hc as <-. cbn [fst snd].
          destruct (PV _ _ X1) as (p & q & Hp & Hq). destruct (V _ _ _ _ X1 Hp Hq) as (_ & Y2 & _ & _ & Y5 & _). rewrite Y2, Y5. split.
          - rewrite ZT, zsum_zlen_nat, CB2. auto.
          - symmetry. apply nth_of_error. unfold tpar. rewrite !nth_error_map, Hq. auto. }
      2:{ apply ORD; auto. unfold tpar. rewrite !map_length. auto. }
      cbn [bind]. replace (concat tpar) with (map Some alltys) by (unfold tpar, alltys; rewrite <- concat_map; auto).
      set (cpar := map (map (@Some Z)) (map (fun q : list (list Z) * list Z => concat (fst q)) loc)).
      assert (CC : concat cpar = map Some (concat allids)).
      { unfold cpar. rewrite <- concat_map. f_equal. unfold allids. clear. induction loc; cbn; auto. rewrite IHloc, concat_app. auto. }
      assert (ZC : map zlen cpar = sizes).
      { rewrite SZ. unfold cpar. rewrite (map_map _ zlen). apply map_ext. intros. unfold zlen. rewrite map_length. auto. }
      rewrite (put_ok _ cpar).
      2:{ unfold cpar. rewrite !map_length. lia. }
      2:{ rewrite ZC, T1. auto. }
      2:{ intros r c Hc. rewrite nth_error_map in Hc. destruct (nth_error VS r) as [v|] eqn:X1; [|discriminate]. cbn in Hc. injection Hc as <-. cbn [fst snd].
          destruct (PV _ _ X1) as (p & q & Hp & Hq). destruct (V _ _ _ _ X1 Hp Hq) as (Y1 & _ & Y3 & _). rewrite Y1, Y3. split.
          - rewrite <- firstn_map, ZC. destruct (fst q); auto.
          - symmetry. apply nth_of_error. unfold cpar. rewrite !nth_error_map, Hq. auto. }
      2:{ apply ORD; auto. unfold cpar. rewrite !map_length. auto. }
      cbn [bind]. rewrite CC, T1, T2, T3. auto.
    + (* the picture *)
      assert (LP : forall k g b, nth_error (concat kss) k = Some (g, b) -> exists y, nth_error (concat ppts) k = Some (Some y) /\ place turn m g b y).
      { intros k g b H.
        assert (FIND : forall A (ll : list (list A)) k x, nth_error (concat ll) k = Some x -> exists r l i, nth_error ll r = Some l /\ nth_error l i = Some x /\ k = (length (concat (firstn r ll)) + i)%nat).
        { clear. induction ll as [|l ll IH]; intros k x H; [destruct k; discriminate|]. cbn in H. destruct (Nat.lt_ge_cases k (length l)).
          - rewrite nth_error_app1 in H by auto. exists 0%nat, l, k. auto.
          - rewrite nth_error_app2 in H by auto. destruct (IH _ _ H) as (r & l' & i & A1 & A2 & A3). exists (S r), l', i. cbn. rewrite app_length. repeat split; auto. lia. }
        destruct (FIND _ _ _ _ H) as (r & ks & i & K1 & K2 & K3). destruct (nth_error_lt_Some _ m r) as [p Hp]; [apply in_nth in K1; lia|].
        destruct (SH' _ _ Hp) as (new & ks' & Hn & Hk & S). assert (ks' = ks) by congruence. subst ks'. destruct (s_pts _ _ _ _ _ _ _ _ _ S _ _ _ K2) as (y & Y1 & Y2).
        exists y. split; auto. rewrite K3. replace (length (concat (firstn r kss))) with (length (concat (firstn r ppts))).
        - rewrite (nth_error_concat _ ppts r i (out_points (p, new))); auto; [|apply in_nth in Y1; auto]. unfold ppts. rewrite nth_error_map, (nth_combine_eq _ _ _ _ r p new); auto.
        - apply Nat2Z.inj. rewrite <- !zsum_zlen_nat, <- !firstn_map, PP, NO. auto. }
      assert (LPP : length (concat ppts) = length (concat kss)). { apply Nat2Z.inj. rewrite <- !zsum_zlen_nat, PP, NO. auto. }
      split; cbn [f_npoints f_ncells f_nconn f_points f_types f_offsets f_conn]; auto.
      * unfold zlen. rewrite !map_length, psums_length, map_length, LPP. rewrite LA, LT, CB, NZ, SS. unfold zlen. repeat split; auto. lia.
      * split; [|split; [apply no_none|split; apply no_none]]. intros I. apply In_nth_error in I as [k I].
        destruct (nth_error_lt_Some _ (concat kss) k) as [[g b] K]; [apply in_nth in I; lia|]. destruct (LP _ _ _ K) as (y & Y & _). congruence.
      * rewrite !nth_error_map, !psums_nth by (rewrite ?map_length, ?LA; lia). cbn [option_map firstn]. split; auto. do 2 f_equal. rewrite SS.
        rewrite firstn_all2 by (rewrite map_length; lia). rewrite zsum_zlen_nat. lia.
      * intros k g b H. destruct (LP _ _ _ H) as (y & Y1 & Y2). exists y. split; auto. split; [lia|]. cbn. rewrite Nat2Z.id. auto.
      * intros r j c (p & Hp & Hc). destruct (V' _ _ Hp) as (v & q & Hv & Hq). destruct (SH' _ _ Hp) as (new & ks & Hn & Hk & _).
        destruct (LOC _ _ _ Hp Hq new Hn) as (_ & B1 & B2 & B3). destruct (B3 _ _ Hc) as (ty & ids & C1 & C2 & C0 & s & ps & C3 & C4 & C5 & C6).
        exists ty, ids, s, ps. destruct (AI r j p q Hp Hq (in_nth _ _ _ _ Hc)) as [E1 E2]. split; auto. split; [|auto]. rewrite C2 in E1. rewrite C1 in E2.
        pose proof (in_nth _ _ _ _ E1) as Li. split; cbn [f_types]; [rewrite nth_error_map, E2; auto|].
        exists (Z.of_nat (length (concat (firstn (cells_before m r + j) allids)))), (Z.of_nat (length (concat (firstn (S (cells_before m r + j)) allids)))).
        cbn [f_offsets f_conn]. rewrite !nth_error_map, !psums_nth by (rewrite map_length; lia). cbn [option_map]. rewrite !zsum_firstn_zlen. rewrite !Z.add_0_l.
        assert (ST : length (concat (firstn (S (cells_before m r + j)) allids)) = (length (concat (firstn (cells_before m r + j) allids)) + length ids)%nat).
        { apply Nat2Z.inj. rewrite Nat2Z.inj_add, <- !zsum_firstn_zlen. rewrite (zsum_firstn_S _ _ (zlen ids)); auto. rewrite nth_error_map, E1. auto. }
        split; auto. split; auto. split; [lia|]. rewrite ST. replace (Z.to_nat (Z.of_nat (length (concat (firstn (cells_before m r + j) allids)) + length ids) - Z.of_nat (length (concat (firstn (cells_before m r + j) allids))))) with (length ids) by lia.
        split; auto. rewrite Nat2Z.id, skipn_map, firstn_map. f_equal. apply slice_concat; auto.
  - (* values of cells *)
    intros T data.
    set (cp := map (fun q : nat * part P => map (fun i => Some (data (fst q) (Z.of_nat i))) (seq 0 (length (p_cells (snd q))))) (combine (seq 0 (length m)) m)).
    assert (CP : forall r p, nth_error m r = Some p -> nth_error cp r = Some (map (fun i => Some (data r (Z.of_nat i))) (seq 0 (length (p_cells p))))).
    { intros r p Hp. unfold cp. rewrite nth_error_map, (nth_combine_eq _ _ _ _ r r p); auto. rewrite nth_error_seq, (proj2 (Nat.ltb_lt _ _)); auto. eapply in_nth; eauto. }
    assert (LCP : length cp = length m). { unfold cp. rewrite map_length, combine_length, seq_length. lia. }
    assert (ZP : map zlen cp = cells).
    { apply nth_error_ext. intros r. unfold cells. rewrite !nth_error_map. destruct (nth_error m r) as [p|] eqn:Hp.
      - rewrite (CP _ _ Hp). cbn. unfold zlen. rewrite map_length, seq_length. auto.
      - apply nth_error_None in Hp. rewrite (proj2 (nth_error_None cp r)) by lia. auto. }
    exists (concat cp). split; [|split].
    + intros s O. unfold print_cells, VS. fold VS. apply put_ok.
      * rewrite map_length, !combine_length, seq_length. lia.
      * rewrite T2, ZP. auto.
      * intros r c Hc. rewrite nth_error_map in Hc. destruct (nth_error (combine (seq 0 (length VS)) (combine VS m)) r) as [[r' [v p]]|] eqn:X; [|discriminate].
        cbn in Hc. injection Hc as <-. apply nth_combine_some in X as [X0 X2]. apply nth_combine_some in X2 as [X1 X2]. cbn [fst snd].
        rewrite nth_error_seq in X0. destruct (Nat.ltb_spec r (length VS)) as [Lr|]; [|discriminate]. injection X0 as <-. cbn [Nat.add].
        destruct (LC _ _ X2) as (q & Hq & B1 & B2). destruct (V _ _ _ _ X1 X2 Hq) as (_ & _ & _ & _ & Y5 & _). rewrite Y5. split.
        -- rewrite <- firstn_map, ZP. unfold cells. rewrite cells_before_zsum. auto.
        -- symmetry. apply nth_of_error. auto.
      * rewrite LCP. exact O.
    + apply Nat2Z.inj. rewrite <- zsum_zlen_nat, ZP, CB. auto.
    + intros r j c (p & Hp & Hc). replace (cells_before m r) with (length (concat (firstn r cp))).
      * rewrite (nth_error_concat _ cp r j (map (fun i => Some (data r (Z.of_nat i))) (seq 0 (length (p_cells p))))); auto.
        -- rewrite nth_error_map, nth_error_seq, (proj2 (Nat.ltb_lt _ _)); auto. eapply in_nth; eauto.
        -- rewrite map_length, seq_length. eapply in_nth; eauto.
      * apply Nat2Z.inj. rewrite <- zsum_zlen_nat, <- firstn_map, ZP. unfold cells. apply cells_before_zsum.
  - (* values of points *)
    intros T data.
    set (vp := map (fun q : nat * (part P * option (newpart P)) => point_values (data (fst q)) (snd q)) (combine (seq 0 (length m)) (combine m news))).
    assert (VP : forall r p new, nth_error m r = Some p -> nth_error news r = Some new -> nth_error vp r = Some (point_values (data r) (p, new))).
    { intros r p new Hp Hn. unfold vp. rewrite nth_error_map, (nth_combine_eq _ _ _ _ r r (p, new)); auto.
      - rewrite nth_error_seq, (proj2 (Nat.ltb_lt _ _)); auto. eapply in_nth; eauto.
      - apply nth_combine_eq; auto. }
    assert (LVP : length vp = length m). { unfold vp. rewrite map_length, !combine_length, seq_length. lia. }
    assert (ZP : map zlen vp = nodes).
    { rewrite NO. apply same_zlen; [lia|]. intros r a b Ha Hb. destruct (nth_error_lt_Some _ m r) as [p Hp]; [apply in_nth in Ha; lia|].
      destruct (SH' _ _ Hp) as (new & ks & Hn & Hk & S). rewrite (VP _ _ _ Hp Hn) in Ha. injection Ha as <-. rewrite Hk in Hb. injection Hb as <-. apply (s_vlen _ _ _ _ _ _ _ _ _ S). }
    exists (concat vp). split; [|split].
    + intros s O. unfold print_points, VS. fold VS. apply put_ok.
      * rewrite map_length, !combine_length, seq_length. lia.
      * rewrite T3, ZP. auto.
      * intros r c Hc. rewrite nth_error_map in Hc. destruct (nth_error (combine (seq 0 (length VS)) (combine VS (combine m news))) r) as [[r' [v [p new]]]|] eqn:X; [|discriminate].
        cbn in Hc. injection Hc as <-. apply nth_combine_some in X as [X0 X2]. apply nth_combine_some in X2 as [X1 X2]. apply nth_combine_some in X2 as [X2 X3]. cbn [fst snd].
        rewrite nth_error_seq in X0. destruct (Nat.ltb_spec r (length VS)) as [Lr|]; [|discriminate]. injection X0 as <-. cbn [Nat.add].
        destruct (LC _ _ X2) as (q & Hq & B1 & B2). destruct (V _ _ _ _ X1 X2 Hq) as (_ & _ & _ & Y4 & _). rewrite Y4. split.
        -- rewrite <- firstn_map, ZP. auto.
        -- symmetry. apply nth_of_error. auto.
      * rewrite LVP. exact O.
    + apply Nat2Z.inj. rewrite <- !zsum_zlen_nat, ZP, NO. auto.
    + intros k g b H.
      assert (FIND : forall A (ll : list (list A)) k x, nth_error (concat ll) k = Some x -> exists r l i, nth_error ll r = Some l /\ nth_error l i = Some x /\ k = (length (concat (firstn r ll)) + i)%nat).
      { clear. induction ll as [|l ll IH]; intros k x H; [destruct k; discriminate|]. cbn in H. destruct (Nat.lt_ge_cases k (length l)).
        - rewrite nth_error_app1 in H by auto. exists 0%nat, l, k. auto.
        - rewrite nth_error_app2 in H by auto. destruct (IH _ _ H) as (r & l' & i & A1 & A2 & A3). exists (S r), l', i. cbn. rewrite app_length. repeat split; auto. lia. }
      destruct (FIND _ _ _ _ H) as (r & ks & i & K1 & K2 & K3). destruct (nth_error_lt_Some _ m r) as [p Hp]; [apply in_nth in K1; lia|].
      destruct (SH' _ _ Hp) as (new & ks' & Hn & Hk & S). assert (ks' = ks) by congruence. subst ks'. destruct (s_vals _ _ _ _ _ _ _ _ _ S _ _ _ K2) as (l & Y1 & Y2 & Y3).
      exists r, p, l. repeat split; auto; try lia. specialize (Y3 _ (data r)).
      rewrite K3. replace (length (concat (firstn r kss))) with (length (concat (firstn r vp))).
      * rewrite (nth_error_concat _ vp r i (point_values (data r) (p, new))); auto. apply in_nth in Y3; auto.
      * apply Nat2Z.inj. rewrite <- !zsum_zlen_nat, <- !firstn_map, ZP, NO. auto.
Qed.

(** ** Both kinds of mesh *)
Theorem export_ok m periodic : distributed m -> (periodic = true -> can_turn turn) ->
  exists keys f, (forall s1 s2 s3 s4, any_order m s1 -> any_order m s2 -> any_order m s3 -> any_order m s4 -> export_grid turn periodic m s1 s2 s3 s4 = Ok f) /\
   picture turn m periodic keys f /\
   (forall D (data : nat -> Z -> D), exists vals, (forall s, any_order m s -> export_cells turn periodic m data s = Ok vals) /\ length vals = cells_before m (length m) /\
      forall r j c, cell_of m r j c -> nth_error vals (cells_before m r + j) = Some (Some (data r (Z.of_nat j)))) /\
   (forall D (data : nat -> Z -> D), exists vals, (forall s, any_order m s -> export_points turn periodic m data s = Ok vals) /\ length vals = length keys /\
      forall k g b, nth_error keys k = Some (g, b) -> exists r p i, nth_error m r = Some p /\ 0 <= i < nOwn p /\ g = Z.of_nat (nodes_before m r) + i /\
        nth_error vals k = Some (Some (data r i))).
Proof.
  intros D CT. unfold export_grid, export_cells, export_points, prepare. destruct periodic.
  - destruct (recreate_ok P turn m D (CT eq_refl)) as (fls & news & GF & E & L & S). rewrite E. cbn [bind].
    destruct (file_ok m true (map (fun x => Some x) news) (gkeys P m fls)) as (vs & E2 & (f & F1 & F2) & C & V); auto.
    + rewrite map_length. auto.
    + apply gkeys_len. apply GF.
    + intros r p new ks H1 H2 H3. rewrite nth_error_map in H2. destruct (nth_error news r) as [nw|] eqn:Q; [|discriminate]. cbn in H2. injection H2 as <-. eapply S; eauto.
    + discriminate.
    + apply gkeys_nodup. auto.
    + intros g b. rewrite (gkeys_in P m fls g b D GF). reflexivity.
    + rewrite E2. cbn [bind fst snd]. exists (concat (gkeys P m fls)), f. auto.
  - cbn [bind].
    destruct (file_ok m false (map (fun _ => None) m) (plain_keys P m)) as (vs & E2 & (f & F1 & F2) & C & V); auto.
    + rewrite map_length. auto.
    + unfold plain_keys. rewrite map_length, combine_length, seq_length. lia.
    + intros r p new ks H1 H2 H3. rewrite nth_error_map in H2. rewrite H1 in H2. cbn in H2. injection H2 as <-. apply plain_ok; auto.
    + intros _ g G. rewrite plain_concat, nth_error_map, nth_error_seq, (proj2 (Nat.ltb_lt _ _)) by (unfold zlen in *; lia). cbn. rewrite Z2Nat.id by lia. auto.
    + rewrite plain_concat. apply NoDup_map_; [|apply seq_NoDup]. intros x y Q. injection Q as Q. lia.
    + intros g b. rewrite plain_concat, in_map_iff. split.
      * intros (i & Q & I). injection Q as <- <-. apply in_seq in I. unfold zlen. split; [lia|auto].
      * intros [G X]. assert (b = 0) by (destruct X as [X|(r & j & c & n & _ & l & _ & _ & X)]; auto). subst b. exists (Z.to_nat g). split; [f_equal; lia|]. apply in_seq. unfold zlen in *. lia.
    + rewrite E2. cbn [bind fst snd]. exists (concat (plain_keys P m)), f. auto.
Qed.
End Grid.
