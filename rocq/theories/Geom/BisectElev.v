(** A mesh that was elevated can be bisected, and its cells keep fitting. *)
From Coq Require Import Reals List ZArith Bool Lia Arith Permutation.
From Verif Require Import Base.Prelude Base.PreludeFacts Geom.ElemModel Geom.ElemSpec Geom.ElemProofs Geom.PeriodicModel Geom.PeriodicSpec
  Geom.ElevModel Geom.ElevSpec Geom.ElevNumber Geom.ElevShare Geom.ElevMore Geom.ElevDone Geom.ElevTotal Geom.BisectModel Geom.BisectSpec Geom.BisectProofs Geom.BisectFaces Geom.BisectMore Geom.BisectDone.
Import ListNotations.
Local Open Scope nat_scope.

Lemma nodup_same a b : NoDup a -> same_set a b -> length a = length b -> Permutation a b.
Proof. intros N [I _] L. apply NoDup_Permutation_bis; auto. lia. Qed.
Lemma spans_all t : GetOrder t = Some 1 -> exists n, GetElemElevation_O1O2_NumNode t = Some n.
Proof. intro O. destruct t; try discriminate O; cbn; eauto. Qed.
(** what an elevated face consists of *)
Lemma face2 m o i a f fn1 : elevate m = Ok o -> sound_cells m -> is_cell m i a -> GetOrder (c_type a) = Some 1 -> ExtractFaceNodes (c_type a) f (c_nodes a) = Ok fn1 ->
  let ft := GetFaceType (c_type a) f in
  exists a2 fn2 n, nth_error (o_cells o) i = Some a2 /\ c_type a2 = GetElemElevation_O1O2_ElevatedType (c_type a) /\ GetFaceType (c_type a2) f = GetElemElevation_O1O2_ElevatedType ft /\
    ExtractFaceNodes (c_type a2) f (c_nodes a2) = Ok fn2 /\ GetElemElevation_O1O2_NumNode ft = Some n /\ length fn1 = GetNumNodes ft /\ length fn2 = GetNumNodes ft + n /\
    (forall q g, nth_error fn1 q = Some g -> exists h, nth_error fn2 q = Some h /\ renamed m o g h) /\
    (forall l, l < n -> exists k s sf g, nth_error fn2 (GetNumNodes ft + l) = Some g /\ new_node m o i k g /\ is_span a k s /\ ExtractElevNodeSpanNodes ft l fn1 = Ok sf /\ Permutation sf s).
Proof.
  intros EL SC A O E1 ft. destruct (SC _ _ A) as [L ND]. pose proof (face_lt _ _ _ _ _ E1) as FL. destruct (second_order_faces _ _ O FL) as (i1 & i2 & n & NF & FT & X1 & X2 & FST & N & LN & SP). fold ft in FT, FST, N, LN, SP.
  destruct (shape _ _ EL SC) as (_ & _ & SH). destruct (SH _ _ A) as (a2 & A2 & T2 & L2 & _ & _ & OLD).
  destruct (face_map Z 0%Z _ _ _ _ L E1) as (i1' & X1' & F1). assert (i1' = i1) by congruence. subst i1'. set (g1 := fun j => nth j (c_nodes a) 0%Z) in *.
  assert (X2' : ExtractFaceNodes (c_type a2) f (c_nodes a2) = Ok (map (fun j => nth j (c_nodes a2) 0%Z) i2)).
  { rewrite (labels Z 0%Z _ _ L2) at 1. rewrite ExtractFaceNodes_nat, T2, X2. reflexivity. }
  set (g2 := fun j => nth j (c_nodes a2) 0%Z) in *.
  assert (L1 : length i1 = GetNumNodes ft) by (rewrite <- FST, firstn_length; lia).
  destruct (spans_all _ O) as (na & NA).
  exists a2, (map g2 i2), n. split; auto. split; auto. split; [now rewrite T2|]. split; auto. split; auto. rewrite F1, !map_length. split; auto. split; auto.
  assert (R1 : Forall (fun j => j < GetNumNodes (c_type a)) i1 /\ NoDup i1).
  { destruct (face_ids _ _ f NA FL) as (_ & i1' & Y & N1 & R & _). assert (i1' = i1) by congruence. now subst. }
  destruct R1 as [R1 N1]. split.
  - intros q g Q. rewrite nth_error_map in Q. destruct (nth_error i1 q) as [j|] eqn:J; [|discriminate]. injection Q as <-.
    assert (J2 : nth_error i2 q = Some j) by (rewrite <- FST, nth_error_firstn in J; destruct (q <? GetNumNodes ft); congruence).
    rewrite Forall_forall in R1. destruct (OLD j (g1 j)) as (h & x & H1 & H2 & _); [apply nth_error_nth'; rewrite L; apply R1; eapply nth_error_In; eauto|]. exists h. split; auto. rewrite nth_error_map, J2. cbn. unfold g2. f_equal. now apply nth_error_nth.
  - intros l Ll. destruct (SP _ Ll) as (k & sf & sc & S1 & S2 & S3 & S4 & S5). exists k, (map g1 sc), (map g1 sf), (g2 (GetNumNodes (c_type a) + k)).
    assert (K : k < na) by (destruct (span_lt _ _ _ _ _ S3) as (n' & N' & K); congruence).
    split; [rewrite nth_error_map, S1; reflexivity|]. split.
    { exists a, a2. split; auto. split; auto. apply nth_error_nth'. rewrite L2, T2, <- (elevated_count _ _ NA). lia. }
    split; [unfold is_span; rewrite (labels Z 0%Z _ _ L), ExtractElevNodeSpanNodes_nat, S3; reflexivity|]. split; [rewrite ExtractElevNodeSpanNodes_nat, S2; reflexivity|].
    apply Permutation_map. destruct (span_ids _ _ _ NA K) as (ids & I1 & I2 & _). assert (ids = sc) by congruence. subst ids.
    symmetry. apply nodup_same; auto. split; apply S4.
Qed.

(** the numbering of a face seen from the other side *)
Definition side_check (ft : ElemType) (k : nat) : bool :=
  let nv := GetNumNodes ft in
  match GetElemElevation_O1O2_NumNode ft with
  | Some n =>
    let pi := seen_from (GetElemElevation_O1O2_ElevatedType ft) k true (seq 0 (nv + n)) in
    (length pi =? nv + n) && list_eqb (firstn nv pi) (rotate k (rev (seq 0 nv))) &&
    forallb (fun q => nth q pi 0 <? nv) (seq 0 nv) &&
    forallb (fun l => (nv <=? nth (nv + l) pi 0) && (nth (nv + l) pi 0 <? nv + n) &&
      match ExtractElevNodeSpanNodes ft l (seq 0 nv), ExtractElevNodeSpanNodes ft (nth (nv + l) pi 0 - nv) (seq 0 nv) with
      | Ok x, Ok y => seteqb (map (fun q => nth q pi 0) x) y && (length x =? length y) && BisectProofs.nodupb (map (fun q => nth q pi 0) x)
      | _, _ => false
      end) (seq 0 n)
  | None => false
  end.
Definition face_like (t : ElemType) : bool := match t with Line2 | Tri3 | Quad4 => true | _ => false end.
Lemma side_check_ok ft k : face_like ft = true -> k < GetNumNodes ft -> side_check ft k = true.
Proof. intro F. revert k. apply forallb_seq. destruct ft; try discriminate F; vm_compute; reflexivity. Qed.
Lemma face_like_face t f : GetOrder t = Some 1 -> flat t = true -> f < GetNumFaces t -> face_like (GetFaceType t f) = true.
Proof. intros O D. revert f. apply forallb_seq. destruct t; try discriminate O; try discriminate D; vm_compute; reflexivity. Qed.
Lemma span_in t l (nodes s : list Z) : length nodes = GetNumNodes t -> ExtractElevNodeSpanNodes t l nodes = Ok s -> exists ids, ExtractElevNodeSpanNodes t l (seq 0 (GetNumNodes t)) = Ok ids /\ s = map (fun i => nth i nodes 0%Z) ids /\ Forall (fun i => i < GetNumNodes t) ids.
Proof.
  intros L H. destruct (span_map Z 0%Z _ _ _ _ L H) as (ids & E & ->). exists ids. split; auto. split; auto. destruct (span_lt _ _ _ _ _ E) as (n & N & K). destruct (span_ids _ _ _ N K) as (ids' & E' & _ & F & _). assert (ids' = ids) by congruence. now subst.
Qed.
Lemma faces_fit m o i j a b f f' k fa : elevate m = Ok o -> sound_cells m -> point_neighbours m -> same_places m ->
  is_cell m i a -> is_cell m j b -> GetOrder (c_type a) = Some 1 -> GetOrder (c_type b) = Some 1 -> flat (c_type a) = true ->
  ExtractFaceNodes (c_type a) f (c_nodes a) = Ok fa -> k < GetNumNodes (GetFaceType (c_type a) f) -> GetFaceType (c_type b) f' = GetFaceType (c_type a) f ->
  ExtractFaceNodes (c_type b) f' (c_nodes b) = Ok (rotate k (rev fa)) ->
  exists a2 b2 fa2, nth_error (o_cells o) i = Some a2 /\ nth_error (o_cells o) j = Some b2 /\
    GetFaceType (c_type a2) f = GetElemElevation_O1O2_ElevatedType (GetFaceType (c_type a) f) /\ GetFaceType (c_type b2) f' = GetFaceType (c_type a2) f /\
    ExtractFaceNodes (c_type a2) f (c_nodes a2) = Ok fa2 /\ ExtractFaceNodes (c_type b2) f' (c_nodes b2) = Ok (seen_from (GetFaceType (c_type a2) f) k true fa2).
Proof.
  intros EL SC PN SP A B OA OB FL FA K FT FB. pose proof (face_lt _ _ _ _ _ FA) as LF.
  destruct (face2 _ _ _ _ _ _ EL SC A OA FA) as (a2 & fa2 & n & A2 & TA & FTA & FA2 & N & L1 & L2 & OLDA & NEWA).
  destruct (face2 _ _ _ _ _ _ EL SC B OB FB) as (b2 & fb2 & n' & B2 & TB & FTB & FB2 & N' & L1' & L2' & OLDB & NEWB). rewrite FT in *. set (ft := GetFaceType (c_type a) f) in *. assert (n' = n) by congruence. subst n'.
  exists a2, b2, fa2. split; auto. split; auto. split; auto. split; [congruence|]. split; auto. rewrite FB2. f_equal. rewrite FTA.
  pose proof (side_check_ok ft k (face_like_face _ _ OA FL LF) K) as C. unfold side_check in C. rewrite N in C. set (nv := GetNumNodes ft) in *. set (t2 := GetElemElevation_O1O2_ElevatedType ft) in *. set (pi := seen_from t2 k true (seq 0 (nv + n))) in *.
  rewrite !andb_true_iff in C. destruct C as [[[C1 C2] C3] C4]. apply Nat.eqb_eq in C1. apply list_eqb_ok in C2.
  assert (GOAL : fb2 = map (fun q => nth q fa2 0%Z) pi).
  { apply nth_error_ext. intro q. destruct (Nat.lt_ge_cases q (nv + n)) as [Q|Q]; [|rewrite (proj2 (nth_error_None _ _)), (proj2 (nth_error_None _ _)); rewrite ?map_length; auto; lia].
    rewrite nth_error_map, (nth_error_nth' pi 0) by lia. cbn [option_map]. destruct (Nat.lt_ge_cases q nv) as [QV|QV].
    - pose proof (forallb_seq _ _ C3 q QV) as R. cbv beta in R. apply Nat.ltb_lt in R. set (q' := nth q pi 0) in *.
      assert (V : nth_error (rotate k (rev fa)) q = Some (nth q' fa 0%Z)).
      { rewrite (labels Z 0%Z fa nv) at 1 by exact L1. rewrite <- map_rev, rotate_map, nth_error_map, <- C2, nth_error_firstn, (proj2 (Nat.ltb_lt _ _) QV), (nth_error_nth' pi 0) by lia. reflexivity. }
      destruct (OLDB _ _ V) as (h & H1 & H2). destruct (OLDA q' (nth q' fa 0%Z)) as (h' & H3 & H4); [apply nth_error_nth'; lia|]. rewrite H1. f_equal. rewrite (nth_error_nth _ _ _ H3). eapply renamed_fun; eauto.
    - assert (E : q = nv + (q - nv)) by lia. set (l := q - nv) in *. assert (Ll : l < n) by lia. pose proof (forallb_seq _ _ C4 l Ll) as R. cbv beta in R. rewrite <- E in R. set (q' := nth q pi 0) in *. rewrite !andb_true_iff in R. destruct R as [[R1 R2] R3]. apply Nat.leb_le in R1. apply Nat.ltb_lt in R2.
      destruct (ExtractElevNodeSpanNodes ft l (seq 0 nv)) as [x| |] eqn:X; try discriminate. destruct (ExtractElevNodeSpanNodes ft (q' - nv) (seq 0 nv)) as [y| |] eqn:Y; try discriminate. rewrite !andb_true_iff in R3. destruct R3 as [[R3 R4] R5]. apply seteqb_ok in R3. apply Nat.eqb_eq in R4. apply BisectProofs.nodupb_ok in R5.
      destruct (NEWB l Ll) as (kb & sb & sfb & gb & B4 & B5 & B6 & B7 & B8). destruct (NEWA (q' - nv)) as (ka & sa & sfa & ga & A4 & A5 & A6 & A7 & A8); [lia|]. rewrite E, B4. f_equal. replace (nv + (q' - nv)) with q' in A4 by lia. rewrite (nth_error_nth _ _ _ A4).
      eapply (same_node m o j i b a kb ka sb sa); eauto. rewrite <- B8, <- A8.
      destruct (span_in _ _ _ _ L1' B7) as (x' & X' & -> & XR).
 assert (x' = x) by (fold nv in X'; rewrite X in X'; now injection X'). subst x'. destruct (span_in _ _ _ _ L1 A7) as (y' & Y' & -> & YR). assert (y' = y) by (fold nv in Y'; rewrite Y in Y'; now injection Y'). subst y'.
      assert (RW : map (fun i0 => nth i0 (rotate k (rev fa)) 0%Z) x = map (fun i0 => nth i0 fa 0%Z) (map (fun q0 => nth q0 pi 0) x)).
      { rewrite map_map. apply map_ext_in. intros e IE. rewrite Forall_forall in XR. specialize (XR _ IE). fold nv in XR. apply nth_error_nth.
        rewrite (labels Z 0%Z fa nv) at 1 by exact L1. rewrite <- map_rev, rotate_map, nth_error_map, <- C2, nth_error_firstn, (proj2 (Nat.ltb_lt _ _) XR), (nth_error_nth' pi 0) by lia. reflexivity. }
      rewrite RW. apply Permutation_map. apply nodup_same; auto. now rewrite map_length. }
  rewrite GOAL. transitivity (seen_from t2 k true (map (fun q => nth q fa2 0%Z) (seq 0 (nv + n)))); [rewrite seen_from_map; reflexivity|]. f_equal. symmetry. now apply labels.
Qed.

(** ** The elevated mesh *)
Lemma elevated_type t n : GetElemElevation_O1O2_NumNode t = Some n -> GetOrder (GetElemElevation_O1O2_ElevatedType t) = Some 2 /\ GetOrder t = Some 1 /\ flat (GetElemElevation_O1O2_ElevatedType t) = flat t.
Proof. destruct t; cbn; intro H; try discriminate; repeat split; reflexivity. Qed.
Lemma made_cell m o m2 i c2 : made_of m o m2 -> elevate m = Ok o -> sound_cells m -> is_cell m2 i c2 -> exists c n, is_cell m i c /\ nth_error (o_cells o) i = Some c2 /\ GetElemElevation_O1O2_NumNode (c_type c) = Some n /\
  c_type c2 = GetElemElevation_O1O2_ElevatedType (c_type c).
Proof.
  intros MO EL SC C. unfold is_cell in C. rewrite (mo_cells _ _ _ MO) in C. destruct (shape _ _ EL SC) as (LEN & _ & SH). destruct (nth_error_lt_Some _ (all_cells m) i) as (c & D); [rewrite <- LEN; eapply nth_error_Some_lt; eauto|].
  destruct (elevate_facts _ _ EL) as (infos & F). destruct (cell_shape _ _ _ _ _ F SC D) as (n & c2' & old & new & N & C2 & T & _). assert (c2' = c2) by congruence. subst. exists c, n. auto.
Qed.
Lemma made_sound m o m2 : made_of m o m2 -> elevate m = Ok o -> sound_cells m -> point_neighbours m -> same_places m -> conforming m -> sound_cells m2.
Proof.
  intros MO EL SC PN SP CF i c2 C. destruct (made_cell _ _ _ _ _ MO EL SC C) as (c & n & D & C2 & N & T). destruct (shape _ _ EL SC) as (_ & _ & SH). destruct (SH _ _ D) as (c2' & C2' & _ & L & _). assert (c2' = c2) by congruence. subst.
  split; auto. eapply distinct_nodes; eauto.
Qed.
Lemma made_second m o m2 : made_of m o m2 -> elevate m = Ok o -> sound_cells m -> complete m -> second_order m2.
Proof.
  intros MO EL SC CM i c2 C. destruct (made_cell _ _ _ _ _ MO EL SC C) as (c & n & D & C2 & N & T). destruct (shape _ _ EL SC) as (_ & _ & SH). destruct (SH _ _ D) as (c2' & C2' & T' & L & _ & BT & OLD). assert (c2' = c2) by congruence. subst.
  split; [rewrite T; eapply elevated_type; eauto|]. split; auto. split.
  - intros g G. assert (exists x, coord2 o g x) as (x & X1 & X2).
    { apply In_nth_error in G. destruct G as (q & Q). destruct (Nat.lt_ge_cases q (GetNumNodes (c_type c))) as [LT|GE].
      - destruct (SC _ _ D) as [LC _]. destruct (nth_error_lt_Some _ (c_nodes c) q) as (g1 & G1); [lia|]. destruct (OLD _ _ G1) as (h & x & H1 & _ & _ & H2). assert (h = g) by congruence. subst. eauto.
      - destruct (near_place m o i (q - GetNumNodes (c_type c)) g EL SC) as (c' & x & b & y & _ & _ & Y & _); [|eauto]. exists c, c2. split; auto. split; auto. rewrite <- Q. f_equal. lia. }
    unfold all_coords. rewrite (mo_coords _ _ _ MO). apply nth_error_Some_lt in X2. unfold zlen. lia.
  - rewrite (mo_periodic _ _ _ MO), (mo_info _ _ _ MO). intro P. destruct (CM _ _ D) as (_ & _ & _ & PB). destruct (PB P) as [LB W]. split; auto.
    destruct (elevate_facts _ _ EL) as (infos & F). destruct (row_fact _ _ _ _ _ F D) as (n' & er & N' & E & LE & R). assert (n' = n) by congruence. subst n'. destruct (cell_fact _ _ _ _ _ F D) as (r & er' & c2'' & _ & E' & V & C2'' & FC). assert (er' = er) by congruence. subst er'. assert (c2'' = c2) by congruence. subst c2''.
    unfold fill_cell in FC. cbn [fst snd] in FC. apply bind_Ok in FC. destruct FC as (old & O & FC). apply bind_Ok in FC. destruct FC as (new & W' & FC). rewrite P in FC. injection FC as FC. rewrite <- FC in L |- *. cbn [c_nodes c_bits c_type] in *. rewrite !app_length, !map_length. apply mapM_length in O. lia.
Qed.
Lemma Forall2_cut A B (R : A -> B -> Prop) : forall l2 x l q r2, Forall2 R l q -> q = l2 ++ x :: r2 -> exists l1 p r1, l = l1 ++ p :: r1 /\ Forall2 R l1 l2 /\ R p x.
Proof.
  induction l2 as [|y l2 IH]; intros x l q r2 F E; subst q; inversion F as [|p x' l' q' RP FF]; subst.
  - exists [], p, l'. repeat split; auto.
  - destruct (IH x l' _ r2 FF eq_refl) as (l1 & p' & r1 & -> & F1 & RP'). exists (p :: l1), p', r1. repeat split; auto.
Qed.
Lemma concat_len A B (R : A -> B -> Prop) C D (f : A -> list C) (g : B -> list D) : (forall a b, R a b -> length (g b) = length (f a)) -> forall l q, Forall2 R l q -> length (concat (map g q)) = length (concat (map f l)).
Proof. intros RR l q F. induction F as [|a b l q Rab F IH]; cbn; [reflexivity|]. rewrite !app_length, IH, (RR _ _ Rab). reflexivity. Qed.
Lemma made_bnds m o m2 : made_of m o m2 -> elevate m = Ok o -> sound_cells m -> bnds_are_faces m -> bnds_on_faces m2.
Proof.
  intros MO EL SC BF lo hi b2 (l2 & q & r2 & E & LO & HI & I). destruct (Forall2_cut _ _ _ l2 q _ _ r2 (mo_ranks _ _ _ MO) E) as (l1 & p & r1 & E1 & F1 & RP1 & RP2).
  pose proof (concat_len _ _ _ _ _ p_cells p_cells (fun a b H => proj1 H) _ _ F1) as LC. pose proof (concat_len _ _ _ _ _ p_bnds p_bnds (fun a b H => proj2 H) _ _ F1) as LB.
  apply In_nth_error in I. destruct I as (n & I). pose proof (nth_error_Some_lt _ _ _ _ I) as NL. destruct (nth_error_lt_Some _ (p_bnds p) n) as (b & B); [lia|].
  set (j := length (concat (map p_bnds l1)) + n).
  assert (J1 : nth_error (concat (map p_bnds (parts m))) j = Some b).
  { rewrite E1, map_app, concat_app, nth_error_app2 by (unfold j; lia). cbn. rewrite nth_error_app1 by (unfold j; lia). rewrite <- B. f_equal. unfold j. lia. }
  assert (J2 : nth_error (all_bnds m2) j = Some b2).
  { unfold all_bnds. rewrite E, map_app, concat_app, nth_error_app2 by (unfold j; lia). cbn. rewrite nth_error_app1 by (unfold j; lia). rewrite <- I. f_equal. unfold j. lia. }
  destruct (ElevDone.boundary _ _ _ _ EL SC J1) as (b2' & c2 & f & B2 & BC & C2 & FL & FN & BT & _). rewrite (mo_bnds _ _ _ MO) in J2. assert (b2' = b2) by congruence. subst b2'.
  destruct (BF lo hi b) as [R _].
  { exists l1, p, r1. repeat split; auto; [rewrite LO; unfold zlen; lia|rewrite HI; unfold zlen; lia|eapply nth_error_In; eauto]. }
  rewrite BC. split; auto. exists c2, f. split; [unfold is_cell; rewrite (mo_cells _ _ _ MO); exact C2|]. auto.
Qed.
Lemma made_flat m o m2 : made_of m o m2 -> elevate m = Ok o -> sound_cells m -> (forall i c, is_cell m i c -> flat (c_type c) = true) -> forall i c, is_cell m2 i c -> flat (c_type c) = true.
Proof. intros MO EL SC FL i c2 C. destruct (made_cell _ _ _ _ _ MO EL SC C) as (c & n & D & C2 & N & T). rewrite T. destruct (elevated_type _ _ N) as (_ & _ & ->). eauto. Qed.
Lemma refine m o m2 : made_of m o m2 -> elevate m = Ok o -> sound_cells m -> complete m -> bnds_are_faces m -> (forall i c, is_cell m i c -> flat (c_type c) = true) -> exists r, bisect m2 = Ok r.
Proof. intros MO EL SC CM BF FL. apply success; [eapply made_second; eauto|eapply made_flat; eauto|eapply made_bnds; eauto]. Qed.
(** refined cells meet where the cells met *)
Lemma refined_fit m o m2 r i j a b f f' k fa : made_of m o m2 -> elevate m = Ok o -> sound_cells m -> point_neighbours m -> same_places m -> conforming m -> (forall i c, is_cell m i c -> flat (c_type c) = true) ->
  bisect m2 = Ok r -> is_cell m i a -> is_cell m j b -> ExtractFaceNodes (c_type a) f (c_nodes a) = Ok fa -> k < GetNumNodes (GetFaceType (c_type a) f) -> (GetFaceType (c_type a) f = Line2 -> k = 0) ->
  GetFaceType (c_type b) f' = GetFaceType (c_type a) f -> ExtractFaceNodes (c_type b) f' (c_nodes b) = Ok (rotate k (rev fa)) ->
  exists a2, is_cell m2 i a2 /\ forall n z, face_piece a2 f n z -> exists ka ga x kb gb y, piece_face m2 r i ka ga x /\ turned x z /\ piece_face m2 r j kb gb y /\ turned y (rev x).
Proof.
  intros MO EL SC PN SP CF FL H A B FA K KL FT FB. pose proof (made_flat _ _ _ MO EL SC FL) as FL2. pose proof (made_sound _ _ _ MO EL SC PN SP CF) as SC2.
  assert (O : forall i c, is_cell m i c -> GetOrder (c_type c) = Some 1).
  { intros i0 c C. destruct (elevate_facts _ _ EL) as (infos & F). destruct (cell_shape _ _ _ _ _ F SC C) as (n & c2 & old & new & N & _). eapply elevated_type; eauto. }
  destruct (faces_fit _ _ _ _ _ _ _ _ _ _ EL SC PN SP A B (O _ _ A) (O _ _ B) (FL _ _ A) FA K FT FB) as (a2 & b2 & fa2 & A2 & B2 & FTA & FTB & FA2 & FB2).
  assert (A2' : is_cell m2 i a2) by (unfold is_cell; now rewrite (mo_cells _ _ _ MO)). assert (B2' : is_cell m2 j b2) by (unfold is_cell; now rewrite (mo_cells _ _ _ MO)).
  exists a2. split; auto. intros n z P. pose proof (face_like_face _ _ (O _ _ A) (FL _ _ A) (face_lt _ _ _ _ _ FA)) as FK.
  eapply (conform m2 r i j a2 b2 f f' k fa2); eauto.
  - rewrite FTA. destruct (GetFaceType (c_type a) f); try discriminate FK; exact K.
  - rewrite FTA. intro Q. apply KL. destruct (GetFaceType (c_type a) f); try discriminate FK; auto; discriminate Q.
Qed.
(** such a mesh exists *)
Lemma made_exists m o : elevate m = Ok o -> sound_cells m -> exists m2, made_of m o m2.
Proof.
  intros EL SC. destruct (shape _ _ EL SC) as (LC & FX & _). destruct (elevate_all _ _ EL) as (infos & F & FB). destruct (fill_bnds_in _ _ _ _ _ FB) as [LB _].
  assert (G : forall ps X cs bs, Forall2 (fun p X => exists new, X = p_coords p ++ new) ps X -> length cs = length (concat (map p_cells ps)) -> length bs = length (concat (map p_bnds ps)) ->
    exists qs, map p_coords qs = X /\ concat (map p_cells qs) = cs /\ concat (map p_bnds qs) = bs /\ Forall2 (fun p q => length (p_cells q) = length (p_cells p) /\ length (p_bnds q) = length (p_bnds p)) ps qs).
  { induction ps as [|p ps IH]; intros X cs bs FF LCs LBs; inversion FF as [|p' x' ps' X' _ FF']; subst; cbn in LCs, LBs.
    - exists []. destruct cs; [|discriminate]. destruct bs; [|discriminate]. repeat split; constructor.
    - rewrite app_length in LCs, LBs. destruct (IH X' (skipn (length (p_cells p)) cs) (skipn (length (p_bnds p)) bs) FF') as (qs & H1 & H2 & H3 & H4); [rewrite skipn_length; lia..|].
      exists ({| p_coords := x'; p_cells := firstn (length (p_cells p)) cs; p_bnds := firstn (length (p_bnds p)) bs |} :: qs). cbn. rewrite H1, H2, H3, !firstn_skipn. repeat split; auto. constructor; auto. cbn. rewrite !firstn_length. lia. }
  destruct (G _ _ _ _ FX LC LB) as (qs & H1 & H2 & H3 & H4). exists {| periodic := periodic m; info := info m; parts := qs |}. constructor; auto.
Qed.
