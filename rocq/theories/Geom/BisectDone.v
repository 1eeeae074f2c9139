(** Boundary elements, success and volumes. *)
From Coq Require Import Reals List ZArith Bool Lia Arith Lra.
From Verif Require Import Base.Prelude Base.PreludeFacts Geom.ElemModel Geom.ElemSpec Geom.ElemProofs Geom.PeriodicModel Geom.PeriodicSpec Geom.PeriodicProofs
  Geom.ElevModel Geom.ElevSpec Geom.ElevTotal Geom.BisectModel Geom.BisectSpec Geom.BisectProofs Geom.BisectFaces Geom.BisectMore.
Import ListNotations.
Local Open Scope nat_scope.

(** ** Boundary elements *)
Lemma face_variant t xs v : GetOrder t = Some 2 -> (GetDim t = Some 2 \/ t = Line3) -> bisect_variant t xs = Ok v -> v = 0.
Proof. intros O D H. destruct t; try discriminate O; try (destruct D; discriminate); cbn in H; now injection H as <-. Qed.
Lemma bnd_piece_inv m r j k s : bisect m = Ok r -> bnd_piece m r j k s -> exists lo hi b xs v, nth_error (all_bnds m) j = Some b /\ bnd_at m lo hi b /\ fst s = GetO2ElemBisectElem (b_type b) k /\
  bisect_variant (b_type b) xs = Ok v /\ ExtractO2BisectElemNodes (b_type b) k v (b_nodes b) = Ok (snd s).
Proof.
  intros H (b & B & K & E). destruct (bisect_facts _ _ H) as (cs & bs & F). pose proof (tagged_bnds (parts m) 0%Z) as TB.
  assert (exists q, nth_error (tagged 0 (parts m)) j = Some q /\ snd q = b) as (q & QN & QB).
  { unfold all_bnds in B. rewrite <- TB, nth_error_map in B. destruct (nth_error (tagged 0 (parts m)) j) as [q|]; try discriminate. injection B as <-. eauto. }
  destruct (mapM_nth _ _ _ _ _ (f_bnds _ _ _ _ F)) as [_ N]. destruct (N _ _ QN) as (ss & S1 & S2).
  assert (LEN : forall c x, cut_bnd m c = Ok x -> length x = GetO2ElemBisectNum (b_type (snd c))) by (intros c x; apply cut_bnd_length).
  assert (S3 : length (concat (firstn j bs)) = total (map b_type (firstn j (all_bnds m)))).
  { rewrite (cut_length _ _ (cut_bnd m) (fun q => b_type (snd q)) LEN _ _ (mapM_firstn _ _ _ _ _ j (f_bnds _ _ _ _ F))). f_equal. unfold all_bnds. rewrite <- TB, firstn_map, map_map. reflexivity. }
  rewrite (f_bout _ _ _ _ F), <- S3, (nth_error_concat _ _ _ _ _ S2) in E by (rewrite (LEN _ _ S1), QB; exact K).
  pose proof (tagged_at m (parts m) [] 0%Z eq_refl eq_refl q (nth_error_In _ _ QN)) as AT. rewrite QB in AT. exists (fst (fst q)), (snd (fst q)), b.
  unfold cut_bnd, bisect_bnd in S1. rewrite QB in S1. apply bind_Ok in S1. destruct S1 as (u & _ & S1). apply bind_Ok in S1. destruct S1 as (c & _ & S1). apply bind_Ok in S1. destruct S1 as (xs & _ & S1).
  apply bind_Ok in S1. destruct S1 as (ys & _ & S1). apply bind_Ok in S1. destruct S1 as (v & V & S1). exists ys, v. split; auto. split; auto.
  destruct (mapM_nth _ _ _ _ _ S1) as [_ N2]. destruct (N2 k k) as (s' & E1 & E2); [rewrite nth_error_seq; rewrite (proj2 (Nat.ltb_lt _ _) K); reflexivity|]. assert (s' = s) by congruence. subst s'.
  apply bind_Ok in E1. destruct E1 as (ns & NS & E1). injection E1 as <-. auto.
Qed.
Lemma boundary m r j k s : bisect m = Ok r -> sound_cells m -> (forall i c, is_cell m i c -> flat (c_type c) = true) -> bnds_on_faces m -> bnd_piece m r j k s ->
  exists b k' f' x, nth_error (all_bnds m) j = Some b /\ piece_face m r (Z.to_nat (b_cell b)) k' f' x /\ turned x (snd s) /\ GetOrder (fst s) = Some 1 /\ length (snd s) = GetNumNodes (fst s).
Proof.
  intros H SC FL BF P. destruct (bnd_piece_inv _ _ _ _ _ H P) as (lo & hi & b & xs & v & B & AT & T & V & E). destruct (BF _ _ _ AT) as (_ & c & f & C & F & FT & FN).
  assert (OC : GetOrder (c_type c) = Some 2) by (destruct (the_variant _ _ _ _ H C) as (v' & _ & O & _); exact O). destruct (SC _ _ C) as [L _].
  destruct (face_type _ _ _ _ OC (FL _ _ C) L FN) as (_ & O2 & LF & DD). rewrite <- FT in O2, LF, DD. assert (v = 0) by (eapply face_variant; eauto). subst v.
  assert (PB : face_piece c f k (snd s)) by (exists (b_nodes b); split; auto; rewrite <- FT; exact E). destruct (skin _ _ _ _ H SC C (FL _ _ C) _ _ _ PB) as (k' & f' & x & PX & TX).
  exists b, k', f', x. split; auto. split; auto. split; auto. destruct (variant_of_extract _ _ _ _ _ _ E) as [V0 K]. rewrite T. split; [now apply sub_type|].
  destruct (by_table Z 0%Z _ _ _ _ _ LF E) as (ids & TB & ->). destruct (tab_facts _ _ _ O2 V0 K) as (ids' & TB' & LI & _). assert (ids' = ids) by congruence. subst. now rewrite map_length.
Qed.

(** ** Success *)
Lemma extract_total A (d : A) t k v (nodes : list A) : GetOrder t = Some 2 -> variant_ok t v = true -> k < GetO2ElemBisectNum t -> length nodes = GetNumNodes t -> exists l, ExtractO2BisectElemNodes t k v nodes = Ok l.
Proof. intros O V K L. destruct (tab_facts _ _ _ O V K) as (ids & T & _). rewrite (from_table A d _ _ _ _ _ L T). eauto. Qed.
Lemma coords_total m i c : second_order m -> is_cell m i c -> exists xs, coords_on_cell m c = Ok xs /\ length xs = length (c_nodes c).
Proof.
  intros SO C. destruct (SO _ _ C) as (_ & L & NB & PB).
  assert (G : forall g, In g (c_nodes c) -> exists x, vget (all_coords m) g = Ok x).
  { intros g I. apply NB in I. destruct (nth_error_lt_Some _ (all_coords m) (Z.to_nat g)) as (x & Hx); [unfold zlen in I; lia|]. exists x. apply vget_Ok. split; [lia|auto]. }
  unfold coords_on_cell. destruct (periodic m) eqn:P.
  - destruct (PB eq_refl) as [BL W]. rewrite (proj2 (Nat.eqb_eq _ _) BL).
    destruct (mapM_Ok_ex _ _ (fun q => do x <- vget (all_coords m) (fst q); GetCoordByBits (info m) x (snd q)) (combine (c_nodes c) (c_bits c))) as (cs & E).
    + intros [g b] I. apply in_combine_l in I. destruct (G _ I) as (x & Hx). cbn [fst snd]. rewrite Hx. cbn [bind]. apply bits_total. exact W.
    + exists cs. split; auto. apply mapM_nth in E. destruct E as [LE _]. rewrite combine_length in LE. lia.
  - destruct (mapM_Ok_ex _ _ (vget (all_coords m)) (c_nodes c) G) as (cs & E). exists cs. split; auto. now apply mapM_nth in E.
Qed.
Lemma variant_total t (xs : list vec) : GetOrder t = Some 2 -> length xs = GetNumNodes t -> exists v, bisect_variant t xs = Ok v.
Proof.
  intros O L. assert (G : forall j : nat, j < GetNumNodes t -> exists x, vget xs (Z.of_nat j) = Ok x).
  { intros j J. destruct (nth_error_lt_Some _ xs j) as (x & E); [lia|]. exists x. apply vget_Ok. split; [lia|]. now rewrite Nat2Z.id. }
  unfold bisect_variant. rewrite O. cbn [Nat.eqb assert_ bind]. destruct t; try discriminate O; eauto.
  - cbn [mapM fst snd]. unfold distance. cbn [Z.sub Z.add Z.opp Z.pos_sub Pos.pred_double Z.succ_double Z.pred_double Z.double Pos.compare].
    destruct (G 4) as (x1 & E1); [cbn; lia|]. destruct (G 9) as (x2 & E2); [cbn; lia|]. destruct (G 5) as (x3 & E3); [cbn; lia|]. destruct (G 7) as (x4 & E4); [cbn; lia|]. destruct (G 6) as (x5 & E5); [cbn; lia|]. destruct (G 8) as (x6 & E6); [cbn; lia|].
    change (Z.of_nat 4) with 4%Z in E1. change (Z.of_nat 9) with 9%Z in E2. change (Z.of_nat 5) with 5%Z in E3. change (Z.of_nat 7) with 7%Z in E4. change (Z.of_nat 6) with 6%Z in E5. change (Z.of_nat 8) with 8%Z in E6.
    rewrite E1, E2, E3, E4, E5, E6. cbn [bind]. eauto.
  - cbn [mapM fst snd]. unfold distance. cbn [Z.sub Z.add Z.opp Z.pos_sub Pos.pred_double Z.succ_double Z.pred_double Z.double Pos.compare].
    destruct (G 9) as (x1 & E1); [cbn; lia|]. destruct (G 11) as (x2 & E2); [cbn; lia|]. destruct (G 10) as (x3 & E3); [cbn; lia|]. destruct (G 12) as (x4 & E4); [cbn; lia|].
    change (Z.of_nat 9) with 9%Z in E1. change (Z.of_nat 11) with 11%Z in E2. change (Z.of_nat 10) with 10%Z in E3. change (Z.of_nat 12) with 12%Z in E4.
    rewrite E1, E2, E3, E4. cbn [bind]. eauto.
Qed.
Lemma cell_total m i c : second_order m -> is_cell m i c -> exists ss, bisect_cell m c = Ok ss.
Proof.
  intros SO C. destruct (coords_total _ _ _ SO C) as (xs & X & LX). destruct (SO _ _ C) as (O & L & _ & PB). unfold bisect_cell. rewrite X. cbn [bind]. destruct (variant_total _ xs O) as (v & V); [congruence|]. rewrite V. cbn [bind].
  apply mapM_Ok_ex. intros k K. apply in_seq in K. destruct (extract_total Z 0%Z _ k _ (c_nodes c) O (variant_valid _ _ _ V)) as (ns & ->); [lia|auto|]. cbn [bind]. destruct (periodic m); [|cbn; eauto].
  destruct (PB eq_refl) as [LB _]. destruct (extract_total Z 0%Z _ k _ (c_bits c) O (variant_valid _ _ _ V)) as (bs & ->); [lia|congruence|]. cbn. eauto.
Qed.
Lemma coord_of_some g : forall (ns : list Z) (xs : list vec) acc, length xs = length ns -> (In g ns \/ acc <> None) -> exists x, coord_of g (combine ns xs) acc = Some x.
Proof.
  induction ns as [|h ns IH]; intros [|x xs] acc L I; try discriminate L; cbn.
  - destruct I as [[]|I]. destruct acc; [eauto|congruence].
  - apply IH; [now injection L|]. destruct (Z.eqb h g) eqn:E; [right; discriminate|]. destruct I as [[->|I]|I]; auto. apply Z.eqb_neq in E. congruence.
Qed.
Lemma incl_face t f (nodes fn : list Z) : ExtractFaceNodes t f nodes = Ok fn -> incl fn nodes.
Proof.
  unfold ExtractFaceNodes. intro H. apply bind_Ok in H. destruct H as (ft & _ & H). apply bind_Ok in H. destruct H as (row & _ & H). apply bind_Ok in H. destruct H as (ids & _ & H).
  unfold gather in H. intros g G. apply In_nth_error in G. destruct G as (n & G). destruct (mapM_nth _ _ _ _ _ H) as [LN N]. destruct (nth_error_lt_Some _ ids n) as (q & Q); [rewrite <- LN; eapply nth_error_Some_lt; eauto|].
  destruct (N _ _ Q) as (y & Y1 & Y2). destruct (nth_error nodes q) as [z|] eqn:Z1; try discriminate. assert (z = g) by congruence. subst. eapply nth_error_In; eauto.
Qed.
Lemma bnd_total m lo hi b : second_order m -> (forall i c, is_cell m i c -> flat (c_type c) = true) -> bnds_on_faces m -> bnd_at m lo hi b -> exists ss, bisect_bnd m lo hi b = Ok ss.
Proof.
  intros SO FL BF AT. destruct (BF _ _ _ AT) as (R1 & c & f & C & F & FT & FN). destruct (SO _ _ C) as (O & L & _). destruct (coords_total _ _ _ SO C) as (xs & X & LX). destruct (face_type _ _ _ _ O (FL _ _ C) L FN) as (_ & O2 & LF & DD).
  assert (LO : (0 <= lo)%Z) by (destruct AT as (l & p & r & _ & -> & _); unfold zlen; lia).
  unfold bisect_bnd. rewrite (proj2 (andb_true_iff _ _)) by (split; [apply Z.leb_le|apply Z.ltb_lt]; lia). cbn [assert_ bind].
  assert (VC : vget (all_cells m) (b_cell b) = Ok c) by (apply vget_Ok; split; [lia|exact C]). rewrite VC. cbn [bind]. rewrite X. cbn [bind].
  destruct (mapM_Ok_ex _ _ (fun g => match coord_of g (combine (c_nodes c) xs) None with Some x => Ok x | None => Abort end) (b_nodes b)) as (ys & Y).
  { intros g G. destruct (coord_of_some g (c_nodes c) xs None) as (x & ->); eauto. left. eapply incl_face; eauto. }
  rewrite Y. cbn [bind]. apply mapM_length in Y. rewrite <- FT in *. destruct (variant_total _ ys O2) as (v & V); [congruence|]. rewrite V. cbn [bind]. apply mapM_Ok_ex. intros k K. apply in_seq in K.
  destruct (extract_total Z 0%Z _ k _ (b_nodes b) O2 (variant_valid _ _ _ V)) as (ns & ->); [lia|auto|]. cbn. eauto.
Qed.
Lemma parts_total m : second_order m -> (forall i c, is_cell m i c -> flat (c_type c) = true) -> bnds_on_faces m -> forall ps pre lo, parts m = pre ++ ps -> lo = zlen (concat (map p_cells pre)) -> exists r, bisect_parts m lo ps = Ok r.
Proof.
  intros SO FL BF. induction ps as [|p ps IH]; intros pre lo E LO; cbn; [eauto|].
  destruct (mapM_Ok_ex _ _ (bisect_cell m) (p_cells p)) as (cs & ->).
  { intros c I. destruct (In_nth_error (all_cells m) c) as (n & N); [|eapply cell_total; eauto]. unfold all_cells. apply in_concat. exists (p_cells p). split; auto. apply in_map. rewrite E. apply in_app_iff. right. now left. }
  cbn [bind]. destruct (mapM_Ok_ex _ _ (bisect_bnd m lo (lo + zlen (p_cells p))) (p_bnds p)) as (bs & ->).
  { intros b I. apply bnd_total; auto. exists pre, p, ps. auto. }
  cbn [bind]. destruct (IH (pre ++ [p]) (lo + zlen (p_cells p))%Z) as (t & ->); [now rewrite <- app_assoc| |cbn; eauto].
  rewrite map_app, concat_app. cbn. rewrite app_nil_r. unfold zlen. rewrite app_length. unfold zlen in LO. lia.
Qed.
Lemma success m : second_order m -> (forall i c, is_cell m i c -> flat (c_type c) = true) -> bnds_on_faces m -> exists r, bisect m = Ok r.
Proof.
  intros SO FL BF. unfold bisect. rewrite (proj2 (all_o2 m)) by (intros i c C; apply (SO _ _ C)). cbn [assert_ bind]. exact (parts_total m SO FL BF (parts m) [] 0%Z eq_refl eq_refl).
Qed.

(** ** Volumes *)
Local Open Scope R_scope.
Definition get_volume (t : ElemType) (v k : nat) (xs : list vec) : option R :=
  match tab t k v with Ok ids => volume (GetO2ElemBisectElem t k) (map (fun j => nth j xs zero) ids) | _ => None end.
Lemma piece_volume m r i k s c xs v : sound_cells m -> is_cell m i c -> cut m c k s xs v -> bisect m = Ok r -> exists ys, coords_on_cell m s = Ok ys /\ volume (c_type s) ys = get_volume (c_type c) v k xs.
Proof.
  intros SC C Q _. destruct (SC _ _ C) as [L _]. destruct (cut_places _ _ _ _ _ _ Q L) as (_ & ids & _ & T & X & _). eexists. split; [exact X|]. unfold get_volume. now rewrite T, (cut_type _ _ _ _ _ _ Q).
Qed.
Ltac points xs L := repeat (let x := fresh "x" in destruct xs as [|x xs]; [discriminate L|]); destruct xs as [|? ?]; [clear L|discriminate L].
Ltac upto k K n := match n with O => exfalso; lia | S ?n' => destruct k as [|k]; [|upto k K n'] end.
Lemma tri_pieces k (x0 x1 x2 x3 x4 x5 : vec) : (k < 4)%nat -> middle x3 x0 x1 -> middle x4 x1 x2 -> middle x5 x2 x0 ->
  exists w, get_volume Tri6 0 k [x0; x1; x2; x3; x4; x5] = Some w /\ w * 4 = tri_area x0 x1 x2.
Proof.
  intros K M3 M4 M5. pose proof (M3 0%nat ltac:(lia)) as A0. pose proof (M3 1%nat ltac:(lia)) as A1. pose proof (M4 0%nat ltac:(lia)) as B0. pose proof (M4 1%nat ltac:(lia)) as B1. pose proof (M5 0%nat ltac:(lia)) as C0. pose proof (M5 1%nat ltac:(lia)) as C1.
  destruct k as [|[|[|[|k]]]]; [..|lia]; (eexists; split; [vm_compute tab; reflexivity|]).
  all: unfold tri_area; cbn [nth]; rewrite ?A0, ?A1, ?B0, ?B1, ?C0, ?C1; field.
Qed.
Definition hyp3 (x a b : vec) : Prop := x 0%nat = (a 0%nat + b 0%nat) / 2 /\ x 1%nat = (a 1%nat + b 1%nat) / 2 /\ x 2%nat = (a 2%nat + b 2%nat) / 2.
Lemma middle3 x a b : middle x a b -> hyp3 x a b.
Proof. intro M. repeat split; apply M; lia. Qed.
Lemma tet_pieces v k (x0 x1 x2 x3 x4 x5 x6 x7 x8 x9 : vec) : (v < 3)%nat -> (k < 8)%nat -> middle x4 x0 x1 -> middle x5 x1 x2 -> middle x6 x2 x0 -> middle x7 x0 x3 -> middle x8 x1 x3 -> middle x9 x2 x3 ->
  exists w, get_volume Tet10 v k [x0; x1; x2; x3; x4; x5; x6; x7; x8; x9] = Some w /\ w * 8 = tet_volume x0 x1 x2 x3.
Proof.
  intros V K M4 M5 M6 M7 M8 M9. apply middle3 in M4, M5, M6, M7, M8, M9. destruct M4 as (A0 & A1 & A2), M5 as (B0 & B1 & B2), M6 as (C0 & C1 & C2), M7 as (D0 & D1 & D2), M8 as (E0 & E1 & E2), M9 as (F0 & F1 & F2).
  destruct v as [|[|[|v]]]; [..|lia]; (destruct k as [|[|[|[|[|[|[|[|k]]]]]]]]; [..|lia]); (eexists; split; [vm_compute tab; reflexivity|]).
  all: unfold tet_volume, vdot, vcross; cbn [nth sumn]; rewrite ?A0, ?A1, ?A2, ?B0, ?B1, ?B2, ?C0, ?C1, ?C2, ?D0, ?D1, ?D2, ?E0, ?E1, ?E2, ?F0, ?F1, ?F2; field.
Qed.
Lemma coords_length m c xs : coords_on_cell m c = Ok xs -> length xs = length (c_nodes c).
Proof.
  unfold coords_on_cell. destruct (periodic m).
  - destruct (Nat.eqb _ _) eqn:E; [|discriminate]. intro H. apply mapM_length in H. rewrite combine_length in H. apply Nat.eqb_eq in E. lia.
  - intro H. now apply mapM_length in H.
Qed.
Lemma equal_pieces m r i k s c xs t1 n : bisect m = Ok r -> sound_cells m -> is_cell m i c -> piece m r i k s -> coords_on_cell m c = Ok xs ->
  part_of (c_type c) = Some (t1, n) -> straight_edges t1 xs ->
  exists ys w W, coords_on_cell m s = Ok ys /\ volume (c_type s) ys = Some w /\ volume t1 (firstn (GetNumNodes t1) xs) = Some W /\ w * INR n = W.
Proof.
  intros H SC C P X PT ST. destruct (piece_cut _ _ _ _ _ H P) as (c' & xs' & v & C' & Q). assert (c' = c) by (unfold is_cell in *; congruence). subst c'.
  assert (xs' = xs) by (pose proof (cut_coords _ _ _ _ _ _ Q); congruence). subst xs'. destruct (piece_volume _ _ _ _ _ _ _ _ SC C Q H) as (ys & Y & E). exists ys.
  pose proof (coords_length _ _ _ X) as L. rewrite (proj1 (SC _ _ C)) in L. destruct (variant_of_extract _ _ _ _ _ _ (cut_nodes _ _ _ _ _ _ Q)) as [V K]. rewrite E. clear E Q. apply variants_ok in V.
  destruct (c_type c); try discriminate PT; injection PT as <- <-; cbn in L, K, V; unfold straight_edges in ST.
  - points xs L. assert (v = 0)%nat as -> by lia.
    destruct (tri_pieces k x x0 x1 x2 x3 x4) as (w & W1 & W2); [lia|exact (ST 0%nat _ _ _ eq_refl eq_refl)|exact (ST 1%nat _ _ _ eq_refl eq_refl)|exact (ST 2%nat _ _ _ eq_refl eq_refl)|].
    exists w, (tri_area x x0 x1). repeat split; auto. rewrite <- W2. cbn. ring.
  - points xs L.
    destruct (tet_pieces v k x x0 x1 x2 x3 x4 x5 x6 x7 x8) as (w & W1 & W2); [lia..|exact (ST 0%nat _ _ _ eq_refl eq_refl)|exact (ST 1%nat _ _ _ eq_refl eq_refl)|exact (ST 2%nat _ _ _ eq_refl eq_refl)|exact (ST 3%nat _ _ _ eq_refl eq_refl)|exact (ST 4%nat _ _ _ eq_refl eq_refl)|exact (ST 5%nat _ _ _ eq_refl eq_refl)|].
    exists w, (tet_volume x x0 x1 x2). repeat split; auto. rewrite <- W2. cbn. ring.
Qed.

(** wherever the nodes lie, the pieces together have the volume inside the cut faces *)
Definition sum_ok (t : ElemType) (v : nat) (xs : list vec) : Prop :=
  exists B vs us, bisected_faces t xs = Ok B /\ map (fun k => get_volume t v k xs) (seq 0 (GetO2ElemBisectNum t)) = map Some vs /\ map under B = map Some us /\ sumR vs = sumR us.
Lemma tri_sum (x0 x1 x2 x3 x4 x5 : vec) : sum_ok Tri6 0 [x0; x1; x2; x3; x4; x5].
Proof.
  eexists. eexists [_; _; _; _]. eexists [_; _; _; _; _; _]. split; [vm_compute; reflexivity|]. split; [unfold get_volume; vm_compute tab; reflexivity|]. split; [reflexivity|].
  unfold sumR, tri_area, sector. cbn [fold_right nth]. field.
Qed.
Lemma quad_sum (x0 x1 x2 x3 x4 x5 x6 x7 x8 : vec) : sum_ok Quad9 0 [x0; x1; x2; x3; x4; x5; x6; x7; x8].
Proof.
  eexists. eexists [_; _; _; _]. eexists [_; _; _; _; _; _; _; _]. split; [vm_compute; reflexivity|]. split; [unfold get_volume; vm_compute tab; reflexivity|]. split; [reflexivity|].
  unfold sumR, tri_area, sector. cbn [fold_right nth]. field.
Qed.
Lemma tet_sum v (x0 x1 x2 x3 x4 x5 x6 x7 x8 x9 : vec) : (v < 3)%nat -> sum_ok Tet10 v [x0; x1; x2; x3; x4; x5; x6; x7; x8; x9].
Proof.
  intro V. destruct v as [|[|[|v]]]; [..|lia].
  all: eexists; eexists [_; _; _; _; _; _; _; _]; eexists [_; _; _; _; _; _; _; _; _; _; _; _; _; _; _; _].
  all: split; [vm_compute; reflexivity|]; split; [unfold get_volume; vm_compute tab; reflexivity|]; split; [reflexivity|].
  all: unfold sumR, tet_volume, cone, vdot, vcross; cbn [fold_right nth sumn]; field.
Qed.
Lemma total_volume m r i c xs : bisect m = Ok r -> sound_cells m -> is_cell m i c -> simple (c_type c) = true -> coords_on_cell m c = Ok xs ->
  exists vs B us, length vs = GetO2ElemBisectNum (c_type c) /\
    (forall k s w, piece m r i k s -> nth_error vs k = Some w -> exists ys, coords_on_cell m s = Ok ys /\ volume (c_type s) ys = Some w) /\
    bisected_faces (c_type c) xs = Ok B /\ map under B = map Some us /\ sumR vs = sumR us.
Proof.
  intros H SC C SI X. destruct (the_variant _ _ _ _ H C) as (v & V & O & Q). pose proof (coords_length _ _ _ X) as L. rewrite (proj1 (SC _ _ C)) in L. apply variants_ok in V.
  assert (SO : sum_ok (c_type c) v xs).
  { destruct (c_type c); try discriminate SI; cbn in L, V; points xs L; try (assert (v = 0)%nat as -> by lia); [apply tri_sum|apply quad_sum|now apply tet_sum]. }
  destruct SO as (B & vs & us & E1 & E2 & E3 & E4). exists vs, B, us. split; [apply (f_equal (@length _)) in E2; rewrite !map_length, seq_length in E2; auto|]. split; auto.
  intros k s w P N. destruct (Q _ _ P) as (xs' & U). assert (xs' = xs) by (pose proof (cut_coords _ _ _ _ _ _ U); congruence). subst xs'. destruct (piece_volume _ _ _ _ _ _ _ _ SC C U H) as (ys & Y & E). exists ys. split; auto. rewrite E.
  apply (f_equal (fun l => nth_error l k)) in E2. rewrite !nth_error_map, N, nth_error_seq in E2. rewrite (proj2 (Nat.ltb_lt _ _) (cut_k _ _ _ _ _ _ U)) in E2. cbn in E2. congruence.
Qed.
