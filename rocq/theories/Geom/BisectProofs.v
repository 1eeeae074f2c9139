(** The pieces of the cells of a bisected mesh. *)
From Coq Require Import Reals List ZArith Bool Lia Arith.
From Verif Require Import Base.Prelude Base.PreludeFacts Geom.ElemModel Geom.ElemSpec Geom.ElemProofs Geom.PeriodicModel Geom.PeriodicSpec Geom.OrderModel Geom.OrderProofs
  Geom.ElevModel Geom.ElevSpec Geom.ElevMore Geom.BisectModel Geom.BisectSpec.
Import ListNotations.
Local Open Scope Z_scope.

Lemma mapM_app A B (f : A -> res B) a b x y : mapM f a = Ok x -> mapM f b = Ok y -> mapM f (a ++ b) = Ok (x ++ y).
Proof.
  revert x. induction a as [|u a IH]; intros x H1 H2; cbn in *.
  - injection H1 as <-. exact H2.
  - apply bind_Ok in H1. destruct H1 as (v & V & H1). apply bind_Ok in H1. destruct H1 as (vs & VS & H1). injection H1 as <-.
    rewrite V. cbn. now rewrite (IH _ VS H2).
Qed.
Lemma mapM_firstn A B (f : A -> res B) : forall l r i, mapM f l = Ok r -> mapM f (firstn i l) = Ok (firstn i r).
Proof.
  induction l as [|u l IH]; intros r i H; cbn in H.
  - injection H as <-. destruct i; reflexivity.
  - apply bind_Ok in H. destruct H as (v & V & H). apply bind_Ok in H. destruct H as (vs & VS & H). injection H as <-.
    destruct i as [|i]; [reflexivity|]. cbn. rewrite V. cbn. now rewrite (IH _ _ VS).
Qed.

Lemma cut_cell_length m c ss : bisect_cell m c = Ok ss -> length ss = GetO2ElemBisectNum (c_type c).
Proof.
  unfold bisect_cell. intro H. apply bind_Ok in H. destruct H as (xs & _ & H). apply bind_Ok in H. destruct H as (v & _ & H).
  apply mapM_length in H. now rewrite seq_length in H.
Qed.
Lemma cut_bnd_length m lo hi b ss : bisect_bnd m lo hi b = Ok ss -> length ss = GetO2ElemBisectNum (b_type b).
Proof.
  unfold bisect_bnd. intro H. apply bind_Ok in H. destruct H as (u & _ & H). apply bind_Ok in H. destruct H as (c & _ & H). apply bind_Ok in H. destruct H as (xs & _ & H).
  apply bind_Ok in H. destruct H as (ys & _ & H). apply bind_Ok in H. destruct H as (v & _ & H). apply mapM_length in H. now rewrite seq_length in H.
Qed.
Lemma cut_length A B (f : A -> res (list B)) (ty : A -> ElemType) : (forall c ss, f c = Ok ss -> length ss = GetO2ElemBisectNum (ty c)) ->
  forall l cs, mapM f l = Ok cs -> length (concat cs) = total (map ty l).
Proof.
  intros N. induction l as [|c l IH]; intros cs H; cbn in H.
  - injection H as <-. reflexivity.
  - apply bind_Ok in H. destruct H as (v & V & H). apply bind_Ok in H. destruct H as (vs & VS & H). injection H as <-. cbn. rewrite app_length, (IH _ VS), (N _ _ V). reflexivity.
Qed.

(** boundary elements with the cells of their rank *)
Fixpoint tagged (lo : Z) (ps : list part) : list (Z * Z * bnd) :=
  match ps with [] => [] | p :: ps => let hi := lo + zlen (p_cells p) in map (fun b => (lo, hi, b)) (p_bnds p) ++ tagged hi ps end.
Definition cut_bnd (m : mesh) (q : Z * Z * bnd) : res (list (ElemType * list Z)) := bisect_bnd m (fst (fst q)) (snd (fst q)) (snd q).
Lemma tagged_bnds : forall ps lo, map snd (tagged lo ps) = concat (map p_bnds ps).
Proof. induction ps as [|p ps IH]; intro lo; cbn; [reflexivity|]. rewrite map_app, map_map, IH. cbn. now rewrite map_id. Qed.
Lemma tagged_at m : forall ps pre lo, parts m = pre ++ ps -> lo = zlen (concat (map p_cells pre)) -> forall q, In q (tagged lo ps) -> bnd_at m (fst (fst q)) (snd (fst q)) (snd q).
Proof.
  induction ps as [|p ps IH]; intros pre lo E L q I; cbn in I; [destruct I|]. apply in_app_iff in I. destruct I as [I|I].
  - apply in_map_iff in I. destruct I as (b & <- & I). cbn. exists pre, p, ps. auto.
  - eapply (IH (pre ++ [p])); [now rewrite <- app_assoc| |exact I]. rewrite map_app, concat_app. cbn. rewrite app_nil_r. unfold zlen. rewrite app_length. unfold zlen in L. lia.
Qed.
Lemma mapM_comp A B C (f : B -> res C) (g : A -> B) l : mapM f (map g l) = mapM (fun x => f (g x)) l.
Proof. induction l as [|x l IH]; cbn; [reflexivity|]. now rewrite IH. Qed.

Lemma parts_facts m : forall ps lo r, bisect_parts m lo ps = Ok r ->
  exists cs bs, mapM (bisect_cell m) (concat (map p_cells ps)) = Ok cs /\ concat (map q_cells r) = concat cs /\
    mapM (cut_bnd m) (tagged lo ps) = Ok bs /\ concat (map q_bnds r) = concat bs /\ Forall2 sizes_ok ps r.
Proof.
  induction ps as [|p ps IH]; intros lo r H; cbn in H.
  - injection H as <-. exists [], []. repeat split; auto.
  - apply bind_Ok in H. destruct H as (c1 & C1 & H). apply bind_Ok in H. destruct H as (b1 & B1 & H). apply bind_Ok in H. destruct H as (t & T & H). injection H as <-.
    destruct (IH _ _ T) as (cs & bs & H1 & H2 & H3 & H4 & H5). exists (c1 ++ cs), (b1 ++ bs). cbn. rewrite !concat_app, H2, H4. repeat split; auto.
    + now apply mapM_app.
    + apply mapM_app; auto. rewrite mapM_comp. exact B1.
    + constructor; auto. repeat split; cbn.
      * eapply cut_length; [|exact C1]. apply cut_cell_length.
      * eapply cut_length; [|exact B1]. apply cut_bnd_length.
Qed.
Lemma all_o2 m : forallb (fun b => b) (IsO2 (map (fun p => map c_type (p_cells p)) (parts m))) = true <-> forall i c, is_cell m i c -> GetOrder (c_type c) = Some 2%nat.
Proof.
  rewrite forallb_forall, o2_all. unfold is_cell, all_cells. split.
  - intros H i c C. apply nth_error_In, in_concat in C. destruct C as (l & L & C). apply in_map_iff in L. destruct L as (p & <- & P).
    apply (H (map c_type (p_cells p))); [apply in_map_iff; eauto|now apply in_map].
  - intros H l t L T. apply in_map_iff in L. destruct L as (p & <- & P). apply in_map_iff in T. destruct T as (c & <- & C).
    destruct (In_nth_error (concat (map p_cells (parts m))) c) as (i & I); [|eauto]. apply in_concat. exists (p_cells p). split; auto. now apply in_map.
Qed.
Record facts (m : mesh) (r : list bpart) (cs : list (list cell)) (bs : list (list (ElemType * list Z))) : Prop := {
  f_o2 : forall i c, is_cell m i c -> GetOrder (c_type c) = Some 2%nat;
  f_cells : mapM (bisect_cell m) (all_cells m) = Ok cs;
  f_out : concat (map q_cells r) = concat cs;
  f_bnds : mapM (cut_bnd m) (tagged 0 (parts m)) = Ok bs;
  f_bout : concat (map q_bnds r) = concat bs;
  f_sizes : Forall2 sizes_ok (parts m) r }.
Lemma bisect_facts m r : bisect m = Ok r -> exists cs bs, facts m r cs bs.
Proof.
  unfold bisect. intro H. apply bind_Ok in H. destruct H as (u & U & H). apply assert_Ok in U. destruct (parts_facts _ _ _ _ H) as (cs & bs & H1 & H2 & H3 & H4 & H5).
  exists cs, bs. constructor; auto. now apply all_o2.
Qed.

Lemma sizes m r : bisect m = Ok r -> Forall2 sizes_ok (parts m) r.
Proof. intro H. destruct (bisect_facts _ _ H) as (cs & bs & F). exact (f_sizes _ _ _ _ F). Qed.

(** ** One piece *)
Record cut (m : mesh) (c : cell) (k : nat) (s : cell) (xs : list vec) (v : nat) : Prop := {
  cut_order : GetOrder (c_type c) = Some 2%nat;
  cut_coords : coords_on_cell m c = Ok xs;
  cut_variant : bisect_variant (c_type c) xs = Ok v;
  cut_k : (k < GetO2ElemBisectNum (c_type c))%nat;
  cut_type : c_type s = GetO2ElemBisectElem (c_type c) k;
  cut_nodes : ExtractO2BisectElemNodes (c_type c) k v (c_nodes c) = Ok (c_nodes s);
  cut_bits : periodic m = true -> ExtractO2BisectElemNodes (c_type c) k v (c_bits c) = Ok (c_bits s) }.
Lemma piece_row m r cs bs i c : facts m r cs bs -> is_cell m i c -> exists ss, bisect_cell m c = Ok ss /\ nth_error cs i = Some ss /\
  length (concat (firstn i cs)) = total (map c_type (firstn i (all_cells m))).
Proof.
  intros F C. destruct (mapM_nth _ _ _ _ _ (f_cells _ _ _ _ F)) as [L N]. destruct (N _ _ C) as (ss & S1 & S2). exists ss. repeat split; auto.
  eapply cut_length; [apply cut_cell_length|]. apply mapM_firstn, F.
Qed.
Lemma piece_cut m r i k s : bisect m = Ok r -> piece m r i k s -> exists c xs v, is_cell m i c /\ cut m c k s xs v.
Proof.
  intros H (c & C & K & E). destruct (bisect_facts _ _ H) as (cs & bs & F). destruct (piece_row _ _ _ _ _ _ F C) as (ss & S1 & S2 & S3).
  rewrite (f_out _ _ _ _ F), <- S3, (nth_error_concat _ _ _ _ _ S2) in E by (rewrite (cut_cell_length _ _ _ S1); exact K).
  pose proof S1 as S1'. unfold bisect_cell in S1. apply bind_Ok in S1. destruct S1 as (xs & X & S1). apply bind_Ok in S1. destruct S1 as (v & V & S1).
  exists c, xs, v. split; auto. destruct (mapM_nth _ _ _ _ _ S1) as [_ N]. destruct (N k k) as (s' & E1 & E2); [rewrite nth_error_seq; rewrite (proj2 (Nat.ltb_lt _ _) K); reflexivity|].
  assert (s' = s) by congruence. subst s'. apply bind_Ok in E1. destruct E1 as (ns & NS & E1). apply bind_Ok in E1. destruct E1 as (bb & BB & E1). injection E1 as <-. constructor; auto; cbn.
  - eapply (f_o2 _ _ _ _ F); eauto.
  - intro P. rewrite P in BB. exact BB.
Qed.
Lemma piece_exists m r i c k : bisect m = Ok r -> is_cell m i c -> (k < GetO2ElemBisectNum (c_type c))%nat -> exists s, piece m r i k s.
Proof.
  intros H C K. destruct (bisect_facts _ _ H) as (cs & bs & F). destruct (piece_row _ _ _ _ _ _ F C) as (ss & S1 & S2 & S3).
  destruct (nth_error_lt_Some _ ss k) as (s & E); [rewrite (cut_cell_length _ _ _ S1); exact K|]. exists s, c. repeat split; auto.
  rewrite (f_out _ _ _ _ F), <- S3, (nth_error_concat _ _ _ _ _ S2); auto. rewrite (cut_cell_length _ _ _ S1). exact K.
Qed.
(** every output cell is a piece *)
Lemma find_row A B (f : A -> res (list B)) : forall l cs n s, mapM f l = Ok cs -> nth_error (concat cs) n = Some s ->
  exists i k a ss, nth_error l i = Some a /\ f a = Ok ss /\ nth_error ss k = Some s /\ n = (length (concat (firstn i cs)) + k)%nat.
Proof.
  induction l as [|a l IH]; intros cs n s H E; cbn in H.
  - injection H as <-. destruct n; discriminate.
  - apply bind_Ok in H. destruct H as (v & V & H). apply bind_Ok in H. destruct H as (vs & VS & H). injection H as <-. cbn in E.
    destruct (Nat.lt_ge_cases n (length v)) as [L|L].
    + rewrite nth_error_app1 in E by exact L. exists 0%nat, n, a, v. auto.
    + rewrite nth_error_app2 in E by exact L. destruct (IH _ _ _ VS E) as (i & k & a' & ss & H1 & H2 & H3 & H4). exists (S i), k, a', ss. repeat split; auto. cbn. rewrite app_length. lia.
Qed.
Lemma nothing_else m r n s : bisect m = Ok r -> nth_error (concat (map q_cells r)) n = Some s -> exists i k, piece m r i k s.
Proof.
  intros H E. destruct (bisect_facts _ _ H) as (cs & bs & F). pose proof E as E0. rewrite (f_out _ _ _ _ F) in E. destruct (find_row _ _ _ _ _ _ _ (f_cells _ _ _ _ F) E) as (i & k & c & ss & C & S1 & S2 & N).
  exists i, k, c. split; [exact C|]. pose proof (cut_cell_length _ _ _ S1) as L. pose proof (nth_error_Some_lt _ _ _ _ S2). split; [lia|].
  rewrite <- E0. f_equal. rewrite N. f_equal. symmetry. eapply cut_length; [apply cut_cell_length|]. apply mapM_firstn, F.
Qed.

(** ** The tables *)
Lemma bisect_nat A B (g : A -> B) t k v nodes : ExtractO2BisectElemNodes t k v (map g nodes) = rmap (map g) (ExtractO2BisectElemNodes t k v nodes).
Proof.
  unfold ExtractO2BisectElemNodes. destruct (assert_ _); [|reflexivity..]. cbn. destruct (assert_ _); [|reflexivity..]. cbn.
  destruct (get_row _ _); [|reflexivity..]. cbn. destruct (row_prefix _ _); [|reflexivity..]. cbn. apply gather_nat.
Qed.
Definition tab (t : ElemType) (k v : nat) : res (list nat) := ExtractO2BisectElemNodes t k v (seq 0 (GetNumNodes t)).
Lemma by_table A (d : A) t k v nodes l : length nodes = GetNumNodes t -> ExtractO2BisectElemNodes t k v nodes = Ok l ->
  exists ids, tab t k v = Ok ids /\ l = map (fun j => nth j nodes d) ids.
Proof.
  intros L H. rewrite (labels A d nodes _ L), bisect_nat in H. unfold tab. destruct (ExtractO2BisectElemNodes t k v (seq 0 (GetNumNodes t))) as [ids| |]; try discriminate.
  injection H as <-. eauto.
Qed.
Lemma from_table A (d : A) t k v nodes ids : length nodes = GetNumNodes t -> tab t k v = Ok ids -> ExtractO2BisectElemNodes t k v nodes = Ok (map (fun j => nth j nodes d) ids).
Proof. intros L H. rewrite (labels A d nodes _ L) at 1. rewrite bisect_nat. unfold tab in H. now rewrite H. Qed.
Fixpoint nodupb (l : list nat) : bool := match l with [] => true | x :: l => negb (existsb (Nat.eqb x) l) && nodupb l end.
Lemma nodupb_ok l : nodupb l = true -> NoDup l.
Proof.
  induction l as [|x l IH]; cbn; intro H; constructor; apply andb_true_iff in H; destruct H as [A B]; auto.
  intro I. apply negb_true_iff in A. assert (existsb (Nat.eqb x) l = true); [|congruence]. apply existsb_exists. exists x. split; auto. apply Nat.eqb_refl.
Qed.
Definition tab_check (t : ElemType) (v k : nat) : bool :=
  match tab t k v with
  | Ok ids => Nat.eqb (length ids) (GetNumNodes (GetO2ElemBisectElem t k)) && forallb (fun j => Nat.ltb j (GetNumNodes t)) ids && nodupb ids
  | _ => false
  end.
Definition second (t : ElemType) : bool := match GetOrder t with Some 2%nat => true | _ => false end.
Lemma second_ok t : GetOrder t = Some 2%nat -> second t = true.
Proof. unfold second. now intros ->. Qed.
Lemma tab_ok t v k : GetOrder t = Some 2%nat -> variant_ok t v = true -> (k < GetO2ElemBisectNum t)%nat -> tab_check t v k = true.
Proof.
  intros O V K. apply variants_ok in V. revert k K. apply forallb_seq. revert v V. apply forallb_seq. destruct t; try discriminate O; vm_compute; reflexivity.
Qed.
Lemma tab_facts t v k : GetOrder t = Some 2%nat -> variant_ok t v = true -> (k < GetO2ElemBisectNum t)%nat ->
  exists ids, tab t k v = Ok ids /\ length ids = GetNumNodes (GetO2ElemBisectElem t k) /\ Forall (fun j => (j < GetNumNodes t)%nat) ids /\ NoDup ids.
Proof.
  intros O V K. pose proof (tab_ok t v k O V K) as T. unfold tab_check in T. destruct (tab t k v) as [ids| |]; try discriminate. exists ids.
  rewrite !andb_true_iff in T. destruct T as [[T1 T2] T3]. repeat split; auto; [now apply Nat.eqb_eq| |now apply nodupb_ok]. apply Forall_forall. intros j J. rewrite forallb_forall in T2. now apply Nat.ltb_lt, T2.
Qed.
Lemma variant_of_extract A t k v (nodes l : list A) : ExtractO2BisectElemNodes t k v nodes = Ok l -> variant_ok t v = true /\ (k < GetO2ElemBisectNum t)%nat.
Proof.
  unfold ExtractO2BisectElemNodes. intro H. apply bind_Ok in H. destruct H as (u & U & H). apply assert_Ok in U. apply bind_Ok in H. destruct H as (u' & U' & _). apply assert_Ok in U'. split; auto. now apply Nat.ltb_lt.
Qed.
Lemma sub_type t k : GetOrder t = Some 2%nat -> (k < GetO2ElemBisectNum t)%nat -> GetOrder (GetO2ElemBisectElem t k) = Some 1%nat /\ GetDim (GetO2ElemBisectElem t k) = GetDim t.
Proof.
  intros O K. destruct t; try discriminate O; try (split; reflexivity). unfold GetO2ElemBisectElem. destruct (k <? 4)%nat; split; reflexivity.
Qed.
Lemma cut_ids m c k s xs v : cut m c k s xs v -> length (c_nodes c) = GetNumNodes (c_type c) ->
  exists ids, tab (c_type c) k v = Ok ids /\ c_nodes s = map (fun j => nth j (c_nodes c) 0) ids /\ length ids = GetNumNodes (c_type s) /\ Forall (fun j => (j < GetNumNodes (c_type c))%nat) ids /\ NoDup ids.
Proof.
  intros Q L. destruct (by_table Z 0 _ _ _ _ _ L (cut_nodes _ _ _ _ _ _ Q)) as (ids & T & E). destruct (variant_of_extract _ _ _ _ _ _ (cut_nodes _ _ _ _ _ _ Q)) as [V K].
  destruct (tab_facts _ _ _ (cut_order _ _ _ _ _ _ Q) V K) as (ids' & T' & F1 & F2 & F3). assert (ids' = ids) by congruence. subst ids'. exists ids. rewrite (cut_type _ _ _ _ _ _ Q). repeat split; auto.
Qed.
Lemma piece_sound m r i k s c : bisect m = Ok r -> sound_cells m -> is_cell m i c -> piece m r i k s ->
  GetOrder (c_type s) = Some 1%nat /\ GetDim (c_type s) = GetDim (c_type c) /\ length (c_nodes s) = GetNumNodes (c_type s) /\ NoDup (c_nodes s) /\ incl (c_nodes s) (c_nodes c).
Proof.
  intros H SC C P. destruct (piece_cut _ _ _ _ _ H P) as (c' & xs & v & C' & Q). assert (c' = c) by (unfold is_cell in *; congruence). subst c'. destruct (SC _ _ C) as [L N].
  destruct (cut_ids _ _ _ _ _ _ Q L) as (ids & T & E & F1 & F2 & F3). pose proof (sub_type _ _ (cut_order _ _ _ _ _ _ Q) (cut_k _ _ _ _ _ _ Q)) as [S1 S2]. rewrite <- (cut_type _ _ _ _ _ _ Q) in S1, S2.
  repeat split; auto.
  - rewrite E, map_length. exact F1.
  - rewrite E. apply NoDup_map_below with (n := GetNumNodes (c_type c)); auto. rewrite <- L. now apply nth_inj.
  - intros g G. rewrite E in G. apply in_map_iff in G. destruct G as (j & <- & J). rewrite Forall_forall in F2. apply nth_In. rewrite L. auto.
Qed.

(** every node is used *)
Definition used_check (t : ElemType) (v : nat) : bool :=
  forallb (fun j => existsb (fun k => match tab t k v with Ok ids => existsb (Nat.eqb j) ids | _ => false end) (seq 0 (GetO2ElemBisectNum t))) (seq 0 (GetNumNodes t)).
Lemma used_ok t v : GetOrder t = Some 2%nat -> variant_ok t v = true -> used_check t v = true.
Proof. intros O V. apply variants_ok in V. revert v V. apply forallb_seq. destruct t; try discriminate O; vm_compute; reflexivity. Qed.
Lemma variant_valid t xs v : bisect_variant t xs = Ok v -> variant_ok t v = true.
Proof.
  unfold bisect_variant. intro H. apply bind_Ok in H. destruct H as (u & _ & H). destruct t; try (injection H as <-; reflexivity).
  all: apply bind_Ok in H; destruct H as (ls & LS & H); injection H as <-; apply mapM_length in LS; cbn in LS.
  - destruct ls as [|a [|b [|c [|]]]]; try discriminate LS. cbn. repeat destruct (Rlt_dec _ _); reflexivity.
  - destruct ls as [|a [|b [|]]]; try discriminate LS. cbn. repeat destruct (Rlt_dec _ _); reflexivity.
Qed.
Lemma every_node m r i c g : bisect m = Ok r -> sound_cells m -> is_cell m i c -> In g (c_nodes c) -> exists k s, piece m r i k s /\ In g (c_nodes s).
Proof.
  intros H SC C G. destruct (SC _ _ C) as [L N]. destruct (bisect_facts _ _ H) as (cs & bs & F). destruct (piece_row _ _ _ _ _ _ F C) as (ss & S1 & _).
  unfold bisect_cell in S1. apply bind_Ok in S1. destruct S1 as (xs & X & S1). apply bind_Ok in S1. destruct S1 as (v & V & _).
  destruct (In_nth _ _ 0 G) as (j & J & E). rewrite L in J.
  pose proof (used_ok _ v (f_o2 _ _ _ _ F _ _ C) (variant_valid _ _ _ V)) as U. unfold used_check in U. rewrite forallb_forall in U. specialize (U j). rewrite in_seq in U.
  assert (U' := U ltac:(lia)). clear U. apply existsb_exists in U'. destruct U' as (k & K & U). apply in_seq in K. destruct (tab (c_type c) k v) as [ids| |] eqn:T; try discriminate.
  apply existsb_exists in U. destruct U as (j' & J' & U). apply Nat.eqb_eq in U. subst j'. destruct (piece_exists m r i c k H C) as (s & P); [lia|]. exists k, s. split; auto.
  destruct (piece_cut _ _ _ _ _ H P) as (c' & xs' & v' & C' & Q). assert (c' = c) by (unfold is_cell in *; congruence). subst c'.
  assert (xs' = xs) by (pose proof (cut_coords _ _ _ _ _ _ Q); congruence). subst xs'. assert (v' = v) by (pose proof (cut_variant _ _ _ _ _ _ Q); congruence). subst v'.
  destruct (cut_ids _ _ _ _ _ _ Q L) as (ids' & T' & E' & _). assert (ids' = ids) by congruence. subst ids'. rewrite E', <- E. apply in_map_iff. eauto.
Qed.

(** a piece sees its nodes where the cell sees them *)
Lemma combine_map2 A B C (f : A -> B) (g : A -> C) l : combine (map f l) (map g l) = map (fun x => (f x, g x)) l.
Proof. induction l as [|x l IH]; cbn; [reflexivity|]. now rewrite IH. Qed.
Lemma combine_nth2 A B (a : A) (b : B) l l' j : length l = length l' -> nth j (combine l l') (a, b) = (nth j l a, nth j l' b).
Proof. intro E. now apply combine_nth. Qed.
Lemma mapM_at A B (f : A -> res B) (da : A) (db : B) l r : mapM f l = Ok r -> forall j, (j < length l)%nat -> f (nth j l da) = Ok (nth j r db).
Proof.
  intros H j J. destruct (mapM_nth _ _ _ _ _ H) as [L N]. destruct (N j (nth j l da)) as (y & Y & Z1); [now apply nth_error_nth'|]. rewrite Y. f_equal. symmetry. now apply nth_error_nth.
Qed.
Lemma mapM_ids A B (f : A -> res B) (da : A) (db : B) l r ids : mapM f l = Ok r -> Forall (fun j => (j < length l)%nat) ids -> mapM f (map (fun j => nth j l da) ids) = Ok (map (fun j => nth j r db) ids).
Proof.
  intros H F. induction F as [|j ids J F IH]; [reflexivity|]. cbn. rewrite (mapM_at _ _ _ da db _ _ H _ J). cbn. now rewrite IH.
Qed.
Definition zero : vec := fun _ => 0%R.
Lemma cut_places m c k s xs v : cut m c k s xs v -> length (c_nodes c) = GetNumNodes (c_type c) -> length xs = length (c_nodes c) /\
  exists ids, c_nodes s = map (fun j => nth j (c_nodes c) 0) ids /\ tab (c_type c) k v = Ok ids /\ coords_on_cell m s = Ok (map (fun j => nth j xs zero) ids) /\ Forall (fun j => (j < length (c_nodes c))%nat) ids.
Proof.
  intros Q L. destruct (cut_ids _ _ _ _ _ _ Q L) as (ids & T & E & F1 & F2 & F3). pose proof (cut_coords _ _ _ _ _ _ Q) as X. unfold coords_on_cell in X |- *. rewrite <- L in F2. destruct (periodic m) eqn:P.
  - destruct (Nat.eqb (length (c_bits c)) (length (c_nodes c))) eqn:LB; try discriminate. apply Nat.eqb_eq in LB. pose proof (cut_bits _ _ _ _ _ _ Q P) as EB. pose proof X as LX. apply mapM_length in LX. rewrite combine_length, LB, Nat.min_id in LX. split; auto.
    assert (EB' : c_bits s = map (fun j => nth j (c_bits c) 0) ids).
    { rewrite L in LB. rewrite (from_table Z 0 _ _ _ _ _ LB T) in EB. congruence. }
    exists ids. repeat split; auto. rewrite E, EB', !map_length, Nat.eqb_refl, combine_map2. rewrite <- (mapM_ids _ _ _ (0, 0) zero _ _ ids X).
    + f_equal. apply map_ext. intro j. symmetry. apply combine_nth2. lia.
    + rewrite combine_length, LB, Nat.min_id. exact F2.
  - pose proof X as LX. apply mapM_length in LX. split; auto. exists ids. repeat split; auto. rewrite E. now apply mapM_ids.
Qed.
Lemma seen_alike m r i k s c : bisect m = Ok r -> sound_cells m -> is_cell m i c -> piece m r i k s ->
  exists xs ys, coords_on_cell m c = Ok xs /\ coords_on_cell m s = Ok ys /\ length ys = length (c_nodes s) /\ incl (combine (c_nodes s) ys) (combine (c_nodes c) xs).
Proof.
  intros H SC C P. destruct (piece_cut _ _ _ _ _ H P) as (c' & xs & v & C' & Q). assert (c' = c) by (unfold is_cell in *; congruence). subst c'. destruct (SC _ _ C) as [L N].
  destruct (cut_places _ _ _ _ _ _ Q L) as (LX & ids & E & T & X & F). exists xs, (map (fun j => nth j xs zero) ids). split; [apply Q|]. split; auto. rewrite E, !map_length. split; auto.
  rewrite combine_map2. intros q I. apply in_map_iff in I. destruct I as (j & <- & J). rewrite Forall_forall in F. rewrite <- combine_nth2 by auto. apply nth_In. rewrite combine_length. specialize (F _ J). lia.
Qed.
