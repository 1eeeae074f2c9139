(** Cells with the same nodes around a new node share it. *)
From Coq Require Import Reals List ZArith Bool Permutation Lia Lra Arith.
From Verif Require Import Base.Prelude Base.PreludeFacts Geom.ElemModel Geom.ElemSpec Geom.ElemProofs Geom.PeriodicModel Geom.PeriodicSpec
  Geom.ElevModel Geom.ElevSpec Geom.ElevProofs Geom.ElevNumber.
Import ListNotations.
Local Open Scope Z_scope.

(** *** spans *)
Definition span_check (t : ElemType) : bool :=
  match GetElemElevation_O1O2_NumNode t with
  | None => true
  | Some n =>
    forallb (fun k => match ExtractElevNodeSpanNodes t k (seq 0 (GetNumNodes t)) with
      | Ok ids => nodupb ids && forallb (fun i => Nat.ltb i (GetNumNodes t)) ids && negb (Nat.eqb (length ids) 0)
          && forallb (fun l => match ExtractElevNodeSpanNodes t l (seq 0 (GetNumNodes t)) with
               | Ok ids' => Nat.eqb k l || negb (seteqb ids ids') | _ => false end) (seq 0 n)
      | _ => false end) (seq 0 n)
  end.
Lemma span_check_ok t : span_check t = true.
Proof. destruct t; vm_compute; reflexivity. Qed.

Lemma span_lt t k A (nodes : list A) s : ExtractElevNodeSpanNodes t k nodes = Ok s -> exists n, GetElemElevation_O1O2_NumNode t = Some n /\ (k < n)%nat.
Proof.
  unfold ExtractElevNodeSpanNodes. intro H. apply bind_Ok in H. destruct H as ([] & H & _). apply assert_Ok in H.
  destruct (GetElemElevation_O1O2_NumNode t) as [n|]; [|discriminate]. exists n. split; auto. now apply Nat.ltb_lt.
Qed.
Lemma span_ids t k n : GetElemElevation_O1O2_NumNode t = Some n -> (k < n)%nat ->
  exists ids, ExtractElevNodeSpanNodes t k (seq 0 (GetNumNodes t)) = Ok ids /\ NoDup ids /\ Forall (fun i => (i < GetNumNodes t)%nat) ids /\ ids <> [] /\
    forall l ids', (l < n)%nat -> ExtractElevNodeSpanNodes t l (seq 0 (GetNumNodes t)) = Ok ids' -> incl ids ids' -> incl ids' ids -> k = l.
Proof.
  intros N L. pose proof (span_check_ok t) as C. unfold span_check in C. rewrite N in C.
  pose proof (forallb_seq _ _ C k L) as K. cbv beta in K.
  destruct (ExtractElevNodeSpanNodes t k (seq 0 (GetNumNodes t))) as [ids| |]; try discriminate. exists ids. split; auto.
  rewrite !andb_true_iff in K. destruct K as (((K1 & K2) & K3) & K4). split; [now apply nodupb_ok|]. split.
  - apply Forall_forall. intros i Hi. rewrite forallb_forall in K2. apply Nat.ltb_lt. auto.
  - split; [now destruct ids|]. intros l ids' Ll E I I'. pose proof (forallb_seq _ _ K4 l Ll) as Q. cbv beta in Q. rewrite E in Q.
    apply orb_true_iff in Q. destruct Q as [Q|Q]; [now apply Nat.eqb_eq|]. apply negb_true_iff in Q.
    assert (forall a b, incl a b -> subsetb a b = true) as SB.
    { induction a as [|x a IH]; intros b HI; cbn; auto. rewrite IH by (intros z Hz; apply HI; now right). rewrite andb_true_r.
      apply existsb_exists. exists x. split; [apply HI; now left|apply Nat.eqb_refl]. }
    unfold seteqb in Q. rewrite (SB _ _ I), (SB _ _ I') in Q. discriminate.
Qed.

Lemma span_map A (d : A) t k nodes s : length nodes = GetNumNodes t -> ExtractElevNodeSpanNodes t k nodes = Ok s ->
  exists ids, ExtractElevNodeSpanNodes t k (seq 0 (GetNumNodes t)) = Ok ids /\ s = map (fun i => nth i nodes d) ids.
Proof.
  intros L H. rewrite (labels _ d nodes _ L) in H. rewrite ExtractElevNodeSpanNodes_nat in H.
  destruct (ExtractElevNodeSpanNodes t k (seq 0 (GetNumNodes t))) as [ids| |]; cbn in H; try discriminate. injection H as <-. eauto.
Qed.
Lemma span_total A t k n (nodes : list A) : length nodes = GetNumNodes t -> GetElemElevation_O1O2_NumNode t = Some n -> (k < n)%nat ->
  exists s, ExtractElevNodeSpanNodes t k nodes = Ok s.
Proof.
  intros L N K. destruct (span_ids t k n N K) as (ids & E & _ & F & NE & _). destruct nodes as [|d nodes].
  - destruct ids as [|i ids]; [congruence|]. apply Forall_inv in F. cbn in L. lia.
  - rewrite (labels _ d (d :: nodes) _ L), ExtractElevNodeSpanNodes_nat, E. cbn. eauto.
Qed.

Lemma span_good t k (nodes s : list Z) : length nodes = GetNumNodes t -> NoDup nodes -> ExtractElevNodeSpanNodes t k nodes = Ok s ->
  NoDup s /\ incl s nodes /\ s <> [].
Proof.
  intros L D H. destruct (span_lt _ _ _ _ _ H) as (n & N & K). destruct (span_ids t k n N K) as (ids & E & ND & F & NE & _).
  destruct (span_map _ 0 _ _ _ _ L H) as (ids' & E' & ->). assert (ids' = ids) by congruence. subst ids'. split.
  - apply NoDup_map_below with (n := GetNumNodes t); auto. rewrite <- L. now apply nth_inj.
  - split.
    + intros z Hz. apply in_map_iff in Hz. destruct Hz as (i & <- & Hi). rewrite Forall_forall in F. apply nth_In. rewrite L. auto.
    + now destruct ids.
Qed.
Lemma span_distinct t k l (nodes s s' : list Z) : length nodes = GetNumNodes t -> NoDup nodes ->
  ExtractElevNodeSpanNodes t k nodes = Ok s -> ExtractElevNodeSpanNodes t l nodes = Ok s' -> Permutation s s' -> k = l.
Proof.
  intros L D H H' P. destruct (span_lt _ _ _ _ _ H) as (n & N & K). destruct (span_lt _ _ _ _ _ H') as (n' & N' & K').
  assert (n' = n) by congruence. subst n'.
  destruct (span_ids t k n N K) as (ids & E & ND & F & NE & U). destruct (span_ids t l n N K') as (ids' & E' & ND' & F' & NE' & U').
  destruct (span_map _ 0 _ _ _ _ L H) as (i1 & E1 & ->). assert (i1 = ids) by congruence. subst i1.
  destruct (span_map _ 0 _ _ _ _ L H') as (i2 & E2 & ->). assert (i2 = ids') by congruence. subst i2.
  pose proof (nth_inj _ 0 nodes D) as J. rewrite L in J. rewrite Forall_forall in F, F'.
  apply (U l ids' K' E').
  - intros i Hi. assert (I : In (nth i nodes 0) (map (fun i => nth i nodes 0) ids')). { eapply Permutation_in; [exact P|]. apply in_map_iff. eauto. }
    apply in_map_iff in I. destruct I as (i' & Q & I'). assert (i' = i) by (apply J; auto). now subst.
  - intros i Hi. assert (I : In (nth i nodes 0) (map (fun i => nth i nodes 0) ids)). { eapply Permutation_in; [symmetry; exact P|]. apply in_map_iff. eauto. }
    apply in_map_iff in I. destruct I as (i' & Q & I'). assert (i' = i) by (apply J; auto). now subst.
Qed.

(** *** the search *)
Definition near_nodes (X2 : list vec) (row : list entry) (x : vec) : list Z :=
  flat_map (fun e => match e with Ask _ => [] | Node g => match vget X2 g with Ok y => if near y x then [g] else [] | _ => [] end end) row.
Lemma look_fold X2 x : forall row st st', foldM (look_step X2 x) st row = Ok st' ->
  st' = ((fst st + length (near_nodes X2 row x))%nat, last (near_nodes X2 row x) (snd st)).
Proof.
  induction row as [|e row IH]; intros [n g0] st' H; cbn [foldM] in H.
  - injection H as <-. cbn. now rewrite Nat.add_0_r.
  - apply bind_Ok in H. destruct H as (st1 & H1 & H). unfold near_nodes. cbn [flat_map]. fold (near_nodes X2 row x). destruct e as [g|p]; cbn [look_step] in H1.
    + apply bind_Ok in H1. destruct H1 as (y & V & H1). rewrite V. injection H1 as <-. apply IH in H. rewrite H. destruct (near y x); cbn [app fst snd].
      * f_equal; [cbn [length]; lia|]. cbn [last]. destruct (near_nodes X2 row x) as [|a l] eqn:E; auto.
        clear. revert a. induction l as [|b l IH]; intro a; auto. cbn [last]. apply IH.
      * reflexivity.
    + injection H1 as <-. apply IH in H. exact H.
Qed.
Lemma look_near X2 row x g : look X2 row x = Ok g -> near_nodes X2 row x = [g].
Proof.
  unfold look. intro H. apply bind_Ok in H. destruct H as (st & H & E). apply look_fold in H. cbn [fst snd] in H. subst st. cbn [fst snd] in E.
  destruct (Nat.eqb _ 1) eqn:N; [|discriminate]. injection E as <-. apply Nat.eqb_eq in N.
  destruct (near_nodes X2 row x) as [|a [|b l]]; cbn in *; try discriminate. reflexivity.
Qed.
Lemma near_look X2 row x g : (forall h, In (Node h) row -> exists y, vget X2 h = Ok y) -> near_nodes X2 row x = [g] -> look X2 row x = Ok g.
Proof.
  intros V N. assert (T : forall st, exists st', foldM (look_step X2 x) st row = Ok st').
  { clear N. induction row as [|e row IH]; intro st; cbn [foldM]; eauto.
    assert (exists st1, look_step X2 x st e = Ok st1) as (st1 & ->).
    { destruct e as [h|p]; cbn; eauto. destruct (V h (or_introl eq_refl)) as (y & ->). cbn. eauto. }
    cbn [bind]. apply IH. intros h Hh. apply V. now right. }
  destruct (T (0%nat, -1)) as (st & E). unfold look. rewrite E. apply look_fold in E. rewrite N in E. subst st. reflexivity.
Qed.
Lemma near_nodes_in X2 row x g : In g (near_nodes X2 row x) <-> In (Node g) row /\ exists y, vget X2 g = Ok y /\ near y x = true.
Proof.
  unfold near_nodes. rewrite in_flat_map. split.
  - intros ([h|p] & I & K); [|destruct K]. destruct (vget X2 h) as [y| |] eqn:V; [|destruct K..]. destruct (near y x) eqn:N; [|destruct K].
    destruct K as [<-|[]]. split; auto. exists y. auto.
  - intros (I & y & V & N). exists (Node g). split; auto. rewrite V, N. now left.
Qed.
Lemma near_same X2 row x y : same_vec 3 x y -> near_nodes X2 row x = near_nodes X2 row y.
Proof.
  intro E. unfold near_nodes. apply flat_map_ext. intros [h|p]; auto. destruct (vget X2 h) as [z| |]; auto.
  assert (near z x = near z y) as ->; auto. unfold near. replace (sumn 3 (fun i => (z i - x i) * (z i - x i))%R) with (sumn 3 (fun i => (z i - y i) * (z i - y i))%R); auto.
  cbn. rewrite !E by lia. reflexivity.
Qed.
Lemma near_iff x y : near x y = true <-> (dist2 x y < / 10 ^ 20)%R.
Proof. unfold near, dist2. destruct (Rlt_dec _ _); split; auto; discriminate. Qed.
Lemma near_self x y : same_vec 3 x y -> near x y = true.
Proof.
  intro E. apply near_iff. replace (dist2 x y) with 0%R.
  - apply Rinv_0_lt_compat. apply pow_lt. lra.
  - unfold dist2. cbn. rewrite !E by lia. ring.
Qed.

(** *** what an elevation consists of *)
Record facts (m : mesh) (o : elevated) (infos : list (list vec * list (list answer))) : Prop := {
  f_ask : ask_cells m 0 (all_cells m) = Ok (concat (map snd infos));
  f_fst : map fst infos = map p_coords (parts m);
  f_X : o_coords o = new_coords infos;
  f_cells : mapM (fill_cell m (sizes infos) (concat (o_coords o)) (number_parts 0 infos)) (combine (all_cells m) (number_parts 0 infos)) = Ok (o_cells o) }.
Lemma elevate_all m o : elevate m = Ok o -> exists infos, facts m o infos /\ fill_bnds (sizes infos) (o_cells o) 0 (parts m) = Ok (o_bnds o).
Proof.
  unfold elevate. intro H. apply bind_Ok in H. destruct H as (infos & A & H). apply bind_Ok in H. destruct H as (c2 & B & H).
  apply bind_Ok in H. destruct H as (bs & C & H). injection H as <-. exists infos. apply ask_parts_cells in A. destruct A as [A1 A2].
  split; [|exact C]. constructor; cbn [o_coords o_cells o_bnds]; auto.
Qed.
Lemma elevate_facts m o : elevate m = Ok o -> exists infos, facts m o infos.
Proof. intro H. destruct (elevate_all m o H) as (infos & F & _). eauto. Qed.
Lemma f_val m o infos : facts m o infos -> Forall2 (Forall2 (val (concat (o_coords o)))) (concat (map snd infos)) (number_parts 0 infos).
Proof. intro F. rewrite (f_X _ _ _ F). apply (number_parts_val infos []). Qed.

Lemma nth_error_combine A B (a : list A) : forall (b : list B) i x y, nth_error a i = Some x -> nth_error b i = Some y -> nth_error (combine a b) i = Some (x, y).
Proof.
  induction a as [|u a IH]; intros [|v b] [|i] x y H K; cbn in *; try discriminate; auto. congruence.
Qed.
Lemma nth_error_indexed A (l : list A) k x : nth_error l k = Some x -> nth_error (combine (seq 0 (length l)) l) k = Some (k, x).
Proof.
  intro H. apply nth_error_combine; auto. assert (k < length l)%nat by (apply nth_error_Some; congruence).
  rewrite (nth_error_nth' _ 0%nat) by (now rewrite seq_length). now rewrite seq_nth.
Qed.

(** per cell *)
Lemma cell_fact m o infos i c : facts m o infos -> is_cell m i c -> exists r er c2,
  ask_cell m (Z.of_nat i) c = Ok r /\ nth_error (number_parts 0 infos) i = Some er /\ Forall2 (val (concat (o_coords o))) r er /\
  nth_error (o_cells o) i = Some c2 /\ fill_cell m (sizes infos) (concat (o_coords o)) (number_parts 0 infos) (c, er) = Ok c2.
Proof.
  intros F C. destruct (ask_cells_nth _ _ _ _ (f_ask _ _ _ F)) as [L A]. destruct (A _ _ C) as (r & A1 & A2).
  destruct (Forall2_nth _ _ _ _ _ (f_val _ _ _ F)) as (_ & B & _). destruct (B _ _ A2) as (er & B1 & B2).
  destruct (mapM_nth _ _ _ _ _ (f_cells _ _ _ F)) as (_ & D). destruct (D i (c, er)) as (c2 & D1 & D2); [now apply nth_error_combine|].
  exists r, er, c2. auto.
Qed.
Lemma cells_length m o infos : facts m o infos -> length (number_parts 0 infos) = length (all_cells m) /\ length (o_cells o) = length (all_cells m).
Proof.
  intros F. destruct (ask_cells_nth _ _ _ _ (f_ask _ _ _ F)) as [L A]. destruct (Forall2_nth _ _ _ _ _ (f_val _ _ _ F)) as (L2 & _ & _).
  destruct (mapM_nth _ _ _ _ _ (f_cells _ _ _ F)) as (L3 & _). rewrite combine_length in L3. split; lia.
Qed.

(** what a new node of a cell is *)
Lemma mapM_seq_nth A (f : nat -> res A) n r : mapM f (seq 0 n) = Ok r -> length r = n /\ forall k, (k < n)%nat -> exists a, f k = Ok a /\ nth_error r k = Some a.
Proof.
  intro H. apply mapM_nth in H. destruct H as [L H]. rewrite seq_length in L. split; auto. intros k K. apply (H k k).
  rewrite (nth_error_nth' _ 0%nat) by (now rewrite seq_length). now rewrite seq_nth.
Qed.
Lemma row_fact m o infos i c : facts m o infos -> is_cell m i c -> exists n er,
  GetElemElevation_O1O2_NumNode (c_type c) = Some n /\ nth_error (number_parts 0 infos) i = Some er /\ length er = n /\
  forall k e, nth_error er k = Some e -> exists s x ow, is_span c k s /\ place m c k = Ok x /\ owner (all_cells m) (Z.of_nat i) s (c_nb c) = Ok ow /\ val (concat (o_coords o)) (fst x, ow) e.
Proof.
  intros F C. destruct (cell_fact _ _ _ _ _ F C) as (r & er & c2 & A & E & V & _ & _). unfold ask_cell in A. apply bind_Ok in A. destruct A as (n & N & A).
  unfold num_spans in N. destruct (GetElemElevation_O1O2_NumNode (c_type c)) as [n'|]; [|discriminate]. injection N as ->.
  apply mapM_seq_nth in A. destruct A as [L A]. destruct (Forall2_nth _ _ _ _ _ V) as (L2 & _ & V2). exists n, er. split; auto. split; auto. split; [lia|].
  intros k e K. destruct (V2 _ _ K) as (a & N1 & V3). assert (k < n)%nat by (rewrite <- L; apply nth_error_Some; congruence).
  destruct (A k H) as (a' & S1 & N2). assert (a' = a) by congruence. subst a'. unfold ask_span in S1. apply bind_Ok in S1. destruct S1 as (s & S1 & S2).
  apply bind_Ok in S2. destruct S2 as (x & S2 & S3). apply bind_Ok in S3. destruct S3 as (ow & S3 & S4). injection S4 as <-. exists s, x, ow. auto.
Qed.
Lemma new_node_fact m o infos i k g : facts m o infos -> sound_cells m -> new_node m o i k g -> exists c s x ow e b,
  is_cell m i c /\ is_span c k s /\ place m c k = Ok (x, b) /\ owner (all_cells m) (Z.of_nat i) s (c_nb c) = Ok ow /\
  at_ (number_parts 0 infos) i k e /\ val (concat (o_coords o)) (x, ow) e /\
  match e with
  | Node g' => g = g'
  | Ask p => exists j row, nth_error (c_nb c) p = Some j /\ vget (number_parts 0 infos) j = Ok row /\ look (concat (o_coords o)) row x = Ok g
  end.
Proof.
  intros F SC (c & c2 & C & C2 & G). destruct (row_fact _ _ _ _ _ F C) as (n & er & N & E & L & R).
  destruct (cell_fact _ _ _ _ _ F C) as (r & er' & c2' & _ & E' & V & C2' & FC). assert (er' = er) by congruence. subst er'. assert (c2' = c2) by congruence. subst c2'.
  unfold fill_cell in FC. cbn [fst snd] in FC. apply bind_Ok in FC. destruct FC as (old & O & FC). apply bind_Ok in FC. destruct FC as (new & W & FC). injection FC as <-.
  cbn [c_nodes] in G. apply mapM_nth in O. destruct O as [LO _]. destruct (SC _ _ C) as [SL _].
  rewrite nth_error_app2 in G by lia. replace (GetNumNodes (c_type c) + k - length old)%nat with k in G by lia.
  rewrite nth_error_map in G. destruct (nth_error new k) as [[g' b]|] eqn:NK; [|discriminate]. cbn in G. injection G as ->.
  destruct (mapM_nth _ _ _ _ _ W) as [LW W2]. rewrite combine_length, seq_length, Nat.min_id in LW.
  destruct (nth_error er k) as [e|] eqn:EK.
  2:{ apply nth_error_None in EK. assert (k < length new)%nat by (apply nth_error_Some; congruence). lia. }
  destruct (W2 k (k, e)) as (gb & FS & NK'); [now apply nth_error_indexed|]. assert (gb = (g, b)) by congruence. subst gb.
  destruct (R k e EK) as (s & [x b'] & ow & S & P & OW & VV). unfold fill_span in FS. cbn [fst snd] in FS. rewrite P in FS. cbn [bind fst snd] in FS, VV.
  exists c, s, x, ow, e, b'. do 4 (split; auto). split; [exists er; auto|]. split; auto. destruct e as [g'|p].
  - injection FS as -> ->. reflexivity.
  - apply bind_Ok in FS. destruct FS as (j & J & FS). apply bind_Ok in FS. destruct FS as (row & RW & FS). apply bind_Ok in FS. destruct FS as (g' & LK & FS). injection FS as -> ->.
    exists j, row. apply vget_Ok in J. rewrite Nat2Z.id in J. destruct J. auto.
Qed.
Lemma new_bits_fact m o infos i k b : facts m o infos -> sound_cells m -> (forall j a, is_cell m j a -> length (c_bits a) = length (c_nodes a)) -> periodic m = true ->
  new_bits m o i k b -> exists c x, is_cell m i c /\ place m c k = Ok (x, b).
Proof.
  intros F SC BL P (c & c2 & C & C2 & G). destruct (cell_fact _ _ _ _ _ F C) as (r & er & c2' & _ & E & V & C2' & FC). assert (c2' = c2) by congruence. subst c2'.
  unfold fill_cell in FC. cbn [fst snd] in FC. apply bind_Ok in FC. destruct FC as (old & O & FC). apply bind_Ok in FC. destruct FC as (new & W & FC). injection FC as <-.
  cbn [c_bits] in G. rewrite P in G. destruct (SC _ _ C) as [SL _]. specialize (BL _ _ C).
  rewrite nth_error_app2 in G by lia. replace (GetNumNodes (c_type c) + k - length (c_bits c))%nat with k in G by lia.
  rewrite nth_error_map in G. destruct (nth_error new k) as [[g b']|] eqn:NK; [|discriminate]. cbn in G. injection G as ->.
  destruct (mapM_nth _ _ _ _ _ W) as [LW W2]. rewrite combine_length, seq_length, Nat.min_id in LW.
  destruct (nth_error er k) as [e|] eqn:EK.
  2:{ apply nth_error_None in EK. assert (k < length new)%nat by (apply nth_error_Some; congruence). lia. }
  destruct (W2 k (k, e)) as (gb & FS & NK'); [now apply nth_error_indexed|]. assert (gb = (g, b)) by congruence. subst gb.
  unfold fill_span in FS. cbn [fst snd] in FS. apply bind_Ok in FS. destruct FS as ([x b'] & PL & FS). cbn [fst snd] in FS. exists c, x. split; auto. rewrite PL. f_equal. f_equal. destruct e.
  - now injection FS.
  - apply bind_Ok in FS. destruct FS as (j & J & FS). apply bind_Ok in FS. destruct FS as (row & RW & FS). apply bind_Ok in FS. destruct FS as (g' & LK & FS). now injection FS.
Qed.

Lemma holds_iff m i c s : sound_cells m -> is_cell m i c -> NoDup s -> (holds (all_cells m) s (Z.of_nat i) <-> incl s (c_nodes c)).
Proof.
  intros SC C ND. unfold holds. rewrite (vget_of_nat _ _ _ _ C). split.
  - intros (c' & E & I). injection E as <-. now apply includes_sort_incl.
  - intro I. exists c. split; auto. now apply includes_nodup.
Qed.
Lemma holds_cell m s j : holds (all_cells m) s j -> exists n c, j = Z.of_nat n /\ is_cell m n c /\ incl s (c_nodes c).
Proof.
  intros (c & V & I). apply vget_Ok in V. destruct V as [G V]. exists (Z.to_nat j), c. split; [lia|]. split; auto. now apply includes_sort_incl.
Qed.

(** the node is given out by the least cell around its span *)
Lemma resolved m o infos i k g c s x b : facts m o infos -> sound_cells m -> point_neighbours m ->
  new_node m o i k g -> is_cell m i c -> is_span c k s -> place m c k = Ok (x, b) -> exists h er,
  least (all_cells m) s (Z.of_nat h) /\ nth_error (number_parts 0 infos) h = Some er /\
  ((h = i /\ nth_error er k = Some (Node g)) \/ (h <> i /\ near_nodes (concat (o_coords o)) er x = [g])).
Proof.
  intros F SC PN G C S P. destruct (new_node_fact _ _ _ _ _ _ F SC G) as (c' & s' & x' & ow & e & b' & C' & S' & P' & OW & A & V & E).
  assert (c' = c) by (unfold is_cell in *; congruence). subst c'. assert (s' = s) by (unfold is_span in *; congruence). subst s'.
  assert (x' = x) by congruence. subst x'. destruct (SC _ _ C) as [SL ND]. destruct (span_good _ _ _ _ SL ND S) as (NDs & Is & NEs).
  assert (HM : holds (all_cells m) s (Z.of_nat i)) by (apply (holds_iff _ _ c _ SC C NDs); exact Is).
  pose proof (owner_least _ _ _ _ _ OW HM) as OL. destruct A as (er & ER & AK).
  assert (HN : forall j, j <> Z.of_nat i -> holds (all_cells m) s j -> In j (c_nb c)).
  { intros j NJ HJ. apply holds_cell in HJ. destruct HJ as (n & a & -> & CA & IA). destruct s as [|z s]; [congruence|].
    apply (PN i n c a z C CA); [lia|apply Is; now left|apply IA; now left]. }
  specialize (OL HN). destruct e as [g'|p]; cbn [val snd fst] in V.
  - destruct V as (-> & _). subst g'. exists i, er. split; auto.
  - subst ow. destruct OL as (j & J & LS & NJ). destruct E as (j' & row & J' & RW & LK). assert (j' = j) by congruence. subst j'.
    apply vget_Ok in RW. destruct RW as [GJ RW]. exists (Z.to_nat j), row. split; [now rewrite Z2Nat.id|]. split; auto. right. split; [lia|]. now apply look_near.
Qed.

Lemma vget_val X2 a g : val X2 a (Node g) -> vget X2 g = Ok (fst a).
Proof. intros (_ & B & C). apply vget_Ok. auto. Qed.

(** the cell's own node is found at its place *)
Lemma own_near m o infos i k g c x b y er : facts m o infos -> is_cell m i c -> place m c k = Ok (x, b) ->
  nth_error (number_parts 0 infos) i = Some er -> nth_error er k = Some (Node g) -> same_vec 3 x y -> In g (near_nodes (concat (o_coords o)) er y).
Proof.
  intros F C P ER K SV. destruct (row_fact _ _ _ _ _ F C) as (n & er' & N & E & L & R). assert (er' = er) by congruence. subst er'.
  destruct (R _ _ K) as (s & [x' b'] & ow & S & P' & OW & V). assert (x' = x) by congruence. subst x'.
  apply near_nodes_in. split; [eapply nth_error_In; eauto|]. exists x. split; [now apply vget_val in V|]. now apply near_self.
Qed.

Lemma same_node m o i j a b k l s s' g g' : elevate m = Ok o -> sound_cells m -> point_neighbours m -> same_places m ->
  is_cell m i a -> is_cell m j b -> is_span a k s -> is_span b l s' -> new_node m o i k g -> new_node m o j l g' ->
  Permutation s s' -> g = g'.
Proof.
  intros EL SC PN SP Ca Cb Sa Sb Ga Gb P. destruct (elevate_facts _ _ EL) as (infos & F).
  destruct (new_node_fact _ _ _ _ _ _ F SC Ga) as (a' & s1 & x & _ & _ & bx & Ca' & _ & Px & _). assert (a' = a) by (unfold is_cell in *; congruence). subst a'.
  destruct (new_node_fact _ _ _ _ _ _ F SC Gb) as (b' & s2 & y & _ & _ & by_ & Cb' & _ & Py & _). assert (b' = b) by (unfold is_cell in *; congruence). subst b'.
  pose proof (SP _ _ _ _ _ _ _ _ _ _ Ca Cb Sa Sb P Px Py) as SV. cbn [fst] in SV.
  destruct (resolved _ _ _ _ _ _ _ _ _ _ F SC PN Ga Ca Sa Px) as (h & er & Lh & ER & Ra).
  destruct (resolved _ _ _ _ _ _ _ _ _ _ F SC PN Gb Cb Sb Py) as (h' & er' & Lh' & ER' & Rb).
  assert (h = h'). { apply (least_perm _ _ _ _ P) in Lh. pose proof (least_unique _ _ _ _ Lh Lh'). lia. } subst h'.
  assert (er' = er) by congruence. subst er'.
  destruct Ra as [(-> & Na)|(Nh & Na)], Rb as [(-> & Nb)|(Nh' & Nb)].
  - assert (b = a) by (unfold is_cell in *; congruence). subst b. destruct (SC _ _ Ca) as [SL ND].
    pose proof (span_distinct _ _ _ _ _ _ SL ND Sa Sb P). subst l. congruence.
  - pose proof (own_near _ _ _ _ _ _ _ _ _ y _ F Ca Px ER Na SV) as I. rewrite Nb in I. now destruct I as [<-|[]].
  - assert (SV' : same_vec 3 y x) by (intros q Q; symmetry; auto).
    pose proof (own_near _ _ _ _ _ _ _ _ _ x _ F Cb Py ER Nb SV') as I. rewrite Na in I. now destruct I as [<-|[]].
  - rewrite (near_same _ _ _ _ SV) in Na. congruence.
Qed.

(** with conforming cells, the owner's own span *)
Lemma resolved_conf m o infos i k g c s x b : facts m o infos -> sound_cells m -> point_neighbours m -> same_places m -> conforming m ->
  new_node m o i k g -> is_cell m i c -> is_span c k s -> place m c k = Ok (x, b) -> exists h q d s' y by_,
  at_ (number_parts 0 infos) h q (Node g) /\ is_cell m h d /\ is_span d q s' /\ Permutation s s' /\ place m d q = Ok (y, by_) /\ same_vec 3 x y /\ coord2 o g y.
Proof.
  intros F SC PN SP CF G C S P. destruct (resolved _ _ _ _ _ _ _ _ _ _ F SC PN G C S P) as (h & er & Lh & ER & R).
  destruct Lh as [Hh Mh]. assert (Hh' := Hh). apply holds_cell in Hh. destruct Hh as (h' & d & E & D & I). assert (h' = h) by lia. subst h'.
  destruct (CF _ _ _ _ _ _ C D S I) as (q & s' & S' & PM). destruct (row_fact _ _ _ _ _ F D) as (n & er' & N & ER' & L & RF). assert (er' = er) by congruence. subst er'.
  destruct (span_lt _ _ _ _ _ S') as (n' & N' & QL). assert (n' = n) by congruence. subst n'.
  destruct (nth_error er q) as [e|] eqn:EQ; [|apply nth_error_None in EQ; lia].
  destruct (RF _ _ EQ) as (s'' & [y by_] & ow & S'' & PY & OW & V). assert (s'' = s') by (unfold is_span in *; congruence). subst s''. cbn [fst] in V.
  pose proof (SP _ _ _ _ _ _ _ _ _ _ C D S S' PM P PY) as SV. cbn [fst] in SV.
  assert (EN : exists g', e = Node g').
  { destruct e as [g'|p]; eauto. exfalso. cbn [val snd] in V. subst ow. destruct (SC _ _ D) as [SLd NDd]. destruct (span_good _ _ _ _ SLd NDd S') as (NDs & Is & NEs).
    assert (HM : holds (all_cells m) s' (Z.of_nat h)) by (apply (holds_iff _ _ d _ SC D NDs); exact Is).
    assert (HN : forall j, j <> Z.of_nat h -> holds (all_cells m) s' j -> In j (c_nb d)).
    { intros j NJ HJ. apply holds_cell in HJ. destruct HJ as (n' & a & -> & CA & IA). destruct s' as [|z s']; [congruence|].
      apply (PN h n' d a z D CA); [lia|apply Is; now left|apply IA; now left]. }
    pose proof (owner_least _ _ _ _ _ OW HM HN) as (j & J & LS & NJ). destruct LS as [Hj Mj]. apply (holds_perm _ _ _ _ (Permutation_sym PM)) in Hj.
    apply Mh in Hj. apply Mj in HM. lia. }
  destruct EN as (g' & ->). assert (g' = g).
  { assert (In g' (near_nodes (concat (o_coords o)) er x)). { eapply own_near; eauto. intros z Hz. symmetry. auto. }
    destruct R as [(-> & Na)|(_ & Na)].
    - assert (d = c) by (unfold is_cell in *; congruence). subst d. destruct (SC _ _ C) as [SL ND]. pose proof (span_distinct _ _ _ _ _ _ SL ND S S' PM). subst q. congruence.
    - rewrite Na in H. now destruct H as [->|[]]. }
  subst g'. exists h, q, d, s', y, by_. split; [exists er; auto|]. do 5 (split; auto). destruct V as (_ & V1 & V2). split; auto.
Qed.

Lemma different_node_f m o infos i j a b k l s s' g : facts m o infos -> sound_cells m -> point_neighbours m -> same_places m -> conforming m ->
  is_cell m i a -> is_cell m j b -> is_span a k s -> is_span b l s' -> new_node m o i k g -> new_node m o j l g -> Permutation s s'.
Proof.
  intros F SC PN SP CF Ca Cb Sa Sb Ga Gb.
  destruct (new_node_fact _ _ _ _ _ _ F SC Ga) as (a' & s1 & x & _ & _ & bx & Ca' & _ & Px & _). assert (a' = a) by (unfold is_cell in *; congruence). subst a'.
  destruct (new_node_fact _ _ _ _ _ _ F SC Gb) as (b' & s2 & y & _ & _ & by_ & Cb' & _ & Py & _). assert (b' = b) by (unfold is_cell in *; congruence). subst b'.
  destruct (resolved_conf _ _ _ _ _ _ _ _ _ _ F SC PN SP CF Ga Ca Sa Px) as (h & q & d & t & _ & _ & A & D & T & PM & _).
  destruct (resolved_conf _ _ _ _ _ _ _ _ _ _ F SC PN SP CF Gb Cb Sb Py) as (h' & q' & d' & t' & _ & _ & A' & D' & T' & PM' & _).
  destruct (parts_inj _ _ _ _ _ _ _ A A') as [<- <-]. assert (d' = d) by (unfold is_cell in *; congruence). subst d'.
  assert (t' = t) by (unfold is_span in *; congruence). subst t'. rewrite PM, PM'. reflexivity.
Qed.
Lemma different_node m o i j a b k l s s' g : elevate m = Ok o -> sound_cells m -> point_neighbours m -> same_places m -> conforming m ->
  is_cell m i a -> is_cell m j b -> is_span a k s -> is_span b l s' -> new_node m o i k g -> new_node m o j l g -> Permutation s s'.
Proof. intros EL. destruct (elevate_facts _ _ EL) as (infos & F). eapply different_node_f; eauto. Qed.
