(** The faces of the pieces of a cell. *)
From Coq Require Import Reals List ZArith Bool Lia Arith.
From Verif Require Import Base.Prelude Base.PreludeFacts Geom.ElemModel Geom.ElemSpec Geom.ElemProofs Geom.PeriodicModel Geom.PeriodicSpec
  Geom.ElevModel Geom.ElevSpec Geom.BisectModel Geom.BisectSpec Geom.BisectProofs.
Import ListNotations.
Local Open Scope nat_scope.

Definition turnedb (x y : list nat) : bool := list_eqb x y || ((3 <=? length x) && same_cycle x y).
Lemma turnedb_ok x y : turnedb x y = true <-> turned x y.
Proof.
  unfold turnedb, turned. rewrite orb_true_iff, andb_true_iff, list_eqb_ok, Nat.leb_le, same_cycle_iff. reflexivity.
Qed.
Lemma rotate_map A B (g : A -> B) k l : rotate k (map g l) = map g (rotate k l).
Proof. unfold rotate. now rewrite skipn_map, firstn_map, map_app. Qed.
Lemma turned_map A B (g : A -> B) x y : turned x y -> turned (map g x) (map g y).
Proof.
  intros [->|(L & k & K & <-)]; [now left|]. right. rewrite map_length. split; auto. exists k. split; auto. apply rotate_map.
Qed.
Lemma map_inj_below A (g : nat -> A) n : inj_below n g -> forall x y, Forall (fun j => j < n) x -> Forall (fun j => j < n) y -> map g x = map g y -> x = y.
Proof.
  intros I. induction x as [|a x IH]; intros [|b y] X Y E; try discriminate; auto. cbn in E. inversion X; subst. inversion Y; subst. injection E as E1 E2. f_equal; auto.
Qed.
Lemma rotate_range (P : nat -> Prop) k l : Forall P l -> Forall P (rotate k l).
Proof.
  rewrite !Forall_forall. intros H x I. apply H. unfold rotate in I. apply in_app_iff in I. rewrite <- (firstn_skipn k l). apply in_app_iff. tauto.
Qed.
Lemma turned_inv A (g : nat -> A) n x y : inj_below n g -> Forall (fun j => j < n) x -> Forall (fun j => j < n) y -> turned (map g x) (map g y) -> turned x y.
Proof.
  intros I X Y [E|(L & k & K & E)].
  - left. eapply map_inj_below; eauto.
  - right. rewrite map_length in *. split; auto. exists k. split; auto. rewrite rotate_map in E. eapply map_inj_below; eauto. now apply rotate_range.
Qed.

(** all faces of all pieces; all pieces of all faces *)
Definition entry := (nat * nat * list nat)%type.
Definition ok_list {A} (r : res (list A)) : list A := match r with Ok l => l | _ => [] end.
Definition faces_of (t : ElemType) (v : nat) : list entry :=
  flat_map (fun k => flat_map (fun f => match (do ids <- tab t k v; face_vertices (GetO2ElemBisectElem t k) f ids) with Ok x => [(k, f, x)] | _ => [] end)
    (seq 0 (GetNumFaces (GetO2ElemBisectElem t k)))) (seq 0 (GetO2ElemBisectNum t)).
Definition skin_of (t : ElemType) : list entry :=
  flat_map (fun f => flat_map (fun k => match (do fn <- ExtractFaceNodes t f (seq 0 (GetNumNodes t)); ExtractO2BisectElemNodes (GetFaceType t f) k 0 fn) with Ok x => [(f, k, x)] | _ => [] end)
    (seq 0 (GetO2ElemBisectNum (GetFaceType t f)))) (seq 0 (GetNumFaces t)).
Lemma in_faces t v k f x : In (k, f, x) (faces_of t v) <-> k < GetO2ElemBisectNum t /\ f < GetNumFaces (GetO2ElemBisectElem t k) /\ (do ids <- tab t k v; face_vertices (GetO2ElemBisectElem t k) f ids) = Ok x.
Proof.
  unfold faces_of. rewrite in_flat_map. split.
  - intros (k' & K & I). apply in_seq in K. apply in_flat_map in I. destruct I as (f' & F & I). apply in_seq in F. destruct (do ids <- tab t k' v; _) as [y| |] eqn:E; cbn in I; [|destruct I..]. destruct I as [I|[]]. injection I as -> -> ->. repeat split; auto; lia.
  - intros (K & F & E). exists k. rewrite in_seq. split; [lia|]. apply in_flat_map. exists f. rewrite in_seq. split; [lia|]. rewrite E. now left.
Qed.
Lemma in_skin t f k x : In (f, k, x) (skin_of t) <-> f < GetNumFaces t /\ k < GetO2ElemBisectNum (GetFaceType t f) /\ (do fn <- ExtractFaceNodes t f (seq 0 (GetNumNodes t)); ExtractO2BisectElemNodes (GetFaceType t f) k 0 fn) = Ok x.
Proof.
  unfold skin_of. rewrite in_flat_map. split.
  - intros (f' & F & I). apply in_seq in F. apply in_flat_map in I. destruct I as (k' & K & I). apply in_seq in K. destruct (do fn <- ExtractFaceNodes t f' _; _) as [y| |] eqn:E; cbn in I; [|destruct I..]. destruct I as [I|[]]. injection I as -> -> ->. repeat split; auto; lia.
  - intros (F & K & E). exists f. rewrite in_seq. split; [lia|]. apply in_flat_map. exists k. rewrite in_seq. split; [lia|]. rewrite E. now left.
Qed.

Definition range_b (n : nat) (x : list nat) : bool := forallb (fun j => j <? n) x.
Definition faces_check (t : ElemType) (v : nat) : bool :=
  let F := faces_of t v in
  let B := skin_of t in
  forallb (fun e : entry => range_b (GetNumNodes t) (snd e)) (F ++ B)
  && forallb (fun e : entry => xorb (existsb (fun e' : entry => negb (fst (fst e') =? fst (fst e)) && turnedb (snd e') (rev (snd e))) F) (existsb (fun b : entry => turnedb (snd e) (snd b)) B)) F
  && forallb (fun e : entry => forallb (fun e' : entry => negb (turnedb (snd e) (snd e')) || ((fst (fst e) =? fst (fst e')) && (snd (fst e) =? snd (fst e')))) F) F
  && forallb (fun b : entry => existsb (fun e : entry => turnedb (snd e) (snd b)) F) B
  && forallb (fun e : entry => forallb (fun e' : entry => negb (turnedb (snd e') (rev (snd e))) || negb (fst (fst e') =? fst (fst e))) F) F.
Lemma faces_check_ok t v : GetOrder t = Some 2 -> flat t = true -> variant_ok t v = true -> faces_check t v = true.
Proof.
  intros O D V. apply variants_ok in V. revert v V. apply forallb_seq. destruct t; try discriminate O; try discriminate D; vm_compute; reflexivity.
Qed.
Record face_facts (t : ElemType) (v : nat) : Prop := {
  ff_range : forall k f x, In (k, f, x) (faces_of t v) \/ In (k, f, x) (skin_of t) -> Forall (fun j => j < GetNumNodes t) x;
  ff_case : forall k f x, In (k, f, x) (faces_of t v) ->
    (exists k' f' x', In (k', f', x') (faces_of t v) /\ k' <> k /\ turned x' (rev x)) \/ (exists f' k' y, In (f', k', y) (skin_of t) /\ turned x y);
  ff_not_both : forall k f x k' f' x' f2 k2 y, In (k, f, x) (faces_of t v) -> In (k', f', x') (faces_of t v) -> In (f2, k2, y) (skin_of t) -> turned x' (rev x) -> turned x y -> False;
  ff_unique : forall k f x k' f' x', In (k, f, x) (faces_of t v) -> In (k', f', x') (faces_of t v) -> turned x x' -> k = k' /\ f = f';
  ff_skin : forall f k y, In (f, k, y) (skin_of t) -> exists k' f' x, In (k', f', x) (faces_of t v) /\ turned x y }.
Lemma face_facts_ok t v : GetOrder t = Some 2 -> flat t = true -> variant_ok t v = true -> face_facts t v.
Proof.
  intros O D V. pose proof (faces_check_ok t v O D V) as C. unfold faces_check in C. cbv zeta in C. rewrite !andb_true_iff in C. destruct C as [[[[C1 C2] C3] C4] C5].
  rewrite forallb_forall in C1, C2, C3, C4, C5. constructor.
  - intros k f x I. apply Forall_forall. intros j J. assert (I' : In (k, f, x) (faces_of t v ++ skin_of t)) by (apply in_app_iff; tauto). apply C1 in I'. cbn in I'. unfold range_b in I'. rewrite forallb_forall in I'. now apply Nat.ltb_lt, I'.
  - intros k f x I. apply C2 in I. cbn [fst snd] in I. destruct (existsb _ (faces_of t v)) eqn:E.
    + left. apply existsb_exists in E. destruct E as (((k', f'), x') & I' & E). cbn in E. apply andb_true_iff in E. destruct E as [E1 E2]. exists k', f', x'. split; auto. split; [|now apply turnedb_ok]. apply negb_true_iff, Nat.eqb_neq in E1. exact E1.
    + right. rewrite xorb_false_l in I. apply existsb_exists in I. destruct I as (((f', k'), y) & I' & E'). exists f', k', y. split; auto. now apply turnedb_ok.
  - intros k f x k' f' x' f2 k2 y I I' J T T'. pose proof (C2 _ I) as X. cbn [fst snd] in X.
    assert (E1 : existsb (fun e' : entry => negb (fst (fst e') =? k) && turnedb (snd e') (rev x)) (faces_of t v) = true).
    { apply existsb_exists. exists (k', f', x'). split; auto. cbn. rewrite (proj2 (turnedb_ok _ _) T), andb_true_r. pose proof (C5 _ I) as Y. rewrite forallb_forall in Y. specialize (Y _ I'). cbn in Y. rewrite (proj2 (turnedb_ok _ _) T) in Y. exact Y. }
    assert (E2 : existsb (fun b : entry => turnedb x (snd b)) (skin_of t) = true) by (apply existsb_exists; exists (f2, k2, y); split; auto; now apply turnedb_ok).
    rewrite E1, E2 in X. discriminate.
  - intros k f x k' f' x' I I' T. pose proof (C3 _ I) as X. rewrite forallb_forall in X. specialize (X _ I'). cbn in X. rewrite (proj2 (turnedb_ok _ _) T) in X. cbn in X. apply andb_true_iff in X. destruct X. split; now apply Nat.eqb_eq.
  - intros f k y I. apply C4 in I. apply existsb_exists in I. destruct I as (((k', f'), x) & I & T). exists k', f', x. split; auto. now apply turnedb_ok.
Qed.

(** ** In the mesh *)
Section Cell.
Variables (m : mesh) (r : list bpart) (i : nat) (c : cell).
Hypotheses (H : bisect m = Ok r) (SC : sound_cells m) (C : is_cell m i c) (D : flat (c_type c) = true).
Let g (j : nat) : Z := nth j (c_nodes c) 0%Z.
Lemma L : length (c_nodes c) = GetNumNodes (c_type c). Proof. apply (SC _ _ C). Qed.
Lemma g_inj : inj_below (GetNumNodes (c_type c)) g.
Proof. rewrite <- L. apply nth_inj, (SC _ _ C). Qed.
Lemma the_variant : exists v, variant_ok (c_type c) v = true /\ GetOrder (c_type c) = Some 2 /\ forall k s, piece m r i k s -> exists xs, cut m c k s xs v.
Proof.
  destruct (bisect_facts _ _ H) as (cs & bs & F). destruct (piece_row _ _ _ _ _ _ F C) as (ss & S1 & _).
  unfold bisect_cell in S1. apply bind_Ok in S1. destruct S1 as (xs & X & S1). apply bind_Ok in S1. destruct S1 as (v & V & _). exists v. split; [now apply variant_valid in V|]. split; [eapply (f_o2 _ _ _ _ F); eauto|].
  intros k s P. destruct (piece_cut _ _ _ _ _ H P) as (c' & xs' & v' & C' & Q). assert (c' = c) by (unfold is_cell in *; congruence). subst c'. exists xs'.
  assert (xs' = xs) by (pose proof (cut_coords _ _ _ _ _ _ Q); congruence). subst xs'. assert (v' = v) by (pose proof (cut_variant _ _ _ _ _ _ Q); congruence). now subst v'.
Qed.
Lemma face_range A t f (nodes : list A) x : face_vertices t f nodes = Ok x -> f < GetNumFaces t.
Proof.
  unfold face_vertices, ExtractFaceNodes, ObtainFace. intro E. apply bind_Ok in E. destruct E as (a & E & _). apply bind_Ok in E. destruct E as (b & E & _). apply bind_Ok in E. destruct E as (u & U & _). apply assert_Ok, Nat.ltb_lt in U. exact U.
Qed.
Lemma piece_face_iff v : (forall k s, piece m r i k s -> exists xs, cut m c k s xs v) -> forall k f x, piece_face m r i k f x <-> exists x0, In (k, f, x0) (faces_of (c_type c) v) /\ x = map g x0.
Proof.
  intros Q k f x. split.
  - intros (s & P & E). destruct (Q _ _ P) as (xs & U). destruct (cut_ids _ _ _ _ _ _ U L) as (ids & T & N & _). fold g in N. rewrite N, face_vertices_nat in E.
    destruct (face_vertices (c_type s) f ids) as [x0| |] eqn:E0; try discriminate. injection E as <-. exists x0. split; auto. rewrite (cut_type _ _ _ _ _ _ U) in E0. apply in_faces. split; [apply U|]. split; [eapply face_range; eauto|]. now rewrite T.
  - intros (x0 & I & ->). apply in_faces in I. destruct I as (K & F & E). destruct (piece_exists m r i c k H C K) as (s & P). exists s. split; auto. destruct (Q _ _ P) as (xs & U). destruct (cut_ids _ _ _ _ _ _ U L) as (ids & T & N & _). fold g in N.
    rewrite T in E. cbn in E. rewrite N, (cut_type _ _ _ _ _ _ U), face_vertices_nat, E. reflexivity.
Qed.
Lemma face_piece_iff f k x : face_piece c f k x <-> exists x0, In (f, k, x0) (skin_of (c_type c)) /\ x = map g x0.
Proof.
  unfold face_piece. split.
  - intros (fn & F & E). rewrite (labels Z 0%Z _ _ L), ExtractFaceNodes_nat in F. destruct (ExtractFaceNodes (c_type c) f (seq 0 (GetNumNodes (c_type c)))) as [fn0| |] eqn:F0; try discriminate. injection F as <-. rewrite bisect_nat in E.
    destruct (ExtractO2BisectElemNodes (GetFaceType (c_type c) f) k 0 fn0) as [x0| |] eqn:E0; try discriminate. injection E as <-. exists x0. split; auto. apply in_skin. rewrite F0. cbn. split; [|split; auto].
    + unfold ExtractFaceNodes, ObtainFace in F0. apply bind_Ok in F0. destruct F0 as (b & F0 & _). apply bind_Ok in F0. destruct F0 as (u & U & _). apply assert_Ok, Nat.ltb_lt in U. exact U.
    + apply variant_of_extract in E0. tauto.
  - intros (x0 & I & ->). apply in_skin in I. destruct I as (_ & _ & E). apply bind_Ok in E. destruct E as (fn0 & F0 & E0). exists (map g fn0). rewrite (labels Z 0%Z _ _ L), ExtractFaceNodes_nat, F0. split; [reflexivity|]. rewrite bisect_nat, E0. reflexivity.
Qed.

Lemma rev_map x : rev (map g x) = map g (rev x). Proof. symmetry. apply map_rev. Qed.
Lemma inside_or_skin k f x : piece_face m r i k f x ->
  (exists k' f' x', piece_face m r i k' f' x' /\ k' <> k /\ turned x' (rev x)) \/ (exists f' k' y, face_piece c f' k' y /\ turned x y).
Proof.
  destruct the_variant as (v & V & O & Q). pose proof (face_facts_ok _ _ O D V) as FF. intro P. apply (piece_face_iff v Q) in P. destruct P as (x0 & I & ->).
  destruct (ff_case _ _ FF _ _ _ I) as [(k' & f' & x' & I' & NE & T)|(f' & k' & y & I' & T)].
  - left. exists k', f', (map g x'). split; [apply (piece_face_iff v Q); eauto|]. split; auto. rewrite rev_map. now apply turned_map.
  - right. exists f', k', (map g y). split; [apply face_piece_iff; eauto|now apply turned_map].
Qed.
Lemma not_both k f x k' f' x' f2 k2 y : piece_face m r i k f x -> piece_face m r i k' f' x' -> face_piece c f2 k2 y -> turned x' (rev x) -> turned x y -> False.
Proof.
  destruct the_variant as (v & V & O & Q). pose proof (face_facts_ok _ _ O D V) as FF. intros P P' B T T'. apply (piece_face_iff v Q) in P. destruct P as (x0 & I & ->). apply (piece_face_iff v Q) in P'. destruct P' as (x1 & I' & ->). apply face_piece_iff in B. destruct B as (y0 & J & ->).
  rewrite rev_map in T. apply (turned_inv _ _ _ _ _ g_inj) in T; [|eapply (ff_range _ _ FF); eauto|apply Forall_rev; eapply (ff_range _ _ FF); eauto].
  apply (turned_inv _ _ _ _ _ g_inj) in T'; [|eapply (ff_range _ _ FF); eauto..]. exact (ff_not_both _ _ FF _ _ _ _ _ _ _ _ _ I I' J T T').
Qed.
Lemma unique k f x k' f' x' : piece_face m r i k f x -> piece_face m r i k' f' x' -> turned x x' -> k = k' /\ f = f'.
Proof.
  destruct the_variant as (v & V & O & Q). pose proof (face_facts_ok _ _ O D V) as FF. intros P P' T. apply (piece_face_iff v Q) in P. destruct P as (x0 & I & ->). apply (piece_face_iff v Q) in P'. destruct P' as (x1 & I' & ->).
  apply (turned_inv _ _ _ _ _ g_inj) in T; [|eapply (ff_range _ _ FF); eauto..]. exact (ff_unique _ _ FF _ _ _ _ _ _ I I' T).
Qed.
Lemma skin f k y : face_piece c f k y -> exists k' f' x, piece_face m r i k' f' x /\ turned x y.
Proof.
  destruct the_variant as (v & V & O & Q). pose proof (face_facts_ok _ _ O D V) as FF. intro B. apply face_piece_iff in B. destruct B as (y0 & J & ->). destruct (ff_skin _ _ FF _ _ _ J) as (k' & f' & x & I & T). exists k', f', (map g x). split; [apply (piece_face_iff v Q); eauto|now apply turned_map].
Qed.
End Cell.
