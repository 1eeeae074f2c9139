(** The cells and boundary elements of a converted polyMesh. *)
From Coq Require Import List ZArith Bool String Permutation Lia Arith.
From Verif Require Import Base.Prelude Base.PreludeFacts Geom.ElemModel Geom.ElemSpec Geom.ElemProofs Geom.BoundaryModel Geom.BisectSpec Geom.BisectMore Geom.FoamModel Geom.FoamSpec Geom.FoamProofs.
Import ListNotations.
Local Open Scope list_scope.
Local Open Scope Z_scope.

Lemma vat_Ok A (l : list A) i x : vat l i = Ok x <-> 0 <= i /\ nth_error l (Z.to_nat i) = Some x.
Proof.
  unfold vat. destruct (Z.ltb_spec i 0); [split; [discriminate|lia]|]. destruct (nth_error l (Z.to_nat i)); split; try discriminate; intros; [split; [lia|congruence]|destruct H0; congruence|destruct H0; discriminate].
Qed.
Lemma vat_of_nat A (l : list A) i : vat l (Z.of_nat i) = match nth_error l i with Some x => Ok x | None => Abort end.
Proof. unfold vat. destruct (Z.ltb_spec (Z.of_nat i) 0); [lia|]. now rewrite Nat2Z.id. Qed.
Lemma filter_map A B (f : A -> B) p l : filter p (map f l) = map f (filter (fun x => p (f x)) l).
Proof. induction l as [|x l IH]; cbn; [reflexivity|]. destruct (p (f x)); cbn; now rewrite IH. Qed.
Lemma indices_cons x l c : indices (x :: l) c = (if x =? c then [0%nat] else []) ++ map S (indices l c).
Proof.
  unfold indices. cbn [List.length seq filter nth_error]. rewrite <- seq_shift, filter_map. cbn [nth_error]. now destruct (x =? c).
Qed.
Lemma indices_in l c k : In k (indices l c) <-> nth_error l k = Some c.
Proof.
  unfold indices. rewrite filter_In, in_seq. split.
  - intros [_ H]. destruct (nth_error l k) eqn:E; [|discriminate]. apply Z.eqb_eq in H. congruence.
  - intro H. rewrite H, Z.eqb_refl. split; auto. apply nth_error_Some_lt in H. lia.
Qed.
Lemma nth_upd A (d : A) : forall l i j x, (i < List.length l)%nat -> nth j (upd i x l) d = if Nat.eqb i j then x else nth j l d.
Proof. induction l as [|y l IH]; intros [|i] [|j] x L; cbn in *; try lia; auto. apply IH. lia. Qed.
Lemma upd_len A : forall (l : list A) i x, List.length (upd i x l) = List.length l.
Proof. induction l as [|y l IH]; intros [|i] x; cbn; auto. Qed.
Lemma push_inv own : forall cells k c2f c', push_faces own k cells c2f = Ok c' ->
  (forall c, In c cells -> 0 <= c < zlen c2f) /\ List.length c' = List.length c2f /\
  forall i, nth i c' [] = nth i c2f [] ++ map (fun j => (k + Z.of_nat j, own)) (indices cells (Z.of_nat i)).
Proof.
  induction cells as [|c cells IH]; intros k c2f c' H; cbn [push_faces] in H.
  - injection H as <-. split; [intros c []|]. split; auto. intro i. cbn. now rewrite app_nil_r.
  - apply bind_Ok in H. destruct H as (l & V & H). apply bind_Ok in H. destruct H as (c1 & U & H). apply vat_Ok in V. destruct V as [C N]. pose proof (nth_error_Some_lt _ _ _ _ N) as CL.
    unfold vset in U. destruct ((c <? 0) || (Z.of_nat (List.length c2f) <=? c)) eqn:G; [discriminate|]. injection U as <-. destruct (IH _ _ _ H) as (R & L & E). rewrite upd_len in L. split; [|split; auto].
    + intros x [<-|X]; [unfold zlen; lia|]. specialize (R x X). unfold zlen in *. now rewrite upd_len in R.
    + intro i. rewrite E, nth_upd, indices_cons by auto. destruct (Nat.eqb_spec (Z.to_nat c) i) as [<-|NE].
      * rewrite Z2Nat.id, Z.eqb_refl by lia. rewrite (nth_error_nth _ _ _ N), <- app_assoc. f_equal. cbn. rewrite Z.add_0_r, map_map. f_equal. apply map_ext. intro. f_equal. lia.
      * destruct (Z.eqb_spec c (Z.of_nat i)); [lia|]. cbn. rewrite map_map. f_equal. apply map_ext. intro. f_equal. lia.
Qed.
Lemma push_total own : forall cells k c2f, (forall c, In c cells -> 0 <= c < zlen c2f) -> exists c', push_faces own k cells c2f = Ok c'.
Proof.
  induction cells as [|c cells IH]; intros k c2f R; cbn [push_faces]; eauto. pose proof (R c (or_introl eq_refl)) as C. destruct (nth_error_lt_Some _ c2f (Z.to_nat c)) as (l & E); [unfold zlen in C; lia|].
  rewrite (proj2 (vat_Ok _ _ _ l) (conj (proj1 C) E)). cbn [bind]. unfold vset. unfold zlen in C. rewrite (proj2 (Z.ltb_ge c 0)), (proj2 (Z.leb_gt _ _)) by lia. cbn [orb bind].
  apply IH. intros x X. unfold zlen. rewrite upd_len. apply R. now right.
Qed.
Lemma max_from : forall l a, a <= fold_left Z.max l a /\ (forall x, In x l -> x <= fold_left Z.max l a) /\ (a = fold_left Z.max l a \/ In (fold_left Z.max l a) l).
Proof.
  induction l as [|y l IH]; intro a; cbn; [repeat split; auto; [lia|intros x []]|]. destruct (IH (Z.max a y)) as (H1 & H2 & H3). split; [lia|]. split; [intros x [<-|X]; [lia|auto]|].
  destruct H3 as [H3|H3]; [|auto]. destruct (Z.max_spec a y) as [[_ M]|[_ M]]; rewrite M in H3 at 1; [right; left; lia|left; lia].
Qed.
Lemma num_cells_ok d c : In c (owner d) \/ In c (neighbour d) -> c < num_cells d.
Proof. intro I. unfold num_cells. destruct (max_from (neighbour d ++ owner d) 0) as (_ & M & _). specialize (M c ltac:(apply in_or_app; tauto)). lia. Qed.
Lemma num_cells_pos d : 0 < num_cells d.
Proof. unfold num_cells. destruct (max_from (neighbour d ++ owner d) 0) as (M & _). lia. Qed.
Definition faces_of (d : foam) (c : Z) : list (Z * bool) :=
  map (fun j => (Z.of_nat j, true)) (indices (owner d) c) ++ map (fun j => (Z.of_nat j, false)) (indices (neighbour d) c).
Lemma nth_repeat_nil A n i : nth i (repeat (@nil A) n) [] = [].
Proof. revert i. induction n as [|n IH]; intros [|i]; cbn; auto. Qed.
Lemma cell2face_inv d c2f : cell2face d = Ok c2f -> List.length c2f = Z.to_nat (num_cells d) /\ (forall c, In c (owner d) \/ In c (neighbour d) -> 0 <= c) /\
  forall i, (i < List.length c2f)%nat -> nth_error c2f i = Some (faces_of d (Z.of_nat i)).
Proof.
  unfold cell2face. intro H. apply bind_Ok in H. destruct H as (c & A & B). destruct (push_inv _ _ _ _ _ A) as (R1 & L1 & E1). destruct (push_inv _ _ _ _ _ B) as (R2 & L2 & E2). rewrite repeat_length in L1.
  split; [lia|]. split; [intros x [X|X]; [apply R1 in X|apply R2 in X]; lia|]. intros i I. rewrite (nth_error_nth' c2f [] I). f_equal. rewrite E2, E1, nth_repeat_nil. reflexivity.
Qed.
Lemma cell2face_total d : (forall c, In c (owner d) \/ In c (neighbour d) -> 0 <= c) -> exists c2f, cell2face d = Ok c2f.
Proof.
  intro P. unfold cell2face. destruct (push_total true (owner d) 0 (repeat [] (Z.to_nat (num_cells d)))) as (c & A).
  { intros x X. unfold zlen. rewrite repeat_length, Z2Nat.id by (pose proof (num_cells_pos d); lia). split; auto. apply num_cells_ok; auto. }
  rewrite A. cbn [bind]. destruct (push_inv _ _ _ _ _ A) as (_ & L & _). apply push_total. intros x X. unfold zlen. rewrite L, repeat_length, Z2Nat.id by (pose proof (num_cells_pos d); lia). split; auto. apply num_cells_ok; auto.
Qed.

(** ** One cell *)
Definition with_flags (d : foam) (c : Z) : list (list Z * bool) := map (fun q => (nth (Z.to_nat (fst q)) (faces d) [], snd q)) (faces_of d c).
Lemma out_with_flags d c : map out (with_flags d c) = outside d c.
Proof.
  unfold with_flags, faces_of, outside. rewrite !map_map, map_app, !map_map. f_equal; apply map_ext; intro j; cbn; unfold out; cbn; now rewrite Nat2Z.id.
Qed.
Lemma gather_faces d c fs : mapM (fun q : Z * bool => vat (faces d) (fst q)) (faces_of d c) = Ok fs -> fs = map fst (with_flags d c).
Proof.
  intro H. unfold with_flags. rewrite map_map. cbn [fst]. revert fs H. generalize (faces_of d c). induction l as [|q l IH]; intros fs H; cbn in H; [now injection H as <-|].
  apply bind_Ok in H. destruct H as (x & V & H). apply bind_Ok in H. destruct H as (t & M & H). injection H as <-. apply vat_Ok in V. destruct V as [_ V]. cbn. rewrite (nth_error_nth _ _ _ V). f_equal. auto.
Qed.
Lemma gather_total d c : List.length (faces d) = List.length (owner d) -> (List.length (neighbour d) <= List.length (owner d))%nat -> exists fs, mapM (fun q : Z * bool => vat (faces d) (fst q)) (faces_of d c) = Ok fs.
Proof.
  intros L N. apply mapM_Ok_ex. intros q Q. unfold faces_of in Q. apply in_app_or in Q. assert (K : exists k, fst q = Z.of_nat k /\ (k < List.length (faces d))%nat).
  { destruct Q as [Q|Q]; apply in_map_iff in Q; destruct Q as (k & <- & K); exists k; apply indices_in, nth_error_Some_lt in K; split; auto; lia. }
  destruct K as (k & -> & K). rewrite vat_of_nat. destruct (nth_error_lt_Some _ (faces d) k K) as (x & ->). eauto.
Qed.
Lemma flags_snd d c : map snd (faces_of d c) = map snd (with_flags d c).
Proof. unfold with_flags. rewrite map_map. reflexivity. Qed.
Lemma turned_in A (x y : list A) : turned x y -> incl x y.
Proof.
  intros [->|(_ & k & _ & <-)] z Z; auto. unfold rotate. rewrite <- (firstn_skipn k x) in Z. apply in_app_or in Z. apply in_or_app. tauto.
Qed.
Lemma hex_faces_cover h x : List.length h = 8%nat -> In x h -> exists f, In f (hex_faces h) /\ In x f.
Proof.
  intros L I. do 9 (destruct h as [|? h]; try discriminate L). cbn in I. cbn [hex_faces mapM]. unfold hex_faces. cbn.
  decompose [or] I; try contradiction; subst; (eexists; split; [left; reflexivity|cbn; tauto]) || (eexists; split; [right; right; right; right; right; left; reflexivity|cbn; tauto]).
Qed.
Lemma bounds_nodes fs h x : bounds fs h -> In x h -> exists f, In f fs /\ In x f.
Proof.
  intros (L & p & P & F) I. destruct (hex_faces_cover h x L I) as (f & IF & X). apply In_nth with (d := []) in IF. destruct IF as (k & K & E). pose proof (Forall2_nth_r _ _ _ _ _ [] [] F k K) as T. rewrite E in T.
  exists (nth k p []). split; [|apply (turned_in _ _ _ (turned_sym _ _ _ T)); auto]. eapply Permutation_in; [symmetry; exact P|]. apply nth_In. rewrite (F2_length _ _ _ _ _ F). exact K.
Qed.
Lemma outside_pos d c x f : (forall f x, In f (faces d) -> In x f -> 0 <= x) -> In f (outside d c) -> In x f -> 0 <= x.
Proof.
  intros P F X. unfold outside in F. apply in_app_or in F. destruct F as [F|F]; apply in_map_iff in F; destruct F as (k & <- & _); [|apply in_rev in X];
  (destruct (Nat.lt_ge_cases k (List.length (faces d))) as [K|K]; [apply (P (nth k (faces d) [])); [now apply nth_In|exact X]|rewrite nth_overflow in X by auto; destruct X]).
Qed.

(** ** All of it *)
Record facts (rename : string -> option string) (code : string -> Z) (d : foam) (m : serial) (infos : list ElemType) (c2f : list (list (Z * bool))) (cells : list (list Z)) (bs : list fbnd) : Prop := {
  f_infos : mapM face_info (faces d) = Ok infos;
  f_c2f : cell2face d = Ok c2f;
  f_cells : mapM (cell_nodes d) c2f = Ok cells;
  f_count : (List.length (neighbour d) <= List.length (owner d))%nat;
  f_bs : mapM (make_bnd d infos) (map Z.of_nat (seq 0 (List.length (owner d) - List.length (neighbour d)))) = Ok bs;
  f_marks : mark_patches (zlen (neighbour d)) rename code (patches d) bs = Ok (s_bnds m);
  f_zones : forallb (fun b => negb (f_zone b =? BC_ID_NULL)) (s_bnds m) = true;
  f_out : s_coords m = points d /\ s_cells m = map (fun n => (Hex8, n)) cells }.
Lemma convert_facts rename code d m : convert rename code d = Ok m -> exists infos c2f cells bs, facts rename code d m infos c2f cells bs.
Proof.
  unfold convert. intro H. apply bind_Ok in H. destruct H as (infos & A & H). apply bind_Ok in H. destruct H as (c2f & B & H). apply bind_Ok in H. destruct H as (cells & C & H). cbv zeta in H. apply bind_Ok in H. destruct H as (u & D & H). apply assert_Ok, Z.leb_le in D.
  apply bind_Ok in H. destruct H as (bs & E & H). apply bind_Ok in H. destruct H as (bs' & F & H). apply bind_Ok in H. destruct H as (u' & G & H). apply assert_Ok in G. injection H as <-. exists infos, c2f, cells, bs. unfold zlen in *.
  constructor; auto; [lia|]. replace (Z.to_nat (Z.of_nat (List.length (owner d)) - Z.of_nat (List.length (neighbour d)))) with (List.length (owner d) - List.length (neighbour d))%nat in E by lia. exact E.
Qed.
Lemma cells_ok rename code d m c h : convert rename code d = Ok m -> (forall f x, In f (faces d) -> In x f -> 0 <= x) -> 0 <= c < num_cells d -> NoDup h -> bounds (outside d c) h ->
  exists n, nth_error (s_cells m) (Z.to_nat c) = Some (Hex8, n) /\ NoDup n /\ bounds (outside d c) n /\ Permutation n h.
Proof.
  intros CV P C ND B. destruct (convert_facts _ _ _ _ CV) as (infos & c2f & cells & bs & F). destruct (cell2face_inv _ _ (f_c2f _ _ _ _ _ _ _ _ F)) as (L & _ & E).
  specialize (E (Z.to_nat c) ltac:(lia)). rewrite Z2Nat.id in E by lia. destruct (proj2 (mapM_nth _ _ _ _ _ (f_cells _ _ _ _ _ _ _ _ F)) _ _ E) as (n & CN & N).
  unfold cell_nodes in CN. apply bind_Ok in CN. destruct CN as (fs & G & CN). apply gather_faces in G. subst fs. rewrite flags_snd in CN. rewrite <- out_with_flags in B.
  destruct (recover (with_flags d c) h ND) as (n' & X & Y); [|exact B|].
  { intros x I. rewrite out_with_flags in B. destruct (bounds_nodes _ _ _ B I) as (f & IF & IX). eapply outside_pos; eauto. }
  rewrite X in CN. cbn in CN. injection CN as CN. subst n'. rewrite out_with_flags in Y. exists n. split; [|exact Y]. rewrite (proj2 (f_out _ _ _ _ _ _ _ _ F)), nth_error_map, N. reflexivity.
Qed.
Lemma count_ok rename code d m : convert rename code d = Ok m -> s_coords m = points d /\ zlen (s_cells m) = num_cells d /\ forall t n, In (t, n) (s_cells m) -> t = Hex8.
Proof.
  intro CV. destruct (convert_facts _ _ _ _ CV) as (infos & c2f & cells & bs & F). destruct (f_out _ _ _ _ _ _ _ _ F) as [A B]. destruct (cell2face_inv _ _ (f_c2f _ _ _ _ _ _ _ _ F)) as (L & _). split; auto. rewrite B. split.
  - unfold zlen. rewrite map_length, (proj1 (mapM_nth _ _ _ _ _ (f_cells _ _ _ _ _ _ _ _ F))), L. pose proof (num_cells_pos d). lia.
  - intros t n I. apply in_map_iff in I. destruct I as (x & Q & _). congruence.
Qed.
(** only cells with six faces of four nodes get through *)
Lemma six_quads rename code d m c : convert rename code d = Ok m -> 0 <= c < num_cells d -> List.length (outside d c) = 6%nat /\ forall f, In f (outside d c) -> List.length f = 4%nat.
Proof.
  intros CV C. destruct (convert_facts _ _ _ _ CV) as (infos & c2f & cells & bs & F). destruct (cell2face_inv _ _ (f_c2f _ _ _ _ _ _ _ _ F)) as (L & _ & E).
  specialize (E (Z.to_nat c) ltac:(lia)). rewrite Z2Nat.id in E by lia. destruct (proj2 (mapM_nth _ _ _ _ _ (f_cells _ _ _ _ _ _ _ _ F)) _ _ E) as (n & CN & N).
  unfold cell_nodes in CN. apply bind_Ok in CN. destruct CN as (fs & G & CN). apply gather_faces in G. subst fs. apply bind_Ok in CN. destruct CN as (e & X & CN). unfold extract_element in X.
  destruct (zlen (map fst (with_flags d c)) =? 6) eqn:S; [|discriminate]. apply Z.eqb_eq in S. unfold zlen in S. rewrite <- out_with_flags, map_length. rewrite map_length in S. split; [lia|].
  destruct (forallb _ _) eqn:Q; [|injection X as <-; discriminate]. intros f I. apply in_map_iff in I. destruct I as (q & <- & I). rewrite forallb_forall in Q. specialize (Q (fst q) ltac:(now apply in_map)). apply Z.eqb_eq in Q. unfold zlen in Q. unfold out. destruct (snd q); rewrite ?rev_length; lia.
Qed.

(** ** Boundary elements *)
Lemma mark_inv z : forall n first bs bs', mark first n z bs = Ok bs' -> List.length bs' = List.length bs /\ ((0 < n)%nat -> 0 <= first /\ first + Z.of_nat n <= zlen bs) /\
  forall i b, nth_error bs i = Some b -> nth_error bs' i = Some (if (first <=? Z.of_nat i) && (Z.of_nat i <? first + Z.of_nat n) then set_zone z b else b).
Proof.
  induction n as [|n IH]; intros first bs bs' H; cbn [mark] in H.
  - injection H as <-. split; auto. split; [lia|]. intros i b B. rewrite B. destruct (Z.leb_spec first (Z.of_nat i)), (Z.ltb_spec (Z.of_nat i) (first + Z.of_nat 0)); cbn; auto; lia.
  - apply bind_Ok in H. destruct H as (b0 & V & H). apply bind_Ok in H. destruct H as (b1 & U & H). apply vat_Ok in V. destruct V as [C N]. pose proof (nth_error_Some_lt _ _ _ _ N) as CL.
    unfold vset in U. destruct ((first <? 0) || _); [discriminate|]. injection U as <-. destruct (IH _ _ _ H) as (L & R & E). rewrite upd_len in L. split; auto. split.
    + intros _. unfold zlen in *. rewrite upd_len in R. destruct n; lia.
    + intros i b B. specialize (E i). destruct (Nat.eq_dec i (Z.to_nat first)) as [->|NE].
      * assert (b0 = b) by congruence. subst b0. specialize (E (set_zone z b)). rewrite E.
        -- rewrite Z2Nat.id by lia. destruct (Z.leb_spec (first + 1) first), (Z.leb_spec first first), (Z.ltb_spec first (first + Z.of_nat (S n))); try lia; reflexivity.
        -- clear - CL. revert CL. generalize (Z.to_nat first). induction bs as [|y l IHl]; intros [|k] K; cbn in *; try lia; auto. apply IHl. lia.
      * rewrite (E b).
        -- replace (first + 1 <=? Z.of_nat i) with (first <=? Z.of_nat i) by lia. replace (first + 1 + Z.of_nat n) with (first + Z.of_nat (S n)) by lia. reflexivity.
        -- rewrite <- B. clear - NE. revert i NE. generalize (Z.to_nat first). induction bs as [|y l IHl]; intros [|k] [|i] K; cbn in *; try lia; auto.
Qed.
Lemma mark_total z : forall n first bs, ((0 < n)%nat -> 0 <= first /\ first + Z.of_nat n <= zlen bs) -> exists bs', mark first n z bs = Ok bs'.
Proof.
  induction n as [|n IH]; intros first bs R; cbn [mark]; eauto. specialize (R ltac:(lia)). unfold zlen in R. destruct (nth_error_lt_Some _ bs (Z.to_nat first)) as (b & B); [lia|]. rewrite (proj2 (vat_Ok _ _ _ b)) by (split; [lia|auto]). cbn [bind].
  unfold vset. rewrite (proj2 (Z.ltb_ge first 0)), (proj2 (Z.leb_gt _ _)) by lia. cbn [orb bind]. apply IH. intro N. unfold zlen. rewrite upd_len. lia.
Qed.
Definition hasb (nI : Z) (p : patch) (i : nat) : bool := (startFace p - nI <=? Z.of_nat i) && (Z.of_nat i <? startFace p - nI + Z.of_nat (Z.to_nat (nFaces p))).
Lemma hasb_ok d p i : hasb (zlen (neighbour d)) p i = true <-> has d p i.
Proof. unfold hasb, has. rewrite andb_true_iff, Z.leb_le, Z.ltb_lt. lia. Qed.
Lemma mark_patches_inv nI rename code : forall ps bs bs', mark_patches nI rename code ps bs = Ok bs' -> List.length bs' = List.length bs /\
  (forall name p, In (name, p) ps -> zone_of rename code name <> BC_ID_NULL) /\
  forall i b, nth_error bs i = Some b ->
   (nth_error bs' i = Some b /\ forall name p, In (name, p) ps -> hasb nI p i = false) \/
   (exists l name p r, ps = l ++ (name, p) :: r /\ hasb nI p i = true /\ (forall name' p', In (name', p') r -> hasb nI p' i = false) /\ nth_error bs' i = Some (set_zone (zone_of rename code name) b)).
Proof.
  induction ps as [|[name p] ps IH]; intros bs bs' H; cbn [mark_patches] in H.
  - injection H as <-. split; auto. split; [intros n p []|]. intros i b B. left. split; auto. intros n p [].
  - apply bind_Ok in H. destruct H as (u & U & H). apply assert_Ok, negb_true_iff, Z.eqb_neq in U. apply bind_Ok in H. destruct H as (b1 & M & H). destruct (mark_inv _ _ _ _ _ M) as (L & _ & E). destruct (IH _ _ H) as (L' & NN & E'). split; [congruence|]. split.
    + intros n q [Q|Q]; [injection Q as <- <-; exact U|eauto].
    + intros i b B. specialize (E i b B). fold (hasb nI p i) in E. destruct (E' i _ E) as [[X Y]|(l & n & q & r & -> & X & Y & Z)].
      * destruct (hasb nI p i) eqn:HB.
        -- right. exists [], name, p, ps. repeat split; auto.
        -- left. split; auto. intros n q [Q|Q]; [injection Q as <- <-; auto|eauto].
      * right. exists ((name, p) :: l), n, q, r. repeat split; auto. rewrite Z. f_equal. now destruct (hasb nI p i).
Qed.
Lemma mark_patches_total nI rename code : forall ps bs, (forall name p, In (name, p) ps -> zone_of rename code name <> BC_ID_NULL /\ (0 < nFaces p -> nI <= startFace p /\ startFace p + nFaces p <= nI + zlen bs)) ->
  exists bs', mark_patches nI rename code ps bs = Ok bs'.
Proof.
  induction ps as [|[name p] ps IH]; intros bs R; cbn [mark_patches]; eauto. destruct (R name p (or_introl eq_refl)) as [Z1 Z2]. unfold zone_of in Z1. rewrite (proj2 (Z.eqb_neq _ _) Z1). cbn [negb assert_ bind].
  destruct (mark_total (code match rename name with Some n => n | None => name end) (Z.to_nat (nFaces p)) (startFace p - nI) bs) as (b1 & M); [intro; lia|]. rewrite M. cbn [bind]. destruct (mark_inv _ _ _ _ _ M) as (L & _). apply IH. intros n q Q. unfold zlen. rewrite L. apply R. now right.
Qed.
Lemma bnds_ok rename code d m : convert rename code d = Ok m -> List.length (s_bnds m) = (List.length (owner d) - List.length (neighbour d))%nat /\
  forall i b, nth_error (s_bnds m) i = Some b ->
    nth_error (faces d) (List.length (neighbour d) + i) = Some (f_nodes b) /\ nth_error (owner d) (List.length (neighbour d) + i) = Some (f_cell b) /\ List.length (f_nodes b) = GetNumNodes (f_type b) /\ GetDim (f_type b) = Some 2%nat /\
    f_zone b <> BC_ID_NULL /\ exists l name p r, patches d = l ++ (name, p) :: r /\ has d p i /\ (forall name' p', In (name', p') r -> ~ has d p' i) /\ f_zone b = zone_of rename code name.
Proof.
  intro CV. destruct (convert_facts _ _ _ _ CV) as (infos & c2f & cells & bs & F). destruct (mark_patches_inv _ _ _ _ _ _ (f_marks _ _ _ _ _ _ _ _ F)) as (L & _ & E). pose proof (proj1 (mapM_nth _ _ _ _ _ (f_bs _ _ _ _ _ _ _ _ F))) as LB. rewrite map_length, seq_length in LB.
  split; [lia|]. intros i b B. pose proof (nth_error_Some_lt _ _ _ _ B) as IL. destruct (nth_error_lt_Some _ bs i) as (b0 & B0); [lia|].
  assert (S : nth_error (map Z.of_nat (seq 0 (List.length (owner d) - List.length (neighbour d)))) i = Some (Z.of_nat i)) by (rewrite nth_error_map, nth_error_seq, (proj2 (Nat.ltb_lt _ _)) by lia; reflexivity).
  destruct (proj2 (mapM_nth _ _ _ _ _ (f_bs _ _ _ _ _ _ _ _ F)) _ _ S) as (b0' & MB & B0'). assert (b0' = b0) by congruence. subst b0'.
  unfold make_bnd in MB. apply bind_Ok in MB. destruct MB as (ns & V1 & MB). apply bind_Ok in MB. destruct MB as (c & V2 & MB). apply bind_Ok in MB. destruct MB as (t & V3 & MB). injection MB as MB.
  assert (EI : Z.to_nat (Z.of_nat i + zlen (neighbour d)) = (List.length (neighbour d) + i)%nat) by (unfold zlen; lia). apply vget_Ok in V1. destruct V1 as [_ V1]. apply vat_Ok in V2. destruct V2 as [_ V2]. apply vat_Ok in V3. destruct V3 as [_ V3]. rewrite EI in V1, V2, V3.
  destruct (proj2 (mapM_nth _ _ _ _ _ (f_infos _ _ _ _ _ _ _ _ F)) _ _ V1) as (t' & FI & T). assert (t' = t) by congruence. subst t'.
  assert (FT : List.length ns = GetNumNodes t /\ GetDim t = Some 2%nat). { unfold face_info, zlen in FI. destruct (Z.eqb_spec (Z.of_nat (List.length ns)) 4); [injection FI as <-; cbn; split; auto; lia|]. destruct (Z.eqb_spec (Z.of_nat (List.length ns)) 3); [injection FI as <-; cbn; split; auto; lia|discriminate]. }
  pose proof (f_zones _ _ _ _ _ _ _ _ F) as FZ. rewrite forallb_forall in FZ. specialize (FZ b (nth_error_In _ _ B)). apply negb_true_iff, Z.eqb_neq in FZ.
  destruct (E i b0 B0) as [[X _]|(l & name & p & r & EP & HB & NO & X)].
  - exfalso. assert (b = b0) by congruence. subst b. apply FZ. rewrite <- MB. reflexivity.
  - assert (EB : b = set_zone (zone_of rename code name) b0) by congruence. rewrite EB. unfold set_zone. cbn. rewrite <- MB. cbn. repeat (split; [tauto|]). split; [rewrite EB in FZ; exact FZ|]. exists l, name, p, r. split; auto. split; [now apply hasb_ok|]. split; auto.
    intros n q Q HH. apply hasb_ok in HH. rewrite (NO n q Q) in HH. discriminate.
Qed.
(** ** Success *)
Lemma converts rename code d : hexahedral d -> patched rename code d -> exists m, convert rename code d = Ok m.
Proof.
  intros (LF & LN & PC & PN & HX) (PP & PC'). destruct (cell2face_total d PC) as (c2f & C2). destruct (cell2face_inv _ _ C2) as (L & _ & E).
  assert (Q4 : forall f, In f (faces d) -> List.length f = 4%nat).
  { intros f I. apply In_nth with (d := []) in I. destruct I as (k & K & <-). destruct (nth_error_lt_Some _ (owner d) k) as (c & C); [lia|]. assert (R : 0 <= c < num_cells d) by (split; [apply PC|apply num_cells_ok]; left; eapply nth_error_In; eauto).
    destruct (HX c R) as (h & _ & L8 & p & P & F). assert (I : In (nth k (faces d) []) (outside d c)). { unfold outside. apply in_or_app. left. apply (in_map (fun k => nth k (faces d) [])). now apply indices_in. }
    eapply Permutation_in in I; [|exact P]. apply In_nth with (d := []) in I. destruct I as (j & J & <-). assert (J6 : (j < List.length (hex_faces h))%nat) by (now rewrite <- (F2_length _ _ _ _ _ F)). pose proof (Forall2_nth_r _ _ _ _ _ [] [] F j J6) as T. rewrite hex_faces_len in J6 by auto.
    assert (LT : List.length (nth j p []) = List.length (nth j (hex_faces h) [])) by (destruct T as [->|(_ & r & _ & <-)]; [reflexivity|unfold rotate; rewrite app_length, skipn_length, firstn_length; lia]). rewrite LT.
    clear - L8 J6. do 9 (destruct h as [|? h]; try discriminate L8). do 6 (destruct j as [|j]; [reflexivity|]). lia. }
  assert (EI : exists infos, mapM face_info (faces d) = Ok infos). { apply mapM_Ok_ex. intros f I. unfold face_info, zlen. rewrite (Q4 f I). cbn. eauto. }
  destruct EI as (infos & EI). pose proof (proj1 (mapM_nth _ _ _ _ _ EI)) as LI.
  assert (EC : exists cells, mapM (cell_nodes d) c2f = Ok cells).
  { apply mapM_Ok_ex. intros l I. apply In_nth_error in I. destruct I as (i & I). pose proof (nth_error_Some_lt _ _ _ _ I) as IL. rewrite E in I by auto. injection I as <-. unfold cell_nodes. destruct (gather_total d (Z.of_nat i) LF LN) as (fs & G). rewrite G. apply gather_faces in G. subst fs. cbn [bind]. rewrite flags_snd.
    destruct (HX (Z.of_nat i) ltac:(lia)) as (h & ND & B). destruct (recover (with_flags d (Z.of_nat i)) h ND) as (n & X & _); [intros x IX; destruct (bounds_nodes _ _ _ B IX) as (f & IF & IX'); eapply outside_pos; eauto|now rewrite out_with_flags|]. rewrite X. cbn. eauto. }
  destruct EC as (cells & EC).
  assert (EB : exists bs, mapM (make_bnd d infos) (map Z.of_nat (seq 0 (Z.to_nat (zlen (owner d) - zlen (neighbour d))))) = Ok bs).
  { apply mapM_Ok_ex. intros z I. apply in_map_iff in I. destruct I as (i & <- & I). apply in_seq in I. unfold zlen in I. unfold make_bnd. replace (Z.of_nat i + zlen (neighbour d)) with (Z.of_nat (List.length (neighbour d) + i)) by (unfold zlen; lia). rewrite !vat_of_nat.
    destruct (nth_error_lt_Some _ (faces d) (List.length (neighbour d) + i)) as (x & EX); [lia|]. rewrite (vget_of_nat _ _ _ _ EX). destruct (nth_error_lt_Some _ (owner d) (List.length (neighbour d) + i)) as (y & ->); [lia|]. destruct (nth_error_lt_Some _ infos (List.length (neighbour d) + i)) as (t & ->); [lia|]. cbn. eauto. }
  destruct EB as (bs & EB). pose proof (proj1 (mapM_nth _ _ _ _ _ EB)) as LB. rewrite map_length, seq_length in LB.
  destruct (mark_patches_total (zlen (neighbour d)) rename code (patches d) bs) as (bs' & EM). { intros name p I. destruct (PP name p I) as [A B]. split; auto. intro N. specialize (B N). unfold zlen in *. lia. }
  unfold convert. rewrite EI. cbn [bind]. rewrite C2. cbn [bind]. rewrite EC. cbn [bind]. rewrite (proj2 (Z.leb_le 0 _)) by (unfold zlen; lia). cbn [assert_ bind]. rewrite EB. cbn [bind]. rewrite EM. cbn [bind].
  assert (Z : forallb (fun b => negb (f_zone b =? BC_ID_NULL)) bs' = true); [|rewrite Z; cbn; eauto].
  apply forallb_forall. intros b I. apply In_nth_error in I. destruct I as (i & I). destruct (mark_patches_inv _ _ _ _ _ _ EM) as (LL & NN & EE). pose proof (nth_error_Some_lt _ _ _ _ I) as IL. destruct (nth_error_lt_Some _ bs i) as (b0 & B0); [lia|].
  apply negb_true_iff, Z.eqb_neq. destruct (EE i b0 B0) as [[_ X]|(l & name & p & r & EP & _ & _ & X)].
  - exfalso. destruct (PC' i) as (name & p & IP & H); [unfold zlen in LB; lia|]. apply hasb_ok in H. rewrite (X name p IP) in H. discriminate.
  - assert (b = set_zone (zone_of rename code name) b0) by congruence. subst b. cbn. apply (NN name p). rewrite EP. apply in_or_app. right. now left.
Qed.
(** ** Faces between cells and on the boundary *)
Lemma on_face fs h x : bounds fs h -> In x fs -> exists f y, ExtractFaceNodes Hex8 f h = Ok y /\ turned x y.
Proof.
  intros (L & p & P & F) I. eapply Permutation_in in I; [|exact P]. apply In_nth with (d := []) in I. destruct I as (j & J & <-). assert (J6 : (j < List.length (hex_faces h))%nat) by (now rewrite <- (F2_length _ _ _ _ _ F)).
  pose proof (Forall2_nth_r _ _ _ _ _ [] [] F j J6) as T. rewrite hex_faces_len in J6 by auto. exists j, (nth j (hex_faces h) []). split; auto.
  clear - L J6. do 9 (destruct h as [|? h]; try discriminate L). do 6 (destruct j as [|j]; [reflexivity|]). lia.
Qed.
Lemma cell_at rename code d m c : convert rename code d = Ok m -> hexahedral d -> 0 <= c < num_cells d -> exists n, nth_error (s_cells m) (Z.to_nat c) = Some (Hex8, n) /\ NoDup n /\ bounds (outside d c) n.
Proof. intros CV (LF & LN & PC & PN & HX) C. destruct (HX c C) as (h & ND & B). destruct (cells_ok _ _ _ _ _ _ CV PN C ND B) as (n & X & Y & Z & _). eauto. Qed.
Lemma between rename code d m k a b x : convert rename code d = Ok m -> hexahedral d -> nth_error (faces d) k = Some x -> nth_error (owner d) k = Some a -> nth_error (neighbour d) k = Some b ->
  exists na nb f g y z, nth_error (s_cells m) (Z.to_nat a) = Some (Hex8, na) /\ nth_error (s_cells m) (Z.to_nat b) = Some (Hex8, nb) /\
    ExtractFaceNodes Hex8 f na = Ok y /\ ExtractFaceNodes Hex8 g nb = Ok z /\ turned x y /\ turned (rev x) z.
Proof.
  intros CV HX X A B. pose proof HX as (LF & LN & PC & PN & _).
  assert (IA : In a (owner d)) by (eapply nth_error_In; eauto). assert (IB : In b (neighbour d)) by (eapply nth_error_In; eauto).
  destruct (cell_at _ _ _ _ a CV HX) as (na & NA & _ & BA); [split; [apply PC|apply num_cells_ok]; auto|]. destruct (cell_at _ _ _ _ b CV HX) as (nb & NB & _ & BB); [split; [apply PC|apply num_cells_ok]; auto|].
  destruct (on_face _ _ x BA) as (f & y & FY & TY). { unfold outside. apply in_or_app. left. apply in_map_iff. exists k. split; [now apply nth_error_nth|now apply indices_in]. }
  destruct (on_face _ _ (rev x) BB) as (g & z & FZ & TZ). { unfold outside. apply in_or_app. right. apply in_map_iff. exists k. split; [f_equal; now apply nth_error_nth|now apply indices_in]. }
  exists na, nb, f, g, y, z. repeat (split; [assumption|]). assumption.
Qed.
Lemma on_boundary rename code d m i b : convert rename code d = Ok m -> hexahedral d -> nth_error (s_bnds m) i = Some b ->
  exists n f y, nth_error (s_cells m) (Z.to_nat (f_cell b)) = Some (Hex8, n) /\ ExtractFaceNodes Hex8 f n = Ok y /\ turned (f_nodes b) y.
Proof.
  intros CV HX B. destruct (bnds_ok _ _ _ _ CV) as [_ E]. destruct (E i b B) as (N & O & _). pose proof HX as (LF & LN & PC & PN & _). assert (IA : In (f_cell b) (owner d)) by (eapply nth_error_In; eauto).
  destruct (cell_at _ _ _ _ (f_cell b) CV HX) as (n & NA & _ & BA); [split; [apply PC|apply num_cells_ok]; auto|].
  destruct (on_face _ _ (f_nodes b) BA) as (f & y & FY & TY). { unfold outside. apply in_or_app. left. apply in_map_iff. exists (List.length (neighbour d) + i)%nat. split; [now apply nth_error_nth|now apply indices_in]. }
  exists n, f, y. auto.
Qed.
