(** Diagonals, common faces, boundary elements and volumes. *)
From Coq Require Import Reals List ZArith Bool Lia Arith Lra.
From Verif Require Import Base.Prelude Base.PreludeFacts Geom.ElemModel Geom.ElemSpec Geom.ElemProofs Geom.PeriodicModel Geom.PeriodicSpec Geom.PeriodicProofs
  Geom.ElevModel Geom.ElevSpec Geom.BisectModel Geom.BisectSpec Geom.BisectProofs Geom.BisectFaces.
Import ListNotations.
Local Open Scope nat_scope.

(** ** Diagonals *)
Definition memb (j : nat) (l : list nat) : bool := existsb (Nat.eqb j) l.
Lemma memb_ok j l : memb j l = true <-> In j l.
Proof.
  unfold memb. rewrite existsb_exists. split; [intros (x & I & E); apply Nat.eqb_eq in E; now subst|]. intro I. exists j. split; auto. apply Nat.eqb_refl.
Qed.
Definition diag_check (t : ElemType) (v k : nat) : bool :=
  match tab t k v with
  | Ok ids => forallb (fun q : nat * nat => negb (memb (fst q) ids && memb (snd q) ids) ||
      match nth_error (diagonals t) v with Some q' => (fst q =? fst q') && (snd q =? snd q') | None => false end) (diagonals t)
  | _ => false
  end.
Lemma diag_check_ok t v k : GetOrder t = Some 2 -> variant_ok t v = true -> k < GetO2ElemBisectNum t -> diag_check t v k = true.
Proof.
  intros O V K. apply variants_ok in V. revert k K. apply forallb_seq. revert v V. apply forallb_seq. destruct t; try discriminate O; vm_compute; reflexivity.
Qed.
Lemma distance_at xs (i j : nat) d x y : distance xs (Z.of_nat i) (Z.of_nat j) = Ok d -> nth_error xs i = Some x -> nth_error xs j = Some y -> d = vnorm (fun q => x q - y q)%R.
Proof.
  unfold distance. intros E X Y. apply bind_Ok in E. destruct E as (a & A & E). apply bind_Ok in E. destruct E as (b & B & E). apply vget_Ok in A. apply vget_Ok in B. rewrite Nat2Z.id in *.
  assert (a = x) by (destruct A; congruence). assert (b = y) by (destruct B; congruence). subst. now injection E as <-.
Qed.
Lemma min3 a b c : forall x, In x [a; b; c] -> (nth (minCoeff [a; b; c]) [a; b; c] 0 <= x)%R.
Proof.
  cbn. intros x [<-|[<-|[<-|[]]]]; repeat destruct (Rlt_dec _ _); cbn; lra.
Qed.
Lemma min2 a b : forall x, In x [a; b] -> (nth (minCoeff [a; b]) [a; b] 0 <= x)%R.
Proof. cbn. intros x [<-|[<-|[]]]; repeat destruct (Rlt_dec _ _); cbn; lra. Qed.
(** the lengths compared are those of [diagonals] *)
Lemma variant_min t xs v q q' x y x' y' : bisect_variant t xs = Ok v -> nth_error (diagonals t) v = Some q -> In q' (diagonals t) ->
  nth_error xs (fst q) = Some x -> nth_error xs (snd q) = Some y -> nth_error xs (fst q') = Some x' -> nth_error xs (snd q') = Some y' ->
  (vnorm (fun k => x k - y k) <= vnorm (fun k => x' k - y' k))%R.
Proof.
  intros V N I X Y X' Y'. unfold bisect_variant in V. apply bind_Ok in V. destruct V as (u & _ & V). destruct t; try (cbn in I; destruct I; fail).
  - apply bind_Ok in V. destruct V as (ls & E & V). injection V as <-. cbn [mapM] in E. apply bind_Ok in E. destruct E as (a & A & E). apply bind_Ok in E. destruct E as (ls' & E & E1). injection E1 as <-.
    apply bind_Ok in E. destruct E as (b & B & E). apply bind_Ok in E. destruct E as (ls & E & E1). injection E1 as <-. apply bind_Ok in E. destruct E as (d & D & E). apply bind_Ok in E. destruct E as (ls' & E & E1). injection E1 as <-. injection E as <-.
    assert (LN : forall n q2 x2 y2, nth_error (diagonals Tet10) n = Some q2 -> nth_error xs (fst q2) = Some x2 -> nth_error xs (snd q2) = Some y2 -> nth_error [a; b; d] n = Some (vnorm (fun k => x2 k - y2 k)%R)).
    { intros n q2 x2 y2 N2 X2 Y2. destruct n as [|[|[|n]]]; cbn in N2; try (injection N2 as <-; cbn in X2, Y2); cbn; [f_equal..|].
      - exact (distance_at xs 4 9 _ _ _ A X2 Y2).
      - exact (distance_at xs 5 7 _ _ _ B X2 Y2).
      - exact (distance_at xs 6 8 _ _ _ D X2 Y2).
      - destruct n; discriminate. }
    pose proof (LN _ _ _ _ N X Y) as L1. apply In_nth_error in I. destruct I as (n & I). pose proof (LN _ _ _ _ I X' Y') as L2. rewrite <- (nth_error_nth _ _ 0%R L1). apply min3. eapply nth_error_In; eauto.
  - apply bind_Ok in V. destruct V as (ls & E & V). injection V as <-. cbn [mapM] in E. apply bind_Ok in E. destruct E as (a & A & E). apply bind_Ok in E. destruct E as (ls' & E & E1). injection E1 as <-.
    apply bind_Ok in E. destruct E as (b & B & E). apply bind_Ok in E. destruct E as (ls & E & E1). injection E1 as <-. injection E as <-.
    assert (LN : forall n q2 x2 y2, nth_error (diagonals Pyramid14) n = Some q2 -> nth_error xs (fst q2) = Some x2 -> nth_error xs (snd q2) = Some y2 -> nth_error [a; b] n = Some (vnorm (fun k => x2 k - y2 k)%R)).
    { intros n q2 x2 y2 N2 X2 Y2. destruct n as [|[|n]]; cbn in N2; try (injection N2 as <-; cbn in X2, Y2); cbn; [f_equal..|].
      - exact (distance_at xs 9 11 _ _ _ A X2 Y2).
      - exact (distance_at xs 10 12 _ _ _ B X2 Y2).
      - destruct n; discriminate. }
    pose proof (LN _ _ _ _ N X Y) as L1. apply In_nth_error in I. destruct I as (n & I). pose proof (LN _ _ _ _ I X' Y') as L2. rewrite <- (nth_error_nth _ _ 0%R L1). apply min2. eapply nth_error_In; eauto.
Qed.
Lemma node_of_id m r i c k s xs v p a : sound_cells m -> is_cell m i c -> bisect m = Ok r -> cut m c k s xs v -> nth_error (c_nodes c) p = Some a -> In a (c_nodes s) ->
  exists ids, tab (c_type c) k v = Ok ids /\ In p ids.
Proof.
  intros SC C _ Q A I. destruct (SC _ _ C) as [L N]. destruct (cut_ids _ _ _ _ _ _ Q L) as (ids & T & E & F1 & F2 & F3). exists ids. split; auto. rewrite E in I. apply in_map_iff in I. destruct I as (j & J & JI).
  rewrite Forall_forall in F2. assert (j = p); [|now subst]. pose proof (nth_error_Some_lt _ _ _ _ A). eapply (nth_inj Z 0%Z (c_nodes c) N); try lia; [rewrite L; auto|]. rewrite J. symmetry. now apply nth_error_nth.
Qed.
Lemma shortest m r i k s c xs p q a b p' q' x y x' y' : bisect m = Ok r -> sound_cells m -> is_cell m i c -> piece m r i k s -> coords_on_cell m c = Ok xs ->
  In (p, q) (diagonals (c_type c)) -> nth_error (c_nodes c) p = Some a -> nth_error (c_nodes c) q = Some b -> In a (c_nodes s) -> In b (c_nodes s) ->
  In (p', q') (diagonals (c_type c)) -> nth_error xs p = Some x -> nth_error xs q = Some y -> nth_error xs p' = Some x' -> nth_error xs q' = Some y' ->
  (vnorm (fun j => x j - y j) <= vnorm (fun j => x' j - y' j))%R.
Proof.
  intros H SC C P X D A B IA IB D' X1 X2 X3 X4. destruct (piece_cut _ _ _ _ _ H P) as (c' & xs' & v & C' & Q). assert (c' = c) by (unfold is_cell in *; congruence). subst c'.
  assert (xs' = xs) by (pose proof (cut_coords _ _ _ _ _ _ Q); congruence). subst xs'.
  destruct (node_of_id _ _ _ _ _ _ _ _ _ _ SC C H Q A IA) as (ids & T & I1). destruct (node_of_id _ _ _ _ _ _ _ _ _ _ SC C H Q B IB) as (ids' & T' & I2). assert (ids' = ids) by congruence. subst ids'.
  destruct (variant_of_extract _ _ _ _ _ _ (cut_nodes _ _ _ _ _ _ Q)) as [V K]. pose proof (diag_check_ok _ _ _ (cut_order _ _ _ _ _ _ Q) V K) as E. unfold diag_check in E. rewrite T in E. rewrite forallb_forall in E. specialize (E _ D). cbn [fst snd] in E.
  rewrite (proj2 (memb_ok _ _) I1), (proj2 (memb_ok _ _) I2) in E. cbn [andb negb orb] in E. destruct (nth_error (diagonals (c_type c)) v) as [q2|] eqn:N; try discriminate. apply andb_true_iff in E. destruct E as [E1 E2]. apply Nat.eqb_eq in E1, E2.
  assert (q2 = (p, q)) by (destruct q2; cbn in *; congruence). subst q2. eapply (variant_min _ _ _ (p, q) (p', q')); eauto. apply Q.
Qed.
(** and one diagonal is taken *)
Definition taken_check (t : ElemType) (v : nat) : bool :=
  match nth_error (diagonals t) v with
  | Some q => existsb (fun k => match tab t k v with Ok ids => memb (fst q) ids && memb (snd q) ids | _ => false end) (seq 0 (GetO2ElemBisectNum t))
  | None => match diagonals t with [] => true | _ => false end
  end.
Lemma taken_check_ok t v : GetOrder t = Some 2 -> variant_ok t v = true -> taken_check t v = true.
Proof. intros O V. apply variants_ok in V. revert v V. apply forallb_seq. destruct t; try discriminate O; vm_compute; reflexivity. Qed.
Lemma taken m r i c : bisect m = Ok r -> sound_cells m -> is_cell m i c -> diagonals (c_type c) <> [] ->
  exists p q a b k s, In (p, q) (diagonals (c_type c)) /\ nth_error (c_nodes c) p = Some a /\ nth_error (c_nodes c) q = Some b /\ piece m r i k s /\ In a (c_nodes s) /\ In b (c_nodes s).
Proof.
  intros H SC C D. destruct (the_variant _ _ _ _ H C) as (v & V & O & Q). pose proof (taken_check_ok _ _ O V) as T. unfold taken_check in T. destruct (nth_error (diagonals (c_type c)) v) as [[p q]|] eqn:N; [|destruct (diagonals (c_type c)); [congruence|discriminate]].
  apply existsb_exists in T. destruct T as (k & K & T). apply in_seq in K. destruct (tab (c_type c) k v) as [ids| |] eqn:TB; try discriminate. apply andb_true_iff in T. destruct T as [T1 T2]. apply memb_ok in T1, T2. cbn in T1, T2.
  destruct (piece_exists m r i c k H C) as (s & P); [lia|]. destruct (Q _ _ P) as (xs & U). destruct (SC _ _ C) as [L ND]. destruct (cut_ids _ _ _ _ _ _ U L) as (ids' & T' & E & F1 & F2 & F3). assert (ids' = ids) by congruence. subst ids'.
  rewrite Forall_forall in F2. exists p, q, (nth p (c_nodes c) 0%Z), (nth q (c_nodes c) 0%Z), k, s. split; [eapply nth_error_In; eauto|]. split; [apply nth_error_nth'; rewrite L; auto|]. split; [apply nth_error_nth'; rewrite L; auto|]. split; auto.
  rewrite E. split; apply in_map_iff; eauto.
Qed.

(** ** A face seen from two cells *)
Lemma turned_sym A (x y : list A) : turned x y -> turned y x.
Proof.
  intros [->|(L & k & K & <-)]; [now left|]. right. rewrite rotate_length. split; auto. exists (length x - k). split; [lia|]. now apply rotate_back.
Qed.
Lemma turned_trans A (x y z : list A) : turned x y -> turned y z -> turned x z.
Proof.
  intros [->|(L & k & K & <-)] [<-|(L' & k' & K' & <-)]; [now left|right; eauto|right; eauto|]. right. split; auto. rewrite rotate_length in K'. destruct (rotate_add _ _ _ _ K K') as (j & J & E). eauto.
Qed.
Lemma turned_rev A (x y : list A) : turned x y -> turned (rev x) (rev y).
Proof.
  intros [->|(L & k & K & <-)]; [now left|]. right. rewrite rev_length. split; auto. exists (length x - k). split; [lia|]. symmetry. now apply rev_rotate.
Qed.
Definition common_check (t : ElemType) (k : nat) (o : bool) : bool :=
  forallb (fun j => existsb (fun j' => match tab t j 0, ExtractO2BisectElemNodes t j' 0 (seen_from t k o (seq 0 (GetNumNodes t))) with
    | Ok x, Ok y => turnedb y (if o then rev x else x) | _, _ => false end) (seq 0 (GetO2ElemBisectNum t))) (seq 0 (GetO2ElemBisectNum t)).
Lemma common_check_ok t k o : GetOrder t = Some 2 -> GetDim t = Some 2 \/ (t = Line3 /\ o = true /\ k = 0) -> k < GetNumVertices t -> common_check t k o = true.
Proof.
  intros O [D|(-> & -> & ->)]; [|intros _; vm_compute; reflexivity]. revert k. apply forallb_seq. destruct t; try discriminate O; try discriminate D; destruct o; vm_compute; reflexivity.
Qed.
Lemma seen_from_map A B (g : A -> B) t k o l : seen_from t k o (map g l) = map g (seen_from t k o l).
Proof.
  unfold seen_from. rewrite !firstn_map, !skipn_map, !firstn_map. destruct o; rewrite !map_app, <- ?map_rev, ?rotate_map; reflexivity.
Qed.
Lemma common_face t k o (fa : list Z) j x : GetOrder t = Some 2 -> GetDim t = Some 2 \/ (t = Line3 /\ o = true /\ k = 0) -> k < GetNumVertices t -> length fa = GetNumNodes t ->
  ExtractO2BisectElemNodes t j 0 fa = Ok x -> exists j' y, ExtractO2BisectElemNodes t j' 0 (seen_from t k o fa) = Ok y /\ turned y (if o then rev x else x).
Proof.
  intros O D K L E. destruct (by_table Z 0%Z _ _ _ _ _ L E) as (ids & T & ->). destruct (variant_of_extract _ _ _ _ _ _ E) as [_ J].
  pose proof (common_check_ok _ _ _ O D K) as Q. unfold common_check in Q. rewrite forallb_forall in Q. specialize (Q j). rewrite in_seq in Q. assert (Q' := Q ltac:(lia)). clear Q. apply existsb_exists in Q'. destruct Q' as (j' & _ & Q). rewrite T in Q.
  destruct (ExtractO2BisectElemNodes t j' 0 (seen_from t k o (seq 0 (GetNumNodes t)))) as [y0| |] eqn:Y; try discriminate. apply turnedb_ok in Q.
  exists j', (map (fun q => nth q fa 0%Z) y0). rewrite (labels Z 0%Z _ _ L) at 1. rewrite seen_from_map, bisect_nat, Y. split; [reflexivity|]. apply (turned_map _ _ (fun q => nth q fa 0%Z)) in Q. destruct o; [rewrite map_rev in Q|]; exact Q.
Qed.
Definition face_type_check (t : ElemType) : bool :=
  forallb (fun f => let ft := GetFaceType t f in second ft && match GetDim t, GetDim ft with Some d, Some e => d =? S e | _, _ => false end &&
    match ExtractFaceNodes t f (seq 0 (GetNumNodes t)) with Ok fn => length fn =? GetNumNodes ft | _ => false end) (seq 0 (GetNumFaces t)).
Lemma face_type_check_ok t : GetOrder t = Some 2 -> flat t = true -> face_type_check t = true.
Proof. intros O D. destruct t; try discriminate O; try discriminate D; vm_compute; reflexivity. Qed.
Lemma face_type t f (nodes : list Z) fn : GetOrder t = Some 2 -> flat t = true -> length nodes = GetNumNodes t -> ExtractFaceNodes t f nodes = Ok fn ->
  f < GetNumFaces t /\ GetOrder (GetFaceType t f) = Some 2 /\ length fn = GetNumNodes (GetFaceType t f) /\ (GetDim (GetFaceType t f) = Some 2 \/ GetFaceType t f = Line3).
Proof.
  intros O D L E. assert (F : f < GetNumFaces t).
  { pose proof E as E'. unfold ExtractFaceNodes, ObtainFace in E'. apply bind_Ok in E'. destruct E' as (b & F0 & _). apply bind_Ok in F0. destruct F0 as (u & U & _). now apply assert_Ok, Nat.ltb_lt in U. }
  pose proof (face_type_check_ok _ O D) as Q. apply forallb_seq with (i := f) in Q; auto. cbv zeta in Q. rewrite !andb_true_iff in Q. destruct Q as [[Q1 Q2] Q3]. split; auto.
  assert (O2 : GetOrder (GetFaceType t f) = Some 2) by (unfold second in Q1; destruct (GetOrder (GetFaceType t f)) as [[|[|[|]]]|]; congruence). split; auto. split.
  - rewrite (labels Z 0%Z _ _ L), ExtractFaceNodes_nat in E. destruct (ExtractFaceNodes t f (seq 0 (GetNumNodes t))) as [x| |]; try discriminate. injection E as <-. rewrite map_length. now apply Nat.eqb_eq.
  - destruct (GetFaceType t f) eqn:FT; try discriminate O2; auto; unfold flat in D; destruct (GetDim t) as [[|[|[|[|]]]]|]; try discriminate D; cbn in Q2; discriminate Q2.
Qed.

Lemma conform m r i j a b f f' k fa : bisect m = Ok r -> sound_cells m -> is_cell m i a -> is_cell m j b -> flat (c_type a) = true -> flat (c_type b) = true ->
  ExtractFaceNodes (c_type a) f (c_nodes a) = Ok fa -> GetFaceType (c_type b) f' = GetFaceType (c_type a) f -> k < GetNumVertices (GetFaceType (c_type a) f) -> (GetFaceType (c_type a) f = Line3 -> k = 0) ->
  ExtractFaceNodes (c_type b) f' (c_nodes b) = Ok (seen_from (GetFaceType (c_type a) f) k true fa) ->
  forall n z, face_piece a f n z -> exists ka ga x kb gb y, piece_face m r i ka ga x /\ turned x z /\ piece_face m r j kb gb y /\ turned y (rev x).
Proof.
  intros H SC A B DA DB FA FT K KL FB n z P. destruct (skin _ _ _ _ H SC A DA _ _ _ P) as (ka & ga & x & PX & TX). destruct P as (fn & FN & E). assert (fn = fa) by congruence. subst fn.
  assert (OA : GetOrder (c_type a) = Some 2) by (destruct (the_variant _ _ _ _ H A) as (v & _ & O & _); exact O). destruct (SC _ _ A) as [LA _].
  destruct (face_type _ _ _ _ OA DA LA FA) as (FR & O2 & LF & DD).
  destruct (common_face _ k true fa _ _ O2 (match DD with or_introl d => or_introl d | or_intror l => or_intror (conj l (conj eq_refl (KL l))) end) K LF E) as (j' & y & Y & TY).
  assert (PB : face_piece b f' j' y) by (eexists; split; [exact FB|]; rewrite FT; exact Y). destruct (skin _ _ _ _ H SC B DB _ _ _ PB) as (kb & gb & w & PW & TW).
  exists ka, ga, x, kb, gb, w. repeat split; auto. eapply turned_trans; [exact TW|]. eapply turned_trans; [exact TY|]. apply turned_rev, turned_sym, TX.
Qed.
