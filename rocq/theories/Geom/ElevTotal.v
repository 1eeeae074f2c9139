(** Elevation of a sound mesh succeeds. *)
From Coq Require Import Reals List ZArith Bool Permutation Lia Lra Arith.
From Verif Require Import Base.Prelude Base.PreludeFacts Geom.ElemModel Geom.ElemSpec Geom.ElemProofs Geom.PeriodicModel Geom.PeriodicSpec Geom.PeriodicProofs
  Geom.ElevModel Geom.ElevSpec Geom.ElevProofs Geom.ElevNumber Geom.ElevShare Geom.ElevMore Geom.ElevDone.
Import ListNotations.
Local Open Scope Z_scope.

Lemma owner_total cells me s nb : (forall j, In j nb -> 0 <= j < zlen cells) -> exists o, owner cells me s nb = Ok o.
Proof.
  intro B. unfold owner. assert (T : forall l st, (forall q, In q l -> In (snd q) nb) -> exists st', foldM (owner_step cells me s) st l = Ok st').
  { induction l as [|q l IH]; intros st I; cbn [foldM]; eauto.
    assert (exists st1, owner_step cells me s st q = Ok st1) as (st1 & ->).
    { unfold owner_step. destruct (snd q =? me); eauto. assert (H := B _ (I q (or_introl eq_refl))).
      destruct (nth_error_lt_Some _ cells (Z.to_nat (snd q))) as (c & Hc); [unfold zlen in H; lia|].
      assert (vget cells (snd q) = Ok c) as -> by (apply vget_Ok; split; [lia|auto]). cbn. eauto. }
    cbn [bind]. apply IH. intros q' Q. apply I. now right. }
  destruct (T (combine (seq 0 (length nb)) nb) (me, None)) as (st & ->); [|cbn; eauto].
  intros [p j] I. cbn [snd]. eapply in_combine_r; eauto.
Qed.
Lemma bits_total p x b : well_formed 3 p -> (exists y, GetCoordByBits p x b = Ok y) /\ exists y, GetCoordBackByBits p x b = Ok y.
Proof.
  intro W. destruct (bits_coord p b x W) as [(z & A & _) (z' & A' & _)]. apply bind_Ok in A. destruct A as (y & A & _). apply bind_Ok in A'. destruct A' as (y' & A' & _). eauto.
Qed.
Lemma place_total m i c k n : complete m -> sound_cells m -> is_cell m i c -> GetElemElevation_O1O2_NumNode (c_type c) = Some n -> (k < n)%nat -> exists x, place m c k = Ok x.
Proof.
  intros CM SC C N K. destruct (CM _ _ C) as (_ & NB & _ & PB). destruct (SC _ _ C) as [SL ND]. unfold place.
  assert (G : forall g, In g (c_nodes c) -> exists x, vget (all_coords m) g = Ok x).
  { intros g I. apply NB in I. destruct (nth_error_lt_Some _ (all_coords m) (Z.to_nat g)) as (x & Hx); [unfold zlen in I; lia|]. exists x. apply vget_Ok. split; [lia|auto]. }
  assert (exists cs, coords_on_cell m c = Ok cs /\ length cs = length (c_nodes c)) as (cs & E & L).
  { unfold coords_on_cell. destruct (periodic m) eqn:P.
    - destruct (PB eq_refl) as [BL W]. rewrite (proj2 (Nat.eqb_eq _ _) BL).
      destruct (mapM_Ok_ex _ _ (fun q => do x <- vget (all_coords m) (fst q); GetCoordByBits (info m) x (snd q)) (combine (c_nodes c) (c_bits c))) as (cs & E).
      + intros [g b] I. apply in_combine_l in I. destruct (G _ I) as (x & Hx). cbn [fst snd]. rewrite Hx. cbn [bind]. apply bits_total. exact W.
      + exists cs. split; auto. apply mapM_nth in E. destruct E as [L _]. rewrite combine_length in L. lia.
    - destruct (mapM_Ok_ex _ _ (vget (all_coords m)) (c_nodes c) G) as (cs & E). exists cs. split; auto. now apply mapM_nth in E. }
  rewrite E. cbn [bind]. destruct (span_total _ (c_type c) k n cs) as (sp & ->); auto; [lia|]. cbn [bind]. destruct (periodic m) eqn:P; eauto.
  destruct (PB eq_refl) as [BL W]. destruct (span_total _ (c_type c) k n (c_bits c)) as (bs & ->); auto; [lia|]. cbn [bind].
  destruct (proj2 (bits_total (info m) (mean sp) (bitandReduce bs) W)) as (y & ->). cbn. eauto.
Qed.
Lemma ask_total m i c : complete m -> sound_cells m -> is_cell m i c -> exists r, ask_cell m (Z.of_nat i) c = Ok r.
Proof.
  intros CM SC C. destruct (CM _ _ C) as ((n & N) & _ & NBB & _). destruct (SC _ _ C) as [SL ND]. unfold ask_cell, num_spans. rewrite N. cbn [bind].
  apply mapM_Ok_ex. intros k K. apply in_seq in K. unfold ask_span. destruct (span_total _ (c_type c) k n (c_nodes c)) as (s & ->); auto; [lia|]. cbn [bind].
  destruct (place_total m i c k n) as (x & ->); auto; [lia|]. cbn [bind]. destruct (owner_total (all_cells m) (Z.of_nat i) s (c_nb c) NBB) as (o & ->). cbn. eauto.
Qed.

(** the entries, before the cells are filled *)
Lemma row_fact0 m infos i c : ask_cells m 0 (all_cells m) = Ok (concat (map snd infos)) -> is_cell m i c -> exists n er,
  GetElemElevation_O1O2_NumNode (c_type c) = Some n /\ nth_error (number_parts 0 infos) i = Some er /\ length er = n /\
  forall k e, nth_error er k = Some e -> exists s x ow, is_span c k s /\ place m c k = Ok x /\ owner (all_cells m) (Z.of_nat i) s (c_nb c) = Ok ow /\ val (concat (new_coords infos)) (fst x, ow) e.
Proof.
  intros F C. destruct (ask_cells_nth _ _ _ _ F) as [LL A0]. destruct (A0 _ _ C) as (r & A & R). rewrite Z.add_0_l in A.
  pose proof (number_parts_val infos []) as V0. cbn [app] in V0. change (zlen (@nil vec)) with 0 in V0. destruct (Forall2_nth _ _ _ _ _ V0) as (_ & V1 & _). destruct (V1 _ _ R) as (er & E & V).
  unfold ask_cell in A. apply bind_Ok in A. destruct A as (n & N & A).
  unfold num_spans in N. destruct (GetElemElevation_O1O2_NumNode (c_type c)) as [n'|]; [|discriminate]. injection N as ->.
  apply mapM_seq_nth in A. destruct A as [L A]. destruct (Forall2_nth _ _ _ _ _ V) as (L2 & _ & V2). exists n, er. split; auto. split; auto. split; [lia|].
  intros k e K. destruct (V2 _ _ K) as (a & N1 & V3). assert (k < n)%nat by (rewrite <- L; apply nth_error_Some; congruence).
  destruct (A k H) as (a' & S1 & N2). assert (a' = a) by congruence. subst a'. unfold ask_span in S1. apply bind_Ok in S1. destruct S1 as (s & S1 & S2).
  apply bind_Ok in S2. destruct S2 as (x & S2 & S3). apply bind_Ok in S3. destruct S3 as (ow & S3 & S4). injection S4 as <-. exists s, x, ow. auto.
Qed.
Lemma owner_spec m i c s k ow : sound_cells m -> point_neighbours m -> is_cell m i c -> is_span c k s -> owner (all_cells m) (Z.of_nat i) s (c_nb c) = Ok ow ->
  match ow with
  | None => least (all_cells m) s (Z.of_nat i)
  | Some p => exists j, nth_error (c_nb c) p = Some j /\ least (all_cells m) s j /\ j <> Z.of_nat i
  end.
Proof.
  intros SC PN C S OW. destruct (SC _ _ C) as [SL ND]. destruct (span_good _ _ _ _ SL ND S) as (NDs & Is & NEs).
  apply (owner_least _ _ _ _ _ OW).
  - apply (holds_iff _ _ c _ SC C NDs). exact Is.
  - intros j NJ HJ. apply holds_cell in HJ. destruct HJ as (n & a & -> & CA & IA). destruct s as [|z s]; [congruence|].
    apply (PN i n c a z C CA); [lia|apply Is; now left|apply IA; now left].
Qed.
Lemma flat_map_one A B (f : A -> list B) g : forall l q e, nth_error l q = Some e -> f e = [g] -> (forall q' e', nth_error l q' = Some e' -> q' <> q -> f e' = []) -> flat_map f l = [g].
Proof.
  induction l as [|a l IH]; intros [|q] e Q E O; cbn in Q; try discriminate; cbn [flat_map].
  - injection Q as ->. rewrite E. assert (flat_map f l = []) as ->; auto.
    assert (O2 : forall q' e', nth_error l q' = Some e' -> f e' = []) by (intros q' e' Q'; apply (O (S q') e'); auto).
    clear -O2. induction l as [|a l IH]; auto. cbn. rewrite (O2 0%nat a eq_refl), IH; auto. intros q' e' Q. apply (O2 (S q')). exact Q.
  - rewrite (O 0%nat a eq_refl) by lia. cbn. apply (IH q e); auto. intros q' e' Q' N. apply (O (S q') e'); auto.
Qed.

Lemma look_total m infos i c k p s x b : ask_cells m 0 (all_cells m) = Ok (concat (map snd infos)) -> sound_cells m -> point_neighbours m -> same_places m -> conforming m -> apart m ->
  is_cell m i c -> is_span c k s -> place m c k = Ok (x, b) -> owner (all_cells m) (Z.of_nat i) s (c_nb c) = Ok (Some p) ->
  exists j row g, nth_error (c_nb c) p = Some j /\ vget (number_parts 0 infos) j = Ok row /\ look (concat (new_coords infos)) row x = Ok g.
Proof.
  intros F SC PN SP CF AP C S P OW. pose proof (owner_spec _ _ _ _ _ _ SC PN C S OW) as (j & J & LS & NJ). assert (LS' := LS). destruct LS as [Hj Mj].
  destruct (holds_cell _ _ _ Hj) as (h & d & -> & D & I). destruct (CF _ _ _ _ _ _ C D S I) as (q & s' & S' & PM).
  destruct (row_fact0 _ _ _ _ F D) as (n & er & N & ER & L & RF). destruct (span_lt _ _ _ _ _ S') as (n' & N' & QL). assert (n' = n) by congruence. subst n'.
  destruct (nth_error er q) as [e|] eqn:EQ; [|apply nth_error_None in EQ; lia].
  destruct (RF _ _ EQ) as (s'' & [y by_] & ow & S'' & PY & OW' & V). assert (s'' = s') by (unfold is_span in *; congruence). subst s''. cbn [fst] in V.
  pose proof (SP _ _ _ _ _ _ _ _ _ _ C D S S' PM P PY) as SV. cbn [fst] in SV.
  assert (EN : exists g', e = Node g').
  { destruct e as [g'|p']; eauto. exfalso. cbn [val snd] in V. subst ow. pose proof (owner_spec _ _ _ _ _ _ SC PN D S' OW') as (j' & J' & LJ & NJ').
    apply (least_perm _ _ _ _ PM) in LS'. pose proof (least_unique _ _ _ _ LJ LS'). lia. }
  destruct EN as (g & ->). exists (Z.of_nat h), er, g. split; auto. split; [now apply vget_of_nat|].
  assert (VAL : forall q' g', nth_error er q' = Some (Node g') -> exists z bz, place m d q' = Ok (z, bz) /\ vget (concat (new_coords infos)) g' = Ok z).
  { intros q' g' Q'. destruct (RF _ _ Q') as (_ & [z bz] & ow' & _ & PZ & _ & VZ). exists z, bz. split; auto. now apply vget_val in VZ. }
  apply near_look.
  - intros g' I'. apply In_nth_error in I'. destruct I' as (q' & Q'). destruct (VAL _ _ Q') as (z & _ & _ & Z1). eauto.
  - unfold near_nodes. apply (flat_map_one _ _ _ _ _ q (Node g)); auto.
    + apply vget_val in V. cbn [fst] in V. rewrite V, near_self; auto. intros z Hz. symmetry. auto.
    + intros q' [g'|p'] Q' NQ; auto. destruct (VAL _ _ Q') as (z & bz & PZ & VZ). rewrite VZ. destruct (near z x) eqn:NR; auto. exfalso.
      apply near_iff in NR. assert (dist2 z x = dist2 z y) as E. { unfold dist2. cbn. rewrite !SV by lia. reflexivity. } rewrite E in NR.
      pose proof (AP _ _ _ _ _ _ D PZ PY NQ) as A. cbn [fst] in A. lra.
Qed.

Lemma fill_total m infos : complete m -> sound_cells m -> point_neighbours m -> same_places m -> conforming m -> apart m ->
  ask_cells m 0 (all_cells m) = Ok (concat (map snd infos)) -> map fst infos = map p_coords (parts m) ->
  exists c2, mapM (fill_cell m (sizes infos) (concat (new_coords infos)) (number_parts 0 infos)) (combine (all_cells m) (number_parts 0 infos)) = Ok c2.
Proof.
  intros CM SC PN SP CF AP F FF. apply mapM_Ok_ex. intros [c er] I. apply In_nth_error in I. destruct I as (i & I).
  assert (C : is_cell m i c /\ nth_error (number_parts 0 infos) i = Some er).
  { clear -I. revert i I. unfold is_cell. generalize (number_parts 0 infos). generalize (all_cells m). induction l as [|a l IH]; intros [|b l0] [|i] H; cbn in *; try discriminate; auto. now injection H as -> ->. }
  destruct C as [C ER]. destruct (row_fact0 _ _ _ _ F C) as (n & er' & N & ER' & L & RF). assert (er' = er) by congruence. subst er'.
  destruct (CM _ _ C) as (_ & NB & _). unfold fill_cell. cbn [fst snd].
  destruct (mapM_Ok_ex _ _ (renumber (sizes infos)) (c_nodes c)) as (old & ->).
  { intros g G. apply NB in G. unfold renumber. destruct (g <? 0) eqn:E; [lia|]. apply renumber_from_total. rewrite FF. exact G. }
  cbn [bind]. destruct (mapM_Ok_ex _ _ (fill_span m (concat (new_coords infos)) (number_parts 0 infos) c) (combine (seq 0 (length er)) er)) as (new & ->); [|cbn; eauto].
  intros [k e] K. apply in_indexed in K. destruct K as [_ K]. rewrite Nat.sub_0_r in K. destruct (RF _ _ K) as (s & [x b] & ow & S & P & OW & V).
  unfold fill_span. cbn [fst snd]. rewrite P. cbn [bind fst snd]. destruct e as [g|p]; eauto. cbn [val snd] in V. subst ow.
  destruct (look_total _ _ _ _ _ _ _ _ _ F SC PN SP CF AP C S P OW) as (j & row & g & J & R & LK). rewrite (vget_of_nat _ _ _ _ J). cbn [bind]. rewrite R. cbn [bind]. rewrite LK. cbn. eauto.
Qed.

(** *** boundary elements fit exactly one face *)
Definition faces_check (t : ElemType) : bool :=
  match GetElemElevation_O1O2_NumNode t with
  | None => true
  | Some n =>
    let t2 := GetElemElevation_O1O2_ElevatedType t in
    Nat.eqb (GetNumFaces t2) (GetNumFaces t) &&
    forallb (fun f => match ExtractFaceNodes t f (seq 0 (GetNumNodes t)) with
      | Ok ids => nodupb ids && forallb (fun i => Nat.ltb i (GetNumNodes t)) ids &&
          forallb (fun f' => match ExtractFaceNodes t2 f' (seq 0 (GetNumNodes t2)) with
               | Ok ids' => forallb (fun i => Nat.ltb i (GetNumNodes t2)) ids' && eqb (subsetb ids ids') (Nat.eqb f f') | _ => false end) (seq 0 (GetNumFaces t))
      | _ => false end) (seq 0 (GetNumFaces t))
  end.
Lemma faces_check_ok t : faces_check t = true.
Proof. destruct t; vm_compute; reflexivity. Qed.
Lemma face_ids t n f : GetElemElevation_O1O2_NumNode t = Some n -> (f < GetNumFaces t)%nat ->
  let t2 := GetElemElevation_O1O2_ElevatedType t in
  GetNumFaces t2 = GetNumFaces t /\ exists ids, ExtractFaceNodes t f (seq 0 (GetNumNodes t)) = Ok ids /\ NoDup ids /\ Forall (fun i => (i < GetNumNodes t)%nat) ids /\
    forall f', (f' < GetNumFaces t)%nat -> exists ids', ExtractFaceNodes t2 f' (seq 0 (GetNumNodes t2)) = Ok ids' /\ Forall (fun i => (i < GetNumNodes t2)%nat) ids' /\ subsetb ids ids' = Nat.eqb f f'.
Proof.
  intros N L t2. pose proof (faces_check_ok t) as C. unfold faces_check in C. rewrite N in C. apply andb_true_iff in C. destruct C as [C1 C]. split; [now apply Nat.eqb_eq|].
  pose proof (forallb_seq _ _ C f L) as K. cbv beta in K. destruct (ExtractFaceNodes t f (seq 0 (GetNumNodes t))) as [ids| |]; try discriminate. exists ids. split; auto.
  rewrite !andb_true_iff in K. destruct K as ((K1 & K2) & K3). split; [now apply nodupb_ok|]. split.
  - apply Forall_forall. intros i Hi. rewrite forallb_forall in K2. apply Nat.ltb_lt. auto.
  - intros f' L'. pose proof (forallb_seq _ _ K3 f' L') as Q. cbv beta in Q. fold t2 in Q. destruct (ExtractFaceNodes t2 f' (seq 0 (GetNumNodes t2))) as [ids'| |]; try discriminate. exists ids'. split; auto.
    apply andb_true_iff in Q. destruct Q as [Q1 Q2]. split; [|now apply eqb_prop]. apply Forall_forall. intros i Hi. rewrite forallb_forall in Q1. apply Nat.ltb_lt. auto.
Qed.
Lemma face_map A (d : A) t f nodes s : length nodes = GetNumNodes t -> ExtractFaceNodes t f nodes = Ok s ->
  exists ids, ExtractFaceNodes t f (seq 0 (GetNumNodes t)) = Ok ids /\ s = map (fun i => nth i nodes d) ids.
Proof.
  intros L H. rewrite (labels _ d nodes _ L) in H. rewrite ExtractFaceNodes_nat in H.
  destruct (ExtractFaceNodes t f (seq 0 (GetNumNodes t))) as [ids| |]; cbn in H; try discriminate. injection H as <-. eauto.
Qed.
Lemma subset_in a b : (forall x, In x a -> In x b) -> subsetb a b = true.
Proof.
  induction a as [|x a IH]; intro HI; cbn; auto. rewrite IH by (intros z Hz; apply HI; now right). rewrite andb_true_r.
  apply existsb_exists. exists x. split; [apply HI; now left|apply Nat.eqb_refl].
Qed.
Lemma face_lt A t f (nodes : list A) s : ExtractFaceNodes t f nodes = Ok s -> (f < GetNumFaces t)%nat.
Proof. unfold ExtractFaceNodes, ObtainFace. intro H. apply bind_Ok in H. destruct H as (ft & H & _). apply bind_Ok in H. destruct H as ([] & H & _). apply assert_Ok in H. now apply Nat.ltb_lt. Qed.

Lemma bnd_total m o infos lo hi b : facts m o infos -> complete m -> sound_cells m -> point_neighbours m -> same_places m -> conforming m -> bnds_are_faces m -> bnd_at m lo hi b ->
  exists b2, fill_bnd (sizes infos) (o_cells o) lo hi b = Ok b2.
Proof.
  intros F CM SC PN SP CF BF BA. destruct (BF _ _ _ BA) as (R & c & f & fn & C & FN & PM).
  destruct (cell_shape _ _ _ _ _ F SC C) as (n & c2 & old & new & N & C2 & T & ND & LO & LN & MO & _). pose proof (nodup_nodes _ _ _ _ _ _ F SC PN SP CF C C2) as NDUP.
  assert (L2 : length (c_nodes c2) = GetNumNodes (c_type c2)) by (rewrite ND, app_length, T, <- (elevated_count _ _ N); lia).
  unfold fill_bnd. rewrite (proj2 (Z.leb_le _ _) (proj1 R)), (proj2 (Z.ltb_lt _ _) (proj2 R)). cbn [andb].
  assert (0 <= b_cell b). { destruct BA as (l & p & r & _ & -> & _). pose proof (zlen_nonneg _ (concat (map p_cells l))). lia. }
  assert (vget (o_cells o) (b_cell b) = Ok c2) as -> by (apply vget_Ok; auto). cbn [bind].
  destruct (SC _ _ C) as [SL NDc]. destruct (CM _ _ C) as (_ & NB & _).
  pose proof (face_lt _ _ _ _ _ FN) as Lf. destruct (face_ids _ _ _ N Lf) as (NF & ids & I1 & I2 & I3 & I4).
  destruct (face_map _ 0 _ _ _ _ SL FN) as (ids1 & E1 & FE). assert (ids1 = ids) by congruence. subst ids1. rewrite Forall_forall in I3.
  destruct (mapM_nth _ _ _ _ _ MO) as [_ M].
  assert (REN : forall id, In id ids -> renumber (sizes infos) (nth id (c_nodes c) 0) = Ok (nth id (c_nodes c2) 0)).
  { intros id Hid. apply I3 in Hid. destruct (M id (nth id (c_nodes c) 0)) as (h & R1 & R2); [apply nth_error_nth'; lia|]. rewrite R1. f_equal. rewrite ND, app_nth1 by lia. symmetry. now apply nth_error_nth. }
  destruct (mapM_Ok_ex _ _ (renumber (sizes infos)) (b_nodes b)) as (b2n & B2).
  { intros g G. apply (Permutation_in _ PM) in G. rewrite FE in G. apply in_map_iff in G. destruct G as (id & <- & G). eauto. }
  rewrite B2. cbn [bind]. destruct (face_fold_total c2 b2n L2 NDUP (seq 0 (GetNumFaces (c_type c2))) (0%nat, ([], UnknownElem))) as (st & ST); [intros f' I; apply in_seq in I; lia|].
  rewrite ST. cbn [bind]. apply face_fold in ST. subst st. cbn [fst snd].
  assert (B2N : forall h, In h b2n <-> exists id, In id ids /\ h = nth id (c_nodes c2) 0).
  { destruct (mapM_nth _ _ _ _ _ B2) as [LB MB]. intro h. split.
    - intro I. apply In_nth_error in I. destruct I as (k & K). destruct (nth_error (b_nodes b) k) as [g|] eqn:G.
      2:{ apply nth_error_None in G. assert (k < length b2n)%nat by (apply nth_error_Some; congruence). lia. }
      destruct (MB _ _ G) as (h' & R1 & R2). assert (h' = h) by congruence. subst h'. apply nth_error_In in G. apply (Permutation_in _ PM) in G. rewrite FE in G. apply in_map_iff in G.
      destruct G as (id & <- & G). exists id. split; auto. rewrite (REN _ G) in R1. congruence.
    - intros (id & Hid & ->). assert (I : In (nth id (c_nodes c) 0) (b_nodes b)). { apply (Permutation_in _ (Permutation_sym PM)). rewrite FE. apply in_map_iff. eauto. }
      apply In_nth_error in I. destruct I as (k & K). destruct (MB _ _ K) as (h' & R1 & R2). rewrite (REN _ Hid) in R1. injection R1 as <-. eapply nth_error_In; eauto. }
  assert (NDb : NoDup b2n).
  { destruct (mapM_nth _ _ _ _ _ B2) as [LB MB]. apply NoDup_nth_error. intros p q PL E. destruct (nth_error b2n p) as [h|] eqn:HP; [|apply nth_error_None in HP; lia]. symmetry in E.
    assert (NDbn : NoDup (b_nodes b)). { apply (Permutation_NoDup (Permutation_sym PM)). rewrite FE. apply NoDup_map_below with (n := GetNumNodes (c_type c)); auto; [rewrite <- SL; now apply nth_inj|]. now apply Forall_forall. }
    assert (Lq : (q < length b2n)%nat) by (apply nth_error_Some; congruence).
    destruct (nth_error (b_nodes b) p) as [g|] eqn:G1; [|apply nth_error_None in G1; lia]. destruct (nth_error (b_nodes b) q) as [g'|] eqn:G2; [|apply nth_error_None in G2; lia].
    destruct (MB _ _ G1) as (h1 & R1 & K1). destruct (MB _ _ G2) as (h2 & R2 & K2). assert (h1 = h) by congruence. assert (h2 = h) by congruence. subst h1 h2.
    rewrite (renumber_inj _ _ _ _ R1 R2) in G1. apply (proj1 (NoDup_nth_error _) NDbn); [apply nth_error_Some; congruence|congruence]. }
  assert (FIT : forall f', (f' < GetNumFaces (c_type c))%nat -> exists fn', fit c2 b2n f' = if Nat.eqb f f' then [(fn', GetFaceType (c_type c2) f')] else []).
  { intros f' L'. destruct (I4 _ L') as (ids' & J1 & J2 & J3). rewrite <- T in *. unfold fit.
    assert (ExtractFaceNodes (c_type c2) f' (c_nodes c2) = Ok (map (fun i => nth i (c_nodes c2) 0) ids')) as -> by (rewrite (labels _ 0 (c_nodes c2) _ L2) at 1; rewrite ExtractFaceNodes_nat, J1; reflexivity).
    eexists. rewrite <- J3. rewrite Forall_forall in J2. destruct (subsetb ids ids') eqn:SB.
    - rewrite includes_nodup; auto. intros h Hh. apply B2N in Hh. destruct Hh as (id & Hid & ->). apply in_map_iff. exists id. split; auto. now apply (subsetb_ok _ _ SB).
    - destruct (includes _ _) eqn:INC; auto. exfalso. apply includes_sort_incl in INC. apply not_true_iff_false in SB. apply SB. apply subset_in. intros id Hid.
      assert (K : In (nth id (c_nodes c2) 0) b2n) by (apply B2N; eauto). apply INC in K. apply in_map_iff in K. destruct K as (id' & E & K).
      assert (id' = id). { apply (nth_inj _ 0 _ NDUP); auto; [rewrite L2; auto|]. rewrite L2, T, <- (elevated_count _ _ N). apply I3 in Hid. lia. } now subst. }
  rewrite <- T in NF. destruct (FIT f Lf) as (fn' & Ff). rewrite Nat.eqb_refl in Ff.
  assert (FM : flat_map (fit c2 b2n) (seq 0 (GetNumFaces (c_type c2))) = [(fn', GetFaceType (c_type c2) f)]).
  { apply (flat_map_one _ _ _ _ _ f f); auto.
    - rewrite (nth_error_nth' _ 0%nat) by (rewrite seq_length; lia). now rewrite seq_nth by lia.
    - intros q' e' Q NQ. assert (Lq : (q' < GetNumFaces (c_type c2))%nat). { rewrite <- (seq_length (GetNumFaces (c_type c2)) 0). apply nth_error_Some. congruence. }
      rewrite (nth_error_nth' _ 0%nat) in Q by (rewrite seq_length; lia). rewrite seq_nth in Q by lia. injection Q as <-. cbn [Nat.add].
      destruct (FIT q') as (fn'' & E); [lia|]. rewrite E. destruct (Nat.eqb_spec f q'); auto. congruence. }
  rewrite FM. cbn. eauto.
Qed.
Lemma bnds_total m sz c2 : (forall lo hi b, bnd_at m lo hi b -> exists b2, fill_bnd sz c2 lo hi b = Ok b2) -> exists bs, fill_bnds sz c2 0 (parts m) = Ok bs.
Proof.
  intro H. assert (T : forall r l, parts m = l ++ r -> exists bs, fill_bnds sz c2 (zlen (concat (map p_cells l))) r = Ok bs).
  { induction r as [|p r IH]; intros l E; cbn [fill_bnds]; eauto.
    destruct (mapM_Ok_ex _ _ (fill_bnd sz c2 (zlen (concat (map p_cells l))) (zlen (concat (map p_cells l)) + zlen (p_cells p))) (p_bnds p)) as (bs & ->).
    - intros b I. apply H. exists l, p, r. auto.
    - cbn [bind]. destruct (IH (l ++ [p])) as (t & E2); [now rewrite <- app_assoc|]. rewrite map_app, concat_app, zlen_app in E2. cbn [map concat] in E2. rewrite app_nil_r in E2. rewrite E2. cbn. eauto. }
  apply (T (parts m) []). reflexivity.
Qed.

Lemma success m : complete m -> sound_cells m -> point_neighbours m -> same_places m -> conforming m -> apart m -> bnds_are_faces m -> exists o, elevate m = Ok o.
Proof.
  intros CM SC PN SP CF AP BF. destruct (ask_cells_ok m (all_cells m) 0) as (rows & A). { intros j c C. rewrite Z.add_0_l. now apply ask_total. }
  destruct (ask_parts_ok m (parts m) 0 rows A) as (infos & AI). destruct (ask_parts_cells _ _ _ _ AI) as [A1 A2]. fold (all_cells m) in A1.
  destruct (fill_total _ _ CM SC PN SP CF AP A1 A2) as (c2 & FC). unfold elevate. rewrite AI. cbn [bind]. rewrite FC. cbn [bind].
  set (o := {| o_coords := new_coords infos; o_cells := c2; o_bnds := [] |}).
  assert (F : facts m o infos) by (constructor; auto).
  destruct (bnds_total m (sizes infos) c2) as (bs & ->); [|cbn; eauto]. intros lo hi b BA. exact (bnd_total m o infos lo hi b F CM SC PN SP CF BF BA).
Qed.
