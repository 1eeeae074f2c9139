From Coq Require Import List ZArith Bool Arith Lia Reals.
From Verif Require Import Base.Prelude Base.PreludeFacts Base.MPIModel Base.MPIFacts
  Geom.NodeCellModel Geom.NodeCellProofs Geom.PartProofs Geom.BoundaryModel Geom.PeriodicModel
  Geom.PeriodicSpec Geom.PeriodicProofs Geom.DedupModel Geom.DedupSpec Geom.DedupProofs.
Import ListNotations.
Local Open Scope Z_scope.

(** ** The bits *)
Definition bit_of (zone b : Z) : bool :=
  if zone =? BC_ID_PERIODIC_1_DONOR then getP1 b else
  if zone =? BC_ID_PERIODIC_2_DONOR then getP2 b else
  if zone =? BC_ID_PERIODIC_3_DONOR then getP3 b else false.

Lemma land_lor_same b k : 0 < k -> Z.land (Z.lor b k) k <> 0.
Proof.
  intros Hk E. rewrite Z.land_comm in E.
  assert (A : Z.land k (Z.lor b k) = k).
  { apply Z.bits_inj'. intros i _. rewrite Z.land_spec, Z.lor_spec. destruct (Z.testbit k i); auto.
    now rewrite orb_true_r. }
  lia.
Qed.

Lemma land_lor_other b k j : Z.land k j = 0 -> Z.land (Z.lor b k) j = Z.land b j.
Proof. intro H. now rewrite Z.land_lor_distr_l, H, Z.lor_0_r. Qed.

Lemma set_bit_spec z z' b : FaceIDIsPeriodicDonor z = true -> FaceIDIsPeriodicDonor z' = true ->
  bit_of z' (set_bit z b) = (z' =? z) || bit_of z' b.
Proof.
  intros D D'. unfold FaceIDIsPeriodicDonor in *.
  repeat rewrite orb_true_iff in D, D'. rewrite !Z.eqb_eq in D, D'.
  unfold bit_of, set_bit, getP1, getP2, getP3, setP1True, setP2True, setP3True.
  assert (P : forall k, 0 < k -> (Z.land (Z.lor b k) k =? 0) = false).
  { intros k Hk. apply Z.eqb_neq. now apply land_lor_same. }
  assert (Q : forall k j, Z.land k j = 0 -> (Z.land (Z.lor b k) j =? 0) = (Z.land b j =? 0)).
  { intros k j H. now rewrite land_lor_other. }
  destruct D as [[->| ->]| ->], D' as [[->| ->]| ->]; cbn [Z.eqb BC_ID_PERIODIC_1_DONOR
    BC_ID_PERIODIC_2_DONOR BC_ID_PERIODIC_3_DONOR Pos.eqb orb];
    rewrite ?P by lia; rewrite ?Q by reflexivity; reflexivity.
Qed.

Definition bits_inv (cells : list (nat * list Z)) (D : Z -> nat -> Z -> Prop) (bs : list (list Z)) : Prop :=
  length bs = length cells /\
  forall c cell row, nth_error cells c = Some cell -> nth_error bs c = Some row ->
    length row = length (snd cell) /\
    forall pos q b z, nth_error (snd cell) pos = Some q -> nth_error row pos = Some b ->
      FaceIDIsPeriodicDonor z = true -> (bit_of z b = true <-> D z c q).

Lemma bits_inv_ext cells (D D' : Z -> nat -> Z -> Prop) bs :
  (forall z c q, FaceIDIsPeriodicDonor z = true -> (D z c q <-> D' z c q)) ->
  bits_inv cells D bs -> bits_inv cells D' bs.
Proof.
  intros E (L & H). split; auto. intros c cell row Hc Hr. destruct (H c cell row Hc Hr) as (Lr & Hb).
  split; auto. intros pos q b z Hq Hb' Hz. rewrite (Hb pos q b z Hq Hb' Hz). now apply E.
Qed.

Lemma mark_inv cells D bs zone iNode iCell bs' : FaceIDIsPeriodicDonor zone = true ->
  bits_inv cells D bs ->
  (do cell <- vget cells iCell; do row <- vget bs iCell;
   vset bs iCell (mark_cell zone iNode (snd cell) row)) = Ok bs' ->
  bits_inv cells (fun z c q => D z c q \/ (z = zone /\ Z.of_nat c = iCell /\ q = iNode)) bs'.
Proof.
  intros Hz (L & H) E.
  apply bind_Ok in E. destruct E as (cell & E1 & E). apply bind_Ok in E. destruct E as (row & E2 & E).
  apply vget_Ok in E1. destruct E1 as (R1 & E1). apply vget_Ok in E2. destruct E2 as (R2 & E2).
  set (k := Z.to_nat iCell) in *. assert (Ek : iCell = Z.of_nat k) by lia.
  rewrite Ek in E. apply vset_Ok in E. destruct E as (R3 & ->).
  destruct (H k cell row E1 E2) as (Lr & Hb).
  split; [now rewrite upd_length|]. intros c cell' row' Hc Hr.
  destruct (Nat.eq_dec c k) as [->|Dc].
  - rewrite nth_error_upd_same in Hr by (apply nth_error_Some_lt in E2; auto). injection Hr as <-.
    assert (cell' = cell) by congruence. subst cell'. unfold mark_cell. split.
    + rewrite map_length, combine_length. lia.
    + intros pos q b z Hq Hb' Hz'. rewrite nth_error_map_ in Hb'.
      destruct (nth_error (combine (snd cell) row) pos) as [(q', b0)|] eqn:Eq; [|discriminate].
      rewrite nth_error_combine in Eq. rewrite Hq in Eq.
      destruct (nth_error row pos) as [b1|] eqn:Er; [|discriminate]. injection Eq as <- <-.
      cbn [option_map fst snd] in Hb'. injection Hb' as <-.
      pose proof (Hb pos q b1 z Hq Er Hz') as HD.
      destruct (Z.eqb_spec q iNode) as [->|Dq].
      * rewrite set_bit_spec by auto. rewrite orb_true_iff, Z.eqb_eq, HD. split.
        -- intros [->|Hd]; [right; split; [|split]; auto|now left].
        -- intros [Hd|(-> & _ & _)]; auto.
      * rewrite HD. split; [now left|]. intros [Hd|(_ & _ & Hd)]; [auto|contradiction].
  - rewrite nth_error_upd_other in Hr by auto. destruct (H c cell' row' Hc Hr) as (Lr' & Hb').
    split; auto. intros pos q b z Hq Hbb Hz'. rewrite (Hb' pos q b z Hq Hbb Hz'). split; [now left|].
    intros [Hd|(_ & Hd & _)]; [auto|lia].
Qed.

(** A loop that adds to the marks. *)
Lemma foldM_inv cells A (f : list (list Z) -> A -> res (list (list Z))) (Add : A -> Z -> nat -> Z -> Prop) l :
  (forall a D bs bs', In a l -> bits_inv cells D bs -> f bs a = Ok bs' ->
     bits_inv cells (fun z c q => D z c q \/ Add a z c q) bs') ->
  forall D bs bs', bits_inv cells D bs -> foldM f bs l = Ok bs' ->
    bits_inv cells (fun z c q => D z c q \/ exists a, In a l /\ Add a z c q) bs'.
Proof.
  induction l as [|a l IH]; intros Hf D bs bs' Hi E.
  - cbn [foldM] in E. injection E as <-. apply bits_inv_ext with D; auto. intros z c q _; split; [now left|].
    intros [H|(a & [] & _)]; auto.
  - cbn [foldM] in E. apply bind_Ok in E. destruct E as (bs1 & E1 & E).
    pose proof (Hf a D bs bs1 (or_introl eq_refl) Hi E1) as Hi1.
    pose proof (IH (fun a' D' b b' I => Hf a' D' b b' (or_intror I)) _ _ _ Hi1 E) as Hi2.
    apply bits_inv_ext with (2 := Hi2). intros z c q _. split.
    + intros [[H|H]|(a' & I & H)]; [now left|right; exists a; split; [now left|auto]|].
      right. exists a'. split; [now right|auto].
    + intros [H|(a' & [->|I] & H)]; auto. right. eauto.
Qed.

Lemma donor2cell_In dms cells node c : In c (donorNode2Cell dms cells node) <->
  existsb (fun dm => is_donor dm node) dms = true /\
  exists k cell, c = Z.of_nat k /\ nth_error cells k = Some cell /\ In node (firstn (fst cell) (snd cell)).
Proof.
  unfold donorNode2Cell. destruct (existsb _ dms).
  - split.
    + intro H. split; auto. apply in_concat in H. destruct H as (l & Il & Ic). apply in_map_iff in Il.
      destruct Il as ((z, cell) & <- & Iz). apply indexed_In in Iz. destruct Iz as (k & cell' & Hk & Ez). injection Ez as -> <-.
      apply in_flat_map in Ic. destruct Ic as (q & Iq & Ic). cbn [fst snd] in *.
      destruct (Z.eqb_spec q node) as [->|]; [|destruct Ic]. destruct Ic as [<-|[]].
      exists k, cell. auto.
    + intros (_ & k & cell & -> & Hk & I). apply in_concat.
      exists (flat_map (fun q => if q =? node then [Z.of_nat k] else []) (firstn (fst cell) (snd cell))). split.
      * apply in_map_iff. exists (Z.of_nat k, cell). split; auto. apply indexed_In. exists k, cell. auto.
      * apply in_flat_map. exists node. split; auto. rewrite Z.eqb_refl. now left.
  - split; [intros []|intros ([=] & _)].
Qed.

Lemma foldM_each A B (f : A -> B -> res A) (P : B -> Prop) l : (forall a b a', f a b = Ok a' -> P b) ->
  forall a a', foldM f a l = Ok a' -> Forall P l.
Proof.
  intro H. induction l as [|b l IH]; intros a a' E; constructor; cbn [foldM] in E; apply bind_Ok in E;
    destruct E as (a1 & E1 & E); eauto.
Qed.

Lemma bnd_step dms cells (bnds : list (Z * list Z)) (bnd : Z * list Z) (D : Z -> nat -> Z -> Prop) b b' :
  In bnd bnds -> bits_inv cells D b ->
  (if negb (FaceIDIsPeriodicDonor (fst bnd)) then Ok b else
      foldM (fun bs iNodeFace =>
          do _ <- assert_ (negb (zlen (donorNode2Cell dms cells iNodeFace) =? 0));
          foldM (fun bs iCell =>
              foldM (fun bs iNode =>
                  do cell <- vget cells iCell;
                  do row <- vget bs iCell;
                  vset bs iCell (mark_cell (fst bnd) iNode (snd cell) row))
                bs (snd bnd))
            bs (donorNode2Cell dms cells iNodeFace))
        b (snd bnd)) = Ok b' ->
    bits_inv cells (fun z c q => D z c q \/ (FaceIDIsPeriodicDonor (fst bnd) = true /\
    exists v, In v (snd bnd) /\ exists ic, In ic (donorNode2Cell dms cells v) /\ exists q', In q' (snd bnd) /\
      (z = fst bnd /\ Z.of_nat c = ic /\ q = q'))) b'.
Proof.
  destruct bnd as (zone, nodes). intros _ Hi E. cbn [fst snd] in *.
  destruct (FaceIDIsPeriodicDonor zone) eqn:Dz; cbn [negb] in E.
  - eapply bits_inv_ext; [|eapply foldM_inv with (3 := E) (2 := Hi)
        (Add := fun v z c q => exists ic, In ic (donorNode2Cell dms cells v) /\ exists q', In q' nodes /\
           (z = zone /\ Z.of_nat c = ic /\ q = q'))].
    + intros z c q _. split; (intros [H|H]; [now left|right]); [split; auto|apply H].
    + clear - Dz. intros v D bs bs' _ Hi E. apply bind_Ok in E. destruct E as (u & _ & E).
      apply foldM_inv with (3 := E) (2 := Hi)
          (Add := fun ic z c q => exists q', In q' nodes /\ (z = zone /\ Z.of_nat c = ic /\ q = q')).
      clear - Dz. intros ic D bs bs' _ Hi E.
      apply foldM_inv with (3 := E) (2 := Hi) (Add := fun q' z c q => z = zone /\ Z.of_nat c = ic /\ q = q').
      clear - Dz. intros q' D bs bs' _ Hi E. now apply mark_inv with (3 := E).
  - injection E as <-. eapply bits_inv_ext with (2 := Hi). intros z c q _; split; [now left|]. intros [H|([=] & _)]; auto.
Qed.

Lemma bits_spec dms cells bnds bs : periodic_bits dms cells bnds = Ok bs ->
  bits_inv cells (fun z c q => exists nodes, In (z, nodes) bnds /\ In q nodes /\ touching cells nodes c) bs /\
  forall z nodes v, In (z, nodes) bnds -> FaceIDIsPeriodicDonor z = true -> In v nodes ->
    existsb (fun dm => is_donor dm v) dms = true /\
    exists k cell, nth_error cells k = Some cell /\ In v (firstn (fst cell) (snd cell)).
Proof.
  intro E. unfold periodic_bits in E.
  assert (Hd : forall z nodes v, In (z, nodes) bnds -> FaceIDIsPeriodicDonor z = true -> In v nodes ->
    existsb (fun dm => is_donor dm v) dms = true /\
    exists k cell, nth_error cells k = Some cell /\ In v (firstn (fst cell) (snd cell))).
  { intros z nodes v I D Iv.
    apply foldM_each with (P := fun bnd => FaceIDIsPeriodicDonor (fst bnd) = true -> Forall (fun v => existsb (fun dm => is_donor dm v) dms = true /\
       exists k cell, nth_error cells k = Some cell /\ In v (firstn (fst cell) (snd cell))) (snd bnd)) in E.
    - rewrite Forall_forall in E. specialize (E _ I D). rewrite Forall_forall in E. now apply E.
    - clear. intros b (z & nodes) b' E D. cbn [fst snd] in *. rewrite D in E. cbn [negb] in E.
      apply foldM_each with (2 := E). clear. intros a v a' E. apply bind_Ok in E. destruct E as (u & Eu & _).
      apply assert_Ok in Eu. destruct (donorNode2Cell dms cells v) as [|c l] eqn:El.
      + discriminate.
      + assert (I : In c (donorNode2Cell dms cells v)) by (rewrite El; now left).
        apply donor2cell_In in I. destruct I as (Dv & k & cell & _ & Hk & I). split; eauto. }
  split; auto.
  assert (H0 : bits_inv cells (fun _ _ _ => False) (map (fun c => repeat 0 (length (snd c))) cells)).
  { split; [now rewrite map_length|]. intros c cell row Hc Hr. rewrite nth_error_map_, Hc in Hr.
    cbn [option_map] in Hr. injection Hr as <-. split; [apply repeat_length|].
    intros pos q b z Hq Hb Hz. apply nth_error_In in Hb. apply repeat_spec in Hb. subst b.
    unfold bit_of. split; [|intros []]. destruct (z =? _); [discriminate|]. destruct (z =? _); [discriminate|].
    destruct (z =? _); discriminate. }
  eapply bits_inv_ext; [|eapply foldM_inv with (3 := E) (2 := H0) (1 := bnd_step dms cells bnds)].
  intros z c q Dz. split.
  - intros [[]|((zone, nodes) & I & _ & v & Iv & ic & Ic & q' & Iq & -> & <- & ->)].
    cbn [fst snd] in *. apply donor2cell_In in Ic. destruct Ic as (_ & k & cell & Ek & Hk & Ic).
    assert (c = k) by lia. subst k. exists nodes. do 2 (split; [auto|]). exists cell, v. auto.
  - intros (nodes & I & Iq & cell & v & Hc & Iv & Iv'). right. exists (z, nodes). split; auto. cbn [fst snd].
    split; auto. exists v. split; auto. exists (Z.of_nat c). split.
    + apply donor2cell_In. split; [apply (Hd z nodes v I Dz Iv')|]. exists c, cell. auto.
    + exists q. auto.
Qed.

(** ** The geometry of the cells *)
Lemma apply_bits p b x0 x1 x2 x3 : well_formed 3 p ->
  (if getP3 b then yields (TransCoord p x0 BC_ID_PERIODIC_3) (fun r => same_vec 3 r x1) else x1 = x0) ->
  (if getP2 b then yields (TransCoord p x1 BC_ID_PERIODIC_2) (fun r => same_vec 3 r x2) else x2 = x1) ->
  (if getP1 b then yields (TransCoord p x2 BC_ID_PERIODIC_1) (fun r => same_vec 3 r x3) else x3 = x2) ->
  yields (GetCoordByBits p x0 b) (fun r => same_vec 3 r x3).
Proof.
  intros W H3 H2 H1. unfold GetCoordByBits. destruct (Z.eqb_spec b 0) as [->|_].
  { cbn in H1, H2, H3. exists x0. split; auto. subst. apply same_vec_refl. }
  assert (St : forall (g : bool) id u v w, FaceIDIsPeriodic id = true ->
    (if g then yields (TransCoord p u id) (fun r => same_vec 3 r v) else v = u) -> same_vec 3 w u ->
    exists r, (if g then TransCoord p w id else Ok w) = Ok r /\ same_vec 3 r v).
  { intros g id u v w Hid Hg Hw. destruct g.
    - destruct (coord_hyp' p id W Hid) as (f & h & _ & Eh & _ & X). rewrite Eh in Hg |- *.
      destruct Hg as (r & Er & Sr). injection Er as <-. exists (h w). split; auto.
      apply same_vec_trans with (h u); auto.
    - subst v. exists w. auto. }
  destruct (St _ BC_ID_PERIODIC_3 _ _ x0 eq_refl H3 (same_vec_refl 3 x0)) as (r3 & E3 & S3). rewrite E3. cbn [bind].
  destruct (St _ BC_ID_PERIODIC_2 _ _ r3 eq_refl H2 S3) as (r2 & E2 & S2). rewrite E2. cbn [bind].
  destruct (St _ BC_ID_PERIODIC_1 _ _ r2 eq_refl H1 S2) as (r1 & E1 & S1). rewrite E1. exists r1. auto.
Qed.

Lemma donor_dec dm i : donor_in dm i \/ ~ donor_in dm i.
Proof.
  destruct (is_donor dm i) eqn:E; [left; now apply is_donor_In|right]. intro H. apply is_donor_In in H. congruence.
Qed.

Lemma geometry_spec p dm1 dm2 dm3 coords (cells : list (nat * list Z)) (bnds : list (Z * list Z)) coords' c2n b2n bs :
  let n := length coords in let dms := [dm1; dm2; dm3] in
  well_formed 3 p ->
  map_ok n dm1 -> map_ok n dm2 -> map_ok n dm3 -> acyclic dms ->
  square dm1 dm2 -> square dm1 dm3 -> square dm2 dm3 -> straight dms -> images p coords dms ->
  in_nodes n (map snd cells) -> in_nodes n (map snd bnds) ->
  (forall k dm q, nth_error dms k = Some dm ->
     (donor_in dm q <-> exists nodes, In (- Z.of_nat (k + 4), nodes) bnds /\ In q nodes)) ->
  (forall z nodes c cell q, In (z, nodes) bnds -> FaceIDIsPeriodicDonor z = true -> In q nodes ->
     nth_error cells c = Some cell -> In q (snd cell) -> touching cells nodes c) ->
  periodic_bits dms cells bnds = Ok bs ->
  Deduplicate vzero dm1 dm2 dm3 coords (map snd cells) (map snd bnds) = Ok (coords', c2n, b2n) ->
  forall c cell pos q, nth_error cells c = Some cell -> nth_error (snd cell) pos = Some q ->
    exists row q' bits b x x', nth_error c2n c = Some row /\ nth_error row pos = Some q' /\
      nth_error bs c = Some bits /\ nth_error bits pos = Some b /\
      at_node coords q x /\ at_node coords' q' x' /\
      yields (GetCoordByBits p x' b) (fun r => same_vec 3 r x).
Proof.
  intros n dms W M1 M2 M3 A S12 S13 S23 St Im Nc Nb Hd Ht Eb Ed c cell pos q Hc Hq.
  destruct (merge_spec vec vzero dm1 dm2 dm3 coords M1 M2 M3 A) as (f & F1 & F2 & _ & F3 & F4).
  fold n in F1, F2, F4. fold dms in F1, F2, F3, F4.
  specialize (F3 S12 S13 S23). destruct (F4 _ _ Nc Nb) as (co & Ed' & Lc & Hco). clear F4.
  rewrite Ed in Ed'. injection Ed' as -> -> ->. rewrite !map_map.
  destruct (bits_spec dms cells bnds bs Eb) as ((Lb & Hb) & _).
  assert (Hcl : (c < length bs)%nat) by (rewrite Lb; now apply nth_error_Some_lt in Hc).
  destruct (nth_error_lt_Some _ bs c Hcl) as (bits & Hbits). destruct (Hb c cell bits Hc Hbits) as (Lr & Hbit).
  assert (Hpl : (pos < length bits)%nat) by (rewrite Lr; now apply nth_error_Some_lt in Hq).
  destruct (nth_error_lt_Some _ bits pos Hpl) as (b & Hbp).
  assert (Rq : 0 <= q < Z.of_nat n).
  { unfold in_nodes in Nc. rewrite Forall_forall in Nc.
    assert (I : In (snd cell) (map snd cells)) by (apply in_map, (nth_error_In _ _ Hc)).
    specialize (Nc _ I). rewrite Forall_forall in Nc. apply Nc, (nth_error_In _ _ Hq). }
  assert (Nx : forall i, 0 <= i < Z.of_nat n -> exists x, at_node coords i x).
  { intros i Hi. destruct (nth_error_lt_Some _ coords (Z.to_nat i)) as (x & Hx); [unfold n in *; lia|].
    exists x. split; [lia|auto]. }
  assert (In1 : In dm1 dms) by now left. assert (In2 : In dm2 dms) by (right; now left).
  assert (In3 : In dm3 dms) by (right; right; now left).
  assert (B : forall k dm, nth_error dms k = Some dm -> (k < 3)%nat -> (bit_of (- Z.of_nat (k + 4)) b = true <-> donor_in dm q)).
  { intros k dm Hk Lk. assert (Dz : FaceIDIsPeriodicDonor (- Z.of_nat (k + 4)) = true).
    { destruct k as [|[|[|]]]; [reflexivity|reflexivity|reflexivity|lia]. }
    rewrite (Hbit pos q b _ Hq Hbp Dz). rewrite (Hd k dm q Hk). split.
    - intros (nodes & I & Iq & _). eauto.
    - intros (nodes & I & Iq). exists nodes. do 2 (split; [auto|]).
      apply (Ht _ nodes c cell q I Dz Iq Hc). apply (nth_error_In _ _ Hq). }
  pose proof (B 0%nat dm1 eq_refl ltac:(lia)) as B1. pose proof (B 1%nat dm2 eq_refl ltac:(lia)) as B2.
  pose proof (B 2%nat dm3 eq_refl ltac:(lia)) as B3.
  change (bit_of (- Z.of_nat (0 + 4)) b) with (getP1 b) in B1.
  change (bit_of (- Z.of_nat (1 + 4)) b) with (getP2 b) in B2.
  change (bit_of (- Z.of_nat (2 + 4)) b) with (getP3 b) in B3. clear B.
  (* the way down in the first direction *)
  assert (W1 : exists q1, 0 <= q1 < Z.of_nat n /\ f q1 = f q /\ ~ donor_in dm1 q1 /\
     (donor_in dm2 q1 <-> donor_in dm2 q) /\ (donor_in dm3 q1 <-> donor_in dm3 q) /\
     if getP1 b then In (q, q1) dm1 else q1 = q).
  { destruct (getP1 b) eqn:E1.
    - destruct (proj1 B1 eq_refl) as (m & I). exists m. split; [apply M1 in I; apply I|].
      split; [symmetry; now apply (F3 dm1)|]. split.
      { intro D. destruct (St 0%nat 0%nat dm1 dm1 q m eq_refl eq_refl I D) as (N & _). now apply N. }
      split; [|split; [|auto]]; split.
      + intro D. apply (St 1%nat 0%nat dm2 dm1 q m eq_refl eq_refl I D).
      + intros (m' & I'). destruct (S12 q m m' I I') as (e & J & _). now exists e.
      + intro D. apply (St 2%nat 0%nat dm3 dm1 q m eq_refl eq_refl I D).
      + intros (m' & I'). destruct (S13 q m m' I I') as (e & J & _). now exists e.
    - exists q. do 2 (split; [auto|]). split; [|repeat split; auto]. intro D. apply B1 in D. discriminate. }
  destruct W1 as (q1 & R1 & G1 & N11 & D12 & D13 & T1).
  assert (W2 : exists q2, 0 <= q2 < Z.of_nat n /\ f q2 = f q /\ ~ donor_in dm1 q2 /\ ~ donor_in dm2 q2 /\
     (donor_in dm3 q2 <-> donor_in dm3 q) /\ if getP2 b then In (q1, q2) dm2 else q2 = q1).
  { destruct (getP2 b) eqn:E2.
    - destruct (proj2 D12 (proj1 B2 eq_refl)) as (m & I). exists m. split; [apply M2 in I; apply I|].
      split; [rewrite <- G1; symmetry; now apply (F3 dm2)|]. split; [|split; [|split; [|auto]]].
      + intro D. apply N11. apply (St 0%nat 1%nat dm1 dm2 q1 m eq_refl eq_refl I D).
      + intro D. destruct (St 1%nat 1%nat dm2 dm2 q1 m eq_refl eq_refl I D) as (N & _). now apply N.
      + rewrite <- D13. split.
        * intro D. apply (St 2%nat 1%nat dm3 dm2 q1 m eq_refl eq_refl I D).
        * intros (m' & I'). destruct (S23 q1 m m' I I') as (e & J & _). now exists e.
    - exists q1. do 3 (split; [auto|]). split; [|auto]. intro D. apply D12, B2 in D. discriminate. }
  destruct W2 as (q2 & R2 & G2 & N21 & N22 & D23 & T2).
  assert (W3 : exists q3, 0 <= q3 < Z.of_nat n /\ f q3 = f q /\ ~ donor_in dm1 q3 /\ ~ donor_in dm2 q3 /\
     ~ donor_in dm3 q3 /\ if getP3 b then In (q2, q3) dm3 else q3 = q2).
  { destruct (getP3 b) eqn:E3.
    - destruct (proj2 D23 (proj1 B3 eq_refl)) as (m & I). exists m. split; [apply M3 in I; apply I|].
      split; [rewrite <- G2; symmetry; now apply (F3 dm3)|]. split; [|split; [|split; [|auto]]].
      + intro D. apply N21. apply (St 0%nat 2%nat dm1 dm3 q2 m eq_refl eq_refl I D).
      + intro D. apply N22. apply (St 1%nat 2%nat dm2 dm3 q2 m eq_refl eq_refl I D).
      + intro D. destruct (St 2%nat 2%nat dm3 dm3 q2 m eq_refl eq_refl I D) as (N & _). now apply N.
    - exists q2. do 4 (split; [auto|]). split; [|auto]. intro D. apply D23, B3 in D. discriminate. }
  destruct W3 as (q3 & R3 & G3 & N31 & N32 & N33 & T3).
  destruct (F1 q3 R3) as (k & s & Hk & Fk & Ls).
  assert (Es : Z.of_nat s = q3).
  { inversion Ls as [|dm d m s' Idm I L']; auto. subst.
    destruct Idm as [<-|[<-|[<-|[]]]]; [elim N31|elim N32|elim N33]; now exists m. }
  destruct (Nx q Rq) as (x & Hx). destruct (Nx q1 R1) as (x1 & Hx1). destruct (Nx q2 R2) as (x2 & Hx2).
  destruct (Nx q3 R3) as (x3 & Hx3).
  assert (Q : forall i u v, at_node coords i u -> at_node coords i v -> u = v) by (unfold at_node; intros; intuition congruence).
  exists (map f (snd cell)), (f q), bits, b, x, x3.
  split. { rewrite nth_error_map_, Hc. reflexivity. }
  split. { rewrite nth_error_map_, Hq. reflexivity. }
  do 3 (split; [auto|]). split.
  { rewrite <- G3, Fk. split; [lia|]. rewrite Nat2Z.id, (Hco k s Hk). destruct Hx3 as (_ & Hx3). rewrite <- Es, Nat2Z.id in Hx3. exact Hx3. }
  apply apply_bits with x2 x1; auto.
  - destruct (getP3 b); [|subst q3; eapply Q; eauto]. apply (Im 2%nat dm3 q2 q3); auto.
  - destruct (getP2 b); [|subst q2; eapply Q; eauto]. apply (Im 1%nat dm2 q1 q2); auto.
  - destruct (getP1 b); [|subst q1; eapply Q; eauto]. apply (Im 0%nat dm1 q q1); auto.
Qed.

Lemma bits_three dms cells bnds bs : periodic_bits dms cells bnds = Ok bs ->
  length bs = length cells /\
  forall c cell row, nth_error cells c = Some cell -> nth_error bs c = Some row ->
    length row = length (snd cell) /\
    forall pos q b, nth_error (snd cell) pos = Some q -> nth_error row pos = Some b ->
      let on zone := exists nodes, In (zone, nodes) bnds /\ In q nodes /\ touching cells nodes c in
      (getP1 b = true <-> on BC_ID_PERIODIC_1_DONOR) /\
      (getP2 b = true <-> on BC_ID_PERIODIC_2_DONOR) /\
      (getP3 b = true <-> on BC_ID_PERIODIC_3_DONOR).
Proof.
  intro E. destruct (bits_spec _ _ _ _ E) as ((L & H) & _). split; auto. intros c cell row Hc Hr.
  destruct (H c cell row Hc Hr) as (Lr & Hb). split; auto. intros pos q b Hq Hbb on.
  split; [|split].
  - apply (Hb pos q b BC_ID_PERIODIC_1_DONOR Hq Hbb eq_refl).
  - apply (Hb pos q b BC_ID_PERIODIC_2_DONOR Hq Hbb eq_refl).
  - apply (Hb pos q b BC_ID_PERIODIC_3_DONOR Hq Hbb eq_refl).
Qed.

Lemma quadratic_refused dms cells bnds zone nodes v :
  In (zone, nodes) bnds -> FaceIDIsPeriodicDonor zone = true -> In v nodes ->
  (forall c cell, nth_error cells c = Some cell -> ~ In v (firstn (fst cell) (snd cell))) ->
  forall bs, periodic_bits dms cells bnds <> Ok bs.
Proof.
  intros I D Iv N bs E. destruct (bits_spec _ _ _ _ E) as (_ & H).
  destruct (H zone nodes v I D Iv) as (_ & k & cell & Hk & J). exact (N k cell Hk J).
Qed.
