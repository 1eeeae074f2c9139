From Coq Require Import List ZArith Bool Lia.
From Verif Require Import Base.Prelude Base.PreludeFacts Solver.DirectModel Solver.DirectSpec Solver.DirectProofs
  Solver.LUModel Solver.LUSpec Solver.LUProofs Euler.ImplicitModel Euler.ImplicitSpec Euler.ImplicitProofs Euler.ImplicitRanks.
Import ListNotations.
Local Open Scope Z_scope.

Section More.
  Context {T V : Type} (O : ops T V) (LW : laws O) (finc : Z -> bool -> V -> V) (invert : T -> res T).
  Notation value := (value O).
  Notation block := (block O).
  Notation coupling := (coupling O finc).

  (** *** the sweep with reconstruction, when there is none *)
  Lemma foldM_same : forall A B (f g : A -> B -> res A) l a, (forall a b, f a b = g a b) -> foldM f a l = foldM g a l.
  Proof. induction l as [|b l IH]; intros a H; cbn; [reflexivity|]. rewrite H. destruct (g a b); cbn; auto. Qed.
  Lemma rec_same : forall vabs m D rhs forward y,
    rec_sweep O invert vabs m finc (fun _ _ => v0 O) D rhs forward y = sgs_sweep O finc invert vabs m D rhs y true forward y.
  Proof.
    intros vabs m D rhs forward y. unfold rec_sweep, sgs_sweep. destruct (mapM invert D) as [Di| |]; cbn [bind]; auto. apply foldM_same.
    intros (z, s) i. unfold rec_cell, sgs_cell. destruct (vget rhs i) as [r| |]; cbn [bind]; auto.
    assert (E : rec_loop O m finc (fun _ _ => v0 O) z i r = face_loop O finc m (fun j => negb (i =? j)) z i r); [|rewrite E; reflexivity].
    unfold rec_loop, face_loop. destruct (vget (c2f m) i) as [fs| |]; cbn [bind]; auto. apply foldM_same. intros b k.
    destruct (vget (faces m) k) as [f| |]; cbn [bind]; auto. destruct (across f i) as ([j|], sd); auto. destruct (negb (i =? j)); auto.
    destruct (vget z j) as [x| |]; cbn [bind]; auto. rewrite (v_sub_0 O LW). reflexivity.
  Qed.

  Hypothesis INV : inverts O invert.
  Section Many.
  Variables (rs : list rank) (Ds : list (list T)).

  (** *** sweeps into a copy, and the pair of sweeps *)
  Lemma jacobi_ok : forall rhss vabs us tmp forward, system_ok invert rs Ds rhss -> arrays_ok rs us -> arrays_ok rs tmp ->
    exists us' s, sgs_all O finc invert vabs rs Ds rhss us true forward tmp = Ok (us', s) /\ consistent O rs us' /\
      everywhere rs (fun p m i => vadd O (act O (block (nth p Ds []) i) (value (nth p us' []) i))
         (coupling m (fun j => negb (i =? j)) (nth p us []) i) = value (nth p rhss []) i) /\
      (forall nonneg, absolute O vabs nonneg -> (s = v0 O <-> everywhere rs (fun p _ i => value (nth p us' []) i = value (nth p tmp []) i))).
  Proof.
    intros rhss vabs us tmp forward SO AU AT.
    destruct (sgs_all_ok O LW finc invert INV rs Ds rhss SO vabs us tmp true forward AU AT) as (y1 & us' & s & E & C & Es & L1 & V2 & _ & H).
    exists us', s. split; [exact E|]. split; [exact C|]. split; [exact H|]. intros nonneg A. rewrite Es, (rank_changes_zero O LW finc rs vabs nonneg) by (auto; apply AT).
    split; intros X p r Hr i Hi; [rewrite (V2 p r Hr i Hi)|rewrite <- (V2 p r Hr i Hi)]; apply (X p r Hr i Hi).
  Qed.
  Lemma precondition_ok : forall rhss vabs nonneg us tmp jacobi, system_ok invert rs Ds rhss -> consistent O rs us -> arrays_ok rs tmp ->
    absolute O vabs nonneg -> (forall p r, nth_error rs p = Some r -> no_self (msh r)) ->
    exists u1 s1 u2 s, sgs_all O finc invert vabs rs Ds rhss us jacobi true tmp = Ok (u1, s1) /\
      precondition O finc invert vabs rs Ds rhss us jacobi tmp = Ok (u2, s) /\ consistent O rs u1 /\ consistent O rs u2 /\
      (s = v0 O <-> u2 = u1) /\ (u2 = u1 <-> all_solved O finc rs Ds rhss u1) /\ (all_solved O finc rs Ds rhss us -> u2 = us).
  Proof.
    intros rhss vabs nonneg us tmp jacobi SO CU AT A NS. pose proof (RO invert rs Ds rhss SO) as RO.
    assert (Fix : forall us tmp forward, consistent O rs us -> arrays_ok rs tmp -> exists us' s, sgs_all O finc invert vabs rs Ds rhss us jacobi forward tmp = Ok (us', s) /\
       consistent O rs us' /\ (us' = us <-> all_solved O finc rs Ds rhss us) /\ (tmp = us -> (s = v0 O <-> us' = us))).
    { intros u t forward Cu At. destruct jacobi.
      - destruct (jacobi_ok rhss vabs u t forward SO (proj1 Cu) At) as (us' & s & E & C & H & Hs). exists us', s. split; [exact E|]. split; [exact C|].
        assert (Iff : us' = u <-> everywhere rs (fun p _ i => value (nth p us' []) i = value (nth p u []) i)).
        { split; [intros ->; intros p r Hr i Hi; reflexivity|]. intro X. apply (consistent_ext O finc rs); auto. }
        split; [|intros ->; rewrite Iff; apply (Hs nonneg A)]. rewrite Iff. split.
        + intros X p r Hr i Hi. unfold row_of. destruct (RO p r Hr) as (MO & _). rewrite <- (coupling_all O finc (msh r) (total_of r)) by eauto.
          rewrite <- (X p r Hr i Hi). apply (H p r Hr i Hi).
        + intros X p r Hr i Hi. apply (block_unique O LW finc invert INV rs Ds rhss SO p r i _ _ (coupling (msh r) (fun j => negb (i =? j)) (nth p u []) i)); auto.
          rewrite (H p r Hr i Hi), <- (X p r Hr i Hi). unfold row_of. f_equal. destruct (RO p r Hr) as (MO & _). symmetry. apply (coupling_all O finc (msh r) (total_of r)); eauto.
      - destruct (sgs_fixed O LW finc invert INV rs Ds rhss SO vabs u t forward nonneg Cu At A NS) as (us' & s & E & C & _ & H1 & H2). exists us', s. auto. }
    destruct (Fix us tmp true CU AT) as (u1 & s1 & E1 & C1 & F1 & _). destruct (Fix u1 u1 false C1 (proj1 C1)) as (u2 & s & E2 & C2 & F2 & S2).
    exists u1, s1, u2, s. split; [exact E1|]. split; [unfold precondition; rewrite E1; exact E2|]. split; [exact C1|]. split; [exact C2|]. split; [auto|]. split; [exact F2|].
    intro X. assert (u1 = us) by (apply F1; auto). subst u1. apply F2. auto.
  Qed.

  (** *** a rank without ghosts *)
  Lemma no_ghosts : forall m u i, mesh_ok m (ncell m) -> 0 <= i < ncell m ->
    coupling m (fun j => j <? ncell m) u i = coupling m (fun _ => true) u i /\ coupling m (fun j => ncell m <=? j) u i = v0 O.
  Proof.
    intros m u i MO Hi. unfold ImplicitSpec.coupling. pose proof (fun p => m_across _ _ MO i p Hi) as RA. revert RA. generalize (neighbours m i) as l.
    induction l as [|p l IH]; intro RA; [split; reflexivity|]. destruct IH as (I1 & I2); [intros; apply RA; right; auto|]. pose proof (RA p (or_introl eq_refl)).
    cbn [filter]. rewrite (proj2 (Z.ltb_lt _ _)), (proj2 (Z.leb_gt _ _)) by lia. cbn [map fold_right]. rewrite I1. auto.
  Qed.

  (** *** the symmetric sweep is linear *)
  Definition plus (us vs : list (list V)) : list (list V) :=
    map (fun p => map (fun q => vadd O (fst q) (snd q)) (combine (fst p) (snd p))) (combine us vs).
  Lemma plus_row : forall u v i, 0 <= i < zlen u -> zlen v = zlen u ->
    value (map (fun q => vadd O (fst q) (snd q)) (combine u v)) i = vadd O (value u i) (value v i).
  Proof.
    intros u v i Hi Lv. unfold ImplicitSpec.value. apply nth_error_nth. rewrite nth_error_map_. unfold zlen in *.
    assert (X : nth_error (combine u v) (Z.to_nat i) = Some (nth (Z.to_nat i) u (v0 O), nth (Z.to_nat i) v (v0 O))).
    { apply nth_error_combine. split; apply nth_error_nth'; lia. }
    rewrite X. reflexivity.
  Qed.
  Lemma plus_at : forall us vs p, (p < length us)%nat -> length vs = length us ->
    nth p (plus us vs) [] = map (fun q => vadd O (fst q) (snd q)) (combine (nth p us []) (nth p vs [])).
  Proof.
    intros us vs p Hp L. apply nth_error_nth. unfold plus. rewrite nth_error_map_.
    assert (X : nth_error (combine us vs) p = Some (nth p us [], nth p vs [])).
    { apply nth_error_combine. split; apply some_nth; lia. }
    rewrite X. reflexivity.
  Qed.
  Lemma plus_value : forall us vs p r i, arrays_ok rs us -> arrays_ok rs vs -> nth_error rs p = Some r -> 0 <= i < total_of r ->
    value (nth p (plus us vs) []) i = vadd O (value (nth p us []) i) (value (nth p vs []) i).
  Proof.
    intros us vs p r i (L1 & A1) (L2 & A2) Hr Hi. assert (p < length rs)%nat by (apply nth_error_Some; congruence).
    rewrite plus_at by lia. apply plus_row; rewrite ?(A1 p r Hr), ?(A2 p r Hr); auto.
  Qed.
  Lemma plus_consistent : forall us vs, ranks_ok rs -> consistent O rs us -> consistent O rs vs -> consistent O rs (plus us vs).
  Proof.
    intros us vs RO (A1 & C1) (A2 & C2). split.
    - destruct A1 as (L1 & A1). destruct A2 as (L2 & A2). split.
      + unfold plus. rewrite map_length, combine_length. lia.
      + intros p r Hr. assert (p < length rs)%nat by (apply nth_error_Some; congruence). rewrite plus_at by lia. unfold zlen. rewrite map_length, combine_length.
        pose proof (A1 p r Hr). pose proof (A2 p r Hr). unfold zlen in *. lia.
    - intros p r q g Hr Hg. destruct (RO p r Hr) as (MO & GO). pose proof (m_cells _ _ MO).
      destruct (GO g) as (_ & o & Ho & Hs); [eapply nth_error_In; eauto|]. destruct (RO _ _ Ho) as (MOo & _). pose proof (m_cells _ _ MOo).
      assert (q < length (ghosts r))%nat by (apply nth_error_Some; congruence).
      rewrite (plus_value us vs p r) by (auto; unfold total_of, zlen in *; lia). rewrite (plus_value us vs _ o) by (auto; lia).
      rewrite (C1 _ _ _ _ Hr Hg), (C2 _ _ _ _ Hr Hg). reflexivity.
  Qed.
  Hypothesis LIN : linear O finc.
  Lemma coupling_plus : forall m total sel u v i e, mesh_ok m total -> 0 <= i < ncell m ->
    (forall j, 0 <= j < total -> value e j = vadd O (value u j) (value v j)) ->
    coupling m sel e i = vadd O (coupling m sel u i) (coupling m sel v i).
  Proof.
    intros m total sel u v i e MO Hi H. unfold ImplicitSpec.coupling. pose proof (fun p => m_across _ _ MO i p Hi) as RA. revert RA.
    generalize (neighbours m i) as l. induction l as [|p l IH]; intro RA; cbn [filter map fold_right].
    - symmetry. apply (vadd0 _ LW).
    - assert (Rl : forall q, In q l -> 0 <= other_cell q < total) by (intros; apply RA; right; auto). specialize (IH Rl).
      destruct (sel (other_cell p)); [|exact IH]. cbn [map fold_right]. rewrite IH, H by (apply RA; left; auto). rewrite (proj2 LIN). apply (v_swap O LW).
  Qed.
  Lemma lusgs_linear : forall r1 r2 r3 u1 u2 u3, system_ok invert rs Ds r1 -> system_ok invert rs Ds r2 -> system_ok invert rs Ds r3 ->
    everywhere rs (fun p _ i => value (nth p r3 []) i = vadd O (value (nth p r1 []) i) (value (nth p r2 []) i)) ->
    arrays_ok rs u1 -> arrays_ok rs u2 -> arrays_ok rs u3 ->
    exists x1 x2 x3, lusgs O finc invert rs Ds r1 u1 = Ok x1 /\ lusgs O finc invert rs Ds r2 u2 = Ok x2 /\ lusgs O finc invert rs Ds r3 u3 = Ok x3 /\
      consistent O rs x3 /\
      everywhere rs (fun p _ i => value (nth p x3 []) i = vadd O (value (nth p x1 []) i) (value (nth p x2 []) i)).
  Proof.
    intros r1 r2 r3 u1 u2 u3 S1 S2 S3 HR A1 A2 A3. pose proof (RO invert rs Ds r3 S3) as RO.
    destruct (lusgs_ok O LW finc invert INV rs Ds r1 S1 u1 A1) as (y1 & x1 & E1 & Cy1 & Cx1 & L1 & U1).
    destruct (lusgs_ok O LW finc invert INV rs Ds r2 S2 u2 A2) as (y2 & x2 & E2 & Cy2 & Cx2 & L2 & U2).
    destruct (lusgs_ok O LW finc invert INV rs Ds r3 S3 u3 A3) as (y3 & x3 & E3 & Cy3 & Cx3 & L3 & U3).
    exists x1, x2, x3. split; [exact E1|]. split; [exact E2|]. split; [exact E3|]. split; [exact Cx3|].
    assert (Py : forall p r, nth_error rs p = Some r -> forall j, 0 <= j < total_of r -> value (nth p (plus y1 y2) []) j = vadd O (value (nth p y1 []) j) (value (nth p y2 []) j)).
    { intros. eapply plus_value; eauto; [apply Cy1|apply Cy2]. }
    assert (Px : forall p r, nth_error rs p = Some r -> forall j, 0 <= j < total_of r -> value (nth p (plus x1 x2) []) j = vadd O (value (nth p x1 []) j) (value (nth p x2 []) j)).
    { intros. eapply plus_value; eauto; [apply Cx1|apply Cx2]. }
    assert (Ey : y3 = plus y1 y2).
    { apply (lower_unique O LW finc invert INV rs Ds r3 S3); auto; [apply plus_consistent; auto|]. intros p r Hr i Hi. destruct (RO p r Hr) as (MO & _). pose proof (m_cells _ _ MO).
      rewrite (HR p r Hr i Hi), <- (L1 p r Hr i Hi), <- (L2 p r Hr i Hi). rewrite (v_swap O LW), <- (actDr _ LW). f_equal; [f_equal; apply (Py p r Hr); lia|].
      apply (coupling_plus (msh r) (total_of r)); auto; apply (Py p r Hr). }
    assert (Ex : x3 = plus x1 x2).
    { subst y3. apply (upper_unique O LW finc invert INV rs Ds r3 S3 (plus y1 y2)); auto; [apply plus_consistent; auto|]. intros p r Hr i Hi. destruct (RO p r Hr) as (MO & _). pose proof (m_cells _ _ MO).
      rewrite (Py p r Hr) by lia. rewrite (actDr _ LW), <- (U1 p r Hr i Hi), <- (U2 p r Hr i Hi). rewrite (v_swap O LW). f_equal.
      - rewrite (v_swap O LW), <- (actDr _ LW). f_equal; [f_equal; apply (Px p r Hr); lia|]. apply (coupling_plus (msh r) (total_of r)); auto; apply (Px p r Hr).
      - apply (coupling_plus (msh r) (total_of r)); auto; apply (Py p r Hr). }
    intros p r Hr i Hi. rewrite Ex. destruct (RO p r Hr) as (MO & _). pose proof (m_cells _ _ MO). apply (Px p r Hr). lia.
  Qed.
  End Many.
End More.
