From Coq Require Import List ZArith Bool Lia Permutation.
From Verif Require Import Base.Prelude Base.PreludeFacts Solver.DirectModel Solver.DirectSpec Solver.DirectProofs
  Solver.LUModel Solver.LUSpec Solver.LUProofs Euler.ImplicitModel Euler.ImplicitSpec.
Import ListNotations.
Local Open Scope Z_scope.

(** *** lists *)
Lemma nth_upd_same : forall A (l : list A) i x d, (i < length l)%nat -> nth i (upd i x l) d = x.
Proof. induction l as [|a l IH]; intros [|i] x d H; cbn in *; try lia; auto. apply IH. lia. Qed.
Lemma nth_upd_other : forall A (l : list A) i j x d, i <> j -> nth j (upd i x l) d = nth j l d.
Proof. induction l as [|a l IH]; intros [|i] [|j] x d H; cbn; auto; try lia. Qed.
Lemma vget_nth : forall A (l : list A) i d, 0 <= i < zlen l -> vget l i = Ok (nth (Z.to_nat i) l d).
Proof.
  intros A l i d H. apply vget_Ok. split; [lia|]. apply nth_error_nth'. unfold zlen in H. lia.
Qed.
Lemma vset_in : forall A (l : list A) i x, 0 <= i < zlen l -> vset l i x = Ok (upd (Z.to_nat i) x l).
Proof.
  intros A l i x H. unfold vset. unfold zlen in H. destruct (Z.ltb_spec i 0); [lia|].
  destruct (Z.leb_spec (Z.of_nat (length l)) i); [lia|]. reflexivity.
Qed.
Lemma nth_first : forall A (d : A) l n i, (i < n)%nat -> nth i (firstn n l) d = nth i l d.
Proof. induction l as [|a l IH]; intros [|n] [|i] H; cbn; auto; try lia. apply IH. lia. Qed.
Lemma zlen_upd : forall A i (x : A) l, zlen (upd i x l) = zlen l.
Proof. intros. unfold zlen. rewrite upd_length. reflexivity. Qed.
Lemma nth_range : forall n p i, nth_error (range n) p = Some i -> i = Z.of_nat p.
Proof.
  intros n p i H. unfold range in H. rewrite nth_error_map_ in H. rewrite nth_error_seq in H.
  destruct (Nat.ltb p (Z.to_nat n)); cbn in H; [injection H as <-; lia|discriminate].
Qed.
Lemma range_split : forall n d i r, range n = d ++ i :: r -> forall j, In j d <-> 0 <= j < i.
Proof.
  intros n d i r E j.
  assert (Ei : i = Z.of_nat (length d)).
  { apply (nth_range n). rewrite E, nth_error_app2, Nat.sub_diag by lia. reflexivity. }
  split.
  - intro H. apply In_nth_error in H. destruct H as (p & H).
    assert (L : (p < length d)%nat) by (apply nth_error_Some; congruence).
    assert (j = Z.of_nat p). { apply (nth_range n). rewrite E, nth_error_app1 by lia. exact H. } lia.
  - intro H. destruct (nth_error d (Z.to_nat j)) as [k|] eqn:N.
    + assert (k = Z.of_nat (Z.to_nat j)).
      { apply (nth_range n). rewrite E, nth_error_app1; [exact N|]. lia. }
      apply nth_error_In in N. replace j with k by lia. exact N.
    + apply nth_error_None in N. lia.
Qed.
Lemma rev_range_split : forall n d i r, rev (range n) = d ++ i :: r -> forall j, In j d <-> i < j < n.
Proof.
  intros n d i r E j.
  assert (E2 : range n = rev r ++ i :: rev d).
  { rewrite <- (rev_involutive (range n)), E, rev_app_distr. cbn. rewrite <- app_assoc. reflexivity. }
  pose proof (range_split n _ _ _ E2) as S. assert (ND := range_NoDup n). rewrite E2 in ND.
  assert (M : In j (range n) <-> In j (rev r) \/ j = i \/ In j (rev d)).
  { rewrite E2, in_app_iff. cbn. intuition. }
  rewrite range_In in M. rewrite <- (in_rev d) in M. rewrite (S j) in M.
  assert (Ii : 0 <= i < n) by (apply range_In; rewrite E2, in_app_iff; right; left; auto).
  split; intro H.
  - assert (0 <= j < n) by (apply M; auto).
    assert (~ (0 <= j < i)).
    { intro L. apply (S j) in L. apply NoDup_remove in ND. destruct ND as (ND & _).
      apply in_rev in H. revert ND L H. generalize (rev r) (rev d). induction l as [|a l IH]; intros l2 ND L H; [contradiction|].
      cbn in ND. inversion ND as [|? ? N1 N2]; subst. destruct L as [->|L]; [apply N1; rewrite in_app_iff; auto|eauto]. }
    assert (j <> i).
    { intros ->. apply NoDup_remove in ND. destruct ND as (_ & N). apply N. rewrite in_app_iff. right. apply in_rev. rewrite rev_involutive. auto. }
    lia.
  - destruct M as (M & _). destruct M as [|[|]]; [lia|lia|lia|auto].
Qed.

(** *** sweeps that change one cell after the other *)
Section Sweep.
  Context {W : Type} (w0 : W).
  Notation val u i := (nth (Z.to_nat i) u w0).
  Variables (h : Z -> list W -> W) (L : Z).

  Definition swept (ord : list Z) (y y' : list W) : Prop :=
    zlen y' = L /\ (forall j, 0 <= j -> ~ In j ord -> val y' j = val y j) /\
    forall d i r, ord = d ++ i :: r -> exists z, zlen z = L /\ val y' i = h i z /\
      (forall j, 0 <= j -> In j d -> val z j = val y' j) /\ (forall j, 0 <= j -> ~ In j d -> val z j = val y j).

  Lemma sweep_ok : forall (step : list W -> Z -> res (list W)) ord y, NoDup ord -> (forall i, In i ord -> 0 <= i < L) -> zlen y = L ->
    (forall z i, zlen z = L -> In i ord -> step z i = Ok (upd (Z.to_nat i) (h i z) z)) ->
    exists y', foldM step y ord = Ok y' /\ swept ord y y'.
  Proof.
    intros step ord. induction ord as [|a t IH]; intros y ND R Ly H.
    - exists y. split; [reflexivity|]. split; [auto|]. split; [auto|]. intros [|] ? ? E; discriminate.
    - inversion ND as [|? ? NA NT]; subst. cbn [foldM]. rewrite H by (auto; left; auto). cbn [bind].
      set (y1 := upd (Z.to_nat a) (h a y) y). assert (Ra : 0 <= a < zlen y) by (rewrite Ly; apply R; left; auto).
      assert (L1 : zlen y1 = L) by (unfold y1; rewrite zlen_upd; auto).
      destruct (IH y1) as (y' & E & S1 & S2 & S3); auto.
      { intros; apply R; right; auto. }
      { intros; apply H; auto. right; auto. }
      exists y'. split; [exact E|].
      assert (Va : val y1 a = h a y) by (unfold y1; apply nth_upd_same; unfold zlen in Ra; lia).
      assert (Vo : forall j, 0 <= j -> j <> a -> val y1 j = val y j) by (intros; unfold y1; apply nth_upd_other; lia).
      assert (Fa : val y' a = h a y) by (rewrite S2 by (auto; lia); auto).
      split; [auto|]. split.
      + intros j Hj Nj. rewrite S2; [apply Vo|..]; auto; intro; apply Nj; [left; auto|right; auto].
      + intros [|b d] i r Ed; cbn in Ed; injection Ed as -> Ed.
        * exists y. split; [auto|]. split; [auto|]. split; [intros j _ []|auto].
        * destruct (S3 d i r Ed) as (z & Z1 & Z2 & Z3 & Z4). exists z. split; [auto|]. split; [auto|]. split.
          -- intros j Hj [<-|Hd]; [|auto]. rewrite Z4; [congruence|auto|]. intro I. apply NA. rewrite Ed, in_app_iff. auto.
          -- intros j Hj Nj. rewrite Z4; [apply Vo|..]; auto; intro; apply Nj; [left; auto|right; auto].
  Qed.

  Lemma sweep_sum_ok : forall (add : W -> W -> W) (meas : W -> W -> W) (step : list W * W -> Z -> res (list W * W)) ord y s,
    NoDup ord -> (forall i, In i ord -> 0 <= i < L) -> zlen y = L ->
    (forall z s i, zlen z = L -> In i ord -> step (z, s) i = Ok (upd (Z.to_nat i) (h i z) z, add s (meas (h i z) (val z i)))) ->
    exists y', foldM step (y, s) ord = Ok (y', fold_left (fun s i => add s (meas (val y' i) (val y i))) ord s) /\ swept ord y y'.
  Proof.
    intros add meas step ord. induction ord as [|a t IH]; intros y s ND R Ly H.
    - exists y. split; [reflexivity|]. split; [auto|]. split; [auto|]. intros [|] ? ? E; discriminate.
    - inversion ND as [|? ? NA NT]; subst. cbn [foldM]. rewrite H by (auto; left; auto). cbn [bind].
      set (y1 := upd (Z.to_nat a) (h a y) y). assert (Ra : 0 <= a < zlen y) by (rewrite Ly; apply R; left; auto).
      assert (L1 : zlen y1 = L) by (unfold y1; rewrite zlen_upd; auto).
      destruct (IH y1 (add s (meas (h a y) (val y a)))) as (y' & E & S1 & S2 & S3); auto.
      { intros; apply R; right; auto. }
      { intros; apply H; auto. right; auto. }
      exists y'.
      assert (Va : val y1 a = h a y) by (unfold y1; apply nth_upd_same; unfold zlen in Ra; lia).
      assert (Vo : forall j, 0 <= j -> j <> a -> val y1 j = val y j) by (intros; unfold y1; apply nth_upd_other; lia).
      assert (Fa : val y' a = h a y) by (rewrite S2 by (auto; lia); auto).
      split.
      { rewrite E. f_equal. f_equal. cbn [fold_left]. rewrite Fa.
        assert (X : forall l a0, (forall i, In i l -> 0 <= i /\ i <> a) ->
           fold_left (fun s i => add s (meas (val y' i) (val y1 i))) l a0 = fold_left (fun s i => add s (meas (val y' i) (val y i))) l a0).
        { induction l as [|b l IHl]; intros a0 Hl; [reflexivity|]. cbn. rewrite Vo by (apply Hl; left; auto). apply IHl. intros; apply Hl; right; auto. }
        apply X. intros i Hi. split; [apply R; right; auto|intros ->; auto]. }
      split; [auto|]. split.
      + intros j Hj Nj. rewrite S2; [apply Vo|..]; auto; intro; apply Nj; [left; auto|right; auto].
      + intros [|b d] i r Ed; cbn in Ed; injection Ed as -> Ed.
        * exists y. split; [auto|]. split; [auto|]. split; [intros j _ []|auto].
        * destruct (S3 d i r Ed) as (z & Z1 & Z2 & Z3 & Z4). exists z. split; [auto|]. split; [auto|]. split.
          -- intros j Hj [<-|Hd]; [|auto]. rewrite Z4; [congruence|auto|]. intro I. apply NA. rewrite Ed, in_app_iff. auto.
          -- intros j Hj Nj. rewrite Z4; [apply Vo|..]; auto; intro; apply Nj; [left; auto|right; auto].
  Qed.
End Sweep.

(** *** the group of vectors *)
Section Vectors.
  Context {T V : Type} (O : ops T V) (LW : laws O).
  Notation "a +v b" := (vadd O a b) (at level 50, left associativity).
  Notation "a -v b" := (vsub O a b) (at level 50, left associativity).
  Lemma v_0r : forall a, a +v v0 O = a.
  Proof. intro. rewrite (vaddC _ LW). apply (vadd0 _ LW). Qed.
  Lemma v_subK : forall a b, (a -v b) +v b = a.
  Proof. intros. unfold vsub. rewrite <- (vaddA _ LW), (vaddC _ LW (vopp O b)), (vaddN _ LW). apply v_0r. Qed.
  Lemma v_cancel : forall a b c, a +v c = b +v c -> a = b.
  Proof.
    intros a b c H. rewrite <- (v_0r a), <- (v_0r b), <- (vaddN _ LW c), !(vaddA _ LW), H. reflexivity.
  Qed.
  Lemma v_addK : forall a b, (a +v b) -v b = a.
  Proof. intros. apply (v_cancel _ _ b). apply v_subK. Qed.
  Lemma v_sub_sub : forall a b c, (a -v b) -v c = a -v (b +v c).
  Proof. intros. apply (v_cancel _ _ (b +v c)). rewrite v_subK, (vaddC _ LW b c), (vaddA _ LW), !v_subK. reflexivity. Qed.
  Lemma v_sub_0 : forall a, a -v v0 O = a.
  Proof. intro. rewrite <- (v_addK a (v0 O)) at 2. rewrite v_0r. reflexivity. Qed.
  Lemma v_sub_self : forall a, a -v a = v0 O.
  Proof. intro. apply (vaddN _ LW). Qed.
  Lemma v_sub_0_iff : forall a b, a -v b = v0 O <-> a = b.
  Proof. intros. split; [|intros ->; apply v_sub_self]. intro H. rewrite <- (v_subK a b), H. apply (vadd0 _ LW). Qed.
  Lemma v_0_sub : forall a b, a -v (v0 O -v b) = a +v b.
  Proof.
    intros. apply (v_cancel _ _ (v0 O -v b)). rewrite v_subK, <- (vaddA _ LW), (vaddC _ LW b), v_subK, v_0r. reflexivity.
  Qed.
  Lemma v_sub_eq : forall a b c, a = b -v c <-> a +v c = b.
  Proof.
    intros. split; [intros ->; apply v_subK|]. intros <-. symmetry. apply v_addK.
  Qed.
  Lemma act_0 : forall a, act O a (v0 O) = v0 O.
  Proof. intro. apply (v_cancel _ _ (act O a (v0 O))). rewrite <- (actDr _ LW), !(vadd0 _ LW). reflexivity. Qed.
  Lemma act_sub : forall a x y, act O a (x -v y) = act O a x -v act O a y.
  Proof. intros. apply (v_cancel _ _ (act O a y)). rewrite <- (actDr _ LW), !v_subK. reflexivity. Qed.
  Lemma v_swap : forall a b c d, (a +v b) +v (c +v d) = (a +v c) +v (b +v d).
  Proof. intros. rewrite <- !(vaddA _ LW). f_equal. rewrite !(vaddA _ LW). f_equal. apply (vaddC _ LW). Qed.
End Vectors.

(** *** the faces of a cell *)
Section Cells.
  Context {T V : Type} (O : ops T V) (LW : laws O) (finc : Z -> bool -> V -> V) (invert : T -> res T).
  Hypothesis INV : inverts O invert.
  Notation value := (value O).
  Notation block := (block O).
  Notation coupling := (coupling O finc).

  Lemma coupling_ext : forall m total sel sel' u u' i, mesh_ok m total -> 0 <= i < ncell m ->
    (forall j, 0 <= j < total -> sel j = sel' j) -> (forall j, 0 <= j < total -> sel j = true -> value u j = value u' j) ->
    coupling m sel u i = coupling m sel' u' i.
  Proof.
    intros m total sel sel' u u' i MO Hi Hs Hu. unfold ImplicitSpec.coupling.
    rewrite (filter_ext_in (fun p => sel (other_cell p)) (fun p => sel' (other_cell p))).
    - f_equal. apply map_ext_in. intros p Hp. apply filter_In in Hp. destruct Hp as (Hp & Sp).
      pose proof (m_across _ _ MO i p Hi Hp) as R. rewrite Hu; [reflexivity|auto|]. rewrite Hs; auto.
    - intros p Hp. apply Hs. apply (m_across _ _ MO i p Hi Hp).
  Qed.

  Lemma face_loop_ok : forall m total sel src i buf, mesh_ok m total -> 0 <= i < ncell m -> zlen src = total ->
    face_loop O finc m sel src i buf = Ok (vsub O buf (coupling m sel src i)).
  Proof.
    intros m total sel src i buf MO Hi Hs. unfold face_loop.
    rewrite (vget_nth _ _ _ []) by (rewrite (m_rows _ _ MO); lia). cbn [bind].
    unfold ImplicitSpec.coupling, neighbours.
    pose proof (fun k => m_faces _ _ MO i k Hi) as MF.
    pose proof (fun p => m_across _ _ MO i p Hi) as MA. unfold neighbours in MA.
    revert MF MA. generalize (nth (Z.to_nat i) (c2f m) []) as fs. intros fs. revert buf.
    induction fs as [|k fs IH]; intros buf MF MA.
    - cbn. rewrite v_sub_0 by auto. reflexivity.
    - cbn [foldM flat_map]. assert (Rk := MF k (or_introl eq_refl)).
      destruct (nth_error (faces m) (Z.to_nat k)) as [f|] eqn:Ef.
      2:{ apply nth_error_None in Ef. unfold zlen in Rk. lia. }
      assert (Vk : vget (faces m) k = Ok f) by (apply vget_Ok; split; [lia|auto]). rewrite Vk. cbn [bind].
      cbn [flat_map] in MA. rewrite Ef in MA.
      destruct (across f i) as ([j|], sd) eqn:Ea.
      + cbn [app filter other_cell snd] in *.
        assert (Rj : 0 <= j < total) by (apply (MA (fid f, sd, j)); left; reflexivity).
        assert (MA' : forall p, In p (flat_map (fun k0 => match nth_error (faces m) (Z.to_nat k0) with
                   | Some f0 => match across f0 i with (Some j0, sd0) => [(fid f0, sd0, j0)] | (None, _) => [] end | None => [] end) fs) ->
                   0 <= other_cell p < total) by (intros; apply MA; right; auto).
        destruct (sel j).
        * rewrite (vget_nth _ src j (v0 O)) by lia. cbn [bind]. rewrite IH; auto; [|intros; apply MF; right; auto].
          cbn [map fold_right fst snd]. rewrite v_sub_sub by auto. reflexivity.
        * cbn [bind]. rewrite IH; auto. intros; apply MF; right; auto.
      + cbn [app bind]. rewrite IH; auto. intros; apply MF; right; auto.
  Qed.

  Lemma inverses : forall m D, diagonal_ok invert m D -> exists Di, mapM invert D = Ok Di /\ zlen Di = ncell m /\
    forall i, 0 <= i < ncell m -> tmul O (block D i) (block Di i) = t1 O /\ tmul O (block Di i) (block D i) = t1 O.
  Proof.
    intros m D (LD & HD). destruct (mapM_Ok_ex _ _ invert D) as (Di & E); [exact HD|]. exists Di. split; [exact E|].
    apply mapM_nth in E. destruct E as (EL & EN). unfold zlen in *. split; [lia|]. intros i Hi.
    destruct (nth_error D (Z.to_nat i)) as [d|] eqn:Ed; [|apply nth_error_None in Ed; lia].
    destruct (EN _ _ Ed) as (e & Ie & Ee). apply INV in Ie. unfold ImplicitSpec.block.
    rewrite (nth_error_nth _ _ _ Ed), (nth_error_nth _ _ _ Ee). exact Ie.
  Qed.
  Lemma solve_block : forall d e x b, tmul O d e = t1 O -> tmul O e d = t1 O -> (x = act O e b <-> act O d x = b).
  Proof.
    intros d e x b H1 H2. split; [intros ->|intros <-]; rewrite <- (actM _ LW); [rewrite H1|rewrite H2]; [|symmetry]; apply (act1 _ LW).
  Qed.

  Lemma matrix_vec_ok : forall m total D u, mesh_ok m total -> zlen D = ncell m -> zlen u = total ->
    exists y, matrix_vec O finc m D u = Ok y /\ zlen y = ncell m /\
      forall i, 0 <= i < ncell m -> value y i = row_of O finc m D u i.
  Proof.
    intros m total D u MO LD LU. pose proof (m_cells _ _ MO) as MC. unfold matrix_vec.
    exists (map (fun i => row_of O finc m D u i) (range (ncell m))). split; [|split].
    - apply mapM_map. intros i Hi. apply range_In in Hi. rewrite (face_loop_ok m total) by auto. cbn [bind].
      rewrite (vget_nth _ D i (t0 O)) by lia. cbn [bind]. rewrite (vget_nth _ u i (v0 O)) by lia. cbn [bind].
      f_equal. apply v_0_sub. exact LW.
    - unfold zlen. rewrite map_length, range_length. lia.
    - intros i Hi. unfold ImplicitSpec.value.
      rewrite (nth_indep _ _ (row_of O finc m D u 0)) by (rewrite map_length, range_length; lia).
      rewrite (map_nth (fun i => row_of O finc m D u i)). f_equal.
      unfold range. change 0 with (Z.of_nat 0). rewrite map_nth, seq_nth by lia. lia.
  Qed.

  Definition before (m : mesh) (sel : Z -> bool) (D : list T) (y src rhs : list V) : Prop :=
    forall i, 0 <= i < ncell m -> vadd O (act O (block D i) (value y i)) (coupling m (fun j => sel j) src i) = value rhs i.

  Lemma forward_ok : forall m total D rhs u alias y, mesh_ok m total -> diagonal_ok invert m D -> ncell m <= zlen rhs ->
    zlen u = total -> zlen y = total ->
    exists y', lusgs_forward O finc invert m D rhs u alias y = Ok y' /\ zlen y' = total /\
      (forall j, ncell m <= j -> value y' j = value y j) /\
      forall i, 0 <= i < ncell m ->
        vadd O (act O (block D i) (value y' i)) (coupling m (fun j => j <? i) (if alias then y' else u) i) = value rhs i.
  Proof.
    intros m total D rhs u alias y MO DO LR LU LY. pose proof (m_cells _ _ MO) as MC.
    destruct (inverses m D DO) as (Di & ED & LDi & HDi). unfold lusgs_forward. rewrite ED. cbn [bind].
    set (h := fun i z => act O (block Di i) (vsub O (value rhs i) (coupling m (fun j => j <? i) (if alias then z else u) i))).
    destruct (sweep_ok (v0 O) h total (forward_cell O finc m Di rhs u alias) (range (ncell m)) y) as (y' & E & S1 & S2 & S3); auto.
    - apply range_NoDup.
    - intros i Hi. apply range_In in Hi. lia.
    - intros z i Lz Hi. apply range_In in Hi. unfold forward_cell.
      rewrite (vget_nth _ rhs i (v0 O)) by lia. cbn [bind].
      rewrite (face_loop_ok m total) by (auto; destruct alias; auto). cbn [bind].
      rewrite (vget_nth _ Di i (t0 O)) by lia. cbn [bind]. rewrite vset_in by lia. reflexivity.
    - exists y'. split; [exact E|]. split; [exact S1|]. split.
      + intros j Hj. apply S2; [lia|]. intro I. apply range_In in I. lia.
      + intros i Hi. assert (I : In i (range (ncell m))) by (apply range_In; lia). apply in_split in I. destruct I as (d & r & Ed).
        destruct (S3 d i r Ed) as (z & Z1 & Z2 & Z3 & _). unfold h in Z2.
        destruct (HDi i Hi) as (H1 & H2). apply (solve_block (block D i)) in Z2; auto.
        apply v_sub_eq in Z2; auto. rewrite <- Z2. unfold ImplicitSpec.value at 1. f_equal.
        apply (coupling_ext m total); auto. intros j Hj Sj. apply Z.ltb_lt in Sj.
        destruct alias; [|reflexivity]. symmetry. apply Z3; [lia|]. apply (range_split _ _ _ _ Ed). lia.
  Qed.

  Lemma backward_ok : forall m total D u alias y, mesh_ok m total -> diagonal_ok invert m D ->
    zlen u = total -> zlen y = total ->
    exists y', lusgs_backward O finc invert m D u alias y = Ok y' /\ zlen y' = total /\
      (forall j, ncell m <= j -> value y' j = value y j) /\
      forall i, 0 <= i < ncell m ->
        vadd O (act O (block D i) (value y' i)) (coupling m (fun j => i <? j) (if alias then y' else u) i) = act O (block D i) (value y i).
  Proof.
    intros m total D u alias y MO DO LU LY. pose proof (m_cells _ _ MO) as MC.
    destruct (inverses m D DO) as (Di & ED & LDi & HDi). unfold lusgs_backward. rewrite ED. cbn [bind].
    set (h := fun i z => vadd O (value z i) (act O (block Di i) (vsub O (v0 O) (coupling m (fun j => i <? j) (if alias then z else u) i)))).
    destruct (sweep_ok (v0 O) h total (backward_cell O finc m Di u alias) (rev (range (ncell m))) y) as (y' & E & S1 & S2 & S3); auto.
    - apply NoDup_rev, range_NoDup.
    - intros i Hi. apply in_rev in Hi. apply range_In in Hi. lia.
    - intros z i Lz Hi. apply in_rev in Hi. apply range_In in Hi. unfold backward_cell.
      rewrite (face_loop_ok m total) by (auto; destruct alias; auto). cbn [bind].
      rewrite (vget_nth _ Di i (t0 O)) by lia. cbn [bind].
      rewrite (vget_nth _ z i (v0 O)) by lia. cbn [bind]. rewrite vset_in by lia. reflexivity.
    - exists y'. split; [exact E|]. split; [exact S1|].
      assert (G : forall j, ncell m <= j -> value y' j = value y j).
      { intros j Hj. apply S2; [lia|]. intro I. apply in_rev in I. apply range_In in I. lia. }
      split; [exact G|].
      intros i Hi. assert (I : In i (rev (range (ncell m)))) by (apply -> in_rev; apply range_In; lia). apply in_split in I. destruct I as (d & r & Ed).
      destruct (S3 d i r Ed) as (z & Z1 & Z2 & Z3 & Z4). unfold h in Z2.
      destruct (HDi i Hi) as (H1 & H2).
      assert (Zi : value z i = value y i).
      { apply Z4; [lia|]. intro J. apply (rev_range_split _ _ _ _ Ed) in J. lia. }
      set (c := coupling m (fun j => i <? j) (if alias then y' else u) i).
      assert (Ec : coupling m (fun j => i <? j) (if alias then z else u) i = c).
      { apply (coupling_ext m total); auto. intros j Hj Sj. apply Z.ltb_lt in Sj. destruct alias; [|reflexivity].
        destruct (Z.lt_ge_cases j (ncell m)).
        - apply Z3; [lia|]. apply (rev_range_split _ _ _ _ Ed). lia.
        - rewrite G by auto. apply Z4; [lia|]. intro J. apply (rev_range_split _ _ _ _ Ed) in J. lia. }
      rewrite Ec, Zi in Z2. unfold ImplicitSpec.value at 1. rewrite Z2, (actDr _ LW), <- (actM _ LW), H1, (act1 _ LW).
      rewrite <- (vaddA _ LW), v_subK by auto. apply v_0r. exact LW.
  Qed.

  Lemma coupling_split : forall m sel part u i,
    coupling m sel u i = vadd O (coupling m (fun j => sel j && part j) u i) (coupling m (fun j => sel j && negb (part j)) u i).
  Proof.
    intros m sel part u i. unfold ImplicitSpec.coupling. induction (neighbours m i) as [|p l IH].
    - cbn. rewrite (vadd0 _ LW). reflexivity.
    - cbn [filter]. destruct (sel (other_cell p)); cbn [andb]; [|exact IH].
      destruct (part (other_cell p)); cbn [negb map fold_right]; rewrite IH.
      + rewrite (vaddA _ LW). reflexivity.
      + rewrite !(vaddA _ LW). f_equal. apply (vaddC _ LW).
  Qed.

  Variable vabs : V -> V.
  Definition changes (ord : list Z) (y' y : list V) : V :=
    fold_left (fun s i => vadd O s (vabs (vsub O (value y' i) (value y i)))) ord (v0 O).
  Definition order (m : mesh) (forward : bool) : list Z := if forward then range (ncell m) else rev (range (ncell m)).
  Lemma order_In : forall m forward i, In i (order m forward) <-> 0 <= i < ncell m.
  Proof. intros m [|] i; cbn; rewrite <- ?in_rev; apply range_In. Qed.
  Lemma order_split : forall m forward d i r, order m forward = d ++ i :: r -> forall j, In j d <-> earlier m forward i j = true.
  Proof.
    intros m forward d i r E j. unfold earlier.
    assert (Ii : 0 <= i < ncell m) by (apply (order_In m forward); rewrite E, in_app_iff; right; left; auto).
    destruct forward; cbn [order] in E; [rewrite (range_split _ _ _ _ E)|rewrite (rev_range_split _ _ _ _ E)];
      rewrite !andb_true_iff, Z.leb_le, !Z.ltb_lt; lia.
  Qed.

  Lemma sgs_ok : forall m total D rhs u alias forward y, mesh_ok m total -> diagonal_ok invert m D -> ncell m <= zlen rhs ->
    zlen u = total -> zlen y = total ->
    exists y', sgs_sweep O finc invert vabs m D rhs u alias forward y = Ok (y', changes (order m forward) y' y) /\ zlen y' = total /\
      (forall j, ncell m <= j -> value y' j = value y j) /\
      forall i, 0 <= i < ncell m ->
        vadd O (act O (block D i) (value y' i))
          (if alias then vadd O (coupling m (fun j => negb (i =? j) && earlier m forward i j) y' i)
                                (coupling m (fun j => negb (i =? j) && negb (earlier m forward i j)) y i)
           else coupling m (fun j => negb (i =? j)) u i) = value rhs i.
  Proof.
    intros m total D rhs u alias forward y MO DO LR LU LY. pose proof (m_cells _ _ MO) as MC.
    destruct (inverses m D DO) as (Di & ED & LDi & HDi). unfold sgs_sweep. rewrite ED. cbn [bind]. fold (order m forward).
    set (h := fun i z => act O (block Di i) (vsub O (value rhs i) (coupling m (fun j => negb (i =? j)) (if alias then z else u) i))).
    destruct (sweep_sum_ok (v0 O) h total (vadd O) (fun a b => vabs (vsub O a b)) (sgs_cell O finc vabs m Di rhs u alias) (order m forward) y (v0 O))
      as (y' & E & S1 & S2 & S3); auto.
    - destruct forward; cbn; [apply range_NoDup|apply NoDup_rev, range_NoDup].
    - intros i Hi. apply order_In in Hi. lia.
    - intros z s i Lz Hi. apply order_In in Hi. unfold sgs_cell.
      rewrite (vget_nth _ rhs i (v0 O)) by lia. cbn [bind].
      rewrite (face_loop_ok m total) by (auto; destruct alias; auto). cbn [bind].
      rewrite (vget_nth _ z i (v0 O)) by lia. cbn [bind].
      rewrite (vget_nth _ Di i (t0 O)) by lia. cbn [bind]. rewrite vset_in by lia. reflexivity.
    - exists y'. split; [exact E|]. split; [exact S1|]. split.
      + intros j Hj. apply S2; [lia|]. intro I. apply order_In in I. lia.
      + intros i Hi. assert (I : In i (order m forward)) by (apply order_In; lia). apply in_split in I. destruct I as (d & r & Ed).
        destruct (S3 d i r Ed) as (z & Z1 & Z2 & Z3 & Z4). unfold h in Z2.
        destruct (HDi i Hi) as (H1 & H2). apply (solve_block (block D i)) in Z2; auto.
        apply v_sub_eq in Z2; auto. rewrite <- Z2. unfold ImplicitSpec.value at 1. f_equal.
        destruct alias; [|reflexivity]. rewrite (coupling_split m (fun j => negb (i =? j)) (earlier m forward i) z i). f_equal.
        * apply (coupling_ext m total); auto. intros j Hj Sj. apply andb_true_iff in Sj. symmetry. apply Z3; [lia|].
          apply (order_split _ _ _ _ _ Ed). tauto.
        * apply (coupling_ext m total); auto. intros j Hj Sj. apply andb_true_iff in Sj. symmetry. apply Z4; [lia|].
          intro J. apply (order_split _ _ _ _ _ Ed) in J. rewrite J in Sj. destruct Sj; discriminate.
  Qed.

  Lemma coupling_all : forall m total u i, mesh_ok m total -> no_self m -> 0 <= i < ncell m ->
    coupling m (fun j => negb (i =? j)) u i = coupling m (fun _ => true) u i.
  Proof.
    intros m total u i MO NS Hi. unfold ImplicitSpec.coupling. f_equal. f_equal. apply filter_ext_in.
    intros p Hp. apply negb_true_iff. apply Z.eqb_neq. intro E. apply (NS i p); auto.
  Qed.

  (** a sweep in place leaves the solutions, and nothing else, unchanged *)
  Lemma gs_fixed : forall m total D rhs forward y y', mesh_ok m total -> no_self m -> diagonal_ok invert m D ->
    (forall j, ncell m <= j -> value y' j = value y j) ->
    (forall i, 0 <= i < ncell m ->
        vadd O (act O (block D i) (value y' i))
          (vadd O (coupling m (fun j => negb (i =? j) && earlier m forward i j) y' i)
                                (coupling m (fun j => negb (i =? j) && negb (earlier m forward i j)) y i)) = value rhs i) ->
    (forall i, 0 <= i < ncell m -> value y' i = value y i) <-> solves O finc m D rhs y.
  Proof.
    intros m total D rhs forward y y' MO NS DO G H. destruct (inverses m D DO) as (Di & _ & _ & HDi).
    assert (Step : forall i, 0 <= i < ncell m -> (forall j, earlier m forward i j = true -> value y' j = value y j) ->
       vadd O (act O (block D i) (value y' i)) (coupling m (fun _ => true) y i) = value rhs i).
    { intros i Hi Hj. rewrite <- H by auto. f_equal. rewrite <- (coupling_all m total) by auto.
      rewrite (coupling_split m (fun j => negb (i =? j)) (earlier m forward i) y i). f_equal. apply (coupling_ext m total); auto.
      intros j _ Sj. apply andb_true_iff in Sj. symmetry. apply Hj. tauto. }
    split.
    - intros E i Hi. unfold row_of. rewrite <- E by auto. apply Step; auto. intros j Ej. apply E. unfold earlier in Ej.
      rewrite !andb_true_iff, Z.leb_le, Z.ltb_lt in Ej. lia.
    - intros So.
      assert (K : forall i, 0 <= i < ncell m -> (forall j, earlier m forward i j = true -> value y' j = value y j) -> value y' i = value y i).
      { intros i Hi Hj. pose proof (Step i Hi Hj) as E. rewrite <- (So i Hi) in E. unfold row_of in E. apply v_cancel in E; auto.
        destruct (HDi i Hi) as (H1 & H2). apply (solve_block _ _ (value y' i)) with (1 := H1) in E; auto. rewrite E.
        rewrite <- (actM _ LW), H2. apply (act1 _ LW). }
      assert (Q : forall (n : nat) i, 0 <= i < ncell m -> (if forward then i < Z.of_nat n else ncell m - Z.of_nat n <= i) -> value y' i = value y i).
      { induction n as [|n IH]; intros i Hi Hn; [destruct forward; lia|]. apply K; auto. intros j Ej.
        unfold earlier in Ej. rewrite !andb_true_iff, Z.leb_le, Z.ltb_lt in Ej. destruct Ej as ((J0 & J1) & J2).
        apply IH; [lia|]. destruct forward; apply Z.ltb_lt in J2; lia. }
      intros i Hi. apply (Q (Z.to_nat (ncell m))); auto. destruct forward; lia.
  Qed.

  (** *** the sum of the changes *)
  Lemma changes_zero : forall nonneg ord y' y, absolute O vabs nonneg ->
    (changes ord y' y = v0 O <-> forall i, In i ord -> value y' i = value y i) /\ nonneg (changes ord y' y).
  Proof.
    intros nonneg ord y' y A. unfold changes.
    assert (G : forall l s, nonneg s -> let t := fold_left (fun s i => vadd O s (vabs (vsub O (value y' i) (value y i)))) l s in
       (t = v0 O <-> s = v0 O /\ forall i, In i l -> value y' i = value y i) /\ nonneg t).
    { induction l as [|a l IH]; intros s Hs; cbn [fold_left].
      - split; [|exact Hs]. split; [intros ->; split; [auto|intros ? []]|intros (-> & _); auto].
      - destruct (IH (vadd O s (vabs (vsub O (value y' a) (value y a))))) as (I1 & I2).
        { apply (nonneg_add _ _ _ A); auto. apply (abs_nonneg _ _ _ A). }
        split; [|exact I2]. rewrite I1. split.
        + intros (E & F). destruct (nonneg_split _ _ _ A _ _ Hs (abs_nonneg _ _ _ A _) E) as (E1 & E2). split; [exact E1|].
          apply (proj1 (abs_zero _ _ _ A _)) in E2. apply (proj1 (v_sub_0_iff O LW _ _)) in E2. intros i [<-|Hi]; auto.
        + intros (E & F). split; [|intros i Hi; apply F; right; auto].
          assert (E2 : vsub O (value y' a) (value y a) = v0 O) by (apply v_sub_0_iff; auto; apply F; left; auto).
          apply (proj2 (abs_zero _ _ _ A _)) in E2. rewrite E2, E. apply (vadd0 _ LW). }
    destruct (G ord (v0 O) (nonneg_zero _ _ _ A)) as (G1 & G2). split; [|exact G2]. rewrite G1. tauto.
  Qed.
End Cells.

(** *** several ranks *)
Lemma nth_error_combine : forall A B (l : list A) (k : list B) p a b,
  nth_error (combine l k) p = Some (a, b) <-> nth_error l p = Some a /\ nth_error k p = Some b.
Proof.
  induction l as [|x l IH]; intros k p a b.
  - cbn. split; [destruct p; discriminate|]. intros (H & _); destruct p; discriminate.
  - destruct k as [|y k]; cbn; [split; [destruct p; discriminate|intros (_ & H); destruct p; discriminate]|].
    destruct p; cbn; [|apply IH]. split; [intro H; injection H as -> ->; auto|intros (H1 & H2); congruence].
Qed.
Lemma mapM_each : forall A B (f : A -> res B) (Q : nat -> B -> Prop) l,
  (forall p a, nth_error l p = Some a -> exists b, f a = Ok b /\ Q p b) ->
  exists ys, mapM f l = Ok ys /\ length ys = length l /\ forall p b, nth_error ys p = Some b -> Q p b.
Proof.
  intros A B f Q l H. destruct (mapM_Ok_ex _ _ f l) as (ys & E).
  { intros x Hx. apply In_nth_error in Hx. destruct Hx as (p & Hp). destruct (H p x Hp) as (b & Hb & _). eauto. }
  exists ys. split; [exact E|]. apply mapM_nth in E. destruct E as (EL & EN). split; [exact EL|].
  intros p b Hb. assert (L : (p < length l)%nat) by (rewrite <- EL; apply nth_error_Some; congruence).
  destruct (nth_error l p) as [a|] eqn:Ea; [|apply nth_error_None in Ea; lia].
  destruct (EN p a Ea) as (b' & F & N). destruct (H p a Ea) as (b2 & F2 & HQ). congruence.
Qed.
Lemma nth_some : forall A (l : list (list A)) p u, nth_error l p = Some u -> nth p l [] = u.
Proof. intros. apply nth_error_nth. auto. Qed.
Lemma some_nth : forall A (l : list (list A)) p, (p < length l)%nat -> nth_error l p = Some (nth p l []).
Proof. intros. apply nth_error_nth'. auto. Qed.

Section Ranks.
  Context {T V : Type} (O : ops T V) (LW : laws O) (finc : Z -> bool -> V -> V) (invert : T -> res T).
  Hypothesis INV : inverts O invert.
  Notation value := (value O).
  Notation block := (block O).
  Notation coupling := (coupling O finc).

  Lemma pull_ok : forall rs us, ranks_ok rs -> arrays_ok rs us ->
    exists ys, pull rs us = Ok ys /\ consistent O rs ys /\
      everywhere rs (fun p _ i => value (nth p ys []) i = value (nth p us []) i).
  Proof.
    intros rs us RO (LU & AO). unfold pull.
    destruct (mapM_each _ _ (fun p => pull_rank us (fst p) (snd p))
      (fun p y => exists r, nth_error rs p = Some r /\ zlen y = total_of r /\ (forall i, 0 <= i < ncell (msh r) -> value y i = value (nth p us []) i) /\
         forall q g, nth_error (ghosts r) q = Some g -> value y (ncell (msh r) + Z.of_nat q) = value (nth (Z.to_nat (fst g)) us []) (snd g))
      (combine rs us)) as (ys & E & EL & EQ).
    { intros p (r, u) Hp. apply nth_error_combine in Hp. destruct Hp as (Hr & Hu). cbn [fst snd].
      destruct (RO p r Hr) as (MO & GO). pose proof (m_cells _ _ MO) as MC. pose proof (AO p r Hr) as Lu. rewrite (nth_some _ _ _ _ Hu) in Lu.
      destruct (mapM_each _ _ (fun g => do v <- vget us (fst g); vget v (snd g))
        (fun q x => exists g, nth_error (ghosts r) q = Some g /\ x = value (nth (Z.to_nat (fst g)) us []) (snd g)) (ghosts r)) as (gs & Eg & Lg & Qg).
      { intros q g Hg. destruct (GO g) as (G0 & o & Ho & Hs); [eapply nth_error_In; eauto|].
        assert (Lo : (Z.to_nat (fst g) < length us)%nat) by (rewrite LU; apply nth_error_Some; congruence).
        rewrite (vget_nth _ us (fst g) []) by (unfold zlen; lia). cbn [bind].
        pose proof (AO _ _ Ho) as Lo2. destruct (RO _ _ Ho) as (MOo & _). pose proof (m_cells _ _ MOo).
        rewrite (vget_nth _ _ (snd g) (v0 O)) by lia. eexists. split; [reflexivity|]. exists g. auto. }
      unfold pull_rank. rewrite Eg. cbn [bind]. eexists. split; [reflexivity|]. exists r. split; [exact Hr|].
      unfold total_of, zlen in *. rewrite (nth_some _ _ _ _ Hu).
      assert (Lf : length (firstn (Z.to_nat (ncell (msh r))) u) = Z.to_nat (ncell (msh r))) by (rewrite firstn_length; lia).
      split; [rewrite app_length; lia|]. split.
      - intros i Hi. unfold ImplicitSpec.value. rewrite app_nth1 by lia. apply nth_first. lia.
      - intros q g Hg. unfold ImplicitSpec.value at 1. rewrite app_nth2 by lia.
        replace (Z.to_nat (ncell (msh r) + Z.of_nat q) - length (firstn (Z.to_nat (ncell (msh r))) u))%nat with q by lia.
        assert (Lq : (q < length gs)%nat) by (rewrite Lg; apply nth_error_Some; congruence).
        destruct (nth_error gs q) as [x|] eqn:Ex; [|apply nth_error_None in Ex; lia].
        rewrite (nth_error_nth _ _ _ Ex). destruct (Qg q x Ex) as (g' & Hg' & ->). congruence. }
    rewrite combine_length, LU, Nat.min_id in EL.
    assert (At : forall p r, nth_error rs p = Some r -> zlen (nth p ys []) = total_of r /\
       (forall i, 0 <= i < ncell (msh r) -> value (nth p ys []) i = value (nth p us []) i) /\
       forall q g, nth_error (ghosts r) q = Some g -> value (nth p ys []) (ncell (msh r) + Z.of_nat q) = value (nth (Z.to_nat (fst g)) us []) (snd g)).
    { intros p r Hr. assert (L : (p < length ys)%nat) by (rewrite EL; apply nth_error_Some; congruence).
      destruct (EQ p _ (some_nth _ _ _ L)) as (r' & Hr' & K). assert (r' = r) by congruence. subst r'. exact K. }
    exists ys. split; [exact E|]. split; [split; [split; [exact EL|intros; apply At; auto]|]|intros p r Hr i Hi; apply (At p r Hr); auto].
    intros p r q g Hr Hg. destruct (At p r Hr) as (_ & _ & A3). rewrite (A3 q g Hg).
    destruct (RO p r Hr) as (_ & GO). destruct (GO g) as (_ & o & Ho & Hs); [eapply nth_error_In; eauto|].
    symmetry. apply (At _ _ Ho). auto.
  Qed.

  Lemma list_ext : forall (a b : list V), length a = length b -> (forall i, 0 <= i < zlen a -> value a i = value b i) -> a = b.
  Proof.
    intros a b L H. apply (nth_ext _ _ (v0 O) (v0 O)); auto. intros n Hn. specialize (H (Z.of_nat n)). unfold ImplicitSpec.value, zlen in H.
    rewrite Nat2Z.id in H. apply H. lia.
  Qed.
  (** consistent arrays are equal if their own cells are *)
  Lemma consistent_ext : forall rs us us', ranks_ok rs -> consistent O rs us -> consistent O rs us' ->
    everywhere rs (fun p _ i => value (nth p us []) i = value (nth p us' []) i) -> us = us'.
  Proof.
    intros rs us us' RO ((L1 & A1) & C1) ((L2 & A2) & C2) E. apply (nth_ext _ _ [] []); [congruence|].
    intros p Hp. rewrite L1 in Hp. destruct (nth_error rs p) as [r|] eqn:Hr; [|apply nth_error_None in Hr; lia].
    pose proof (A1 p r Hr) as LA. pose proof (A2 p r Hr) as LB. destruct (RO p r Hr) as (MO & GO). pose proof (m_cells _ _ MO).
    apply list_ext; [unfold zlen in *; lia|]. intros i Hi. rewrite LA in Hi. unfold total_of in *.
    destruct (Z.lt_ge_cases i (ncell (msh r))) as [Lt|Ge]; [apply (E p r Hr); lia|].
    assert (Q : (Z.to_nat (i - ncell (msh r)) < length (ghosts r))%nat) by (unfold zlen in *; lia).
    destruct (nth_error (ghosts r) (Z.to_nat (i - ncell (msh r)))) as [g|] eqn:Hg; [|apply nth_error_None in Hg; lia].
    replace i with (ncell (msh r) + Z.of_nat (Z.to_nat (i - ncell (msh r)))) by lia.
    rewrite (C1 _ _ _ _ Hr Hg), (C2 _ _ _ _ Hr Hg).
    destruct (GO g) as (_ & o & Ho & Hs); [eapply nth_error_In; eauto|]. apply (E _ _ Ho). auto.
  Qed.
End Ranks.
