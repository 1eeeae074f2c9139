From Coq Require Import List ZArith Bool Arith Lia Permutation.
From Verif Require Import Base.Prelude Base.PreludeFacts Base.MPIModel Base.MPIFacts
  DNDS.DefinesModel DNDS.IndexMappingModel DNDS.IndexMappingSpec DNDS.IndexMappingProofs DNDS.ExchangeSpec
  Geom.AdjSpec Geom.AdjProofs Geom.ElemModel Geom.AdjModel Geom.NodeCellModel
  Geom.NodeCellProofs Geom.PartProofs Geom.FaceModel Geom.FaceSpec.
Import ListNotations.
Local Open Scope Z_scope.

Lemma zsort_In l x : In x (zsort l) <-> In x l.
Proof. split; apply Permutation_in; [symmetry|]; apply zsort_perm. Qed.

Lemma list_eqb_eq a b : list_eqb a b = true <-> a = b.
Proof. unfold list_eqb. destruct (list_eq_dec Z.eq_dec a b); split; congruence. Qed.

Definition tri := (Z * side * Z)%type.
Definition t_cell (t : tri) := fst (fst t).
Definition t_side (t : tri) := snd (fst t).
Definition t_face (t : tri) := snd t.

Section Pairing.
Variable per : bool.
Variable nNode : nat.
Variable U : side -> Prop.
Variable fitb : side -> side -> bool.
Hypothesis Hfits : forall s o, U s -> U o -> fits per s o = Ok (fitb s o).
Hypothesis Hrefl : forall s, U s -> fitb s s = true.
Hypothesis Hsym : forall s o, U s -> U o -> fitb s o = true -> fitb o s = true.
Hypothesis Htrans : forall a b c, U a -> U b -> U c -> fitb a b = true -> fitb b c = true -> fitb a c = true.
Hypothesis Hperm : forall s o, fitb s o = true -> Permutation (s_verts s) (s_verts o).
Hypothesis Hne : forall s, U s -> s_verts s <> [].
Hypothesis Hrange : forall s v, U s -> In v (s_verts s) -> 0 <= v < Z.of_nat nNode.

Record inv (T : list tri) (st : fstate) : Prop := {
  i_cell : forall t, In t T -> 0 <= t_cell t;
  i_tri : forall t, In t T -> U (t_side t) /\ 0 <= t_face t /\
     exists fc, nth_error (faces st) (Z.to_nat (t_face t)) = Some fc /\ fitb (t_side t) (f_side fc) = true;
  i_face : forall i fc, nth_error (faces st) i = Some fc -> U (f_side fc) /\
     map t_cell (filter (fun t => Z.of_nat i =? t_face t) T)
       = (if f_second fc =? UnInitIndex then [f_first fc] else [f_first fc; f_second fc]) /\
     In (f_first fc, f_side fc, Z.of_nat i) T;
  i_uniq : forall i j fi fj, nth_error (faces st) i = Some fi -> nth_error (faces st) j = Some fj ->
     fitb (f_side fi) (f_side fj) = true -> i = j;
  i_len : length (node2face st) = nNode;
  i_n2f : forall v l, nth_error (node2face st) v = Some l -> forall x, In x l <->
     exists k fc, x = Z.of_nat k /\ nth_error (faces st) k = Some fc /\ In (Z.of_nat v) (s_verts (f_side fc)) }.

(** ** Finding *)
Lemma scan_spec st s l : U s ->
  (forall x, In x l -> exists k fc, x = Z.of_nat k /\ nth_error (faces st) k = Some fc /\ U (f_side fc)) ->
  forall found,
  exists r, foldM (fun iFound iFOther => do f <- vget (faces st) iFOther; do b <- fits per s (f_side f);
                     Ok (if b : bool then iFOther else iFound)) found l = Ok r /\
    ((r = found /\ forall x k fc, In x l -> x = Z.of_nat k -> nth_error (faces st) k = Some fc -> fitb s (f_side fc) = false) \/
     (In r l /\ exists k fc, r = Z.of_nat k /\ nth_error (faces st) k = Some fc /\ fitb s (f_side fc) = true)).
Proof.
  intros Us. induction l as [|x l IH]; intros Hl found; cbn [foldM].
  - exists found. split; auto. left. split; auto. intros ? ? ? [].
  - destruct (Hl x (or_introl eq_refl)) as (k & fc & -> & Hk & Uf).
    rewrite (vget_of_nat _ _ _ _ Hk). cbn [bind]. rewrite Hfits by auto. cbn [bind].
    destruct (IH (fun y I => Hl y (or_intror I)) (if fitb s (f_side fc) then Z.of_nat k else found)) as (r & Er & H).
    exists r. split; auto. destruct H as [(-> & H)|(I & k' & fc' & -> & Hk' & F')].
    + destruct (fitb s (f_side fc)) eqn:F.
      * right. split; [now left|]. exists k, fc. auto.
      * left. split; auto. intros y k' fc' [<-|I] E Hk'; [|now apply (H y k')].
        apply Nat2Z.inj in E. subst k'. rewrite Hk in Hk'. now injection Hk' as <-.
    + right. split; [now right|]. exists k', fc'. auto.
Qed.

Lemma find_spec T st s : inv T st -> U s ->
  exists r, find_face per st s = Ok r /\
    ((r = -1 /\ forall k fc, nth_error (faces st) k = Some fc -> fitb s (f_side fc) = false) \/
     (exists k fc, r = Z.of_nat k /\ nth_error (faces st) k = Some fc /\ fitb s (f_side fc) = true)).
Proof.
  intros I Us. unfold find_face.
  assert (Scan : forall v, In v (s_verts s) -> exists fs, vget (node2face st) v = Ok fs /\
    (forall x, In x fs -> exists k fc, x = Z.of_nat k /\ nth_error (faces st) k = Some fc /\ U (f_side fc)) /\
    forall k fc, nth_error (faces st) k = Some fc -> fitb s (f_side fc) = true -> In (Z.of_nat k) fs).
  { intros v Hv. pose proof (Hrange s v Us Hv) as R.
    destruct (nth_error_lt_Some _ (node2face st) (Z.to_nat v)) as (fs & Hf); [rewrite (i_len _ _ I); lia|].
    exists fs. split; [replace v with (Z.of_nat (Z.to_nat v)) by lia; now apply vget_of_nat|].
    pose proof (i_n2f _ _ I _ _ Hf) as N. rewrite Z2Nat.id in N by lia. split.
    - intros x Hx. apply N in Hx. destruct Hx as (k & fc & -> & Hk & _). exists k, fc.
      split; auto. split; auto. apply (i_face _ _ I k fc Hk).
    - intros k fc Hk F. apply N. exists k, fc. do 2 (split; [auto|]).
      apply Permutation_in with (s_verts s); auto. }
  destruct (zsort (s_verts s)) as [|v vs] eqn:Ez.
  { exfalso. apply (Hne s Us). pose proof (zsort_perm (s_verts s)) as P. rewrite Ez in P.
    apply Permutation_nil. now symmetry. }
  assert (Hin : forall w, In w (v :: vs) -> In w (s_verts s)) by (intro w; rewrite <- Ez; apply zsort_In).
  cbn [foldM]. cbn [Z.ltb Z.compare].
  destruct (Scan v (Hin v (or_introl eq_refl))) as (fs & Ef & H1 & H2). rewrite Ef. cbn [bind].
  destruct (scan_spec st s fs Us H1 (-1)) as (r & Er & H). rewrite Er. cbn [bind].
  destruct H as [(-> & H)|(Ir & k & fc & -> & Hk & F)].
  - (* nothing fits *)
    assert (N : forall k fc, nth_error (faces st) k = Some fc -> fitb s (f_side fc) = false).
    { intros k fc Hk. destruct (fitb s (f_side fc)) eqn:F; auto. rewrite <- F. apply (H (Z.of_nat k) k); eauto. }
    exists (-1). split; [|left; auto]. assert (Hin' : forall w, In w vs -> In w (s_verts s)) by (intros; apply Hin; now right).
    clear Ez Hin. induction vs as [|w vs IH]; auto. cbn [foldM]. cbn [Z.ltb Z.compare].
    destruct (Scan w (Hin' w (or_introl eq_refl))) as (fs' & Ef' & H1' & _). rewrite Ef'. cbn [bind].
    destruct (scan_spec st s fs' Us H1' (-1)) as (r & Er' & Hr). rewrite Er'. cbn [bind].
    destruct Hr as [(-> & _)|(_ & k & fc & _ & Hk & F)]; [|rewrite (N k fc Hk) in F; discriminate].
    apply IH. intros; apply Hin'; now right.
  - exists (Z.of_nat k). split; [|right; exists k, fc; auto].
    clear Ez Hin. induction vs as [|w vs IH]; auto. cbn [foldM].
    destruct (Z.ltb_spec (Z.of_nat k) 0); [lia|]. exact IH.
Qed.

(** ** Entering a new face *)
Lemma add_spec x l : forall n2f : list (list Z), (forall v, In v l -> 0 <= v < zlen n2f) ->
  exists n', foldM (fun n iV => do l <- vget n iV; vset n iV (l ++ [x])) n2f l = Ok n' /\
    length n' = length n2f /\
    forall v row, nth_error n' v = Some row -> exists row0, nth_error n2f v = Some row0 /\
      forall y, In y row <-> In y row0 \/ (y = x /\ In (Z.of_nat v) l).
Proof.
  induction l as [|w l IH]; intros n2f H; cbn [foldM].
  - exists n2f. do 2 (split; [auto|]). intros v row Hv. exists row. split; auto. intro y. cbn [In]. intuition.
  - pose proof (H w (or_introl eq_refl)) as Hw. unfold zlen in Hw.
    destruct (nth_error_lt_Some _ n2f (Z.to_nat w)) as (r0 & Hr0); [lia|].
    replace w with (Z.of_nat (Z.to_nat w)) by lia. set (k := Z.to_nat w) in *.
    rewrite (vget_of_nat _ _ _ _ Hr0). cbn [bind].
    assert (Es : vset n2f (Z.of_nat k) (r0 ++ [x]) = Ok (upd k (r0 ++ [x]) n2f)).
    { unfold vset. rewrite Nat2Z.id. destruct (Z.ltb_spec (Z.of_nat k) 0); [lia|].
      destruct (Z.leb_spec (Z.of_nat (length n2f)) (Z.of_nat k)); [lia|]. reflexivity. }
    rewrite Es. cbn [bind].
    destruct (IH (upd k (r0 ++ [x]) n2f)) as (n' & En & Ln & Hn).
    { intros v Hv. unfold zlen. rewrite upd_length. apply H. now right. }
    exists n'. split; auto. rewrite upd_length in Ln. split; auto. intros v row Hv.
    destruct (Hn v row Hv) as (r1 & Hr1 & Hy). destruct (Nat.eq_dec v k) as [->|D].
    + rewrite nth_error_upd_same in Hr1 by lia. injection Hr1 as <-. exists r0. split; auto.
      intro y. rewrite Hy, in_app_iff. cbn [In]. intuition.
    + rewrite nth_error_upd_other in Hr1 by auto. exists r1. split; auto. intro y. rewrite Hy. cbn [In].
      split; [intuition|]. intros [Iy|(-> & [E|I])]; auto. lia.
Qed.

(** ** One side *)
Lemma same_class T st t i fc : inv T st -> In t T -> nth_error (faces st) i = Some fc ->
  (Z.of_nat i =? t_face t) = fitb (t_side t) (f_side fc).
Proof.
  intros I It Hi. destruct (i_tri _ _ I t It) as (Ut & R & fc' & Hf & F).
  destruct (i_face _ _ I i fc Hi) as (Uf & _).
  destruct (Z.eqb_spec (Z.of_nat i) (t_face t)) as [E|D].
  - rewrite <- E, Nat2Z.id in Hf. assert (fc' = fc) by congruence. subst fc'. auto.
  - symmetry. apply not_true_is_false. intro F'. apply D.
    assert (E : i = Z.to_nat (t_face t)).
    { apply (i_uniq _ _ I i _ fc fc' Hi Hf). destruct (i_face _ _ I _ _ Hf) as (Uf' & _).
      apply Htrans with (t_side t); auto. }
    lia.
Qed.

Lemma filter_class T st s i fc : inv T st -> U s -> nth_error (faces st) i = Some fc -> fitb s (f_side fc) = true ->
  filter (fun t => Z.of_nat i =? t_face t) T = filter (fun t => fitb s (t_side t)) T.
Proof.
  intros I Us Hi F. apply filter_ext_in. intros t It. rewrite (same_class T st t i fc I It Hi).
  destruct (i_tri _ _ I t It) as (Ut & _). destruct (i_face _ _ I i fc Hi) as (Uf & _).
  destruct (fitb (t_side t) (f_side fc)) eqn:A, (fitb s (t_side t)) eqn:B; auto.
  - rewrite <- B. symmetry. apply Htrans with (f_side fc); auto.
  - rewrite <- A. apply Htrans with s; auto.
Qed.

Lemma one_side_spec T st c s : inv T st -> U s -> 0 <= c ->
  (exists st' f, one_side per c st s = Ok (st', f) /\ inv (T ++ [(c, s, f)]) st') \/
  (one_side per c st s = Abort /\ (2 <= length (filter (fun t => fitb s (t_side t)) T))%nat).
Proof.
  intros I Us Hc. destruct (find_spec T st s I Us) as (r & Er & H). unfold one_side. rewrite Er. cbn [bind].
  destruct H as [(-> & N)|(k & fc & -> & Hk & F)].
  - (* a new face *)
    left. cbn [Z.ltb Z.compare].
    destruct (add_spec (zlen (faces st)) (zsort (s_verts s)) (node2face st)) as (n' & En & Ln & Hn).
    { intros v Hv. apply (proj1 (zsort_In _ _)) in Hv. unfold zlen. rewrite (i_len _ _ I). exact (Hrange s v Us Hv). }
    rewrite En. cbn [bind]. do 2 eexists. split; [reflexivity|].
    set (n := length (faces st)). set (nf := {| f_side := s; f_first := c; f_second := UnInitIndex |}).
    assert (Old : forall i fc, nth_error (faces st ++ [nf]) i = Some fc ->
              (nth_error (faces st) i = Some fc /\ (i < n)%nat) \/ (i = n /\ fc = nf)).
    { intros i fc Hi. destruct (Nat.lt_ge_cases i n) as [L|L].
      - rewrite nth_error_app1 in Hi by auto. auto.
      - rewrite nth_error_app2 in Hi by auto. fold n in Hi. destruct (i - n)%nat eqn:E.
        + right. cbn in Hi. split; [lia|congruence].
        + cbn in Hi. now destruct n0. }
    assert (New : nth_error (faces st ++ [nf]) n = Some nf).
    { unfold n. rewrite nth_error_app2, Nat.sub_diag by lia. reflexivity. }
    constructor; cbn [faces node2face].
    + intros t It. apply in_app_iff in It. destruct It as [It|[<-|[]]]; [apply (i_cell _ _ I t It)|auto].
    + intros t It. apply in_app_iff in It. destruct It as [It|[<-|[]]].
      * destruct (i_tri _ _ I t It) as (Ut & R & fc & Hf & F). split; auto. split; auto. exists fc. split; auto.
        rewrite nth_error_app1; auto. now apply nth_error_Some_lt in Hf.
      * unfold t_side, t_face. cbn [fst snd]. split; auto. split; [unfold zlen; lia|]. exists nf. split.
        { unfold zlen. rewrite Nat2Z.id. exact New. }
        cbn. now apply Hrefl.
    + intros i fc Hi. rewrite filter_app, map_app. cbn [filter]. unfold t_face at 2. cbn [snd].
      destruct (Old i fc Hi) as [(Hi' & L)|(-> & ->)].
      * destruct (Z.eqb_spec (Z.of_nat i) (zlen (faces st))) as [E|_]; [unfold zlen in E; lia|].
        cbn [map]. rewrite app_nil_r. destruct (i_face _ _ I i fc Hi') as (A & B & C). do 2 (split; [auto|]).
        apply in_app_iff. now left.
      * cbn [f_second f_first f_side nf]. rewrite Z.eqb_refl. split; auto. split.
        -- replace (filter (fun t => Z.of_nat n =? t_face t) T) with (@nil tri).
           ++ change (zlen (faces st)) with (Z.of_nat n). rewrite Z.eqb_refl. reflexivity.
           ++ symmetry. destruct (filter (fun t => Z.of_nat n =? t_face t) T) as [|t ts] eqn:Ef; auto.
              assert (It : In t (filter (fun t => Z.of_nat n =? t_face t) T)) by (rewrite Ef; now left).
              apply filter_In in It. destruct It as (It & E). apply Z.eqb_eq in E.
              destruct (i_tri _ _ I t It) as (_ & _ & fc & Hf & _). apply nth_error_Some_lt in Hf.
              rewrite <- E, Nat2Z.id in Hf. unfold n in Hf. lia.
        -- apply in_app_iff. right. now left.
    + intros i j fi fj Hi Hj F. destruct (Old i fi Hi) as [(Hi' & Li)|(-> & ->)], (Old j fj Hj) as [(Hj' & Lj)|(-> & ->)].
      * apply (i_uniq _ _ I i j fi fj); auto.
      * exfalso. cbn [f_side nf] in F. pose proof (N i fi Hi') as NF. destruct (i_face _ _ I i fi Hi') as (Ui & _).
        rewrite (Hsym _ _ Ui Us F) in NF. discriminate.
      * exfalso. cbn [f_side nf] in F. pose proof (N j fj Hj') as NF. rewrite F in NF. discriminate.
      * reflexivity.
    + rewrite Ln. apply (i_len _ _ I).
    + intros v row Hv x. destruct (Hn v row Hv) as (row0 & H0 & Hy). rewrite Hy, zsort_In.
      rewrite (i_n2f _ _ I v row0 H0). split.
      * intros [(k & fc & -> & Hk & Iv)|(-> & Iv)].
        -- exists k, fc. split; auto. split; auto. rewrite nth_error_app1; auto. now apply nth_error_Some_lt in Hk.
        -- exists n, nf. auto.
      * intros (k & fc & -> & Hk & Iv). destruct (Old k fc Hk) as [(Hk' & L)|(-> & ->)].
        -- left. exists k, fc. auto.
        -- right. auto.
  - (* an old face *)
    destruct (Z.ltb_spec (Z.of_nat k) 0); [lia|]. rewrite (vget_of_nat _ _ _ _ Hk). cbn [bind].
    destruct (i_face _ _ I k fc Hk) as (Uf & Ef & If).
    destruct (Z.eqb_spec (f_second fc) UnInitIndex) as [E2|D2]; cbn [assert_ bind].
    + left. assert (Lk : (k < length (faces st))%nat) by now apply nth_error_Some_lt in Hk.
      set (nf := {| f_side := f_side fc; f_first := f_first fc; f_second := c |}).
      assert (Es : vset (faces st) (Z.of_nat k) nf = Ok (upd k nf (faces st))).
      { unfold vset. rewrite Nat2Z.id. destruct (Z.ltb_spec (Z.of_nat k) 0); [lia|].
        destruct (Z.leb_spec (Z.of_nat (length (faces st))) (Z.of_nat k)); [lia|]. reflexivity. }
      rewrite Es. cbn [bind]. do 2 eexists. split; [reflexivity|].
      assert (Old : forall i fi, nth_error (upd k nf (faces st)) i = Some fi ->
          exists f0, nth_error (faces st) i = Some f0 /\ f_side f0 = f_side fi /\ f_first f0 = f_first fi /\
             (i <> k -> f0 = fi) /\ (i = k -> fi = nf)).
      { intros i fi Hi. destruct (Nat.eq_dec i k) as [->|D].
        - rewrite nth_error_upd_same in Hi by auto. injection Hi as <-. exists fc. repeat split; auto. congruence.
        - rewrite nth_error_upd_other in Hi by auto. exists fi. repeat split; auto. congruence. }
      assert (Fwd : forall i f0, nth_error (faces st) i = Some f0 ->
          exists fi, nth_error (upd k nf (faces st)) i = Some fi /\ f_side fi = f_side f0).
      { intros i f0 Hi. destruct (Nat.eq_dec i k) as [->|D].
        - rewrite nth_error_upd_same by auto. exists nf. split; auto. cbn. congruence.
        - rewrite nth_error_upd_other by auto. exists f0. auto. }
      constructor; cbn [faces node2face].
      * intros t It. apply in_app_iff in It. destruct It as [It|[<-|[]]]; [apply (i_cell _ _ I t It)|auto].
      * intros t It. apply in_app_iff in It. destruct It as [It|[<-|[]]].
        -- destruct (i_tri _ _ I t It) as (Ut & R & f0 & Hf & F0). split; auto. split; auto.
           destruct (Fwd _ _ Hf) as (fi & Hi & Si). exists fi. split; auto. now rewrite Si.
        -- unfold t_side, t_face. cbn [fst snd]. split; auto. split; [lia|]. rewrite Nat2Z.id.
           destruct (Fwd _ _ Hk) as (fi & Hi & Si). exists fi. split; auto. now rewrite Si.
      * intros i fi Hi. destruct (Old i fi Hi) as (f0 & H0 & S0 & F0 & N0 & K0).
        rewrite filter_app, map_app. cbn [filter]. unfold t_face at 2. cbn [snd].
        destruct (i_face _ _ I i f0 H0) as (A & B & C). rewrite <- S0, <- F0. split; auto. split.
        -- rewrite B. destruct (Z.eqb_spec (Z.of_nat i) (Z.of_nat k)) as [E|D].
           ++ apply Nat2Z.inj in E. rewrite (K0 E). assert (f0 = fc) by congruence. subst f0. rewrite E2, Z.eqb_refl.
              cbn [f_second nf]. destruct (Z.eqb_spec c UnInitIndex) as [Ec|_]; [unfold UnInitIndex, int64_min in Ec; lia|].
              reflexivity.
           ++ cbn [map]. rewrite app_nil_r. rewrite N0 by congruence. reflexivity.
        -- apply in_app_iff. now left.
      * intros i j fi fj Hi Hj Fij. destruct (Old i fi Hi) as (f0 & H0 & S0 & _), (Old j fj Hj) as (g0 & G0 & T0 & _).
        apply (i_uniq _ _ I i j f0 g0); auto. now rewrite S0, T0.
      * apply (i_len _ _ I).
      * intros v row Hv x. rewrite (i_n2f _ _ I v row Hv). split.
        -- intros (j & f0 & -> & Hj & Iv). destruct (Fwd _ _ Hj) as (fi & Hi & Si). exists j, fi.
           split; auto. split; auto. now rewrite Si.
        -- intros (j & fi & -> & Hj & Iv). destruct (Old j fi Hj) as (f0 & H0 & S0 & _). exists j, f0.
           split; auto. split; auto. now rewrite S0.
    + right. split; auto.
      rewrite <- (filter_class T st s k fc I Us Hk F). rewrite <- (map_length t_cell), Ef. cbn. lia.
Qed.

(** ** All sides *)
Definition tris (c : Z) (ss : list side) (row : list Z) : list tri :=
  map (fun p => (c, fst p, snd p)) (combine ss row).

Lemma combine_snoc A B (a : list A) (b : list B) x y : length a = length b ->
  combine (a ++ [x]) (b ++ [y]) = combine a b ++ [(x, y)].
Proof.
  revert b. induction a as [|u a IH]; intros [|v b] E; try discriminate; auto.
  cbn [app combine]. rewrite IH; auto.
Qed.

Lemma tris_snoc c ss row s f : length ss = length row -> tris c (ss ++ [s]) (row ++ [f]) = tris c ss row ++ [(c, s, f)].
Proof. intro E. unfold tris. rewrite combine_snoc by auto. now rewrite map_app. Qed.

Lemma tris_sides c ss row : length ss = length row -> map t_side (tris c ss row) = ss.
Proof.
  unfold tris. revert row. induction ss as [|s ss IH]; intros [|f row] E; try discriminate; auto.
  cbn [combine map]. unfold t_side at 1. cbn [fst snd]. rewrite IH; auto.
Qed.

Lemma filter_sides s T : length (filter (fun t => fitb s (t_side t)) T) = length (filter (fitb s) (map t_side T)).
Proof. induction T as [|t T IH]; auto. cbn [map filter]. destruct (fitb s (t_side t)); cbn [length]; auto. Qed.

Lemma one_cell_spec T st c ss : inv T st -> Forall U ss -> 0 <= c ->
  (exists st' row, one_cell per st c ss = Ok (st', row) /\ length ss = length row /\ inv (T ++ tris c ss row) st') \/
  (one_cell per st c ss = Abort /\ exists pre s post, ss = pre ++ s :: post /\
     (2 <= length (filter (fitb s) (map t_side T ++ pre)))%nat).
Proof.
  intros I Hss Hc. induction ss as [|s ss IH] using rev_ind.
  - left. exists st, []. unfold tris. cbn. rewrite app_nil_r. auto.
  - apply Forall_app in Hss. destruct Hss as (Hss & Hs). apply Forall_cons_iff in Hs. destruct Hs as (Us & _).
    unfold one_cell in *. rewrite foldM_snoc.
    destruct (IH Hss) as [(st' & row & E & L & I')|(E & pre & s' & post & -> & H)].
    + rewrite E. cbn [bind fst snd].
      destruct (one_side_spec _ _ c s I' Us Hc) as [(st2 & f & E2 & I2)|(E2 & H)]; rewrite E2; cbn [bind fst snd].
      * left. exists st2, (row ++ [f]). split; auto. split; [rewrite !app_length; cbn [length]; lia|].
        rewrite tris_snoc by auto. now rewrite app_assoc.
      * right. split; auto. exists ss, s, []. split; auto. rewrite filter_sides, map_app, tris_sides in H by auto. exact H.
    + rewrite E. cbn [bind]. right. split; auto. exists pre, s', (post ++ [s]). split; auto.
      rewrite <- app_assoc. reflexivity.
Qed.

Definition alltris (css : list (list side)) (rows : list (list Z)) : list tri :=
  concat (map (fun ir => tris (fst ir) (fst (snd ir)) (snd (snd ir))) (indexed (combine css rows))).

Lemma alltris_snoc css rows ss row : length css = length rows ->
  alltris (css ++ [ss]) (rows ++ [row]) = alltris css rows ++ tris (zlen css) ss row.
Proof.
  intro E. unfold alltris. rewrite combine_snoc by auto. rewrite indexed_snoc, map_app, concat_app. cbn [map concat fst snd].
  rewrite app_nil_r. unfold zlen. rewrite combine_length, <- E, Nat.min_id. reflexivity.
Qed.

Lemma alltris_sides css rows : Forall2 (fun ss row => length ss = length row) css rows ->
  map t_side (alltris css rows) = concat css.
Proof.
  revert rows. induction css as [|ss css IH] using rev_ind; intros rows H.
  - inversion H. reflexivity.
  - apply Forall2_app_inv_l in H. destruct H as (r1 & r2 & H1 & H2 & ->).
    inversion H2 as [|? row ? ? L H3]. inversion H3. subst.
    rewrite alltris_snoc by (apply (proj1 (Forall2_nth _ _ _ _ _ H1))). rewrite map_app, IH, tris_sides by auto.
    rewrite concat_app. cbn [concat]. now rewrite app_nil_r.
Qed.

Lemma all_cells_spec css : Forall U (concat css) ->
  (exists st rows, all_cells per nNode css = Ok (st, rows) /\
     Forall2 (fun ss row => length ss = length row) css rows /\ inv (alltris css rows) st) \/
  (all_cells per nNode css = Abort /\ exists pre s post, concat css = pre ++ s :: post /\
     (2 <= length (filter (fitb s) pre))%nat).
Proof.
  induction css as [|ss css IH] using rev_ind; intro H.
  - left. exists {| faces := []; node2face := repeat [] nNode |}, []. split; [reflexivity|]. split; [constructor|].
    constructor; cbn.
    + intros t [].
    + intros t [].
    + intros [|i] fc Hi; discriminate Hi.
    + intros [|i] j fi fj Hi; discriminate Hi.
    + apply repeat_length.
    + intros v l Hv x. apply nth_error_In in Hv. apply repeat_spec in Hv. subst l. split; [intros []|].
      intros (k & fc & _ & Hk & _). destruct k; discriminate Hk.
  - rewrite concat_app in H. cbn [concat] in H. rewrite app_nil_r in H. apply Forall_app in H. destruct H as (H1 & H2).
    unfold all_cells in *. rewrite indexed_snoc, foldM_snoc. rewrite concat_app. cbn [concat]. rewrite app_nil_r.
    destruct (IH H1) as [(st & rows & E & F & I)|(E & pre & s & post & -> & Hp)].
    + rewrite E. cbn [bind fst snd]. assert (L : length css = length rows) by apply (proj1 (Forall2_nth _ _ _ _ _ F)).
      destruct (one_cell_spec _ _ (zlen css) ss I H2) as [(st' & row & E' & L' & I')|(E' & pre & s & post & -> & Hp)].
      * unfold zlen. lia.
      * rewrite E'. cbn [bind fst snd]. left. exists st', (rows ++ [row]). split; auto. split.
        -- apply Forall2_app; auto.
        -- now rewrite alltris_snoc.
      * rewrite E'. cbn [bind]. right. split; auto. exists (concat css ++ pre), s, post.
        rewrite <- app_assoc. split; auto. rewrite alltris_sides in Hp; auto.
    + rewrite E. cbn [bind]. right. split; auto. exists pre, s, (post ++ ss). rewrite <- app_assoc. auto.
Qed.

(** ** What the invariant says of the result *)
Lemma cells_of_tris css rows f : Forall2 (fun ss row => length ss = length row) css rows ->
  cells_of rows f = map t_cell (filter (fun t => f =? t_face t) (alltris css rows)).
Proof.
  revert rows. induction css as [|ss css IH] using rev_ind; intros rows H.
  - inversion H. reflexivity.
  - apply Forall2_app_inv_l in H. destruct H as (r1 & r2 & H1 & H2 & ->).
    inversion H2 as [|? row ? ? L H3]. inversion H3. subst.
    assert (L1 : length css = length r1) by apply (proj1 (Forall2_nth _ _ _ _ _ H1)).
    rewrite alltris_snoc by auto. rewrite filter_app, map_app, <- IH by auto.
    unfold cells_of. rewrite indexed_snoc, map_app, concat_app. cbn [map concat fst snd]. rewrite app_nil_r. f_equal.
    unfold zlen. rewrite <- L1. clear - L. unfold tris. revert row L.
    induction ss as [|s ss IH]; intros [|g row] L; try discriminate; auto. cbn [filter combine map].
    unfold t_face at 1. cbn [snd fst]. destruct (f =? g); cbn [map]; rewrite IH; auto.
Qed.

Lemma alltris_In css rows c k s : Forall2 (fun ss row => length ss = length row) css rows ->
  at_ css c k s -> exists f, at_ rows c k f /\ In (Z.of_nat c, s, f) (alltris css rows).
Proof.
  intros F (ss & Hc & Hk). destruct (proj2 (Forall2_nth _ _ _ _ _ F) c ss Hc) as (row & Hr & L).
  destruct (nth_error_lt_Some _ row k) as (f & Hf); [rewrite <- L; now apply nth_error_Some_lt in Hk|].
  exists f. split; [exists row; auto|]. unfold alltris. apply in_concat. exists (tris (Z.of_nat c) ss row). split.
  - apply in_map_iff. exists (Z.of_nat c, (ss, row)). split; auto. apply indexed_In. exists c, (ss, row).
    split; auto. rewrite nth_error_combine, Hc, Hr. reflexivity.
  - unfold tris. apply in_map_iff. exists (s, f). split; auto. apply nth_error_In with k.
    rewrite nth_error_combine, Hk, Hf. reflexivity.
Qed.

Lemma alltris_at css rows c s f : In (c, s, f) (alltris css rows) ->
  exists c' k, c = Z.of_nat c' /\ at_ css c' k s /\ at_ rows c' k f.
Proof.
  unfold alltris. rewrite in_concat. intros (l & Il & I). apply in_map_iff in Il.
  destruct Il as ((z, (ss, row)) & <- & Iz). apply indexed_In in Iz. destruct Iz as (c' & p & Hc & E).
  injection E as -> <-. rewrite nth_error_combine in Hc.
  destruct (nth_error css c') as [ss'|] eqn:Es; [|discriminate]. destruct (nth_error rows c') as [row'|] eqn:Er; [|discriminate].
  injection Hc as -> ->. cbn [fst snd] in I. unfold tris in I. apply in_map_iff in I. destruct I as ((s', f') & E & I).
  cbn [fst snd] in E. injection E as <- -> ->. apply In_nth_error in I. destruct I as (k & Hk). rewrite nth_error_combine in Hk.
  destruct (nth_error ss k) as [a|] eqn:Ea; [|discriminate]. destruct (nth_error row k) as [b|] eqn:Eb; [|discriminate].
  injection Hk as -> ->. exists c', k. split; auto. split; [exists ss|exists row]; auto.
Qed.
End Pairing.

(** ** Fitting is belonging to the same face *)
Lemma zinsert_comm x y l : zinsert x (zinsert y l) = zinsert y (zinsert x l).
Proof.
  induction l as [|z l IH]; cbn [zinsert].
  - destruct (Z.leb_spec x y), (Z.leb_spec y x); auto; try lia. assert (x = y) by lia. now subst.
  - destruct (Z.leb_spec y z), (Z.leb_spec x z); cbn [zinsert];
    repeat match goal with |- context [?a <=? ?b] => destruct (Z.leb_spec a b) end; auto; try lia.
    + assert (x = y) by lia. now subst.
    + now rewrite IH.
Qed.

Lemma perm_zsort a b : Permutation a b -> zsort a = zsort b.
Proof.
  unfold zsort. induction 1; cbn [fold_right]; auto.
  - now rewrite IHPermutation.
  - apply zinsert_comm.
  - congruence.
Qed.

Lemma zsort_eq_perm a b : zsort a = zsort b <-> Permutation a b.
Proof.
  split; [|apply perm_zsort]. intro E. transitivity (zsort a); [apply zsort_perm|]. rewrite E. symmetry. apply zsort_perm.
Qed.

Lemma pinsert_fst x l : map fst (pinsert x l) = zinsert (fst x) (map fst l).
Proof.
  induction l as [|y l IH]; auto. cbn [pinsert map zinsert]. destruct (fst x <=? fst y); cbn [map]; auto. now rewrite IH.
Qed.
Lemma pinsert_perm x l : Permutation (x :: l) (pinsert x l).
Proof.
  induction l as [|y l IH]; auto. cbn [pinsert]. destruct (fst x <=? fst y); auto.
  transitivity (y :: x :: l); [constructor|]. now constructor.
Qed.
Lemma node_bits_fst s : length (s_bits s) = length (s_nodes s) -> map fst (node_bits s) = zsort (s_nodes s).
Proof.
  unfold node_bits, zsort. generalize (s_bits s), (s_nodes s). intros bs ns. revert bs.
  induction ns as [|n ns IH]; intros [|b bs] E; try discriminate; auto.
  cbn [combine fold_right]. rewrite pinsert_fst. cbn [fst]. rewrite IH; auto.
Qed.
Lemma node_bits_perm s : Permutation (combine (s_nodes s) (s_bits s)) (node_bits s).
Proof.
  unfold node_bits. generalize (combine (s_nodes s) (s_bits s)). intro l. induction l as [|x l IH]; auto.
  cbn [fold_right]. etransitivity; [|apply pinsert_perm]. now constructor.
Qed.

Definition collabb (a b : list (Z * Z)) : bool :=
  match a, b with
  | x :: a', y :: b' => forallb (fun pq => Z.lxor (snd (fst pq)) (snd (snd pq)) =? Z.lxor (snd x) (snd y)) (combine a' b')
  | _, _ => true
  end.
Definition fitb (per : bool) (s o : side) : bool :=
  (if ElemType_eq_dec (s_type o) (s_type s) then true else false) &&
  list_eqb (zsort (s_verts s)) (zsort (s_verts o)) &&
  (if per then collabb (node_bits s) (node_bits o) else true).

Definition xors (v : Z) (a b : list (Z * Z)) : Prop := Forall2 (fun p q => Z.lxor (snd p) (snd q) = v) a b.

Lemma collabb_spec a b : length a = length b -> (collabb a b = true <-> exists v, xors v a b).
Proof.
  intro L. destruct a as [|x a], b as [|y b]; try discriminate.
  - split; auto. intros _. exists 0. constructor.
  - cbn [collabb]. injection L as L. split.
    + intro H. exists (Z.lxor (snd x) (snd y)). constructor; auto. generalize dependent b.
      induction a as [|p a IH]; intros [|q b] L H; try discriminate; constructor; cbn [combine forallb] in H;
        apply andb_true_iff in H; destruct H as (H1 & H2); cbn [fst snd] in H1; [now apply Z.eqb_eq|]. apply IH; auto.
    + intros (v & H). inversion H as [|? ? ? ? E F]. subst. clear H L. induction F as [|p q a b E F IH]; auto.
      cbn [combine forallb fst snd]. rewrite E, Z.eqb_refl. exact IH.
Qed.

Section Instance.
Variable per : bool.
Variable nNode : nat.
Variable css : list (list side).
Hypothesis OK : sides_ok per nNode css.
Let U (s : side) : Prop := In s (concat css).

Lemma U_ok s : U s -> side_ok per nNode s.
Proof. intro H. destruct OK as (F & _). rewrite Forall_forall in F. auto. Qed.

Lemma nodes_perm s o : per = true -> U s -> U o -> s_type s = s_type o -> zsort (s_verts s) = zsort (s_verts o) ->
  Permutation (s_nodes s) (s_nodes o).
Proof. intros P Us Uo T V. destruct OK as (_ & H). apply (H P); auto. now apply zsort_eq_perm. Qed.

Lemma bits_len s : per = true -> U s -> length (node_bits s) = length (s_nodes s).
Proof.
  intros P Us. destruct (U_ok s Us) as (_ & _ & H). destruct (H P) as (_ & L).
  rewrite <- (map_length fst), node_bits_fst by auto. symmetry. apply Permutation_length, zsort_perm.
Qed.

Lemma fitb_iff s o : U s -> U o -> (fitb per s o = true <->
  s_type s = s_type o /\ zsort (s_verts s) = zsort (s_verts o) /\
  (per = true -> exists v, xors v (node_bits s) (node_bits o))).
Proof.
  intros Us Uo. unfold fitb. destruct (ElemType_eq_dec (s_type o) (s_type s)) as [T|T]; cbn [andb].
  2: { split; [discriminate|]. intros (E & _). congruence. }
  rewrite andb_true_iff, list_eqb_eq. symmetry in T. split.
  - intros (V & C). do 2 (split; [auto|]). intro P. rewrite P in C. apply collabb_spec in C; auto.
    rewrite !bits_len by auto. apply Permutation_length. now apply nodes_perm.
  - intros (_ & V & C). split; auto. assert (P : per = true \/ per = false) by (destruct per; auto).
    destruct P as [P|P]; rewrite P; auto. apply collabb_spec; auto.
    rewrite !bits_len by auto. apply Permutation_length. now apply nodes_perm.
Qed.

Lemma nodes_ne s : U s -> s_nodes s <> [].
Proof.
  intro Us. destruct (U_ok s Us) as (N & _). intro E. apply N. unfold s_verts. rewrite E. apply firstn_nil.
Qed.

Lemma inst_fits s o : U s -> U o -> fits per s o = Ok (fitb per s o).
Proof.
  intros Us Uo. unfold fits, fitb. destruct (ElemType_eq_dec (s_type o) (s_type s)) as [T|T]; auto.
  destruct (list_eqb (zsort (s_verts s)) (zsort (s_verts o))) eqn:V; auto. cbn [andb].
  assert (P : per = true \/ per = false) by (destruct per; auto). destruct P as [P|P]; rewrite P; auto.
  apply list_eqb_eq in V. symmetry in T.
  assert (L : length (node_bits s) = length (node_bits o)).
  { rewrite !bits_len by auto. apply Permutation_length. now apply nodes_perm. }
  assert (Ns : length (node_bits s) <> 0%nat).
  { rewrite bits_len by auto. intro E. apply (nodes_ne s Us). now apply length_zero_iff_nil. }
  unfold collaborating. destruct (node_bits s) as [|x a]; [now elim Ns|]. destruct (node_bits o) as [|y b]; [discriminate|].
  cbn [vat Z.ltb Z.compare Z.to_nat nth_error bind tl]. unfold zlen. rewrite L, Z.eqb_refl. reflexivity.
Qed.

Lemma inst_refl s : U s -> fitb per s s = true.
Proof.
  intro Us. apply fitb_iff; auto. do 2 (split; [auto|]). intros _. exists 0. unfold xors.
  induction (node_bits s); constructor; auto. apply Z.lxor_nilpotent.
Qed.
Lemma inst_sym s o : U s -> U o -> fitb per s o = true -> fitb per o s = true.
Proof.
  intros Us Uo H. apply fitb_iff in H; auto. destruct H as (T & V & C). apply fitb_iff; auto. do 2 (split; [auto|]).
  intro P. destruct (C P) as (v & X). exists v. clear - X. unfold xors in *. induction X; constructor; auto. now rewrite Z.lxor_comm.
Qed.
Lemma inst_trans a b c : U a -> U b -> U c -> fitb per a b = true -> fitb per b c = true -> fitb per a c = true.
Proof.
  intros Ua Ub Uc H K. apply fitb_iff in H; auto. apply fitb_iff in K; auto. destruct H as (T & V & C), K as (T' & V' & C').
  apply fitb_iff; auto. split; [congruence|]. split; [congruence|]. intro P. destruct (C P) as (v & X), (C' P) as (w & Y).
  exists (Z.lxor v w). clear - X Y. unfold xors in *. revert X Y. generalize (node_bits a), (node_bits b), (node_bits c).
  intros la lb lc X. revert lc. induction X as [|p q la lb E X IH]; intros lc Y; inversion Y; subst; constructor; auto.
  rewrite <- Z.lxor_assoc, (Z.lxor_assoc (snd p)), Z.lxor_nilpotent, Z.lxor_0_r. reflexivity.
Qed.
Lemma inst_perm s o : fitb per s o = true -> Permutation (s_verts s) (s_verts o).
Proof.
  unfold fitb. rewrite !andb_true_iff, list_eqb_eq. intros ((_ & V) & _). now apply zsort_eq_perm.
Qed.
Lemma inst_ne s : U s -> s_verts s <> [].
Proof. intro Us. apply (U_ok s Us). Qed.
Lemma inst_range s v : U s -> In v (s_verts s) -> 0 <= v < Z.of_nat nNode.
Proof. intros Us I. destruct (U_ok s Us) as (_ & H & _). rewrite Forall_forall in H. auto. Qed.

Lemma same_nth (a b : list (Z * Z)) : map fst a = map fst b -> NoDup (map fst a) ->
  forall v, xors v a b <-> forall n x y, In (n, x) a -> In (n, y) b -> Z.lxor x y = v.
Proof.
  intros E N v. unfold xors. split.
  - intro H. revert E N. induction H as [|(n, x) (m, y) a b X H IH]; intros E N k p q; [intros []|].
    cbn [map fst snd] in *. injection E as <- E. apply NoDup_cons_iff in N. destruct N as (N & ND).
    intros [I|I] [J|J].
    + congruence.
    + injection I as <- <-. exfalso. apply N. rewrite E. apply in_map_iff. exists (n, q). auto.
    + injection J as <- <-. exfalso. apply N. apply in_map_iff. exists (n, p). auto.
    + now apply (IH E ND k).
  - revert b E. induction a as [|(n, x) a IH]; intros [|(m, y) b] E H; try discriminate; constructor.
    + cbn [map fst] in E. injection E as <- E. apply (H n); now left.
    + cbn [map fst] in E, N. injection E as <- E. apply NoDup_cons_iff in N. destruct N as (N & ND).
      apply IH; auto. intros k p q I J. apply (H k); now right.
Qed.

Lemma fitb_same s o : U s -> U o -> (fitb per s o = true <-> same_face per s o).
Proof.
  intros Us Uo. rewrite fitb_iff by auto. unfold same_face. split.
  - intros (T & V & C). split; auto. split; [now apply zsort_eq_perm|]. intro P. destruct (C P) as (v & X). exists v.
    destruct (U_ok s Us) as (_ & _ & Hs), (U_ok o Uo) as (_ & _ & Ho). destruct (Hs P) as (Ns & Ls), (Ho P) as (No & Lo).
    pose proof (same_nth (node_bits s) (node_bits o)) as Q. rewrite !node_bits_fst in Q by auto.
    pose proof (proj1 (Q (perm_zsort _ _ (nodes_perm s o P Us Uo T V)) (Permutation_NoDup (zsort_perm _) Ns) v) X) as X'.
    intros n b b' I J. apply (X' n); eapply Permutation_in; eauto using node_bits_perm.
  - intros (T & V & C). apply zsort_eq_perm in V. split; auto. split; auto. intro P. destruct (C P) as (v & X). exists v.
    destruct (U_ok s Us) as (_ & _ & Hs), (U_ok o Uo) as (_ & _ & Ho). destruct (Hs P) as (Ns & Ls), (Ho P) as (No & Lo).
    apply same_nth.
    + rewrite !node_bits_fst by auto. now apply perm_zsort, nodes_perm.
    + rewrite node_bits_fst by auto. eapply Permutation_NoDup; [apply zsort_perm|auto].
    + intros n b b' I J. apply (X n).
      * eapply Permutation_in; [symmetry; apply node_bits_perm|auto].
      * eapply Permutation_in; [symmetry; apply node_bits_perm|auto].
Qed.

(** ** The result *)
Lemma filter_two A (p : A -> bool) l : (2 <= length (filter p l))%nat ->
  exists i j x y, (i < j)%nat /\ nth_error l i = Some x /\ nth_error l j = Some y /\ p x = true /\ p y = true.
Proof.
  induction l as [|a l IH]; cbn [filter length]; [lia|]. destruct (p a) eqn:E; cbn [length]; intro H.
  - destruct (filter p l) as [|b t] eqn:F; [cbn in H; lia|].
    assert (I : In b (filter p l)) by (rewrite F; now left). apply filter_In in I. destruct I as (I & Pb).
    apply In_nth_error in I. destruct I as (j & Hj). exists 0%nat, (S j), a, b. repeat split; auto. lia.
  - destruct (IH H) as (i & j & x & y & L & Hi & Hj & Px & Py). exists (S i), (S j), x, y. repeat split; auto. lia.
Qed.

Lemma filter_three A (p : A -> bool) l i j k x y z : (i < j < k)%nat ->
  nth_error l i = Some x -> nth_error l j = Some y -> nth_error l k = Some z ->
  p x = true -> p y = true -> p z = true -> (3 <= length (filter p l))%nat.
Proof.
  intros (L1 & L2) Hi Hj Hk Px Py Pz. revert j k L1 L2 Hi Hj Hk.
  assert (One : forall l i x, nth_error l i = Some x -> p x = true -> (1 <= length (filter p l))%nat).
  { clear. intros l i x H P. assert (I : In x (filter p l)) by (apply filter_In; eauto using nth_error_In).
    destruct (filter p l); [destruct I|cbn; lia]. }
  assert (Two : forall l i j x y, (i < j)%nat -> nth_error l i = Some x -> nth_error l j = Some y -> p x = true -> p y = true ->
    (2 <= length (filter p l))%nat).
  { clear - One. intro l. induction l as [|a l IH]; intros i j x y L Hi Hj Px Py; [destruct i; discriminate|].
    destruct j as [|j]; [lia|]. destruct i as [|i].
    - injection Hi as ->. cbn [filter]. rewrite Px. cbn [length nth_error] in *. apply One in Hj; auto. lia.
    - cbn [nth_error] in *. specialize (IH i j x y ltac:(lia) Hi Hj Px Py). cbn [filter]. destruct (p a); cbn [length]; lia. }
  revert i. induction l as [|a l IH]; intros i j k L1 L2 Hi Hj Hk; [destruct i; discriminate|].
  destruct j as [|j]; [lia|]. destruct k as [|k]; [lia|]. destruct i as [|i].
  - injection Hi as ->. cbn [filter]. rewrite Px. cbn [length nth_error] in *.
    pose proof (Two l j k y z ltac:(lia) Hj Hk Py Pz). lia.
  - cbn [nth_error] in *. specialize (IH i j k ltac:(lia) ltac:(lia) Hi Hj Hk). cbn [filter]. destruct (p a); cbn [length]; lia.
Qed.

Lemma at_U c k s : at_ css c k s -> U s.
Proof. intros (row & Hr & Hk). apply in_concat. exists row. split; eapply nth_error_In; eauto. Qed.

Lemma filter_map_len A B (f : A -> B) (p : B -> bool) l : length (filter p (map f l)) = length (filter (fun x => p (f x)) l).
Proof. induction l as [|a l IH]; auto. cbn [map filter]. destruct (p (f a)); cbn [length]; now rewrite IH. Qed.

Lemma run_spec :
  (exists st rows, all_cells per nNode css = Ok (st, rows) /\ two_at_most per css /\
      faces_spec per css (faces st) rows) \/
  (all_cells per nNode css = Abort /\ ~ two_at_most per css).
Proof.
  assert (FU : Forall U (concat css)) by (apply Forall_forall; auto).
  destruct (all_cells_spec per nNode U (fitb per) inst_fits inst_refl inst_sym inst_trans inst_perm inst_ne inst_range css FU)
    as [(st & rows & E & F & I)|(E & pre & s & post & Ec & L)].
  - left. exists st, rows. split; auto.
    assert (AU : forall c k s f, at_ css c k s -> at_ rows c k f -> In (Z.of_nat c, s, f) (alltris css rows)).
    { intros c k s f A B. destruct (alltris_In css rows c k s F A) as (f' & B' & J).
      destruct B as (r & Br & Bk), B' as (r' & Br' & Bk'). congruence. }
    split.
    + intros i j k si sj sk L Hi Hj Hk Sij Sik. exfalso.
      assert (Ui : U si) by (eapply nth_error_In; eauto). assert (Uj : U sj) by (eapply nth_error_In; eauto).
      assert (Uk : U sk) by (eapply nth_error_In; eauto).
      apply fitb_same in Sij; auto. apply fitb_same in Sik; auto.
      assert (N : (3 <= length (filter (fitb per si) (concat css)))%nat).
      { eapply filter_three; eauto. now apply inst_refl. }
      rewrite <- (alltris_sides css rows F), filter_map_len in N.
      assert (Ei : In si (map t_side (alltris css rows))) by (rewrite alltris_sides; auto).
      apply in_map_iff in Ei. destruct Ei as (t & Et & It).
      destruct (i_tri _ _ _ _ _ I t It) as (Ut & R & fc & Hfc & Fc). rewrite Et in Fc.
      assert (FC : filter (fun t0 => Z.of_nat (Z.to_nat (t_face t)) =? t_face t0) (alltris css rows)
                   = filter (fun t0 => fitb per si (t_side t0)) (alltris css rows)).
      { eapply filter_class; [exact inst_sym|exact inst_trans|exact inst_range|exact I|exact Ui|exact Hfc|exact Fc]. }
      rewrite <- FC in N.
      destruct (i_face _ _ _ _ _ I _ _ Hfc) as (_ & C & _). rewrite <- (map_length t_cell), C in N.
      destruct (f_second fc =? UnInitIndex); cbn in N; lia.
    + split; [auto|]. split; [|split].
      * intros c k s f A B. specialize (AU c k s f A B). destruct (i_tri _ _ _ _ _ I _ AU) as (_ & R & fc & Hfc & _).
        unfold t_face in *. cbn [snd] in *. apply nth_error_Some_lt in Hfc. unfold zlen. lia.
      * intros c k s f c' k' s' f' A B A' B'. pose proof (AU _ _ _ _ A B) as J. pose proof (AU _ _ _ _ A' B') as J'.
        destruct (i_tri _ _ _ _ _ I _ J) as (Us & R & fc & Hfc & Fc), (i_tri _ _ _ _ _ I _ J') as (Us' & R' & fc' & Hfc' & Fc').
        unfold t_face, t_side in *. cbn [fst snd] in *.
        destruct (i_face _ _ _ _ _ I _ _ Hfc) as (Uf & _), (i_face _ _ _ _ _ I _ _ Hfc') as (Uf' & _).
        rewrite <- fitb_same by auto. split.
        -- intros <-. assert (fc' = fc) by congruence. subst fc'. apply inst_trans with (f_side fc); auto. now apply inst_sym.
        -- intro G. assert (Z.to_nat f = Z.to_nat f'); [|lia]. apply (i_uniq _ _ _ _ _ I _ _ fc fc' Hfc Hfc').
           apply inst_trans with s; auto; [now apply inst_sym|]. apply inst_trans with s'; auto.
      * intros i fc Hi. destruct (i_face _ _ _ _ _ I _ _ Hi) as (Uf & C & J). split.
        -- apply alltris_at in J. destruct J as (c & k & Ec & A & B). exists c, k. auto.
        -- rewrite (cells_of_tris css rows) by auto. exact C.
  - right. split; auto. intro T. apply filter_two in L. destruct L as (i & j & x & y & L & Hi & Hj & Px & Py).
    pose proof (nth_error_Some_lt _ _ _ _ Hj) as Lj.
    assert (Hx : nth_error (concat css) i = Some x) by (rewrite Ec, nth_error_app1 by lia; auto).
    assert (Hy : nth_error (concat css) j = Some y) by (rewrite Ec, nth_error_app1 by lia; auto).
    assert (Hs : nth_error (concat css) (length pre) = Some s) by (rewrite Ec, nth_error_app2, Nat.sub_diag by lia; auto).
    assert (Ux : U x) by (eapply nth_error_In; eauto). assert (Uy : U y) by (eapply nth_error_In; eauto).
    assert (Us : U s) by (eapply nth_error_In; eauto).
    apply (T i j (length pre) x y s); auto.
    + apply fitb_same; auto. apply inst_trans with s; auto. now apply inst_sym.
    + apply fitb_same; auto. now apply inst_sym.
Qed.
End Instance.

(** ** The first cell of a face comes before the second *)
Lemma cells_of_lt rows f c : In c (cells_of rows f) -> 0 <= c < zlen rows.
Proof.
  unfold cells_of. rewrite in_concat. intros (l & Il & I). apply in_map_iff in Il. destruct Il as (p & <- & Ip).
  apply indexed_In in Ip. destruct Ip as (k & row & Hk & ->). apply in_map_iff in I. destruct I as (x & <- & _).
  apply nth_error_Some_lt in Hk. unfold zlen. cbn [fst]. lia.
Qed.

Lemma cells_of_asc rows f : forall i j a b, (i <= j)%nat -> nth_error (cells_of rows f) i = Some a ->
  nth_error (cells_of rows f) j = Some b -> a <= b.
Proof.
  induction rows as [|row rows IH] using rev_ind; intros i j a b L Hi Hj; [destruct i; discriminate|].
  assert (E : cells_of (rows ++ [row]) f = cells_of rows f ++ map (fun _ => zlen rows) (filter (Z.eqb f) row)).
  { unfold cells_of. rewrite indexed_snoc, map_app, concat_app. cbn [map concat fst snd]. now rewrite app_nil_r. }
  rewrite E in Hi, Hj.
  assert (Q : forall k c, nth_error (cells_of rows f ++ map (fun _ => zlen rows) (filter (Z.eqb f) row)) k = Some c ->
     (nth_error (cells_of rows f) k = Some c /\ c < zlen rows) \/ ((length (cells_of rows f) <= k)%nat /\ c = zlen rows)).
  { intros k c H. destruct (Nat.lt_ge_cases k (length (cells_of rows f))) as [K|K].
    - rewrite nth_error_app1 in H by auto. left. split; auto. apply nth_error_In, cells_of_lt in H. lia.
    - rewrite nth_error_app2 in H by auto. right. split; auto. apply nth_error_In, in_map_iff in H.
      destruct H as (_ & <- & _). reflexivity. }
  destruct (Q _ _ Hi) as [(Hi' & La)|(Li & ->)], (Q _ _ Hj) as [(Hj' & Lb)|(Lj & ->)].
  - apply (IH i j); auto.
  - lia.
  - apply nth_error_Some_lt in Hj'. lia.
  - lia.
Qed.

Lemma faces_order per css fs rows : faces_spec per css fs rows -> Forall (fun f =>
  0 <= f_first f < zlen css /\ (f_second f = UnInitIndex \/ f_first f <= f_second f < zlen css)) fs.
Proof.
  intros (F & _ & _ & H). apply Forall_forall. intros fc I. apply In_nth_error in I. destruct I as (i & Hi).
  destruct (H i fc Hi) as (_ & C). assert (L : zlen css = zlen rows).
  { unfold zlen. now rewrite (proj1 (Forall2_nth _ _ _ _ _ F)). }
  rewrite L. assert (A := cells_of_lt rows (Z.of_nat i)). assert (B := cells_of_asc rows (Z.of_nat i) 0 1).
  rewrite C in A, B. destruct (Z.eqb_spec (f_second fc) UnInitIndex) as [E|D].
  - split; [apply A; now left|auto].
  - split; [apply A; now left|]. right. split; [|apply A; right; now left]. apply B; auto.
Qed.

(** ** Numbering *)
Section Numbers.
Variable lens : list nat.
Variable g : gomap.
Variable r : nat.
Variable m : ghostmap.
Hypothesis G : setMPIAlignBcast (map Z.of_nat lens) = Ok g.
Hypothesis GM : good lens r m.
Hypothesis HG : forall q, In q (ghostIndex m) -> exists s i, item_at lens q = Some (s, i) /\ s <> r.
Let own := Z.of_nat (nth r lens 0%nat).

Lemma place_rank x : 0 <= x < own + zlen (ghostIndex m) ->
  exists q s i, mapIndex m (-1) x = Ok q /\ gsearch g q = Some (Z.of_nat s, i) /\ cell_rank lens r m x = Some s /\
    (s < length lens)%nat /\ (x < own -> s = r) /\ (own <= x -> s <> r).
Proof.
  intros L. destruct GM as (Hr & _).
  destruct (Z.lt_ge_cases x own) as [K|K].
  - assert (E : local_item lens r m (Z.to_nat x) = Some (Z.of_nat (list_sum (firstn r lens) + Z.to_nat x))).
    { unfold local_item. destruct (Nat.ltb_spec (Z.to_nat x) (nth r lens 0%nat)); auto. unfold own in K. lia. }
    assert (I : item_at lens (Z.of_nat (list_sum (firstn r lens) + Z.to_nat x)) = Some (r, Z.to_nat x)).
    { apply item_at_spec. split; auto. exists (nth r lens 0%nat). split; [now apply nth_error_nth'|]. unfold own in K. lia. }
    exists (Z.of_nat (list_sum (firstn r lens) + Z.to_nat x)), r, x.
    split; [|split; [|split; [|split; [|split]]]]; auto; try lia.
    + replace x with (Z.of_nat (Z.to_nat x)) at 1 by lia. now apply (map_local lens r).
    + rewrite (search_spec lens g _ G), I. rewrite Z2Nat.id by lia. reflexivity.
    + unfold cell_rank. now rewrite E, I.
  - destruct (nth_error_lt_Some _ (ghostIndex m) (Z.to_nat x - nth r lens 0%nat)) as (q & Hq).
    { unfold own, zlen in *. lia. }
    destruct (HG q (nth_error_In _ _ Hq)) as (s & i & I & D).
    assert (E : local_item lens r m (Z.to_nat x) = Some q).
    { unfold local_item. destruct (Nat.ltb_spec (Z.to_nat x) (nth r lens 0%nat)); auto. unfold own in K. lia. }
    exists q, s, (Z.of_nat i). split; [|split; [|split; [|split; [|split]]]]; auto; try lia.
    + replace x with (Z.of_nat (Z.to_nat x)) at 1 by lia. now apply (map_local lens r).
    + rewrite (search_spec lens g _ G), I. reflexivity.
    + unfold cell_rank. now rewrite E, I.
    + apply item_at_spec in I. destruct I as ((l & Hl & _) & _). now apply nth_error_Some_lt in Hl.
Qed.

Lemma spec_snoc fs nums send n f k : numbers_spec lens r m fs nums send n ->
  (f_first f < own -> f_second f < own -> 0 <= k) ->
  (own <= f_first f -> k = UnInitIndex) ->
  (forall s, between lens r m s f -> (r < s)%nat -> 0 <= k) ->
  (forall s, between lens r m s f -> (s < r)%nat -> k = -1) ->
  (0 <= k -> k = Z.of_nat n) ->
  forall send', length send' = length send ->
  (forall s row', nth_error send' s = Some row' -> exists row, nth_error send s = Some row /\
     ((row' = row /\ (between lens r m s f -> ~ (r < s)%nat)) \/ (row' = row ++ [k] /\ 0 <= k /\ between lens r m s f /\ (r < s)%nat))) ->
  numbers_spec lens r m (fs ++ [f]) (nums ++ [k]) send' (if 0 <=? k then S n else n).
Proof.
  intros (L1 & L2 & A & B & C) H1 H2 H3 H4 H5 send' Ls Hs. unfold numbers_spec.
  assert (P : forall i f' k', nth_error (fs ++ [f]) i = Some f' -> nth_error (nums ++ [k]) i = Some k' ->
     (nth_error fs i = Some f' /\ nth_error nums i = Some k') \/ (i = length fs /\ f' = f /\ k' = k)).
  { intros i f' k' Hf Hk. destruct (Nat.lt_ge_cases i (length fs)) as [K|K].
    - rewrite nth_error_app1 in Hf, Hk by lia. auto.
    - rewrite nth_error_app2 in Hf, Hk by lia. pose proof (nth_error_Some_lt _ _ _ _ Hf) as K'. cbn in K'.
      assert (i = length fs) by lia. subst i. rewrite L1, Nat.sub_diag in Hk. rewrite Nat.sub_diag in Hf. cbn in Hf, Hk.
      right. split; auto. split; congruence. }
  split; [rewrite !app_length; cbn; lia|]. split; [lia|]. split; [|split].
  - intros i f' k' Hf Hk. destruct (P _ _ _ Hf Hk) as [(Hf' & Hk')|(_ & -> & ->)].
    + now apply (A i).
    + auto.
  - rewrite filter_app, B. cbn [filter]. destruct (Z.leb_spec 0 k).
    + rewrite seq_S, map_app. cbn [map]. now rewrite (H5 H).
    + now rewrite app_nil_r.
  - intros s row' Hr. destruct (Hs s row' Hr) as (row & Hrow & Q). destruct (C s row Hrow) as (ND & M).
    assert (Old : forall k', In k' row -> 0 <= k' < Z.of_nat n).
    { intros k' I. apply M in I. destruct I as (i & f' & Hk' & Hf' & Bt & L).
      destruct (A i f' k' Hf' Hk') as (_ & _ & A3 & _). specialize (A3 s Bt L).
      assert (I : In k' (filter (fun z => 0 <=? z) nums)).
      { apply filter_In. split; [eapply nth_error_In; eauto|]. now apply Z.leb_le. }
      rewrite B in I. apply in_map_iff in I. destruct I as (x & <- & I). apply in_seq in I. lia. }
    assert (Ok' : forall i f' k', nth_error nums i = Some k' -> nth_error fs i = Some f' ->
        nth_error (nums ++ [k]) i = Some k' /\ nth_error (fs ++ [f]) i = Some f').
    { intros i f' k' X Y. pose proof (nth_error_Some_lt _ _ _ _ X). pose proof (nth_error_Some_lt _ _ _ _ Y).
      rewrite !nth_error_app1 by lia. auto. }
    destruct Q as [(-> & Hno)|(-> & Hk & Bt & L)].
    + split; auto. intro k'. rewrite M. split.
      * intros (i & f' & Hk' & Hf' & R). destruct (Ok' _ _ _ Hk' Hf'). exists i, f'. auto.
      * intros (i & f' & Hk' & Hf' & Bt & L). destruct (P _ _ _ Hf' Hk') as [(Hf & Hk)|(_ & -> & ->)].
        -- exists i, f'. auto.
        -- now elim (Hno Bt).
    + split.
      * apply (Permutation_NoDup (Permutation_cons_append row k)). constructor; auto. intro I. apply Old in I. rewrite (H5 Hk) in I. lia.
      * intro k'. rewrite in_app_iff, M. split.
        -- intros [(i & f' & Hk' & Hf' & R)|[<-|[]]].
           ++ destruct (Ok' _ _ _ Hk' Hf'). exists i, f'. auto.
           ++ exists (length fs), f. rewrite <- L1 at 1. rewrite !nth_error_app2, L1, !Nat.sub_diag by lia. auto.
        -- intros (i & f' & Hk' & Hf' & Bt' & L'). destruct (P _ _ _ Hf' Hk') as [(Hf & Hk1)|(_ & -> & ->)].
           ++ left. exists i, f'. auto.
           ++ right. now left.
Qed.

Lemma collect_spec fs :
  Forall (fun f => 0 <= f_first f < own + zlen (ghostIndex m) /\
     (f_second f = UnInitIndex \/ f_first f <= f_second f < own + zlen (ghostIndex m))) fs ->
  exists nums send n, collect g m (length lens) (Z.of_nat r) own fs = Ok (nums, send, Z.of_nat n) /\
    numbers_spec lens r m fs nums send n.
Proof.
  induction fs as [|f fs IH] using rev_ind; intro H.
  - exists [], (repeat [] (length lens)), 0%nat. split; [reflexivity|]. unfold numbers_spec.
    split; auto. split; [apply repeat_length|]. split; [intros [|i] ? ? Hi; discriminate Hi|]. split; auto.
    intros s row Hs. apply nth_error_In, repeat_spec in Hs. subst row. split; [constructor|]. intro k. split; [intros []|].
    intros ([|i] & f & Hi & _); discriminate Hi.
  - apply Forall_app in H. destruct H as (H1 & H2). apply Forall_inv in H2. destruct (IH H1) as (nums & send & n & E & S).
    unfold collect in *. rewrite foldM_snoc, E. cbn [bind]. clear E IH H1. unfold collect_face.
    assert (Keep : forall k, 
       (f_first f < own -> f_second f < own -> 0 <= k) -> (own <= f_first f -> k = UnInitIndex) ->
       (forall s, between lens r m s f -> (r < s)%nat -> False) ->
       (forall s, between lens r m s f -> (s < r)%nat -> k = -1) -> (0 <= k -> k = Z.of_nat n) ->
       numbers_spec lens r m (fs ++ [f]) (nums ++ [k]) send (if 0 <=? k then Datatypes.S n else n)).
    { intros k K1 K2 K3 K4 K5. eapply spec_snoc; eauto.
      - intros s Bt L. now elim (K3 s).
      - intros s row' Hr. exists row'. split; auto. left. split; auto. intros Bt L. exact (K3 s Bt L). }
    destruct H2 as (R1 & R2).
    destruct ((f_second f =? UnInitIndex) && (own <=? f_first f)) eqn:C1.
    { apply andb_true_iff in C1. destruct C1 as (C1 & C2). apply Z.eqb_eq in C1. apply Z.leb_le in C2.
      exists (nums ++ [UnInitIndex]), send, n. split; auto.
      apply (Keep UnInitIndex); try lia; auto; try (intros s ((B1 & _) & _); lia). discriminate || (cbv; congruence). }
    destruct ((own <=? f_first f) && (own <=? f_second f)) eqn:C2.
    { apply andb_true_iff in C2. destruct C2 as (C2 & C3). apply Z.leb_le in C2, C3.
      exists (nums ++ [UnInitIndex]), send, n. split; auto.
      apply (Keep UnInitIndex); try lia; auto; try (intros s ((B1 & _) & _); lia). discriminate || (cbv; congruence). }
    assert (U0 : UnInitIndex < 0) by reflexivity.
    assert (O0 : 0 <= own) by (unfold own; lia).
    destruct ((own <=? f_first f) || (own <=? f_second f)) eqn:C3.
    + assert (K : f_first f < own <= f_second f).
      { apply orb_true_iff in C3. apply andb_false_iff in C1, C2. rewrite Z.eqb_neq in C1. rewrite !Z.leb_gt in *. rewrite !Z.leb_le in C3. lia. }
      replace (own <=? f_second f) with true by (symmetry; apply Z.leb_le; lia). cbn [assert_ bind].
      destruct (place_rank (f_first f)) as (ql & sl & il & Ml & Gl & Cl & Bl & Sl & _); [lia|].
      destruct (place_rank (f_second f)) as (qr & sr & ir & Mr & Gr & Cr & Br & _ & Sr); [lia|].
      rewrite Ml, Mr. cbn [bind]. rewrite Gl, Gr. rewrite (Sl ltac:(lia)) in *. specialize (Sr ltac:(lia)).
      replace (negb (Z.of_nat r =? Z.of_nat sr)) with true by (symmetry; apply negb_true_iff, Z.eqb_neq; lia). cbn [assert_ bind].
      assert (Bt : forall s, between lens r m s f <-> s = sr).
      { intro s. unfold between. fold own. rewrite Cr. split; [intros (_ & X); congruence|]. intros ->. auto. }
      destruct (Z.ltb_spec (Z.of_nat sr) (Z.of_nat r)).
      * exists (nums ++ [-1]), send, n. split; auto. apply (Keep (-1)); try lia; auto.
        intros s X. apply Bt in X. subst s. lia.
      * rewrite Z.eqb_refl. cbn [assert_ bind]. assert (Ls : length send = length lens) by apply S.
        destruct (nth_error_lt_Some _ send sr) as (row & Hrow); [lia|].
        rewrite (vget_of_nat _ _ _ _ Hrow). cbn [bind]. assert (Vs : forall x, vset send (Z.of_nat sr) x = Ok (upd sr x send)).
        { intro x. unfold vset. replace ((Z.of_nat sr <? 0) || (Z.of_nat (length send) <=? Z.of_nat sr)) with false by lia.
          now rewrite Nat2Z.id. }
        rewrite Vs. cbn [bind].
        exists (nums ++ [Z.of_nat n]), (upd sr (row ++ [Z.of_nat n]) send), (Datatypes.S n).
        split; [f_equal; f_equal; lia|].
        replace (Datatypes.S n) with (if 0 <=? Z.of_nat n then Datatypes.S n else n)
          by (replace (0 <=? Z.of_nat n) with true by (symmetry; apply Z.leb_le; lia); reflexivity).
        eapply spec_snoc; eauto; try lia.
        -- intros s X. apply Bt in X. subst s. lia.
        -- apply upd_length.
        -- intros s row' Hr. destruct (Nat.eq_dec s sr) as [->|D].
           ++ rewrite nth_error_upd_same in Hr by lia. injection Hr as <-. exists row. split; auto. right. split; auto.
              split; [lia|]. split; [now apply Bt|lia].
           ++ rewrite nth_error_upd_other in Hr by auto. exists row'. split; auto. left. split; auto. intros X. apply Bt in X. congruence.
    + apply orb_false_iff in C3. destruct C3 as (C3 & C4). apply Z.leb_gt in C3, C4.
      exists (nums ++ [Z.of_nat n]), send, (Datatypes.S n). split; [f_equal; f_equal; lia|].
      replace (Datatypes.S n) with (if 0 <=? Z.of_nat n then Datatypes.S n else n)
          by (replace (0 <=? Z.of_nat n) with true by (symmetry; apply Z.leb_le; lia); reflexivity).
      apply Keep; try lia; intros s ((_ & B1) & _); fold own in B1; lia.
Qed.
End Numbers.

Lemma one_owner lens r r' m m' fs fs' nums nums' send send' n n' i j f f' k k' :
  numbers_spec lens r m fs nums send n -> numbers_spec lens r' m' fs' nums' send' n' -> (r < r')%nat ->
  nth_error fs i = Some f -> nth_error nums i = Some k -> between lens r m r' f ->
  nth_error fs' j = Some f' -> nth_error nums' j = Some k' -> between lens r' m' r f' ->
  0 <= k /\ k' = -1.
Proof.
  intros S S' L Hf Hk B Hf' Hk' B'.
  destruct S as (_ & _ & A & _), S' as (_ & _ & A' & _). destruct (A i f k Hf Hk) as (_ & _ & A1 & _).
  destruct (A' j f' k' Hf' Hk') as (_ & _ & _ & A2). split; [now apply (A1 r')|now apply (A2 r)].
Qed.

Lemma interpolate_spec per nNode cells css : mapM (sides_of per) cells = Ok css -> sides_ok per nNode css ->
  two_at_most per css ->
  exists fs rows, InterpolateFaces per nNode cells = Ok (fs, rows) /\ faces_spec per css fs rows.
Proof.
  intros E OK T. unfold InterpolateFaces. rewrite E. cbn [bind].
  destruct (run_spec per nNode css OK) as [(st & rows & R & _ & S)|(_ & N)]; [|contradiction].
  rewrite R. cbn [bind fst snd]. eauto.
Qed.
Lemma interpolate_three per nNode cells css : mapM (sides_of per) cells = Ok css -> sides_ok per nNode css ->
  ~ two_at_most per css -> InterpolateFaces per nNode cells = Abort.
Proof.
  intros E OK T. unfold InterpolateFaces. rewrite E. cbn [bind].
  destruct (run_spec per nNode css OK) as [(st & rows & R & N & S)|(R & _)]; [contradiction|]. now rewrite R.
Qed.

Lemma numbers lens g ms r m per css fs rows : setMPIAlignBcast (map Z.of_nat lens) = Ok g ->
  mapped lens ms -> nth_error ms r = Some m ->
  (forall q, In q (ghostIndex m) -> exists s i, item_at lens q = Some (s, i) /\ s <> r) ->
  faces_spec per css fs rows -> length css = (nth r lens 0 + length (ghostIndex m))%nat ->
  exists nums send n,
    collect g m (length lens) (Z.of_nat r) (Z.of_nat (nth r lens 0%nat)) fs = Ok (nums, send, Z.of_nat n) /\
    numbers_spec lens r m fs nums send n.
Proof.
  intros G M Hm HG F L. apply collect_spec; auto.
  - eapply mapped_good; eauto.
  - apply faces_order in F. eapply Forall_impl; [|exact F]. cbv beta. unfold zlen. rewrite L. intros f H. lia.
Qed.

(** ** The faces that are kept *)
Lemma kept_at : forall nums (fs : list face) s n, length nums = length fs ->
  filter (fun k => 0 <=? k) nums = map Z.of_nat (seq s n) ->
  length (kept_faces nums fs) = n /\
  forall i f k, nth_error fs i = Some f -> nth_error nums i = Some k -> 0 <= k ->
    (s <= Z.to_nat k)%nat /\ nth_error (kept_faces nums fs) (Z.to_nat k - s) = Some f.
Proof.
  unfold kept_faces. induction nums as [|k nums IH]; intros [|f fs] s n L F; try discriminate.
  - destruct n; [|discriminate F]. split; [reflexivity|]. intros [|i]; discriminate.
  - injection L as L. cbn [combine filter fst]. cbn [filter] in F. destruct (0 <=? k) eqn:K.
    + destruct n as [|n]; [discriminate F|]. cbn [seq map] in F. injection F as F0 F. subst k.
      destruct (IH fs (S s) n L F) as (L1 & P). cbn [map length]. split; [f_equal; exact L1|].
      intros [|i] f0 k; cbn [nth_error].
      * intros Q1 Q2 _. injection Q1 as <-. injection Q2 as <-. rewrite Nat2Z.id, Nat.sub_diag. cbn. auto.
      * intros Q1 Q2 Q3. destruct (P i f0 k Q1 Q2 Q3) as (P1 & P2). split; [lia|].
        replace (Z.to_nat k - s)%nat with (S (Z.to_nat k - S s)) by lia. exact P2.
    + destruct (IH fs s n L F) as (L1 & P). split; [exact L1|].
      intros [|i] f0 k0; cbn [nth_error]; [|apply P].
      intros _ Q Q0. injection Q as <-. apply Z.leb_gt in K. lia.
Qed.

Lemma kept_spec lens r m fs nums send n : numbers_spec lens r m fs nums send n ->
  length (kept_faces nums fs) = n /\
  forall i f k, nth_error fs i = Some f -> nth_error nums i = Some k -> 0 <= k ->
    nth_error (kept_faces nums fs) (Z.to_nat k) = Some f.
Proof.
  intros (L & _ & _ & F & _). destruct (kept_at nums fs 0 n L F) as (L1 & P). split; [exact L1|].
  intros i f k Q1 Q2 Q3. destruct (P i f k Q1 Q2 Q3) as (_ & P2). now rewrite Nat.sub_0_r in P2.
Qed.

Lemma renumber_spec per css fs rows lens r m nums send n :
  faces_spec per css fs rows -> numbers_spec lens r m fs nums send n ->
  exists rows', renumber nums rows = Ok rows' /\ map (@length Z) rows' = map (@length Z) rows /\
    forall c k f, at_ rows c k f -> exists f', at_ rows' c k f' /\ nth_error nums (Z.to_nat f) = Some f'.
Proof.
  intros (F1 & F2 & _) (L & _).
  assert (B : Forall (Forall (fun f => 0 <= f < zlen nums)) rows).
  { apply Forall_forall. intros row Hr. apply Forall_forall. intros f Hf.
    apply In_nth_error in Hr. destruct Hr as (c & Hc). apply In_nth_error in Hf. destruct Hf as (k & Hk).
    unfold zlen. rewrite L. assert (exists ss, nth_error css c = Some ss /\ length ss = length row).
    { clear - F1 Hc. revert c Hc. induction F1; intros [|c] Hc; try discriminate; cbn in *.
      - injection Hc as <-. eauto.
      - now apply IHF1. }
    destruct H as (ss & Hs & Hl). destruct (nth_error ss k) as [s|] eqn:Es.
    - eapply F2; [exists ss; split; eauto|exists row; split; eauto].
    - apply nth_error_None in Es. assert (k < length row)%nat by (apply nth_error_Some; congruence). lia. }
  clear - B. unfold renumber. induction B as [|row rows Hr B IH].
  - exists []. split; [reflexivity|]. split; [reflexivity|]. intros [|c] k f (row & H & _); discriminate.
  - destruct IH as (rows' & E & Ll & P).
    assert (R : exists row', mapM (fun i => vget nums i) row = Ok row' /\ length row' = length row /\
      forall k f, nth_error row k = Some f -> exists f', nth_error row' k = Some f' /\ nth_error nums (Z.to_nat f) = Some f').
    { clear - Hr. induction Hr as [|f row Hf Hr IH].
      - exists []. split; [reflexivity|]. split; [reflexivity|]. intros [|k]; discriminate.
      - destruct IH as (row' & E & L & P).
        destruct (nth_error nums (Z.to_nat f)) as [g|] eqn:G.
        2:{ apply nth_error_None in G. unfold zlen in Hf. lia. }
        assert (V : vget nums f = Ok g).
        { unfold vget. destruct (f <? 0) eqn:N; [apply Z.ltb_lt in N; lia|]. now rewrite G. }
        exists (g :: row'). cbn [mapM]. rewrite V, E. cbn [bind]. split; [reflexivity|]. split; [cbn; congruence|].
        intros [|k] f0; cbn [nth_error]; [|apply P]. intro Q. injection Q as <-. eauto. }
    destruct R as (row' & Er & Lr & Pr). exists (row' :: rows'). cbn [mapM]. rewrite Er. cbn [bind]. rewrite E. cbn [bind].
    split; [reflexivity|]. split; [cbn; congruence|].
    intros [|c] k f (row0 & H1 & H2); cbn [nth_error] in H1.
    + injection H1 as <-. destruct (Pr k f H2) as (f' & A1 & A2). exists f'. split; [|exact A2]. exists row'. auto.
    + destruct (P c k f) as (f' & (row1 & A1 & A2) & A3); [exists row0; auto|]. exists f'. split; [|exact A3]. exists row1. auto.
Qed.
