(** The block LDLT factorization as an LU factorization whose upper factor is D L^T. *)
From Coq Require Import List ZArith Lia Bool Permutation.
From Verif Require Import Base.Prelude Base.PreludeFacts DNDS.DefinesModel DNDS.DefinesSpec DNDS.DefinesProofs
  Solver.DirectModel Solver.DirectSpec Solver.DirectProofs Solver.DirectMore Solver.LUModel Solver.LUSpec Solver.LUProofs Solver.LUElim Solver.LUSolve Solver.LUMain.
Import ListNotations.
Local Open Scope Z_scope.

Lemma foldM_range_outcome {S} (P : Z -> S -> Prop) (Q : Prop) (f : S -> Z -> res S) m s : 0 <= m -> P 0 s ->
  (forall k s, 0 <= k < m -> P k s -> outcome (P (k + 1)) Q (f s k)) -> outcome (P m) Q (foldM f s (range m)).
Proof.
  intros Hm H0 Hs.
  assert (App : forall l1 l2 s, foldM f s (l1 ++ l2) = (do s' <- foldM f s l1; foldM f s' l2)).
  { induction l1 as [|x l IH]; intros l2 s1; [reflexivity|]. cbn [app foldM]. destruct (f s1 x); cbn [bind]; auto. }
  assert (G : forall k, 0 <= k -> k <= m -> outcome (P k) Q (foldM f s (range k))).
  { intros k Hk. pattern k. apply natlike_ind; auto.
    intros x Hx IH L. unfold Z.succ. rewrite range_succ by auto. rewrite App. specialize (IH ltac:(lia)).
    destruct (foldM f s (range x)) as [s1| |]; cbn [outcome bind] in *; auto. specialize (Hs x s1 ltac:(lia) IH). cbn [foldM].
    destruct (f s1 x) as [s2| |]; cbn [outcome bind] in *; auto. }
  apply G; lia.
Qed.

Section LDLT.
Context {T V : Type} (O : ops T V) (LW : laws O) (invert : T -> res T) (HI : inverts O invert) (tr : T -> T) (HT : transposes O tr).
Context (n : Z) (o2n n2o : list Z) (s : symlu) (HO : ordering_ok n o2n n2o) (HS : shape n n2o s).
Notation ord := (ord n2o).
Notation rh := (rep n ord (half s)).
Notation rv := (repv O n n2o).
Notation lo := (lo s). Notation up := (up s). Notation cm := (cm s).
Notation "a ** b" := (tmul O a b) (at level 40, left associativity).
Notation "a -- b" := (tsub O a b) (at level 50, left associativity).

Lemma geth A (N : Z -> Z -> T) i p j : rh A N -> 0 <= i < n -> at_ (half s i) p j -> getE T A (ord i) p = Ok (N i j).
Proof. apply rep_get. apply (ord_rng n o2n n2o HO). Qed.
Lemma puth A (N : Z -> Z -> T) i p j x : rh A N -> 0 <= i < n -> at_ (half s i) p j -> exists A', putE T A (ord i) p x = Ok A' /\ rh A' (updN N i j x).
Proof. apply rep_put; [apply (ord_rng n o2n n2o HO)|apply (ord_inj n o2n n2o HO)|apply (half_nd n n2o s HS)]. Qed.
Lemma subh A N i p j x : rh A N -> 0 <= i < n -> at_ (half s i) p j ->
  exists A', subE T (tsub O) A (ord i) p x = Ok A' /\ rh A' (updN N i j (N i j -- x)).
Proof. intros R Hi Hp. unfold subE. rewrite (geth A N i p j) by auto. cbn [bind]. now apply puth. Qed.
(** the pivots of the rows before [m] *)
Definition pivots (dn : list T) (D : Z -> T) (m : Z) : Prop := zlen dn = n /\ forall k, 0 <= k < m -> nth_error dn (Z.to_nat (ord k)) = Some (D k).
Lemma pivots_get dn D m k : pivots dn D m -> m <= n -> 0 <= k < m -> vget dn (ord k) = Ok (D k).
Proof. intros (L & H) Hm Hk. apply vget_Ok. split; auto. apply (ord_rng n o2n n2o HO). lia. Qed.
Definition sterm (N : Z -> Z -> T) (D : Z -> T) i j k := (N i k ** D k) ** tr (N j k).

Lemma common_sym A N dn D i j dst : rh A N -> pivots dn D i -> 0 <= j < i -> i < n -> at_ (half s i) dst j ->
  exists A', snd (iterateIdentical (ldlt_common T (tsub O) (tmul O) tr s (ord i) (ord j) j dst dn) (lo i) (lo j) (Ok A)) = Ok A' /\
    rh A' (updN N i j (N i j -- tsum O (sterm N D i j) (cm i j))).
Proof.
  intros R HP Hj Hi Hp. rewrite iterateIdentical_spec by (apply (lo_sasc n n2o s HS); lia).
  pose (P := fun (d : list Z) (r : res (list (list T))) => exists A', r = Ok A' /\ rh A' (updN N i j (N i j -- tsum O (sterm N D i j) d))).
  assert (G : P (map (fun m => fst (fst m)) (matches (lo i) (lo j))) (snd (visit (ldlt_common T (tsub O) (tmul O) tr s (ord i) (ord j) j dst dn) (matches (lo i) (lo j)) (Ok A)))).
  { apply visit_inv.
    - exists A. split; auto. apply (rep_ext n ord (half s) A N); auto. intros a b _ _. unfold updN.
      destruct (Z.eqb_spec a i), (Z.eqb_spec b j); cbn; auto. subst. symmetry. apply (t_sub0 O LW).
    - intros d k p q r I (A1 & -> & R1). apply matches_complete in I. destruct I as (E1 & E2).
      pose proof (lo_lt n n2o s HS i k ltac:(lia) (nth_error_In _ _ E1)) as K1. pose proof (lo_lt n n2o s HS j k ltac:(lia) (nth_error_In _ _ E2)) as K2.
      unfold ldlt_common. replace (j <=? k) with false by (symmetry; apply Z.leb_gt; lia).
      cbn [fst snd]. split; [reflexivity|]. cbn [bind]. rewrite (h_num _ _ _ HS). replace (k <? n) with true by (symmetry; apply Z.ltb_lt; lia). cbn [assert_ bind].
      rewrite (reord n o2n n2o s HO HS) by lia. cbn [bind].
      rewrite (geth A1 _ i _ k R1 ltac:(lia) (at_half s i p k E1)). cbn [bind].
      rewrite (pivots_get dn D i k HP) by lia. cbn [bind].
      rewrite (geth A1 _ j _ k R1 ltac:(lia) (at_half s j q k E2)). cbn [bind].
      rewrite (updN_other N i j _ i k) by lia. rewrite (updN_other N i j _ j k) by lia.
      destruct (subh A1 _ i dst j ((N i k ** D k) ** tr (N j k)) R1 ltac:(lia) Hp) as (A2 & E3 & R2). exists A2. split; auto.
      apply (rep_ext n ord (half s) A2 _ _ R2). intros a b _ _. destruct (Z.eq_dec a i) as [->|]; [destruct (Z.eq_dec b j) as [->|]|].
      2,3: now rewrite !updN_other by auto.
      rewrite !updN_same. rewrite (t_subsub O LW). f_equal. rewrite (tsum_snoc O LW). reflexivity. }
  rewrite (matches_cm n n2o s HS) in G by lia. exact G.
Qed.
Definition slowdone (N N' : Z -> Z -> T) (D : Z -> T) i (d : list Z) : Prop :=
  (forall a b, a <> i \/ ~ In b d -> N' a b = N a b) /\
  (forall j, In j d -> N' i j = (N i j -- tsum O (sterm N' D i j) (cm i j)) ** N j j).
Lemma slow_loop A N dn D i : rh A N -> pivots dn D i -> 0 <= i < n ->
  exists A' N', foldM (ldlt_lower T (tsub O) (tmul O) tr s i (ord i) (lo i) dn) A (range (zlen (lo i))) = Ok A' /\ rh A' N' /\ slowdone N N' D i (lo i).
Proof.
  intros R HP Hi.
  destruct (foldM_range (fun m A' => exists N', rh A' N' /\ slowdone N N' D i (firstn (Z.to_nat m) (lo i)))
    (ldlt_lower T (tsub O) (tmul O) tr s i (ord i) (lo i) dn) (zlen (lo i)) A) as (A' & E & N' & R' & D').
  - unfold zlen. lia.
  - exists N. split; auto. split; auto. intros j [].
  - clear A R. intros m A Hm (N1 & R & (D1 & D2)).
    destruct (nth_error_lt_Some _ (lo i) (Z.to_nat m)) as (j & Ej); [unfold zlen in Hm; lia|].
    pose proof (lo_lt n n2o s HS i j Hi (nth_error_In _ _ Ej)) as Hj. pose proof (lo_sasc n n2o s HS i Hi) as Si.
    assert (Ev : vget (lo i) m = Ok j) by (apply vget_Ok; split; [lia|auto]).
    unfold ldlt_lower. rewrite Ev. cbn [bind]. replace (j <? i) with true by (symmetry; apply Z.ltb_lt; lia). cbn [assert_ bind].
    rewrite (reord n o2n n2o s HO HS) by lia. cbn [bind].
    assert (Hp : at_ (half s i) (1 + m) j) by (replace m with (Z.of_nat (Z.to_nat m)) by lia; now apply at_half).
    set (x := N1 i j -- tsum O (sterm N1 D i j) (cm i j)).
    assert (E1 : exists A1, (if 0 <? m then do lowerRowJP <- vget (lowNew s) j;
        snd (iterateIdentical (ldlt_common T (tsub O) (tmul O) tr s (ord i) (ord j) j (1 + m) dn) (lo i) lowerRowJP (Ok A)) else Ok A) = Ok A1 /\ rh A1 (updN N1 i j x)).
    { destruct (Z.ltb_spec 0 m) as [L|L].
      - rewrite (vget_lo n n2o s HS) by lia. cbn [bind]. apply common_sym; auto; lia.
      - exists A. split; auto. apply (rep_ext n ord (half s) A N1); auto. intros a b _ _.
        destruct (Z.eq_dec a i) as [->|]; [destruct (Z.eq_dec b j) as [->|]|]; [|now rewrite updN_other by auto|now rewrite updN_other by auto].
        rewrite updN_same. subst x. replace (cm i j) with (@nil Z); [symmetry; apply (t_sub0 O LW)|].
        destruct (cm i j) as [|k l] eqn:Ec; auto. exfalso. assert (Ik : In k (cm i j)) by (rewrite Ec; now left).
        apply cm_In in Ik. destruct Ik as (I1 & I2). apply (lo_lt n n2o s HS) in I2; [|lia].
        pose proof (proj1 (sasc_firstn _ _ _ _ Si Ej I1) ltac:(lia)) as I. replace (Z.to_nat m) with 0%nat in I by lia. exact I. }
    destruct E1 as (A1 & -> & R1). cbn [bind]. rewrite (geth A1 _ i _ j R1 Hi Hp). cbn [bind].
    rewrite (geth A1 _ j _ j R1 ltac:(lia) (at_diagh s j)). cbn [bind].
    rewrite updN_same. rewrite (updN_other N1 i j x j j) by lia.
    destruct (puth A1 _ i (1 + m) j (x ** N1 j j) R1 Hi Hp) as (A2 & E2 & R2). exists A2. split; auto.
    exists (updN N1 i j (x ** N1 j j)). split.
    { apply (rep_ext n ord (half s) A2 _ _ R2). intros a b _ _.
      destruct (Z.eq_dec a i) as [->|]; [destruct (Z.eq_dec b j) as [->|]|]; [|now rewrite !updN_other by auto|now rewrite !updN_other by auto].
      now rewrite !updN_same. }
    replace (Z.to_nat (m + 1)) with (S (Z.to_nat m)) by lia. rewrite (firstn_snoc _ _ _ Ej).
    assert (Nj : ~ In j (firstn (Z.to_nat m) (lo i))).
    { intro I. apply (sasc_firstn _ _ _ _ Si Ej) in I; [lia|]. now apply nth_error_In in Ej. }
    split.
    + intros a b H. rewrite in_app_iff in H. rewrite updN_other by (destruct H as [H|H]; [auto|right; intros ->; apply H; right; now left]).
      apply D1. tauto.
    + intros j' I. apply in_app_iff in I.
      assert (Te : forall j', In j' (lo i) -> In j' (firstn (Z.to_nat m) (lo i)) \/ j' = j -> forall y, tsum O (sterm (updN N1 i j y) D i j') (cm i j') = tsum O (sterm N1 D i j') (cm i j')).
      { intros j2 I2 I3 y. apply sum_ext. intros k Ik. apply cm_In in Ik. destruct Ik as (K1 & K2).
        pose proof (lo_lt n n2o s HS i j2 Hi I2). pose proof (lo_lt n n2o s HS i k Hi K1). apply (lo_lt n n2o s HS) in K2; [|lia].
        assert (j2 <= j) by (destruct I3 as [I3| ->]; [apply (sasc_firstn _ _ _ _ Si Ej) in I3; [lia|auto]|lia]).
        unfold sterm. now rewrite !updN_other by lia. }
      assert (I' : In j' (lo i)).
      { destruct I as [I|[<-|[]]]; [|now apply nth_error_In in Ej]. apply In_nth_error in I. destruct I as (q & Eq). rewrite nth_error_firstn in Eq.
        destruct (Nat.ltb _ _); [|discriminate]. now apply nth_error_In in Eq. }
      rewrite Te; auto; [|destruct I as [I|[<-|[]]]; auto].
      destruct I as [I|[<-|[]]].
      * rewrite updN_other by (right; intros ->; auto). now apply D2.
      * rewrite updN_same. subst x. f_equal; [f_equal|]; apply D1; [now right|left; lia].
  - exists A', N'. split; [auto|split; [auto|]]. unfold zlen in D'. rewrite Nat2Z.id, firstn_all in D'. exact D'.
Qed.
Lemma sdiag_loop A N dn D i : rh A N -> pivots dn D i -> 0 <= i < n ->
  exists A', foldM (ldlt_diag T (tsub O) (tmul O) tr s (ord i) (lo i) dn) A (range (zlen (lo i))) = Ok A' /\
    rh A' (updN N i i (N i i -- tsum O (sterm N D i i) (lo i))).
Proof.
  intros R HP Hi.
  destruct (foldM_range (fun m A' => rh A' (updN N i i (N i i -- tsum O (sterm N D i i) (firstn (Z.to_nat m) (lo i)))))
    (ldlt_diag T (tsub O) (tmul O) tr s (ord i) (lo i) dn) (zlen (lo i)) A) as (A' & E & D').
  - unfold zlen. lia.
  - apply (rep_ext n ord (half s) A N); auto. intros a b _ _.
    destruct (Z.eq_dec a i) as [->|]; [destruct (Z.eq_dec b i) as [->|]|]; [|now rewrite updN_other by auto|now rewrite updN_other by auto].
    rewrite updN_same. symmetry. apply (t_sub0 O LW).
  - clear A R. intros m A Hm R.
    destruct (nth_error_lt_Some _ (lo i) (Z.to_nat m)) as (k & Ek); [unfold zlen in Hm; lia|].
    pose proof (lo_lt n n2o s HS i k Hi (nth_error_In _ _ Ek)) as Hk.
    assert (Ev : vget (lo i) m = Ok k) by (apply vget_Ok; split; [lia|auto]).
    unfold ldlt_diag. rewrite Ev. cbn [bind]. rewrite (reord n o2n n2o s HO HS) by lia. cbn [bind].
    assert (Hp : at_ (half s i) (1 + m) k) by (replace m with (Z.of_nat (Z.to_nat m)) by lia; now apply at_half).
    rewrite (geth A _ i _ k R Hi Hp). cbn [bind].
    rewrite (pivots_get dn D i k HP) by lia. cbn [bind].
    rewrite (updN_other N i i _ i k) by lia.
    destruct (subh A _ i 0 i ((N i k ** D k) ** tr (N i k)) R Hi (at_diagh s i)) as (A2 & E3 & R2). exists A2. split; auto.
    apply (rep_ext n ord (half s) A2 _ _ R2). intros a b _ _.
    destruct (Z.eq_dec a i) as [->|]; [destruct (Z.eq_dec b i) as [->|]|]; [|now rewrite !updN_other by auto|now rewrite !updN_other by auto].
    rewrite !updN_same. rewrite (t_subsub O LW). f_equal.
    replace (Z.to_nat (m + 1)) with (S (Z.to_nat m)) by lia. rewrite (firstn_snoc _ _ _ Ek). rewrite (tsum_snoc O LW). reflexivity.
  - exists A'. split; auto. unfold zlen in D'. rewrite Nat2Z.id, firstn_all in D'. exact D'.
Qed.
Definition sdone (M W : Z -> Z -> T) (D : Z -> T) m : Prop :=
  forall i, 0 <= i < m ->
    (forall j, In j (lo i) -> W i j = (M i j -- tsum O (sterm W D i j) (cm i j)) ** W j j) /\
    D i = M i i -- tsum O (sterm W D i i) (lo i) /\ invert (D i) = Ok (W i i).
Lemma sdecompose_ok junk A M : rh A M -> (forall d, invert d <> UB) ->
  outcome (fun R => isDecomposed R = true /\ exists W D, rh (ldu R) W /\ sdone M W D n) (exists d, invert d = Abort)
    (ldlt_decompose T (tsub O) (tmul O) tr invert junk s {| ldu := A; isDecomposed := false |}).
Proof.
  intros R HU. unfold ldlt_decompose. cbn [ldu]. rewrite (h_num _ _ _ HS). pose proof (n_nonneg n n2o s HS) as Hn.
  pose (P := fun m (st : list (list T) * list T) => exists W D, rh (fst st) W /\ pivots (snd st) D m /\ (forall i j, m <= i < n -> W i j = M i j) /\ sdone M W D m).
  assert (G : outcome (P n) (exists d, invert d = Abort) (foldM (ldlt_row T (tsub O) (tmul O) tr invert s) (A, repeat junk (Z.to_nat n)) (range n))).
  { apply foldM_range_outcome; auto.
    - exists M, (fun _ => junk). split; auto. split; [|split; auto].
      + split; [unfold zlen; cbn; rewrite repeat_length; lia|intros; lia].
      + intros i Hi. lia.
    - intros i (A0 & dn) Hi (W & D & RW & HP & W1 & W2). cbn [fst snd] in *. unfold ldlt_row.
      rewrite (reord n o2n n2o s HO HS) by lia. cbn [bind]. rewrite (vget_lo n n2o s HS) by lia. cbn [bind].
      destruct (slow_loop A0 W dn D i RW HP Hi) as (A1 & N1 & -> & R1 & (D1 & D2)). cbn [bind].
      destruct (sdiag_loop A1 N1 dn D i R1 HP Hi) as (A2 & -> & R2). cbn [bind].
      rewrite (geth A2 _ i _ i R2 Hi (at_diagh s i)). cbn [bind]. rewrite updN_same.
      set (Di := N1 i i -- tsum O (sterm N1 D i i) (lo i)) in *.
      pose proof (ord_rng n o2n n2o HO i Hi) as Ho. destruct HP as (Ld & HP). rewrite vset_z by lia. cbn [bind].
      destruct (invert Di) as [e| |] eqn:Ei; cbn [bind outcome]; [|eauto|exact (HU _ Ei)].
      destruct (puth A2 _ i 0 i e R2 Hi (at_diagh s i)) as (A3 & -> & R3). cbn [bind outcome].
      exists (updN N1 i i e), (fun k => if k =? i then Di else D k). cbn [fst snd].
      assert (Lo : forall j, In j (lo i) -> 0 <= j < i) by (intro; now apply (lo_lt n n2o s HS)).
      split; [|split; [|split]].
      + apply (rep_ext n ord (half s) A3 _ _ R3). intros a b _ _.
        destruct (Z.eq_dec a i) as [->|]; [destruct (Z.eq_dec b i) as [->|]|]; [|now rewrite !updN_other by auto|now rewrite !updN_other by auto].
        now rewrite !updN_same.
      + split; [now rewrite zlen_upd_|]. intros k Hk. rewrite nth_error_upd. unfold zlen in Ld.
        destruct (Z.eqb_spec k i) as [->|Nk].
        * rewrite Nat.eqb_refl. destruct (Nat.ltb_spec (Z.to_nat (ord i)) (length dn)); [auto|lia].
        * pose proof (ord_rng n o2n n2o HO k ltac:(lia)). destruct (Nat.eqb_spec (Z.to_nat (ord i)) (Z.to_nat (ord k))) as [E|E]; [|apply HP; lia].
          exfalso. apply Nk. apply (ord_inj n o2n n2o HO); lia.
      + intros a b Ha. rewrite updN_other by lia. rewrite D1 by (left; lia). apply W1. lia.
      + intros a Ha. destruct (Z.eq_dec a i) as [->|Na].
        * assert (Te : forall a b l, (forall k, In k l -> k < i) -> tsum O (sterm (updN N1 i i e) (fun k => if k =? i then Di else D k) a b) l = tsum O (sterm N1 D a b) l).
          { intros a b l Hl. apply sum_ext. intros k Ik. apply Hl in Ik. unfold sterm. rewrite !updN_other by lia. destruct (Z.eqb_spec k i); [lia|auto]. }
          split; [|split].
          -- intros j Ij. pose proof (Lo j Ij). rewrite Te by (intros k Ik; apply cm_In in Ik; destruct Ik as (Ik & _); apply Lo in Ik; lia).
             rewrite !updN_other by lia. rewrite D2 by auto. rewrite (W1 i j) by lia. rewrite (D1 j j) by (left; lia). reflexivity.
          -- rewrite Z.eqb_refl. rewrite Te by (intros k Ik; apply Lo in Ik; lia). subst Di. f_equal. rewrite D1; [apply W1; lia|]. right. intro I. apply Lo in I. lia.
          -- now rewrite Z.eqb_refl, updN_same.
        * destruct (W2 a ltac:(lia)) as (C1 & C2 & C3).
          assert (La : forall j, In j (lo a) -> 0 <= j < a) by (intro; apply (lo_lt n n2o s HS); lia).
          assert (Te : forall b l, b < i -> (forall k, In k l -> k < i) -> tsum O (sterm (updN N1 i i e) (fun k => if k =? i then Di else D k) a b) l = tsum O (sterm W D a b) l).
          { intros b l Hb Hl. apply sum_ext. intros k Ik. apply Hl in Ik. unfold sterm. rewrite !updN_other by lia. rewrite !D1 by (left; lia). destruct (Z.eqb_spec k i); [lia|auto]. }
          split; [|split].
          -- intros j Ij. pose proof (La j Ij). rewrite Te by (try lia; intros k Ik; apply cm_In in Ik; destruct Ik as (Ik & _); apply La in Ik; lia).
             rewrite !updN_other by lia. rewrite !D1 by (left; lia). auto.
          -- destruct (Z.eqb_spec a i); [lia|]. rewrite Te by (try lia; intros k Ik; apply La in Ik; lia). auto.
          -- destruct (Z.eqb_spec a i); [lia|]. rewrite updN_other by lia. rewrite D1 by (left; lia). auto. }
  destruct (foldM _ _ (range n)) as [(A' & dn)| |]; cbn [outcome bind] in *; auto. split; [reflexivity|]. cbn [ldu fst].
  destruct G as (W & D & RW & _ & _ & G). exists W, D. auto.
Qed.

(** ** The upper factor *)
Lemma tr0 : tr (t0 O) = t0 O.
Proof. apply (g_idem T (t0 O) (tadd O) (topp O)); try apply LW. rewrite <- (trD O tr HT), (tadd0 O LW). reflexivity. Qed.
Lemma tr1 : tr (t1 O) = t1 O.
Proof.
  assert (E : tr (tr (t1 O)) = tr (tr (t1 O) ** t1 O)) by (now rewrite (tmul1r O LW)).
  rewrite (trM O tr HT), !(trI O tr HT) in E. rewrite (tmul1r O LW) in E. auto.
Qed.
Lemma tr_sub a b : tr (a -- b) = tr a -- tr b.
Proof. apply (t_cancel O LW _ _ (tr b)). rewrite <- (trD O tr HT), !(t_subK O LW). reflexivity. Qed.
Lemma tr_sum {I} (f : I -> T) l : tr (tsum O f l) = tsum O (fun i => tr (f i)) l.
Proof. apply (sum_hom _ _ _ _ _ tr); [apply tr0|apply (trD O tr HT)]. Qed.

Section Factors.
Variables (M W : Z -> Z -> T) (D : Z -> T).
Hypothesis HM : forall i j, 0 <= i < n -> 0 <= j < n -> M j i = tr (M i j).
Hypothesis HD : sdone M W D n.
Lemma D_sym i : 0 <= i < n -> tr (D i) = D i.
Proof.
  intros Hi. assert (G : forall m, 0 <= m -> forall k, 0 <= k < m -> k < n -> tr (D k) = D k).
  { intros m Hm. pattern m. apply natlike_ind; auto; [intros; lia|]. intros x Hx IH k Hk Hkn. destruct (HD k ltac:(lia)) as (_ & E & _). rewrite E.
    rewrite tr_sub, tr_sum. rewrite <- HM by lia. f_equal. apply sum_ext. intros a Ia. apply (lo_lt n n2o s HS) in Ia; [|lia].
    unfold sterm. rewrite !(trM O tr HT), (trI O tr HT), (tmulA O LW). rewrite IH by lia. reflexivity. }
  apply (G n); lia.
Qed.
Definition W2 i j : T := if j <=? i then W i j else D i ** tr (W j i).
Lemma W2_low i j : j <= i -> W2 i j = W i j.
Proof. intro H. unfold W2. destruct (Z.leb_spec j i); [auto|lia]. Qed.
Lemma W2_upp i j : i < j -> W2 i j = D i ** tr (W j i).
Proof. intro H. unfold W2. destruct (Z.leb_spec j i); [lia|auto]. Qed.
Lemma term2 i j k : k < i -> k < j -> term O W2 i j k = sterm W D i j k.
Proof. intros H1 H2. unfold term, sterm. rewrite W2_low, W2_upp by lia. apply LW. Qed.
Lemma factors2 : factors O invert n s M W2 D.
Proof.
  constructor.
  - intros i j Hi Ij. pose proof (lo_lt n n2o s HS i j Hi Ij). destruct (HD i Hi) as (E & _). rewrite !W2_low by lia. rewrite E by auto. do 2 f_equal.
    apply sum_ext. intros k Ik. apply (cm_rng n n2o s HS) in Ik; [|lia|lia]. symmetry. apply term2; lia.
  - intros i Hi. destruct (HD i Hi) as (_ & E1 & E2). rewrite W2_low by lia. split; auto. rewrite E1 at 1. f_equal. apply sum_ext.
    intros k Ik. apply (lo_lt n n2o s HS) in Ik; auto. symmetry. apply term2; lia.
  - intros i j Hi Ij. pose proof (up_lt n n2o s HS i j Hi Ij) as Hj. rewrite W2_upp by lia. apply (lo_up n n2o s HS) in Ij; try lia.
    destruct (HD j ltac:(lia)) as (E & _). rewrite E by auto. rewrite (trM O tr HT), (tmulA O LW).
    destruct (HD i Hi) as (_ & _ & E2). destruct (HI _ _ E2) as (_ & E3).
    assert (E4 : D i ** tr (W i i) = t1 O).
    { rewrite <- (D_sym i Hi) at 1. rewrite <- (trM O tr HT), E3. apply tr1. }
    rewrite E4, (tmul1l O LW), tr_sub, tr_sum. rewrite <- HM by lia. f_equal.
    unfold tsum. rewrite (sum_perm T (t0 O) (tadd O)) with (m := cm i j); [|apply LW|apply LW|].
    + apply sum_ext. intros k Ik. apply (cm_rng n n2o s HS) in Ik; [|lia|lia]. rewrite term2 by lia. unfold sterm.
      rewrite !(trM O tr HT), (trI O tr HT), (tmulA O LW). rewrite D_sym by lia. reflexivity.
    + apply NoDup_Permutation; [apply (cm_nd n n2o s HS); lia|apply (cm_nd n n2o s HS); lia|]. intro k. rewrite !cm_In. tauto.
Qed.

(** ** The substitutions *)
Lemma scale_ok A y Y : rh A W -> rv y Y ->
  exists y', foldM (ldlt_scale_row T V (act O) A) y (range n) = Ok y' /\ rv y' (fun i => act O (W i i) (Y i)).
Proof.
  intros R RY. pose proof (n_nonneg n n2o s HS) as Hn.
  destruct (foldM_range (fun m y' => rv y' (fun a => if ord a <? m then act O (W a a) (Y a) else Y a)) (ldlt_scale_row T V (act O) A) n y) as (y' & E & R'); auto.
  - apply (repv_ext O n n2o _ _ _ RY). intros a Ha. pose proof (ord_rng n o2n n2o HO a Ha). destruct (Z.ltb_spec (ord a) 0); [lia|auto].
  - clear y RY. intros i y Hi RY. destruct (old_new n o2n n2o HO i Hi) as (a & Ha & <-). unfold ldlt_scale_row.
    rewrite (geth A W a 0 a R Ha (at_diagh s a)). cbn [bind]. rewrite (repv_get O n o2n n2o HO y _ a RY Ha). cbn [bind].
    destruct (Z.ltb_spec (ord a) (ord a)); [lia|].
    destruct (repv_set O n o2n n2o HO y _ a (act O (W a a) (Y a)) RY Ha) as (y' & E & R'). exists y'. split; auto.
    apply (repv_ext O n n2o _ _ _ R'). intros c Hc. destruct (Z.eq_dec c a) as [->|Nc].
    + rewrite updV_same. destruct (Z.ltb_spec (ord a) (ord a + 1)); [auto|lia].
    + rewrite updV_other by auto. assert (ord c <> ord a) by (intro E'; apply Nc; now apply (ord_inj n o2n n2o HO)).
      destruct (Z.ltb_spec (ord c) (ord a)), (Z.ltb_spec (ord c) (ord a + 1)); auto; lia.
  - exists y'. split; auto. apply (repv_ext O n n2o _ _ _ R'). intros a Ha. pose proof (ord_rng n o2n n2o HO a Ha). destruct (Z.ltb_spec (ord a) n); [auto|lia].
Qed.
Lemma sbackward_ok A y Y : rh A W -> rv y Y ->
  exists x X, foldM (ldlt_backward_row T V tr (act O) (vsub O) s A) y (rev (range n)) = Ok x /\ rv x X /\
    forall i, 0 <= i < n -> X i = vsub O (Y i) (vsum O (fun j => act O (tr (W j i)) (X j)) (up i)).
Proof.
  intros R RY. pose proof (n_nonneg n n2o s HS) as Hn.
  destruct (foldM_down (fun m x => exists X, rv x X /\ (forall i, 0 <= i < m -> X i = Y i) /\ 
      forall i, m <= i < n -> X i = vsub O (Y i) (vsum O (fun j => act O (tr (W j i)) (X j)) (up i)))
    (ldlt_backward_row T V tr (act O) (vsub O) s A) n y) as (x & E & X & RX & _ & HX); auto.
  - exists Y. split; auto. split; auto. intros i Hi. lia.
  - clear y RY. intros i y Hi (X & RX & H1 & H2). unfold ldlt_backward_row. rewrite (reord n o2n n2o s HO HS) by auto. cbn [bind].
    rewrite (vget_up n n2o s HS) by auto. cbn [bind].
    destruct (h_len _ _ _ HS) as (_ & _ & _ & _ & _ & L6). rewrite (vget_row (uppInLow s) i) by lia. cbn [bind].
    match goal with |- context [foldM ?f y _] => destruct (sub_loop O LW n o2n n2o HO f y _ i (fun j => tr (W j i)) (up i) RX Hi) as (y2 & E2 & R2) end.
    + intros j Ij. apply (up_lt n n2o s HS) in Ij; auto. lia.
    + intros y0 p j Ej. pose proof (up_lt n n2o s HS i j Hi (nth_error_In _ _ Ej)) as Hj.
      rewrite (vget_of_nat _ (up i) p j Ej). cbn [bind]. rewrite (reord n o2n n2o s HO HS) by lia. cbn [bind].
      destruct (uil_ok n n2o s HS i p j Hi Ej) as (q & Eq & El). rewrite (vget_row (uppInLow s) i) in El by lia. cbn [bind] in El. rewrite El. cbn [bind].
      replace (Z.of_nat q =? -1) with false by (symmetry; apply Z.eqb_neq; lia). cbn [negb assert_ bind].
      rewrite (geth A W j _ i R ltac:(lia) (at_half s j q i Eq)). reflexivity.
    + exists y2. split; auto. eexists. split; [exact R2|]. split.
      * intros a Ha. rewrite !updV_other by lia. apply H1. lia.
      * intros a Ha.
        assert (Sm : forall l v, (forall j, In j l -> i < j) -> vsum O (fun j => act O (tr (W j a)) (updV X i v j)) l = vsum O (fun j => act O (tr (W j a)) (X j)) l).
        { intros l v Hl. apply sum_ext. intros j Ij. apply Hl in Ij. now rewrite !updV_other by lia. }
        assert (La : forall j, In j (up a) -> i < j) by (intros j Ij; apply (up_lt n n2o s HS) in Ij; lia).
        rewrite Sm by auto. destruct (Z.eq_dec a i) as [->|].
        -- rewrite !updV_same. rewrite (H1 i) by lia. reflexivity.
        -- rewrite !updV_other by auto. apply H2. lia.
  - exists x, X. split; [auto|split; auto].
Qed.
Lemma act_sub a x y : act O a (vsub O x y) = vsub O (act O a x) (act O a y).
Proof.
  apply (g_cancel V (v0 O) (vadd O) (vopp O)) with (c := act O a y); try apply LW. rewrite (v_subK O LW). rewrite <- (actDr O LW), (v_subK O LW). reflexivity.
Qed.
Lemma LDLT_solves A b y : rh A W -> zlen b = n -> zlen y = n ->
  exists x X, ldlt_solve T V tr (act O) (vsub O) s {| ldu := A; isDecomposed := true |} b y = Ok x /\ rv x X /\
    forall i, 0 <= i < n -> vsum O (fun j => act O (LU O n s W2 D i j) (X j)) (range n) = nth (Z.to_nat (ord i)) b (v0 O).
Proof.
  intros R Lb Ly. unfold ldlt_solve. cbn [isDecomposed assert_ bind ldu]. rewrite (h_num _ _ _ HS).
  destruct (forward_ok O LW n o2n n2o s HO HS (half s) A W b _ y R (fun i p j _ E => at_half s i p j E) (repv_refl O n n2o b Lb) Ly) as (y1 & Y & -> & RY & HY). cbn [bind].
  destruct (scale_ok A y1 Y R RY) as (y2 & -> & R2). cbn [bind].
  destruct (sbackward_ok A y2 _ R R2) as (x & X & E & RX & HX). exists x, X. split; auto. split; auto.
  intros i Hi. unfold LU. rewrite (product_assoc O LW).
  transitivity (vsum O (fun k => act O (Lm O s W2 i k) (Y k)) (range n)).
  - apply sum_ext. intros k Ik. apply range_In in Ik. f_equal. apply (U_solves O LW invert HI n n2o s HS M W2 D factors2); auto.
    rewrite HX by auto. rewrite act_sub. rewrite W2_low by lia. f_equal. rewrite (act_sum O LW). apply sum_ext. intros j Ij. apply (up_lt n n2o s HS) in Ij; auto.
    rewrite W2_upp by lia. rewrite <- !(actM O LW). rewrite (tmulA O LW). destruct (HD k Ik) as (_ & _ & E2). destruct (HI _ _ E2) as (_ & ->). now rewrite (tmul1l O LW).
  - apply (L_solves O LW n n2o s HS W2 (fun i => nth (Z.to_nat (ord i)) b (v0 O)) Y i Hi). rewrite HY by auto. f_equal. apply sum_ext. intros j Ij.
    apply (lo_lt n n2o s HS) in Ij; auto. now rewrite W2_low by lia.
Qed.
End Factors.

(** ** The solver *)
Lemma stored_sym_rep A M : stored_sym O tr s A M -> rh A (fun i j => M (ord i) (ord j)).
Proof.
  intros (L & R & _). rewrite (h_num _ _ _ HS) in *. split; auto. intros i Hi. rewrite R by (now apply (ord_rng n o2n n2o HO)).
  unfold half. cbn [map]. f_equal. unfold LUElim.ord at 2. rewrite (h_lowOld _ _ _ HS) by auto. now rewrite map_map.
Qed.
Lemma ssolve_ok junk A M F : (forall d, invert d <> UB) -> stored_sym O tr s A M ->
  ldlt_decompose T (tsub O) (tmul O) tr invert junk s {| ldu := A; isDecomposed := false |} = Ok F ->
  exists P : Z -> Z -> T,
    (forall i j, 0 <= i < n -> In j (old_slots s i) -> P i j = M i j) /\
    ((forall k i j, 0 <= i < n -> 0 <= j < i -> In k (lo i) -> In k (lo j) -> In j (lo i)) -> vanishes O s M ->
       forall i j, 0 <= i < n -> 0 <= j < n -> P i j = M i j) /\
    forall b y, zlen b = n -> zlen y = n ->
      exists x, ldlt_solve T V tr (act O) (vsub O) s F b y = Ok x /\ zlen x = n /\
        (forall i, 0 <= i < n -> product O n P x i = nth (Z.to_nat i) b (v0 O)) /\
        (forall z, zlen z = n -> (forall i, 0 <= i < n -> product O n P z i = nth (Z.to_nat i) b (v0 O)) -> z = x).
Proof.
  intros HU HA HDc. pose proof (stored_sym_rep A M HA) as R.
  pose proof (sdecompose_ok junk A _ R HU) as Ho. rewrite HDc in Ho. destruct Ho as (Fd & W & D & RW & HF0).
  assert (HM : forall i j, 0 <= i < n -> 0 <= j < n -> M (ord j) (ord i) = tr (M (ord i) (ord j))).
  { intros i j Hi Hj. destruct HA as (_ & _ & HA). rewrite (h_num _ _ _ HS) in HA. apply HA; now apply (ord_rng n o2n n2o HO). }
  pose proof (factors2 _ W D HM HF0) as HF. set (W' := W2 W D) in *.
  destruct F as (A' & dec). cbn [isDecomposed ldu] in *. subst dec.
  assert (Hw : forall a, 0 <= a < n -> place o2n (ord a) = a) by (intros a Ha; apply (o_old _ _ _ HO); auto).
  assert (On : forall a, 0 <= a < n -> forall j, In j (old_slots s (ord a)) -> exists b, j = ord b /\ 0 <= b < n /\ In b (slots s a)).
  { intros a Ha j Ij. rewrite (old_slots_ord n n2o s HS) in Ij by auto. apply in_map_iff in Ij. destruct Ij as (b & <- & Ib). exists b. split; auto. split; auto. now apply (slots_rng n n2o s HS a). }
  exists (fun i j => LU O n s W' D (place o2n i) (place o2n j)). split; [|split].
  - intros i j Hi Ij. destruct (old_new n o2n n2o HO i Hi) as (a & Ha & <-). destruct (On a Ha j Ij) as (b & -> & Hb & Ib). rewrite !Hw by auto.
    rewrite (LU_on O LW invert HI n n2o s HS _ W' D HF); auto.
  - intros HC HV i j Hi Hj. destruct (old_new n o2n n2o HO i Hi) as (a & Ha & <-). destruct (old_new n o2n n2o HO j Hj) as (b & Hb & <-). rewrite !Hw by auto.
    destruct (in_dec Z.eq_dec b (slots s a)) as [I|I]; [now rewrite (LU_on O LW invert HI n n2o s HS _ W' D HF)|].
    rewrite (LU_off O LW n n2o s HS W' D a b Ha Hb I). unfold vanishes in HV. rewrite (h_num _ _ _ HS) in HV. rewrite HV; auto.
    + destruct (cm a b) as [|k l] eqn:Ec; [reflexivity|]. exfalso. assert (Ik : In k (cm a b)) by (rewrite Ec; now left). apply cm_In in Ik.
      destruct Ik as (I1 & I2). destruct (Z.lt_trichotomy a b) as [L|[L|L]].
      * apply I. right. apply in_app_iff. right. apply (lo_up n n2o s HS); auto. apply (HC k b a); auto. lia.
      * apply I. now left.
      * apply I. right. apply in_app_iff. left. apply (HC k a b); auto. lia.
    + change (~ In (ord b) (old_slots s (ord a))). now rewrite (in_old_slots n o2n n2o s HO HS).
  - intros b y Lb Ly. destruct (LDLT_solves _ W D HM HF0 A' b y RW Lb Ly) as (x & X & E & (Lx & RX) & HX).
    exists x. split; auto. split; auto.
    assert (Pr : forall z i, 0 <= i < n -> zlen z = n -> product O n (fun i j => LU O n s W' D (place o2n i) (place o2n j)) z (ord i) =
      vsum O (fun j => act O (LU O n s W' D i j) (nth (Z.to_nat (ord j)) z (v0 O))) (range n)).
    { intros z i Hi Lz. rewrite (product_new O LW n o2n n2o HO _ z _ i (repv_refl O n n2o z Lz)). apply sum_ext. intros j Ij. apply range_In in Ij. now rewrite !Hw. }
    split.
    + intros i Hi. destruct (old_new n o2n n2o HO i Hi) as (a & Ha & <-). rewrite Pr by auto. rewrite <- HX by auto.
      apply sum_ext. intros j Ij. apply range_In in Ij. now rewrite RX.
    + intros z Lz Hz. apply nth_ext with (d := v0 O) (d' := v0 O); [unfold zlen in *; lia|]. intros p Hp.
      destruct (old_new n o2n n2o HO (Z.of_nat p)) as (a & Ha & Ea); [unfold zlen in *; lia|].
      replace p with (Z.to_nat (ord a)) by lia. rewrite RX by auto.
      apply (LU_unique O LW n n2o s HS invert HI _ W' D HF (fun a => nth (Z.to_nat (ord a)) z (v0 O)) X); auto. intros i Hi.
      rewrite HX by auto. rewrite <- Hz by (now apply (ord_rng n o2n n2o HO)). now rewrite Pr.
Qed.
End LDLT.
