(** The elimination loops of the LU factorization, in the elimination order. *)
From Coq Require Import List ZArith Lia Bool Permutation.
From Verif Require Import Base.Prelude Base.PreludeFacts DNDS.DefinesModel DNDS.DefinesSpec DNDS.DefinesProofs
  Solver.DirectModel Solver.DirectSpec Solver.DirectProofs Solver.DirectMore Solver.LUModel Solver.LUSpec Solver.LUProofs.
Import ListNotations.
Local Open Scope Z_scope.

Section Ring.
Context {T V : Type} (O : ops T V) (LW : laws O).
Definition tsum {I} (f : I -> T) l := sum (t0 O) (tadd O) f l.
Definition vsum {I} (f : I -> V) l := sum (v0 O) (vadd O) f l.
Lemma t_subK a b : tadd O (tsub O a b) b = a.
Proof. apply (g_subK T (t0 O)); apply LW. Qed.
Lemma t_sub0 a : tsub O a (t0 O) = a.
Proof. apply (g_sub0 T (t0 O)); apply LW. Qed.
Lemma t_subsub a b c : tsub O (tsub O a b) c = tsub O a (tadd O b c).
Proof. apply (g_sub_add T (t0 O)); apply LW. Qed.
Lemma t_cancel a b c : tadd O a c = tadd O b c -> a = b.
Proof. apply (g_cancel T (t0 O) _ (topp O)); apply LW. Qed.
Lemma t_add0r a : tadd O a (t0 O) = a.
Proof. rewrite (taddC O LW). apply LW. Qed.
Lemma t_mul0l a : tmul O (t0 O) a = t0 O.
Proof. apply (g_idem T (t0 O) (tadd O) (topp O)); try apply LW. rewrite <- (tmulDl O LW), (tadd0 O LW). reflexivity. Qed.
Lemma t_mul0r a : tmul O a (t0 O) = t0 O.
Proof. apply (g_idem T (t0 O) (tadd O) (topp O)); try apply LW. rewrite <- (tmulDr O LW), (tadd0 O LW). reflexivity. Qed.
Lemma v_subK a b : vadd O (vsub O a b) b = a.
Proof. apply (g_subK V (v0 O)); apply LW. Qed.
Lemma v_sub0 a : vsub O a (v0 O) = a.
Proof. apply (g_sub0 V (v0 O)); apply LW. Qed.
Lemma v_subsub a b c : vsub O (vsub O a b) c = vsub O a (vadd O b c).
Proof. apply (g_sub_add V (v0 O)); apply LW. Qed.
Lemma v_add0r a : vadd O a (v0 O) = a.
Proof. rewrite (vaddC O LW). apply LW. Qed.
Lemma act0 x : act O (t0 O) x = v0 O.
Proof. apply (g_idem V (v0 O) (vadd O) (vopp O)); try apply LW. rewrite <- (actDl O LW), (tadd0 O LW). reflexivity. Qed.
Lemma act_v0 a : act O a (v0 O) = v0 O.
Proof. apply (g_idem V (v0 O) (vadd O) (vopp O)); try apply LW. rewrite <- (actDr O LW), (vadd0 O LW). reflexivity. Qed.
Lemma tmul_sub a b c : tmul O (tsub O a b) c = tsub O (tmul O a c) (tmul O b c).
Proof.
  apply (t_cancel _ _ (tmul O b c)). rewrite t_subK, <- (tmulDl O LW), t_subK. reflexivity.
Qed.
Lemma act_sum {I} a (f : I -> V) l : act O a (vsum f l) = vsum (fun i => act O a (f i)) l.
Proof. apply (sum_hom _ _ _ _ _ (act O a)); [apply act_v0|intros; apply LW]. Qed.
Lemma sum_act {I} (f : I -> T) x l : act O (tsum f l) x = vsum (fun i => act O (f i) x) l.
Proof. apply (sum_hom _ _ _ _ _ (fun a => act O a x)); [apply act0|intros; apply LW]. Qed.
Lemma sum_mul {I} (f : I -> T) x l : tmul O (tsum f l) x = tsum (fun i => tmul O (f i) x) l.
Proof. apply (sum_hom _ _ _ _ _ (fun a => tmul O a x)); [apply t_mul0l|intros; apply LW]. Qed.
Lemma fold_sub {I} (f : I -> T) l : forall a, fold_left (fun a i => tsub O a (f i)) l a = tsub O a (tsum f l).
Proof.
  induction l as [|x l IH]; intro a; cbn [fold_left].
  - symmetry. apply t_sub0.
  - rewrite IH, t_subsub. reflexivity.
Qed.
Lemma fold_subv {I} (f : I -> V) l : forall a, fold_left (fun a i => vsub O a (f i)) l a = vsub O a (vsum f l).
Proof.
  induction l as [|x l IH]; intro a; cbn [fold_left].
  - symmetry. apply v_sub0.
  - rewrite IH, v_subsub. reflexivity.
Qed.
Lemma fold_addv {I} (f : I -> V) l : forall a, fold_left (fun a i => vadd O a (f i)) l a = vadd O a (vsum f l).
Proof.
  induction l as [|x l IH]; intro a; cbn [fold_left].
  - symmetry. apply v_add0r.
  - rewrite IH, <- (vaddA O LW). reflexivity.
Qed.
End Ring.

(** ** Facts of the structure *)
Section Str.
Context (n : Z) (o2n n2o : list Z) (s : symlu) (HO : ordering_ok n o2n n2o) (HS : shape n n2o s).
Definition lo i := row (lowNew s) i.
Definition up i := row (uppNew s) i.
Definition ord i := place n2o i.
Lemma n_nonneg : 0 <= n.
Proof. destruct (h_len _ _ _ HS) as (L & _). rewrite <- L. unfold zlen. lia. Qed.
Lemma ord_rng i : 0 <= i < n -> 0 <= ord i < n.
Proof. apply (o_rng n o2n n2o HO). Qed.
Lemma ord_inj i j : 0 <= i < n -> 0 <= j < n -> ord i = ord j -> i = j.
Proof. apply (o_inj n o2n n2o HO). Qed.
Lemma reord i : 0 <= i < n -> reorder (new2old s) i = Ok (ord i).
Proof. rewrite (h_n2o _ _ _ HS). apply (reorder_n2o n o2n n2o HO). Qed.
Lemma vget_lo i : 0 <= i < n -> vget (lowNew s) i = Ok (lo i).
Proof. intro H. apply vget_row. destruct (h_len _ _ _ HS) as (-> & _). auto. Qed.
Lemma vget_up i : 0 <= i < n -> vget (uppNew s) i = Ok (up i).
Proof. intro H. apply vget_row. destruct (h_len _ _ _ HS) as (_ & -> & _). auto. Qed.
Lemma vget_lowOld i : 0 <= i < n -> vget (lowOld s) (ord i) = Ok (map ord (lo i)).
Proof.
  intro H. rewrite vget_row; [f_equal; apply (h_lowOld _ _ _ HS); auto|].
  destruct (h_len _ _ _ HS) as (_ & _ & -> & _). now apply ord_rng.
Qed.
Lemma vget_uppOld i : 0 <= i < n -> vget (uppOld s) (ord i) = Ok (map ord (up i)).
Proof.
  intro H. rewrite vget_row; [f_equal; apply (h_uppOld _ _ _ HS); auto|].
  destruct (h_len _ _ _ HS) as (_ & _ & _ & -> & _). now apply ord_rng.
Qed.
Lemma upper_off_ok i : 0 <= i < n -> upper_off s (ord i) = Ok (1 + zlen (lo i)).
Proof. intro H. unfold upper_off. rewrite vget_lowOld by auto. cbn [bind]. now rewrite zlen_map. Qed.
Lemma lo_lt i j : 0 <= i < n -> In j (lo i) -> 0 <= j < i.
Proof. apply (h_lowlt _ _ _ HS). Qed.
Lemma up_lt i j : 0 <= i < n -> In j (up i) -> i < j < n.
Proof. apply (h_upplt _ _ _ HS). Qed.
Lemma lo_sasc i : 0 <= i < n -> sasc (lo i).
Proof. apply (h_low _ _ _ HS). Qed.
Lemma up_sasc i : 0 <= i < n -> sasc (up i).
Proof. apply (h_upp _ _ _ HS). Qed.
Lemma lo_up i j : 0 <= i < n -> 0 <= j < n -> (In j (lo i) <-> In i (up j)).
Proof. apply (h_tr _ _ _ HS). Qed.
Definition slots i := i :: lo i ++ up i.
Lemma slots_nd i : 0 <= i < n -> NoDup (slots i).
Proof.
  intro H. constructor.
  - rewrite in_app_iff. intros [I|I]; [apply lo_lt in I|apply up_lt in I]; auto; lia.
  - apply NoDup_app_; [now apply sasc_NoDup, lo_sasc|now apply sasc_NoDup, up_sasc|].
    intros x I1 I2. apply lo_lt in I1; auto. apply up_lt in I2; auto. lia.
Qed.
Definition half i := i :: lo i.
Lemma half_nd i : 0 <= i < n -> NoDup (half i).
Proof.
  intro H. constructor; [intro I; apply lo_lt in I; auto; lia|now apply sasc_NoDup, lo_sasc].
Qed.
Lemma at_lo i p j : nth_error (lo i) p = Some j -> at_ (slots i) (1 + Z.of_nat p) j.
Proof.
  intro E. split; [lia|]. replace (Z.to_nat (1 + Z.of_nat p)) with (S p) by lia. cbn. rewrite nth_error_app1; auto. apply nth_error_Some. congruence.
Qed.
Lemma at_half i p j : nth_error (lo i) p = Some j -> at_ (half i) (1 + Z.of_nat p) j.
Proof. intro E. split; [lia|]. replace (Z.to_nat (1 + Z.of_nat p)) with (S p) by lia. exact E. Qed.
Lemma at_up i p j : nth_error (up i) p = Some j -> at_ (slots i) (1 + zlen (lo i) + Z.of_nat p) j.
Proof.
  intro E. unfold zlen. split; [lia|]. replace (Z.to_nat (1 + Z.of_nat (length (lo i)) + Z.of_nat p)) with (S (length (lo i) + p)) by lia.
  cbn. rewrite nth_error_app2 by lia. rewrite <- E. f_equal. lia.
Qed.
Lemma at_diag i : at_ (slots i) 0 i.
Proof. split; [lia|reflexivity]. Qed.
Lemma at_diagh i : at_ (half i) 0 i.
Proof. split; [lia|reflexivity]. Qed.
(** the position of the transposed entry *)
Lemma liu_ok j p k : 0 <= j < n -> nth_error (lo j) p = Some k ->
  exists q, nth_error (up k) q = Some j /\ (do r <- vget (lowInUpp s) j; vget r (Z.of_nat p)) = Ok (Z.of_nat q).
Proof.
  intros Hj E. destruct (Forall2_nth_l _ _ _ _ _ (h_liu _ _ _ HS j Hj) E) as (q & Eq & (Hq & Ea)).
  exists (Z.to_nat q). split; [exact Ea|]. rewrite vget_row; [|destruct (h_len _ _ _ HS) as (_ & _ & _ & _ & -> & _); auto].
  cbn [bind]. rewrite Z2Nat.id by auto. now apply vget_of_nat.
Qed.
Lemma uil_ok j p k : 0 <= j < n -> nth_error (up j) p = Some k ->
  exists q, nth_error (lo k) q = Some j /\ (do r <- vget (uppInLow s) j; vget r (Z.of_nat p)) = Ok (Z.of_nat q).
Proof.
  intros Hj E. destruct (Forall2_nth_l _ _ _ _ _ (h_uil _ _ _ HS j Hj) E) as (q & Eq & (Hq & Ea)).
  exists (Z.to_nat q). split; [exact Ea|]. rewrite vget_row; [|destruct (h_len _ _ _ HS) as (_ & _ & _ & _ & _ & ->); auto].
  cbn [bind]. rewrite Z2Nat.id by auto. now apply vget_of_nat.
Qed.
Definition cm i j := common (lo i) (lo j).
Lemma cm_In i j k : In k (cm i j) <-> In k (lo i) /\ In k (lo j).
Proof. apply common_In. Qed.
Lemma cm_nd i j : 0 <= i < n -> NoDup (cm i j).
Proof. intro H. apply NoDup_filter. now apply sasc_NoDup, lo_sasc. Qed.
Lemma matches_cm i j : 0 <= i < n -> 0 <= j < n -> map (fun m => fst (fst m)) (matches (lo i) (lo j)) = cm i j.
Proof. intros Hi Hj. apply matches_keys; now apply lo_sasc. Qed.
End Str.

(** a visitor that never stops *)
Lemma visit_inv {S} (P : list Z -> S -> Prop) (F : S -> Z -> nat -> nat -> S * bool) ms s : P [] s ->
  (forall d k p q s, In (k, p, q) ms -> P d s -> snd (F s k p q) = false /\ P (d ++ [k]) (fst (F s k p q))) ->
  P (map (fun m => fst (fst m)) ms) (snd (visit F ms s)).
Proof.
  intros H0 Hs.
  assert (G : forall r d s, incl r ms -> P d s -> P (d ++ map (fun m => fst (fst m)) r) (snd (visit F r s))).
  { induction r as [|((k & p) & q) r IH]; intros d s1 Hi H; cbn [visit map fst].
    - now rewrite app_nil_r.
    - destruct (Hs d k p q s1) as (E1 & H1); [apply Hi; now left|auto|]. destruct (F s1 k p q) as (s2 & b). cbn [fst snd] in *. subst b.
      specialize (IH (d ++ [k]) s2). rewrite <- app_assoc in IH. apply IH; auto. intros x Hx. apply Hi. now right. }
  apply (G ms []); auto. apply incl_refl.
Qed.

(** ** LU *)
Section LU.
Context {T V : Type} (O : ops T V) (LW : laws O) (invert : T -> res T).
Context (n : Z) (o2n n2o : list Z) (s : symlu) (HO : ordering_ok n o2n n2o) (HS : shape n n2o s).
Notation rp := (rep n (ord n2o) (slots s)).
Notation "a ** b" := (tmul O a b) (at level 40, left associativity).
Notation "a -- b" := (tsub O a b) (at level 50, left associativity).
Lemma get A (N : Z -> Z -> T) i p j : rp A N -> 0 <= i < n -> at_ (slots s i) p j -> getE T A (ord n2o i) p = Ok (N i j).
Proof. apply rep_get. apply (ord_rng n o2n n2o HO). Qed.
Lemma put A (N : Z -> Z -> T) i p j x : rp A N -> 0 <= i < n -> at_ (slots s i) p j -> exists A', putE T A (ord n2o i) p x = Ok A' /\ rp A' (updN N i j x).
Proof. apply rep_put; [apply (ord_rng n o2n n2o HO)|apply (ord_inj n o2n n2o HO)|apply (slots_nd n n2o s HS)]. Qed.

Definition term (N : Z -> Z -> T) i j k := N i k ** N k j.

Lemma rep_sub A N i p j x : rp A N -> 0 <= i < n -> at_ (slots s i) p j ->
  exists A', subE T (tsub O) A (ord n2o i) p x = Ok A' /\ rp A' (updN N i j (N i j -- x)).
Proof. intros R Hi Hp. unfold subE. rewrite (get A N i p j) by auto. cbn [bind]. now apply put. Qed.

Lemma common_loop A N i j dst bound : rp A N -> 0 <= i < n -> 0 <= j < n -> i <> j -> bound = Z.min i j -> at_ (slots s i) dst j ->
  exists A', snd (iterateIdentical (lu_common T (tsub O) (tmul O) s (ord n2o i) j dst bound) (lo s i) (lo s j) (Ok A)) = Ok A' /\
    rp A' (updN N i j (N i j -- tsum O (term N i j) (cm s i j))).
Proof.
  intros R Hi Hj Hd Hb Hp. rewrite iterateIdentical_spec by (now apply (lo_sasc n n2o)).
  pose (P := fun (d : list Z) (r : res (list (list T))) => exists A', r = Ok A' /\ rp A' (updN N i j (N i j -- tsum O (term N i j) d))).
  assert (G : P (map (fun m => fst (fst m)) (matches (lo s i) (lo s j))) (snd (visit (lu_common T (tsub O) (tmul O) s (ord n2o i) j dst bound) (matches (lo s i) (lo s j)) (Ok A)))).
  { apply visit_inv.
    - exists A. split; auto. apply (rep_ext n (ord n2o) (slots s) A N); auto. intros a b _ _. unfold updN.
      destruct (Z.eqb_spec a i), (Z.eqb_spec b j); cbn; auto. subst. symmetry. apply (t_sub0 O LW).
    - intros d k p q r I (A1 & -> & R1). apply matches_complete in I. destruct I as (E1 & E2).
      pose proof (lo_lt n n2o s HS i k Hi (nth_error_In _ _ E1)) as K1. pose proof (lo_lt n n2o s HS j k Hj (nth_error_In _ _ E2)) as K2.
      unfold lu_common. replace (bound <=? k) with false by (symmetry; apply Z.leb_gt; lia).
      cbn [fst snd]. split; [reflexivity|]. cbn [bind]. rewrite (h_num _ _ _ HS). replace (k <? n) with true by (symmetry; apply Z.ltb_lt; lia). cbn [assert_ bind].
      rewrite (reord n o2n n2o s HO HS) by lia. cbn [bind].
      destruct (liu_ok n n2o s HS j q k Hj E2) as (qq & Eq & El).
      destruct (vget (lowInUpp s) j) as [r| |]; try discriminate. cbn [bind] in *. rewrite El. cbn [bind].
      replace (Z.of_nat qq =? -1) with false by (symmetry; apply Z.eqb_neq; lia).
      rewrite (upper_off_ok n o2n n2o s HO HS) by lia. cbn [bind].
      rewrite (get A1 _ i _ k R1 Hi (at_lo s i p k E1)). cbn [bind].
      rewrite (get A1 _ k _ j R1 ltac:(lia) (at_up s k qq j Eq)). cbn [bind].
      rewrite (updN_other N i j _ i k) by lia. rewrite (updN_other N i j _ k j) by lia.
      destruct (rep_sub A1 _ i dst j (N i k ** N k j) R1 Hi Hp) as (A2 & E3 & R2). exists A2. split; auto.
      apply (rep_ext n (ord n2o) (slots s) A2 _ _ R2). intros a b _ _. destruct (Z.eq_dec a i) as [->|]; [destruct (Z.eq_dec b j) as [->|]|].
      2,3: now rewrite !updN_other by auto.
      rewrite !updN_same. rewrite (t_subsub O LW). f_equal. unfold tsum. rewrite sum_app by apply LW. f_equal.
      cbn. symmetry. apply (t_add0r O LW). }
  rewrite (matches_cm n n2o s HS) in G by auto. exact G.
Qed.
(** the lower part of row [i] *)
Definition lowdone (N N' : Z -> Z -> T) i (d : list Z) : Prop :=
  (forall a b, a <> i \/ ~ In b d -> N' a b = N a b) /\
  (forall j, In j d -> N' i j = (N i j -- tsum O (term N' i j) (cm s i j)) ** N j j).
Lemma firstn_snoc {A} (l : list A) p x : nth_error l p = Some x -> firstn (S p) l = firstn p l ++ [x].
Proof.
  revert p. induction l as [|a l IH]; intros [|p] E; try discriminate; cbn in *.
  - now injection E as ->.
  - now rewrite IH.
Qed.
Lemma sasc_firstn l p j k : sasc l -> nth_error l p = Some j -> In k l -> (k < j <-> In k (firstn p l)).
Proof.
  intros Hs Ej Ik. apply In_nth_error in Ik. destruct Ik as (q & Eq). split.
  - intro L. apply nth_error_In with q. rewrite nth_error_firstn. destruct (Nat.ltb_spec q p); auto. exfalso.
    destruct (Nat.eq_dec q p) as [->|]; [assert (k = j) by congruence; lia|]. pose proof (Hs p q j k ltac:(lia) Ej Eq). lia.
  - intro I. apply In_nth_error in I. destruct I as (m & Em). rewrite nth_error_firstn in Em. destruct (Nat.ltb_spec m p); [|discriminate].
    apply (Hs m p); auto.
Qed.
Lemma low_loop A N i : rp A N -> 0 <= i < n ->
  exists A' N', foldM (lu_lower T (tsub O) (tmul O) s i (ord n2o i) (lo s i)) A (range (zlen (lo s i))) = Ok A' /\ rp A' N' /\ lowdone N N' i (lo s i).
Proof.
  intros R Hi.
  destruct (foldM_range (fun m A' => exists N', rp A' N' /\ lowdone N N' i (firstn (Z.to_nat m) (lo s i)))
    (lu_lower T (tsub O) (tmul O) s i (ord n2o i) (lo s i)) (zlen (lo s i)) A) as (A' & E & N' & R' & D).
  - unfold zlen. lia.
  - exists N. split; auto. split; auto. intros j [].
  - clear A R. intros m A Hm (N1 & R & (D1 & D2)).
    destruct (nth_error_lt_Some _ (lo s i) (Z.to_nat m)) as (j & Ej); [unfold zlen in Hm; lia|].
    pose proof (lo_lt n n2o s HS i j Hi (nth_error_In _ _ Ej)) as Hj. pose proof (lo_sasc n n2o s HS i Hi) as Si.
    assert (Ev : vget (lo s i) m = Ok j) by (apply vget_Ok; split; [lia|auto]).
    unfold lu_lower. rewrite Ev. cbn [bind]. replace (j <? i) with true by (symmetry; apply Z.ltb_lt; lia). cbn [assert_ bind].
    rewrite (reord n o2n n2o s HO HS) by lia. cbn [bind].
    assert (Hp : at_ (slots s i) (1 + m) j) by (replace m with (Z.of_nat (Z.to_nat m)) by lia; now apply at_lo).
    set (x := N1 i j -- tsum O (term N1 i j) (cm s i j)).
    assert (E1 : exists A1, (if 0 <? m then do lowerRowJP <- vget (lowNew s) j;
        snd (iterateIdentical (lu_common T (tsub O) (tmul O) s (ord n2o i) j (1 + m) j) (lo s i) lowerRowJP (Ok A)) else Ok A) = Ok A1 /\ rp A1 (updN N1 i j x)).
    { destruct (Z.ltb_spec 0 m) as [L|L].
      - rewrite (vget_lo n n2o s HS) by lia. cbn [bind]. apply common_loop; auto; lia.
      - exists A. split; auto. apply (rep_ext n (ord n2o) (slots s) A N1); auto. intros a b _ _.
        destruct (Z.eq_dec a i) as [->|]; [destruct (Z.eq_dec b j) as [->|]|]; [|now rewrite updN_other by auto|now rewrite updN_other by auto].
        rewrite updN_same. subst x. replace (cm s i j) with (@nil Z); [symmetry; apply (t_sub0 O LW)|].
        destruct (cm s i j) as [|k l] eqn:Ec; auto. exfalso. assert (Ik : In k (cm s i j)) by (rewrite Ec; now left).
        apply cm_In in Ik. destruct Ik as (I1 & I2). apply (lo_lt n n2o s HS) in I2; [|lia].
        pose proof (proj1 (sasc_firstn _ _ _ _ Si Ej I1) ltac:(lia)) as I. replace (Z.to_nat m) with 0%nat in I by lia. exact I. }
    destruct E1 as (A1 & -> & R1). cbn [bind]. rewrite (get A1 _ i _ j R1 Hi Hp). cbn [bind].
    rewrite (get A1 _ j _ j R1 ltac:(lia) (at_diag s j)). cbn [bind].
    rewrite updN_same. rewrite (updN_other N1 i j x j j) by lia.
    destruct (put A1 _ i (1 + m) j (x ** N1 j j) R1 Hi Hp) as (A2 & E2 & R2). exists A2. split; auto.
    exists (updN N1 i j (x ** N1 j j)). split.
    { apply (rep_ext n (ord n2o) (slots s) A2 _ _ R2). intros a b _ _.
      destruct (Z.eq_dec a i) as [->|]; [destruct (Z.eq_dec b j) as [->|]|]; [|now rewrite !updN_other by auto|now rewrite !updN_other by auto].
      now rewrite !updN_same. }
    replace (Z.to_nat (m + 1)) with (S (Z.to_nat m)) by lia. rewrite (firstn_snoc _ _ _ Ej).
    assert (Nj : ~ In j (firstn (Z.to_nat m) (lo s i))).
    { intro I. apply (sasc_firstn _ _ _ _ Si Ej) in I; [lia|]. now apply nth_error_In in Ej. }
    split.
    + intros a b H. rewrite in_app_iff in H. rewrite updN_other by (destruct H as [H|H]; [auto|right; intros ->; apply H; right; now left]).
      apply D1. tauto.
    + intros j' I. apply in_app_iff in I.
      assert (Te : forall j', In j' (lo s i) -> In j' (firstn (Z.to_nat m) (lo s i)) \/ j' = j -> forall y, tsum O (term (updN N1 i j y) i j') (cm s i j') = tsum O (term N1 i j') (cm s i j')).
      { intros j2 I2 I3 y. apply sum_ext. intros k Ik. apply cm_In in Ik. destruct Ik as (K1 & K2).
        pose proof (lo_lt n n2o s HS i j2 Hi I2). pose proof (lo_lt n n2o s HS i k Hi K1). apply (lo_lt n n2o s HS) in K2; [|lia].
        assert (j2 <= j) by (destruct I3 as [I3| ->]; [apply (sasc_firstn _ _ _ _ Si Ej) in I3; [lia|auto]|lia]).
        unfold term. now rewrite !updN_other by lia. }
      assert (I' : In j' (lo s i)).
      { destruct I as [I|[<-|[]]]; [|now apply nth_error_In in Ej]. apply In_nth_error in I. destruct I as (q & Eq). rewrite nth_error_firstn in Eq.
        destruct (Nat.ltb _ _); [|discriminate]. now apply nth_error_In in Eq. }
      rewrite Te; auto; [|destruct I as [I|[<-|[]]]; auto].
      destruct I as [I|[<-|[]]].
      * rewrite updN_other by (right; intros ->; auto). now apply D2.
      * rewrite updN_same. subst x. f_equal; [f_equal|]; apply D1; [now right|left; lia].
  - exists A', N'. split; [auto|split; [auto|]]. unfold zlen in D. rewrite Nat2Z.id, firstn_all in D. exact D.
Qed.
(** the diagonal *)
Lemma diag_loop A N i : rp A N -> 0 <= i < n ->
  exists A', foldM (lu_diag T (tsub O) (tmul O) s i (ord n2o i) (lo s i)) A (range (zlen (lo s i))) = Ok A' /\
    rp A' (updN N i i (N i i -- tsum O (term N i i) (lo s i))).
Proof.
  intros R Hi.
  destruct (foldM_range (fun m A' => rp A' (updN N i i (N i i -- tsum O (term N i i) (firstn (Z.to_nat m) (lo s i)))))
    (lu_diag T (tsub O) (tmul O) s i (ord n2o i) (lo s i)) (zlen (lo s i)) A) as (A' & E & D).
  - unfold zlen. lia.
  - apply (rep_ext n (ord n2o) (slots s) A N); auto. intros a b _ _.
    destruct (Z.eq_dec a i) as [->|]; [destruct (Z.eq_dec b i) as [->|]|]; [|now rewrite updN_other by auto|now rewrite updN_other by auto].
    rewrite updN_same. symmetry. apply (t_sub0 O LW).
  - clear A R. intros m A Hm R.
    destruct (nth_error_lt_Some _ (lo s i) (Z.to_nat m)) as (k & Ek); [unfold zlen in Hm; lia|].
    pose proof (lo_lt n n2o s HS i k Hi (nth_error_In _ _ Ek)) as Hk.
    assert (Ev : vget (lo s i) m = Ok k) by (apply vget_Ok; split; [lia|auto]).
    unfold lu_diag. rewrite Ev. cbn [bind]. rewrite (reord n o2n n2o s HO HS) by lia. cbn [bind].
    destruct (liu_ok n n2o s HS i _ k Hi Ek) as (qq & Eq & El). rewrite Z2Nat.id in El by lia.
    destruct (vget (lowInUpp s) i) as [r| |]; try discriminate. cbn [bind] in *. rewrite El. cbn [bind].
    replace (Z.of_nat qq =? -1) with false by (symmetry; apply Z.eqb_neq; lia).
    rewrite (upper_off_ok n o2n n2o s HO HS) by lia. cbn [bind].
    assert (Hp : at_ (slots s i) (1 + m) k) by (replace m with (Z.of_nat (Z.to_nat m)) by lia; now apply at_lo).
    rewrite (get A _ i _ k R Hi Hp). cbn [bind].
    rewrite (get A _ k _ i R ltac:(lia) (at_up s k qq i Eq)). cbn [bind].
    rewrite (updN_other N i i _ i k) by lia. rewrite (updN_other N i i _ k i) by lia.
    destruct (rep_sub A _ i 0 i (N i k ** N k i) R Hi (at_diag s i)) as (A2 & E3 & R2). exists A2. split; auto.
    apply (rep_ext n (ord n2o) (slots s) A2 _ _ R2). intros a b _ _.
    destruct (Z.eq_dec a i) as [->|]; [destruct (Z.eq_dec b i) as [->|]|]; [|now rewrite !updN_other by auto|now rewrite !updN_other by auto].
    rewrite !updN_same. rewrite (t_subsub O LW). f_equal.
    replace (Z.to_nat (m + 1)) with (S (Z.to_nat m)) by lia. rewrite (firstn_snoc _ _ _ Ek). unfold tsum. rewrite sum_app by apply LW. f_equal.
    cbn. symmetry. apply (t_add0r O LW).
  - exists A'. split; auto. unfold zlen in D. rewrite Nat2Z.id, firstn_all in D. exact D.
Qed.
(** the upper part *)
Definition uppdone (N N' : Z -> Z -> T) i (d : list Z) : Prop :=
  (forall a b, a <> i \/ ~ In b d -> N' a b = N a b) /\
  (forall j, In j d -> N' i j = N i j -- tsum O (term N i j) (cm s i j)).
Lemma upp_loop A N i : rp A N -> 0 <= i < n ->
  exists A' N', foldM (lu_upper T (tsub O) (tmul O) s i (ord n2o i) (lo s i) (up s i)) A (range (zlen (up s i))) = Ok A' /\ rp A' N' /\ uppdone N N' i (up s i).
Proof.
  intros R Hi.
  destruct (foldM_range (fun m A' => exists N', rp A' N' /\ uppdone N N' i (firstn (Z.to_nat m) (up s i)))
    (lu_upper T (tsub O) (tmul O) s i (ord n2o i) (lo s i) (up s i)) (zlen (up s i)) A) as (A' & E & N' & R' & D).
  - unfold zlen. lia.
  - exists N. split; auto. split; auto. intros j [].
  - clear A R. intros m A Hm (N1 & R & (D1 & D2)).
    destruct (nth_error_lt_Some _ (up s i) (Z.to_nat m)) as (j & Ej); [unfold zlen in Hm; lia|].
    pose proof (up_lt n n2o s HS i j Hi (nth_error_In _ _ Ej)) as Hj. pose proof (up_sasc n n2o s HS i Hi) as Si.
    assert (Ev : vget (up s i) m = Ok j) by (apply vget_Ok; split; [lia|auto]).
    unfold lu_upper. rewrite Ev. cbn [bind]. replace (i <? j) with true by (symmetry; apply Z.ltb_lt; lia). cbn [assert_ bind].
    rewrite (vget_lo n n2o s HS) by lia. cbn [bind]. rewrite (upper_off_ok n o2n n2o s HO HS) by lia. cbn [bind].
    assert (Hp : at_ (slots s i) (1 + zlen (lo s i) + m) j) by (replace m with (Z.of_nat (Z.to_nat m)) by lia; now apply at_up).
    destruct (common_loop A N1 i j (1 + zlen (lo s i) + m) i R Hi ltac:(lia) ltac:(lia) ltac:(lia) Hp) as (A2 & E2 & R2).
    exists A2. split; auto. eexists. split; [exact R2|].
    replace (Z.to_nat (m + 1)) with (S (Z.to_nat m)) by lia. rewrite (firstn_snoc _ _ _ Ej).
    assert (Nj : ~ In j (firstn (Z.to_nat m) (up s i))).
    { intro I. apply (sasc_firstn _ _ _ _ Si Ej) in I; [lia|]. now apply nth_error_In in Ej. }
    split.
    + intros a b H. rewrite in_app_iff in H. rewrite updN_other by (destruct H as [H|H]; [auto|right; intros ->; apply H; right; now left]).
      apply D1. tauto.
    + intros j' I. apply in_app_iff in I. destruct I as [I|[<-|[]]].
      * rewrite updN_other by (right; intros ->; auto). now apply D2.
      * rewrite updN_same. f_equal; [apply D1; now right|]. apply sum_ext. intros k Ik. apply cm_In in Ik. destruct Ik as (K1 & K2).
        apply (lo_lt n n2o s HS) in K1; [|lia]. unfold term.
        assert (forall k, k < i -> ~ In k (firstn (Z.to_nat m) (up s i))).
        { intros k' Hk' I. apply In_nth_error in I. destruct I as (q & Eq). rewrite nth_error_firstn in Eq.
          destruct (Nat.ltb _ _); [|discriminate]. apply nth_error_In in Eq. apply (up_lt n n2o s HS) in Eq; [lia|auto]. }
        rewrite (D1 i k) by (right; apply H; lia). rewrite (D1 k j) by (left; lia). reflexivity.
  - exists A', N'. split; [auto|split; [auto|]]. unfold zlen in D. rewrite Nat2Z.id, firstn_all in D. exact D.
Qed.
(** a row *)
Record rowdone (N N' : Z -> Z -> T) (i : Z) : Prop := {
  r_other : forall a b, a <> i -> N' a b = N a b;
  r_low : forall j, In j (lo s i) -> N' i j = (N i j -- tsum O (term N' i j) (cm s i j)) ** N' j j;
  r_diag : invert (N i i -- tsum O (term N' i i) (lo s i)) = Ok (N' i i);
  r_upp : forall j, In j (up s i) -> N' i j = N i j -- tsum O (term N' i j) (cm s i j)
}.
Lemma row_ok A N i : rp A N -> 0 <= i < n -> (forall d, invert d <> UB) ->
  outcome (fun A' => exists N', rp A' N' /\ rowdone N N' i) (exists d, invert d = Abort) (lu_row T (tsub O) (tmul O) invert s A i).
Proof.
  intros R Hi HU. unfold lu_row. rewrite (reord n o2n n2o s HO HS) by lia. cbn [bind]. rewrite (vget_lo n n2o s HS) by lia. cbn [bind].
  destruct (low_loop A N i R Hi) as (A1 & N1 & -> & R1 & (D1 & D2)). cbn [bind].
  destruct (diag_loop A1 N1 i R1 Hi) as (A2 & -> & R2). cbn [bind].
  rewrite (get A2 _ i _ i R2 Hi (at_diag s i)). cbn [bind]. rewrite updN_same.
  destruct (invert (N1 i i -- tsum O (term N1 i i) (lo s i))) as [e| |] eqn:Ei; cbn [bind outcome]; [|eauto|exact (HU _ Ei)].
  destruct (put A2 _ i 0 i e R2 Hi (at_diag s i)) as (A3 & -> & R3). cbn [bind].
  rewrite (vget_up n n2o s HS) by lia. cbn [bind].
  assert (R3' : rp A3 (updN N1 i i e)).
  { apply (rep_ext n (ord n2o) (slots s) A3 _ _ R3). intros a b _ _.
    destruct (Z.eq_dec a i) as [->|]; [destruct (Z.eq_dec b i) as [->|]|]; [|now rewrite !updN_other by auto|now rewrite !updN_other by auto].
    now rewrite !updN_same. }
  destruct (upp_loop A3 _ i R3' Hi) as (A4 & N4 & -> & R4 & (U1 & U2)). cbn [outcome]. exists N4. split; auto.
  assert (Lo : forall j, In j (lo s i) -> 0 <= j < i) by (intro; now apply (lo_lt n n2o s HS)).
  assert (Up : forall j, In j (up s i) -> i < j < n) by (intro; now apply (up_lt n n2o s HS)).
  assert (Ne : forall a b, a <> i -> N4 a b = N a b).
  { intros a b Ha. rewrite U1 by auto. rewrite updN_other by auto. apply D1. auto. }
  assert (Nl : forall k, k < i -> N4 i k = N1 i k).
  { intros k Hk. rewrite U1 by (right; intro I; apply Up in I; lia). now rewrite updN_other by lia. }
  constructor; auto.
  - intros j Ij. pose proof (Lo j Ij). rewrite Nl by lia. rewrite D2 by auto. rewrite (Ne j j) by lia. do 2 f_equal. apply sum_ext. intros k Ik.
    apply cm_In in Ik. destruct Ik as (K1 & K2). apply Lo in K1. unfold term. rewrite Nl by lia. rewrite (Ne k j) by lia. now rewrite (D1 k j) by (left; lia).
  - rewrite U1 by (right; intro I; apply Up in I; lia). rewrite updN_same. rewrite <- Ei. do 2 f_equal.
    + symmetry. apply D1. right. intro I. apply Lo in I. lia.
    + apply sum_ext. intros k Ik. apply Lo in Ik. unfold term. rewrite Nl by lia. rewrite (Ne k i) by lia. now rewrite (D1 k i) by (left; lia).
  - intros j Ij. pose proof (Up j Ij). rewrite U2 by auto. rewrite updN_other by lia. rewrite D1 by (right; intro I; apply Lo in I; lia). f_equal.
    apply sum_ext. intros k Ik. apply cm_In in Ik. destruct Ik as (K1 & K2). apply Lo in K1. unfold term. rewrite Nl by lia. rewrite (Ne k j) by lia.
    rewrite !updN_other by lia. now rewrite (D1 k j) by (left; lia).
Qed.
(** the whole factorization *)
Record factors (M W : Z -> Z -> T) (D : Z -> T) : Prop := {
  f_low : forall i j, 0 <= i < n -> In j (lo s i) -> W i j = (M i j -- tsum O (term W i j) (cm s i j)) ** W j j;
  f_diag : forall i, 0 <= i < n -> D i = M i i -- tsum O (term W i i) (lo s i) /\ invert (D i) = Ok (W i i);
  f_upp : forall i j, 0 <= i < n -> In j (up s i) -> W i j = M i j -- tsum O (term W i j) (cm s i j)
}.
Lemma decompose_ok A M : rp A M -> (forall d, invert d <> UB) ->
  outcome (fun R => isDecomposed R = true /\ exists W D, rp (ldu R) W /\ factors M W D) (exists d, invert d = Abort)
    (lu_decompose T (tsub O) (tmul O) invert s {| ldu := A; isDecomposed := false |}).
Proof.
  intros R HU. unfold lu_decompose. cbn [ldu]. rewrite (h_num _ _ _ HS).
  pose proof (n_nonneg n n2o s HS) as Hn.
  pose (P := fun (d : list Z) A' => exists W, rp A' W /\
    (forall i, 0 <= i < n -> ~ In i d -> forall j, W i j = M i j) /\
    (forall i, In i d -> 0 <= i < n ->
      (forall j, In j (lo s i) -> W i j = (M i j -- tsum O (term W i j) (cm s i j)) ** W j j) /\
      invert (M i i -- tsum O (term W i i) (lo s i)) = Ok (W i i) /\
      (forall j, In j (up s i) -> W i j = M i j -- tsum O (term W i j) (cm s i j)))).
  assert (G : outcome (P (range n)) (exists d, invert d = Abort) (foldM (lu_row T (tsub O) (tmul O) invert s) A (range n))).
  { apply foldM_outcome.
    - exists M. split; auto. split; auto. intros i [].
    - intros d i r A1 El (W & RW & W1 & W2).
      assert (Hi : 0 <= i < n) by (apply range_In; rewrite El; apply in_elt).
      pose proof (range_NoDup n) as ND. rewrite El in ND. apply NoDup_remove_2 in ND.
      assert (Hd : forall k, 0 <= k < i -> In k d).
      { intros k Hk. assert (E2 : d = range i).
        { assert (Er : range n = range i ++ map Z.of_nat (seq (Z.to_nat i) (Z.to_nat n - Z.to_nat i))).
          { unfold range. rewrite <- map_app. rewrite <- seq_app. do 2 f_equal. lia. }
          rewrite Er in El. revert El. replace (Z.to_nat n - Z.to_nat i)%nat with (S (Z.to_nat n - Z.to_nat i - 1)) by lia. cbn [seq map]. rewrite Z2Nat.id by lia.
          generalize (map Z.of_nat (seq (S (Z.to_nat i)) (Z.to_nat n - Z.to_nat i - 1))). generalize (range_In i). generalize (range i). clear - ND.
          intros l Hl m. assert (Nl : ~ In i l) by (rewrite Hl; lia). clear Hl.
          revert l Nl. induction d as [|a d IH]; intros [|b l] Nl E; cbn in *; auto.
          - injection E as -> _. exfalso. auto.
          - injection E as -> _. exfalso. auto.
          - injection E as -> E. f_equal. apply IH; auto. }
        rewrite E2. now apply range_In. }
      pose proof (row_ok A1 W i RW Hi HU) as Ho. destruct (lu_row _ _ _ _ _ _ _) as [A2| |]; cbn [outcome] in *; auto.
      destruct Ho as (W' & RW' & [B1 B2 B3 B4]). exists W'. split; auto. split.
      + intros a Ha Hna j. rewrite in_app_iff in Hna. rewrite B1 by (intros ->; apply Hna; right; now left). apply W1; auto.
      + intros a Ia Ha. apply in_app_iff in Ia. destruct Ia as [Ia|[<-|[]]].
        * assert (a <> i) by (intros ->; apply ND; apply in_app_iff; auto). destruct (W2 a Ia Ha) as (C1 & C2 & C3).
          assert (Hlt : a < i).
          { destruct (Z.lt_ge_cases a i); auto. exfalso.
            assert (i < a) by lia. clear - El Ia H H0 H1.
            assert (S : sasc (range n)).
            { unfold range. intros p q x y Hpq Ex Ey. rewrite nth_error_map in Ex, Ey.
              destruct (nth_error (seq 0 (Z.to_nat n)) p) eqn:E1; [|discriminate]. destruct (nth_error (seq 0 (Z.to_nat n)) q) eqn:E2; [|discriminate].
              cbn in Ex, Ey. injection Ex as <-. injection Ey as <-.
              assert (p < Z.to_nat n)%nat by (rewrite <- (seq_length (Z.to_nat n) 0); apply nth_error_Some; congruence).
              assert (q < Z.to_nat n)%nat by (rewrite <- (seq_length (Z.to_nat n) 0); apply nth_error_Some; congruence).
              rewrite nth_error_seq in E1, E2. destruct (Nat.ltb_spec p (Z.to_nat n)); [|lia]. destruct (Nat.ltb_spec q (Z.to_nat n)); [|lia].
              injection E1 as <-. injection E2 as <-. lia. }
            rewrite El in S. apply In_nth_error in Ia. destruct Ia as (p & Ep).
            assert (p < length d)%nat by (apply nth_error_Some; congruence).
            pose proof (S p (length d) a i ltac:(lia)) as Q. rewrite nth_error_app1 in Q by auto. rewrite nth_error_app2 in Q by lia.
            rewrite Nat.sub_diag in Q. specialize (Q Ep eq_refl). lia. }
          assert (Te : forall j l, (forall k, In k l -> k < i) -> tsum O (term W' a j) l = tsum O (term W a j) l).
          { intros j l Hl. apply sum_ext. intros k Ik. apply Hl in Ik. unfold term. rewrite !B1 by lia. reflexivity. }
          assert (Lo : forall k, In k (lo s a) -> k < a) by (intros k Ik; apply (lo_lt n n2o s HS) in Ik; [lia|auto]).
          split; [|split].
          -- intros j Ij. pose proof (Lo _ Ij). rewrite Te by (intros k Ik; apply cm_In in Ik; destruct Ik as (Ik & _); apply Lo in Ik; lia). rewrite !B1 by lia. auto.
          -- rewrite Te by (intros k Ik; apply Lo in Ik; lia). now rewrite B1 by lia.
          -- intros j Ij. rewrite Te by (intros k Ik; apply cm_In in Ik; destruct Ik as (Ik & _); apply Lo in Ik; lia). rewrite !B1 by lia. auto.
        * assert (Nd : ~ In i d) by (intro; apply ND; apply in_app_iff; auto).
          split; [|split].
          -- intros j Ij. rewrite <- W1 by auto. auto.
          -- rewrite <- W1 by auto. auto.
          -- intros j Ij. rewrite <- W1 by auto. auto. }
  destruct (foldM _ A (range n)) as [A'| |]; cbn [outcome bind] in *; auto. split; [reflexivity|]. cbn [ldu].
  destruct G as (W & RW & _ & G). exists W, (fun i => M i i -- tsum O (term W i i) (lo s i)). split; auto.
  constructor.
  - intros i j Hi Ij. apply G; auto. now apply range_In.
  - intros i Hi. split; auto. apply G; auto. now apply range_In.
  - intros i j Hi Ij. apply G; auto. now apply range_In.
Qed.
End LU.
