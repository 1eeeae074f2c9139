From Coq Require Import List ZArith Lia Bool Permutation.
From Verif Require Import Base.Prelude Base.PreludeFacts DNDS.DefinesModel DNDS.DefinesSpec DNDS.DefinesProofs
  Solver.DirectModel Solver.DirectSpec Solver.DirectProofs Solver.DirectMore Solver.LUModel Solver.LUSpec.
Import ListNotations.
Local Open Scope Z_scope.

(** ** Sums in a commutative monoid *)
Section Sum.
Variables (A : Type) (zero : A) (add : A -> A -> A).
Hypothesis addC : forall a b, add a b = add b a.
Hypothesis addA : forall a b c, add a (add b c) = add (add a b) c.
Hypothesis add0 : forall a, add zero a = a.

Definition sum {I} (f : I -> A) (l : list I) : A := fold_right add zero (map f l).
Lemma sum_nil {I} (f : I -> A) : sum f [] = zero.
Proof. reflexivity. Qed.
Lemma sum_cons {I} (f : I -> A) x l : sum f (x :: l) = add (f x) (sum f l).
Proof. reflexivity. Qed.
Lemma sum_ext {I} (f g : I -> A) l : (forall x, In x l -> f x = g x) -> sum f l = sum g l.
Proof. intro H. unfold sum. f_equal. now apply map_ext_in. Qed.
Lemma sum_app {I} (f : I -> A) l m : sum f (l ++ m) = add (sum f l) (sum f m).
Proof. induction l as [|x l IH]; cbn [app]; [now rewrite sum_nil, add0|]. rewrite !sum_cons, IH. now rewrite addA. Qed.
Lemma sum_zero {I} (f : I -> A) l : (forall x, In x l -> f x = zero) -> sum f l = zero.
Proof. intro H. induction l as [|x l IH]; [reflexivity|]. rewrite sum_cons, H by (now left). rewrite add0. apply IH. intros; apply H; now right. Qed.
Lemma sum_perm {I} (f : I -> A) l m : Permutation l m -> sum f l = sum f m.
Proof.
  intro H. induction H; rewrite ?sum_cons; auto; congruence.
Qed.
Lemma sum_add {I} (f g : I -> A) l : sum (fun x => add (f x) (g x)) l = add (sum f l) (sum g l).
Proof.
  induction l as [|x l IH]; [cbn; now rewrite add0|]. rewrite !sum_cons, IH. rewrite <- !addA. f_equal. rewrite !addA. f_equal. apply addC.
Qed.
Lemma sum_swap {I J} (f : I -> J -> A) l m : sum (fun i => sum (f i) m) l = sum (fun j => sum (fun i => f i j) l) m.
Proof.
  induction l as [|x l IH].
  - cbn. symmetry. apply sum_zero. auto.
  - rewrite sum_cons, IH, <- sum_add. apply sum_ext. reflexivity.
Qed.
Lemma sum_map {I J} (f : J -> A) (g : I -> J) l : sum f (map g l) = sum (fun x => f (g x)) l.
Proof. unfold sum. now rewrite map_map. Qed.
(** a sum needs only the indices where it does not vanish *)
Lemma sum_support (f : Z -> A) l r : NoDup l -> NoDup r -> incl l r -> (forall k, In k r -> ~ In k l -> f k = zero) -> sum f r = sum f l.
Proof.
  intros N1 N2 Hi Hz.
  rewrite (sum_perm f r (l ++ filter (fun k => negb (member k l)) r)).
  - rewrite sum_app. rewrite (sum_zero f (filter _ r)).
    + rewrite addC. apply add0.
    + intros x Hx. apply filter_In in Hx. destruct Hx as (H1 & H2). apply Hz; auto. intro I. apply member_In in I. rewrite I in H2. discriminate.
  - apply NoDup_Permutation; auto.
    + apply NoDup_app_; auto.
      * now apply NoDup_filter.
      * intros x I1 I2. apply filter_In in I2. destruct I2 as (_ & I2). apply member_In in I1. rewrite I1 in I2. discriminate.
    + intro x. rewrite in_app_iff, filter_In. split.
      * intro I. destruct (member x l) eqn:M; [left; now apply member_In|right; auto].
      * intros [I|(I & _)]; auto.
Qed.
Lemma sum_hom {I B} (zeroB : B) (addB : B -> B -> B) (h : A -> B) (f : I -> A) l :
  h zero = zeroB -> (forall a b, h (add a b) = addB (h a) (h b)) ->
  h (sum f l) = fold_right addB zeroB (map (fun x => h (f x)) l).
Proof. intros H0 H1. induction l as [|x l IH]; [exact H0|]. rewrite sum_cons, H1, IH. reflexivity. Qed.
End Sum.
Arguments sum {A} zero add {I}.

(** ** The common columns of two rows *)
Lemma filter_ext_in {A} (f g : A -> bool) l : (forall x, In x l -> f x = g x) -> filter f l = filter g l.
Proof. intro H. induction l as [|x l IH]; [reflexivity|]. cbn. rewrite H by (now left). rewrite IH by (intros; apply H; now right). reflexivity. Qed.

Lemma matches_keys : forall l1 p1 l2 p2, sasc l1 -> sasc l2 ->
  map (fun m => fst (fst m)) (matches_from p1 l1 p2 l2) = filter (fun x => member x l2) l1.
Proof.
  induction l1 as [|x l1 IH1]; intros p1 l2 p2 S1; [reflexivity|]. revert p2.
  pose proof (proj1 (sasc_cons _ _) S1) as (S1t & S1h).
  induction l2 as [|y l2 IH2]; intros p2 S2.
  - rewrite matches_from_nil_r. cbn. now rewrite filter_none.
  - pose proof (proj1 (sasc_cons _ _) S2) as (S2t & S2h). destruct (Z.lt_trichotomy x y) as [L|[E|L]].
    + rewrite matches_from_cons_l by (intros z [<-|Hz]; [auto|specialize (S2h _ Hz); lia]).
      rewrite IH1 by auto. cbn [filter]. replace (member x (y :: l2)) with false; [reflexivity|].
      symmetry. destruct (member x (y :: l2)) eqn:M; auto. apply member_In in M. destruct M as [M|M]; [lia|specialize (S2h _ M); lia].
    + subst y. rewrite matches_from_cons_eq by auto. cbn [map fst filter]. unfold member at 1. cbn [existsb]. rewrite Z.eqb_refl. cbn [orb].
      f_equal. rewrite IH1 by auto. apply filter_ext_in. intros z Hz. unfold member. cbn [existsb].
      specialize (S1h _ Hz). destruct (Z.eqb_spec z x); [lia|reflexivity].
    + rewrite matches_from_cons_r by (intros z [<-|Hz]; [lia|specialize (S1h _ Hz); lia]).
      rewrite IH2 by auto. apply filter_ext_in. intros z Hz. unfold member. cbn [existsb].
      destruct (Z.eqb_spec z y); [|reflexivity]. destruct Hz as [<-|Hz]; [lia|specialize (S1h _ Hz); lia].
Qed.
Definition common (l1 l2 : list Z) : list Z := filter (fun x => member x l2) l1.
Lemma common_In l1 l2 k : In k (common l1 l2) <-> In k l1 /\ In k l2.
Proof. unfold common. now rewrite filter_In, member_In. Qed.

(** ** Structures *)
(** what the numerical part needs of the tables *)
Record shape (n : Z) (n2o : list Z) (s : symlu) : Prop := {
  h_num : Num s = n; h_n2o : new2old s = n2o;
  h_len : zlen (lowNew s) = n /\ zlen (uppNew s) = n /\ zlen (lowOld s) = n /\ zlen (uppOld s) = n /\
          zlen (lowInUpp s) = n /\ zlen (uppInLow s) = n;
  h_low : forall i, 0 <= i < n -> sasc (row (lowNew s) i);
  h_upp : forall i, 0 <= i < n -> sasc (row (uppNew s) i);
  h_lowlt : forall i j, 0 <= i < n -> In j (row (lowNew s) i) -> 0 <= j < i;
  h_upplt : forall i j, 0 <= i < n -> In j (row (uppNew s) i) -> i < j < n;
  h_tr : forall i j, 0 <= i < n -> 0 <= j < n -> (In j (row (lowNew s) i) <-> In i (row (uppNew s) j));
  h_lowOld : forall i, 0 <= i < n -> row (lowOld s) (place n2o i) = map (place n2o) (row (lowNew s) i);
  h_uppOld : forall i, 0 <= i < n -> row (uppOld s) (place n2o i) = map (place n2o) (row (uppNew s) i);
  h_liu : forall i, 0 <= i < n -> Forall2 (fun j p => at_ (row (uppNew s) j) p i) (row (lowNew s) i) (row (lowInUpp s) i);
  h_uil : forall i, 0 <= i < n -> Forall2 (fun j p => at_ (row (lowNew s) j) p i) (row (uppNew s) i) (row (uppInLow s) i)
}.
Lemma symbolic_shape n adj o2n n2o ilu s : graph_ok n adj -> ordering_ok n o2n n2o -> symbolic n adj o2n n2o ilu = Ok s -> shape n n2o s.
Proof.
  intros HG HO HS. pose proof (structure _ _ _ _ _ _ HG HO HS) as St. pose proof (transposed _ _ _ _ _ _ HG HO HS) as Tr.
  destruct St as [S1 S2 S3 (L1 & L2 & L3 & L4 & L5 & L6 & L7) SL SU SLO SUO SLU SUL _]. constructor; auto.
  - repeat (split; [assumption|]). assumption.
  - intros i Hi. apply (SL i Hi).
  - intros i Hi. apply (SU i Hi).
  - intros i j Hi H. apply (SL i Hi) in H. tauto.
  - intros i j Hi H. apply (SU i Hi) in H. tauto.
Qed.
Lemma Forall2_nth_l {A B} (R : A -> B -> Prop) l m k x : Forall2 R l m -> nth_error l k = Some x -> exists y, nth_error m k = Some y /\ R x y.
Proof.
  intro H. revert k. induction H as [|a b l m H1 H2 IH]; intros [|k] E; try discriminate; cbn in *.
  - injection E as <-. eauto.
  - eauto.
Qed.

(** ** Groups *)
Section Group.
Variables (A : Type) (zero : A) (add : A -> A -> A) (opp : A -> A).
Hypothesis addC : forall a b, add a b = add b a.
Hypothesis addA : forall a b c, add a (add b c) = add (add a b) c.
Hypothesis add0 : forall a, add zero a = a.
Hypothesis addN : forall a, add a (opp a) = zero.
Lemma g_add0r a : add a zero = a.
Proof. rewrite addC. apply add0. Qed.
Lemma g_cancel a b c : add a c = add b c -> a = b.
Proof. intro H. rewrite <- (g_add0r a), <- (g_add0r b), <- (addN c), !addA, H. reflexivity. Qed.
Lemma g_idem a : add a a = a -> a = zero.
Proof. intro H. apply (g_cancel _ _ a). now rewrite add0. Qed.
Lemma g_subK a b : add (add a (opp b)) b = a.
Proof. rewrite <- addA, (addC (opp b)), addN. apply g_add0r. Qed.
Lemma g_sub0 a : add a (opp zero) = a.
Proof. apply (g_cancel _ _ zero). rewrite g_subK. symmetry. apply g_add0r. Qed.
Lemma g_sub_add a b c : add (add a (opp b)) (opp c) = add a (opp (add b c)).
Proof. apply (g_cancel _ _ (add b c)). rewrite g_subK. rewrite (addC b c), addA, g_subK. apply g_subK. Qed.
End Group.

Lemma foldM_range {S} (P : Z -> S -> Prop) (f : S -> Z -> res S) m s : 0 <= m -> P 0 s ->
  (forall k s, 0 <= k < m -> P k s -> exists s', f s k = Ok s' /\ P (k + 1) s') -> exists s', foldM f s (range m) = Ok s' /\ P m s'.
Proof.
  intros Hm H0 Hs.
  assert (G : forall k, 0 <= k -> k <= m -> exists s', foldM f s (range k) = Ok s' /\ P k s').
  { intros k Hk. pattern k. apply natlike_ind; auto.
    - intros _. exists s. split; [reflexivity|auto].
    - intros x Hx IH L. destruct IH as (s1 & E & H1); [lia|]. destruct (Hs x s1) as (s2 & E2 & H2); [lia|auto|].
      exists s2. unfold Z.succ. rewrite range_succ by auto. erewrite foldM_snoc by eauto. auto. }
  apply G; lia.
Qed.
(** outcome [Ok] with [P], or [Abort] with [Q]; no undefined behaviour *)
Definition outcome {A} (P : A -> Prop) (Q : Prop) (r : res A) : Prop :=
  match r with Ok a => P a | Abort => Q | UB => False end.
Lemma foldM_outcome {S I} (P : list I -> S -> Prop) (Q : Prop) (f : S -> I -> res S) l s : P [] s ->
  (forall d x r s, l = d ++ x :: r -> P d s -> outcome (P (d ++ [x])) Q (f s x)) -> outcome (P l) Q (foldM f s l).
Proof.
  intros H0 Hs.
  assert (G : forall r d s, l = d ++ r -> P d s -> outcome (P l) Q (foldM f s r)).
  { induction r as [|x r IH]; intros d s1 E H; cbn [foldM].
    - cbn. rewrite E, app_nil_r. auto.
    - pose proof (Hs d x r s1 E H) as Hx. destruct (f s1 x) as [s2| |]; cbn [outcome bind] in *; auto.
      apply (IH (d ++ [x])); [now rewrite <- app_assoc|auto]. }
  now apply (G l []).
Qed.

Section View.
Context {T : Type}.
(** ** Entries of the storage *)
Lemma getE_map (A : list (list T)) i p f l j : 0 <= i < zlen A -> nth (Z.to_nat i) A [] = map f l -> at_ l p j -> getE T A i p = Ok (f j).
Proof.
  intros Hi E (Hp & Ej). unfold getE. rewrite (vget_z A i []) by auto. cbn [bind]. rewrite E. apply vget_Ok. split; auto. now rewrite nth_error_map, Ej.
Qed.
Definition updN (N : Z -> Z -> T) i j x : Z -> Z -> T := fun a b => if (a =? i) && (b =? j) then x else N a b.
Lemma updN_same N i j x : updN N i j x i j = x.
Proof. unfold updN. now rewrite !Z.eqb_refl. Qed.
Lemma updN_other N i j x a b : a <> i \/ b <> j -> updN N i j x a b = N a b.
Proof. intro H. unfold updN. destruct (Z.eqb_spec a i), (Z.eqb_spec b j); cbn; auto. lia. Qed.
Lemma upd_map (f g : Z -> T) l p j x : NoDup l -> nth_error l p = Some j -> g j = x -> (forall k, In k l -> k <> j -> g k = f k) -> upd p x (map f l) = map g l.
Proof.
  revert p. induction l as [|a l IH]; intros p N E Ex Ho; [now destruct p|]. apply NoDup_cons_iff in N. destruct N as (N0 & N).
  destruct p as [|p]; cbn in *.
  - injection E as ->. rewrite Ex. f_equal. apply map_ext_in. intros k Hk. symmetry. apply Ho; auto. intros ->. auto.
  - rewrite (IH p) by auto. f_equal. symmetry. apply Ho; auto. intros ->. apply nth_error_In in E. auto.
Qed.
Lemma nth_upd {B} (l : list B) p q x d : nth q (upd p x l) d = if (Nat.eqb p q && Nat.ltb p (length l))%bool then x else nth q l d.
Proof.
  revert p q. induction l as [|y l IH]; intros [|p] [|q]; cbn; auto.
  - now rewrite andb_false_r.
  - rewrite IH. reflexivity.
Qed.
Section Rep.
Variables (n : Z) (o : Z -> Z) (slots : Z -> list Z).
Hypothesis o_rng : forall i, 0 <= i < n -> 0 <= o i < n.
Hypothesis o_inj : forall i j, 0 <= i < n -> 0 <= j < n -> o i = o j -> i = j.
Hypothesis slots_nd : forall i, 0 <= i < n -> NoDup (slots i).
Definition rep (A : list (list T)) (N : Z -> Z -> T) : Prop :=
  zlen A = n /\ forall i, 0 <= i < n -> nth (Z.to_nat (o i)) A [] = map (N i) (slots i).
Lemma rep_get A N i p j : rep A N -> 0 <= i < n -> at_ (slots i) p j -> getE T A (o i) p = Ok (N i j).
Proof. intros (L & R) Hi Hp. apply (getE_map A (o i) p (N i) (slots i)); auto. rewrite L. auto. Qed.
Lemma rep_put A N i p j x : rep A N -> 0 <= i < n -> at_ (slots i) p j -> exists A', putE T A (o i) p x = Ok A' /\ rep A' (updN N i j x).
Proof.
  intros (L & R) Hi (Hp & Ej). unfold putE. pose proof (o_rng i Hi) as Ho. rewrite (vget_z A (o i) []) by lia. cbn [bind]. rewrite R by auto.
  assert (Hl : (Z.to_nat p < length (slots i))%nat) by (apply nth_error_Some; congruence).
  rewrite vset_z by (rewrite zlen_map; unfold zlen; lia). cbn [bind]. rewrite vset_z by lia.
  eexists. split; [reflexivity|]. split; [now rewrite zlen_upd_|]. intros a Ha. rewrite nth_upd. unfold zlen in L.
  pose proof (o_rng a Ha) as Hoa. destruct (Nat.eqb_spec (Z.to_nat (o i)) (Z.to_nat (o a))) as [E|E].
  - assert (a = i) by (apply o_inj; auto; lia). subst a. destruct (Nat.ltb_spec (Z.to_nat (o i)) (length A)); [|lia]. cbn [andb].
    apply (upd_map _ _ _ _ j); auto.
    + apply updN_same.
    + intros k _ Hk. apply updN_other. auto.
  - cbn [andb]. rewrite R by auto. apply map_ext_in. intros k _. symmetry. apply updN_other. left. intros ->. auto.
Qed.
Lemma rep_ext A N N' : rep A N -> (forall i j, 0 <= i < n -> In j (slots i) -> N i j = N' i j) -> rep A N'.
Proof. intros (L & R) H. split; auto. intros i Hi. rewrite R by auto. apply map_ext_in. auto. Qed.
End Rep.
End View.
