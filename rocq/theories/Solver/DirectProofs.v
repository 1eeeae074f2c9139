From Coq Require Import List ZArith Lia Bool Permutation.
From Verif Require Import Base.Prelude Base.PreludeFacts Solver.DirectModel Solver.DirectSpec.
Import ListNotations.
Local Open Scope Z_scope.

(** ** Tables *)
Lemma foldM_snoc {A B} (f : A -> B -> res A) s l x s' : foldM f s l = Ok s' -> foldM f s (l ++ [x]) = f s' x.
Proof.
  revert s. induction l as [|y l IH]; intro s; cbn [app foldM]; intro H.
  - injection H as <-. destruct (f s x); reflexivity.
  - destruct (f s y); cbn [bind] in *; try discriminate. now apply IH.
Qed.
Lemma NoDup_app_ {A} (l1 l2 : list A) : NoDup l1 -> NoDup l2 -> (forall x, In x l1 -> ~ In x l2) -> NoDup (l1 ++ l2).
Proof.
  induction l1 as [|x l1 IH]; intros N1 N2 H; cbn; auto. apply NoDup_cons_iff in N1. destruct N1 as (N0 & N1). constructor.
  - rewrite in_app_iff. intros [I|I]; [auto|]. apply (H x); [now left|auto].
  - apply IH; auto. intros y I. apply H. now right.
Qed.
Lemma range_In n i : In i (range n) <-> 0 <= i < n.
Proof.
  unfold range. rewrite in_map_iff. split.
  - intros (k & <- & I). apply in_seq in I. lia.
  - intro H. exists (Z.to_nat i). split; [lia|]. apply in_seq. lia.
Qed.
Lemma range_NoDup n : NoDup (range n).
Proof. unfold range. apply FinFun.Injective_map_NoDup; [intros a b; lia|apply seq_NoDup]. Qed.
Lemma range_length n : length (range n) = Z.to_nat n.
Proof. unfold range. now rewrite map_length, seq_length. Qed.
Lemma range_succ k : 0 <= k -> range (k + 1) = range k ++ [k].
Proof. intro H. unfold range. replace (Z.to_nat (k + 1)) with (S (Z.to_nat k)) by lia. rewrite seq_S, map_app. cbn. do 2 f_equal. lia. Qed.

Lemma vget_z {A} (l : list A) i d : 0 <= i < zlen l -> vget l i = Ok (nth (Z.to_nat i) l d).
Proof.
  intro H. unfold vget, zlen in *. destruct (Z.ltb_spec i 0); [lia|].
  rewrite (nth_error_nth' l d) by lia. reflexivity.
Qed.
Lemma vset_z {A} (l : list A) i x : 0 <= i < zlen l -> vset l i x = Ok (upd (Z.to_nat i) x l).
Proof. intro H. unfold vset, zlen in *. destruct (Z.ltb_spec i 0); [lia|]. destruct (Z.leb_spec (Z.of_nat (length l)) i); [lia|]. reflexivity. Qed.
Lemma vget_row l i : 0 <= i < zlen l -> vget l i = Ok (row l i).
Proof. apply vget_z. Qed.
Lemma vmod_row l i f : 0 <= i < zlen l -> vmod l i f = Ok (upd (Z.to_nat i) (f (row l i)) l).
Proof. intro H. unfold vmod. rewrite vget_row by auto. cbn [bind]. now apply vset_z. Qed.
Lemma zlen_upd_ {A} n (x : A) l : zlen (upd n x l) = zlen l.
Proof. unfold zlen. now rewrite upd_length. Qed.
Lemma row_upd l i r j : 0 <= i < zlen l -> 0 <= j -> row (upd (Z.to_nat i) r l) j = if j =? i then r else row l j.
Proof.
  intros Hi Hj. unfold row, zlen in *. destruct (Z.eqb_spec j i) as [->|N].
  - apply nth_error_nth. apply nth_error_upd_same. lia.
  - destruct (Nat.lt_ge_cases (Z.to_nat j) (length l)) as [L|G].
    + apply nth_error_nth. rewrite nth_error_upd_other by lia. now apply nth_error_nth'.
    + rewrite !nth_overflow; auto. now rewrite upd_length.
Qed.
Lemma zlen_map {A B} (f : A -> B) l : zlen (map f l) = zlen l.
Proof. unfold zlen. now rewrite map_length. Qed.
Lemma zlen_range n : 0 <= n -> zlen (range n) = n.
Proof. intro H. unfold zlen. rewrite range_length. lia. Qed.
Lemma row_map_range (g : Z -> list Z) n i : 0 <= i < n -> row (map g (range n)) i = g i.
Proof.
  intro H. unfold row. rewrite (nth_indep _ [] (g 0)) by (rewrite map_length, range_length; lia).
  rewrite map_nth. f_equal. unfold range. rewrite (nth_indep _ 0 (Z.of_nat 0)) by (rewrite map_length, seq_length; lia).
  rewrite map_nth, seq_nth by lia. lia.
Qed.
Lemma mapM_ext_Ok {A B} (f : A -> res B) (g : A -> B) l : (forall x, In x l -> f x = Ok (g x)) -> mapM f l = Ok (map g l).
Proof.
  intro H. induction l as [|x l IH]; cbn; [reflexivity|]. rewrite H by (left; auto). cbn [bind].
  rewrite IH by (intros; apply H; now right). reflexivity.
Qed.
Lemma row_repeat n i : row (repeat [] n) i = [].
Proof. unfold row. revert n. induction (Z.to_nat i) as [|k IH]; intros [|n]; cbn; auto. Qed.
Lemma row_zsort l i : row (map zsort l) i = zsort (row l i).
Proof. unfold row. change (@nil Z) with (zsort []) at 1. apply map_nth. Qed.

(** ** Sets *)
Lemma member_In x s : member x s = true <-> In x s.
Proof.
  unfold member. rewrite existsb_exists. split; [intros (y & I & E); apply Z.eqb_eq in E; now subst|].
  intro I. exists x. split; auto. apply Z.eqb_refl.
Qed.
Lemma sins_In s x y : In y (sins s x) <-> In y s \/ y = x.
Proof.
  unfold sins. destruct (member x s) eqn:M.
  - apply member_In in M. split; [auto|]. intros [I| ->]; auto.
  - rewrite in_app_iff. cbn. intuition.
Qed.
Lemma sins_NoDup s x : NoDup s -> NoDup (sins s x).
Proof.
  intro H. unfold sins. destruct (member x s) eqn:M; auto.
  assert (~ In x s) by (intro I; apply member_In in I; congruence).
  apply NoDup_rev in H. rewrite <- (rev_involutive (s ++ [x])). apply NoDup_rev. rewrite rev_app_distr. cbn. constructor; auto.
  now rewrite <- in_rev.
Qed.
Lemma fold_sins_In l : forall s y, In y (fold_left sins l s) <-> In y s \/ In y l.
Proof.
  induction l as [|x l IH]; intros s y; cbn; [tauto|]. rewrite IH, sins_In. intuition.
Qed.
Lemma fold_sins_NoDup l : forall s, NoDup s -> NoDup (fold_left sins l s).
Proof. induction l as [|x l IH]; intros s H; cbn; auto. apply IH. now apply sins_NoDup. Qed.
Lemma serase_In s x y : In y (serase s x) <-> In y s /\ y <> x.
Proof. unfold serase. rewrite filter_In. destruct (Z.eqb_spec y x); cbn; intuition; discriminate. Qed.

(** ** A loop that changes each row from itself *)
Lemma foldM_rows (n : Z) (Pre : list Z -> Prop) step (g : Z -> list Z -> list Z) :
  (forall e i, zlen e = n -> 0 <= i < n -> Pre (row e i) -> step e i = Ok (upd (Z.to_nat i) (g i (row e i)) e)) ->
  (forall i r, 0 <= i < n -> Pre r -> Pre (g i r)) ->
  forall l e, NoDup l -> (forall i, In i l -> 0 <= i < n) -> zlen e = n -> (forall i, 0 <= i < n -> Pre (row e i)) ->
  exists e', foldM step e l = Ok e' /\ zlen e' = n /\
    (forall i, 0 <= i -> row e' i = if member i l then g i (row e i) else row e i) /\
    (forall i, 0 <= i < n -> Pre (row e' i)).
Proof.
  intros Hs Hp. induction l as [|a l IH]; intros e Nd Hr Hl He; cbn [foldM].
  - exists e. repeat split; auto.
  - pose proof (proj1 (NoDup_cons_iff _ _) Nd) as (N1 & N2). pose proof (Hr a (or_introl eq_refl)) as Ha.
    rewrite Hs by auto. cbn [bind].
    destruct (IH (upd (Z.to_nat a) (g a (row e a)) e)) as (e' & E1 & E2 & E3 & E4); auto.
    + intros; apply Hr; now right.
    + now rewrite zlen_upd_.
    + intros i Hi. rewrite row_upd by lia. destruct (i =? a); auto.
    + exists e'. repeat split; auto. intros i Hi. rewrite E3 by auto. rewrite row_upd by lia.
      unfold member. cbn [existsb]. destruct (Z.eqb_spec i a) as [->|]; cbn [orb]; [|reflexivity].
      destruct (existsb (Z.eqb a) l) eqn:M; [|reflexivity]. exfalso. apply N1. now apply member_In.
Qed.

Section Sym.
Variables (n : Z) (adj : list (list Z)) (o2n n2o : list Z) (iluCode : Z).
Hypothesis HG : graph_ok n adj.
Hypothesis HO : ordering_ok n o2n n2o.
Hypothesis HI : iluCode <= 5.

Lemma Hn : 0 <= n.
Proof. rewrite <- (g_size _ _ HG). unfold zlen. lia. Qed.
Definition o v := place n2o v.
Definition w v := place o2n v.

Lemma reorder_n2o v : 0 <= v < n -> reorder n2o v = Ok (o v).
Proof.
  intro H. unfold reorder, o, place. destruct (o_size _ _ _ HO) as [(_ & ->)|(_ & L)]; [reflexivity|].
  destruct n2o as [|x t]; [reflexivity|]. apply vget_z. lia.
Qed.
Lemma reorder_o2n v : 0 <= v < n -> reorder o2n v = Ok (w v).
Proof.
  intro H. unfold reorder, w, place. destruct (o_size _ _ _ HO) as [(-> & _)|(L & _)]; [reflexivity|].
  destruct o2n as [|x t]; [reflexivity|]. apply vget_z. lia.
Qed.
Lemma o_rng v : 0 <= v < n -> 0 <= o v < n.
Proof. apply (o_old _ _ _ HO). Qed.
Lemma w_rng v : 0 <= v < n -> 0 <= w v < n.
Proof. apply (o_new _ _ _ HO). Qed.
Lemma o_w v : 0 <= v < n -> o (w v) = v.
Proof. apply (o_new _ _ _ HO). Qed.
Lemma w_o v : 0 <= v < n -> w (o v) = v.
Proof. apply (o_old _ _ _ HO). Qed.
Lemma o_inj a b : 0 <= a < n -> 0 <= b < n -> o a = o b -> a = b.
Proof. intros Ha Hb E. rewrite <- (w_o a), <- (w_o b), E; auto. Qed.
Lemma vget_adj i : 0 <= i < n -> vget adj i = Ok (row adj i).
Proof. intro H. apply vget_row. now rewrite (g_size _ _ HG). Qed.

(** ** Walks *)
Lemma near_rng s : forall i j, 0 <= i < n -> near adj s i j -> 0 <= j < n.
Proof.
  induction s as [|s IH]; intros i j Hi H; cbn in H.
  - eapply (g_range _ _ HG); eauto.
  - destruct H as [H|(k & H1 & H2)]; [eauto|]. eapply (g_range _ _ HG); [|exact H2]. eauto.
Qed.
Lemma near_cons s : forall i k j, In k (row adj i) -> near adj s k j -> near adj (S s) i j.
Proof.
  induction s as [|s IH]; intros i k j H1 H2.
  - right. exists k. split; auto.
  - destruct H2 as [H2|(m & H2 & H3)].
    + left. eapply IH; eauto.
    + right. exists m. split; auto. eapply IH; eauto.
Qed.
Lemma near_sym s : forall i j, 0 <= i < n -> near adj s i j -> near adj s j i.
Proof.
  induction s as [|s IH]; intros i j Hi H.
  - eapply (g_sym _ _ HG); eauto.
  - destruct H as [H|(k & H1 & H2)].
    + left. auto.
    + eapply near_cons; [|apply IH; [exact Hi|exact H1]]. apply (g_sym _ _ HG); auto. eapply near_rng; eauto.
Qed.

Lemma enlarge_cell_ok e i : zlen e = n -> 0 <= i < n -> (forall c, In c (row e i) -> 0 <= c < n) ->
  enlarge_cell adj e i = Ok (upd (Z.to_nat i) (fold_left sins (fold_left (fun s c => fold_left sins (row adj c) s) (row e i) []) (row e i)) e).
Proof.
  intros L Hi H. unfold enlarge_cell. rewrite vget_row by lia. cbn [bind].
  assert (Q : forall l s, (forall c, In c l -> 0 <= c < n) ->
    foldM (fun s c => do r <- vget adj c; Ok (fold_left sins r s)) s l = Ok (fold_left (fun s c => fold_left sins (row adj c) s) l s)).
  { induction l as [|c l IH]; intros s Hl; cbn; [reflexivity|]. rewrite vget_adj by (apply Hl; now left). cbn [bind].
    apply IH. intros; apply Hl; now right. }
  rewrite Q by auto. cbn [bind]. apply vset_z. lia.
Qed.
Lemma new_In l : forall s y, In y (fold_left (fun s c => fold_left sins (row adj c) s) l s) <-> In y s \/ exists c, In c l /\ In y (row adj c).
Proof.
  induction l as [|c l IH]; intros s y; cbn.
  - split; [auto|]. intros [H|(c & [] & _)]. auto.
  - rewrite IH, fold_sins_In. split.
    + intros [[H|H]|(d & H1 & H2)]; eauto 6.
    + intros [H|(d & [<-|H1] & H2)]; eauto 6.
Qed.

Lemma enlarge_ok : exists e, enlarge n adj iluCode = Ok e /\
  (0 < iluCode -> zlen e = n /\ forall i j, 0 <= i < n -> (In j (row e i) <-> j <> i /\ near adj (Z.to_nat iluCode) i j)).
Proof.
  unfold enlarge. destruct (Z.ltb_spec 0 iluCode) as [Hp|]; [|exists []; split; auto; lia].
  replace (iluCode <=? 5) with true by (symmetry; apply Z.leb_le; lia). cbn [assert_ bind].
  rewrite (mapM_ext_Ok _ (fun i => fold_left sins (row adj i) [])) by (intros x I; apply range_In in I; rewrite vget_adj by auto; reflexivity).
  cbn [bind]. set (e0 := map _ (range n)).
  set (Pre := fun r : list Z => forall c, In c r -> 0 <= c < n).
  assert (R : forall k, 0 <= k -> exists e, foldM (fun e _ => foldM (enlarge_cell adj) e (range n)) e0 (range k) = Ok e /\ zlen e = n /\
     forall i j, 0 <= i < n -> (In j (row e i) <-> near adj (Z.to_nat k) i j)).
  { apply natlike_ind.
    - exists e0. cbn. split; auto. split; [unfold e0; rewrite zlen_map; apply zlen_range, Hn|].
      intros i j Hi. unfold e0. rewrite (row_map_range (fun i => fold_left sins (row adj i) [])) by auto. rewrite fold_sins_In. cbn. tauto.
    - intros k Hk (e & E1 & E2 & E3). unfold Z.succ. rewrite range_succ by auto.
      destruct (foldM_rows n Pre (enlarge_cell adj) (fun i r => fold_left sins (fold_left (fun s c => fold_left sins (row adj c) s) r []) r)) with (l := range n) (e := e) as (e' & F1 & F2 & F3 & _).
      + intros e1 i L1 Hi Hc. now apply enlarge_cell_ok.
      + intros i r Hi Hr c Hc. apply fold_sins_In in Hc. destruct Hc as [Hc|Hc]; [auto|]. apply new_In in Hc.
        destruct Hc as [[]|(d & Hd1 & Hd2)]. eapply (g_range _ _ HG); [apply Hr; exact Hd1|exact Hd2].
      + apply range_NoDup.
      + intros i I. now apply range_In.
      + auto.
      + intros i Hi c Hc. apply E3 in Hc; auto. eapply near_rng; eauto.
      + exists e'. rewrite (foldM_snoc _ _ _ _ _ E1). rewrite F1. split; [reflexivity|]. split; auto.
        intros i j Hi. rewrite F3 by lia. replace (member i (range n)) with true by (symmetry; apply member_In, range_In; auto).
        rewrite fold_sins_In, new_In. replace (Z.to_nat (k + 1)) with (S (Z.to_nat k)) by lia. cbn [near].
        rewrite E3 by auto. split.
        * intros [H|[[]|(c & H1 & H2)]]; auto. right. exists c. split; auto. now apply E3.
        * intros [H|(c & H1 & H2)]; auto. right. right. exists c. split; auto. now apply E3. }
  destruct (R iluCode ltac:(lia)) as (e & E1 & E2 & E3). rewrite E1. cbn [bind].
  destruct (foldM_rows n (fun _ => True) (fun e i => vmod e i (fun s => serase s i)) (fun i r => serase r i)) with (l := range n) (e := e) as (e' & F1 & F2 & F3 & _); auto.
  - intros e1 i L1 Hi _. apply (vmod_row e1 i (fun s => serase s i)). lia.
  - apply range_NoDup.
  - intros i I. now apply range_In.
  - exists e'. split; auto. intros _. split; auto. intros i j Hi. rewrite F3 by lia.
    replace (member i (range n)) with true by (symmetry; apply member_In, range_In; auto).
    rewrite serase_In, E3 by auto. tauto.
Qed.

(** ** The columns before the elimination *)
Definition E (p q : Z) : Prop := In (o q) (row adj (o p)).
Definition G (p q : Z) : Prop := level adj iluCode (o p) (o q).
Definition inr (p : Z) := 0 <= p < n.

Lemma E_sym p q : inr p -> inr q -> E p q -> E q p.
Proof. intros Hp Hq H. unfold E in *. apply (g_sym _ _ HG); auto. now apply o_rng. Qed.
Lemma G_sym p q : inr p -> inr q -> G p q -> G q p.
Proof.
  intros Hp Hq [H|(H1 & H2)]; [now left|]. right. split; auto. apply near_sym; auto. now apply o_rng.
Qed.

Lemma columns_ok : exists mid, columns n adj o2n n2o = Ok mid /\ zlen mid = n /\
  forall p q, inr p -> (In q (row mid p) <-> inr q /\ (q = p \/ E p q)).
Proof.
  unfold columns. exists (map (fun iP => fold_left sins (map w (row adj (o iP))) [iP]) (range n)). split; [|split].
  - apply mapM_ext_Ok. intros p Hp. apply range_In in Hp. rewrite reorder_n2o by auto. cbn [bind].
    pose proof (o_rng p Hp) as Ho. rewrite vget_adj by auto. cbn [bind].
    rewrite (mapM_ext_Ok _ w) by (intros x Hx; apply reorder_o2n; eapply (g_range _ _ HG); eauto). reflexivity.
  - rewrite zlen_map. apply zlen_range, Hn.
  - intros p q Hp. rewrite (row_map_range (fun iP => fold_left sins (map w (row adj (o iP))) [iP])) by auto.
    rewrite fold_sins_In. cbn [In]. unfold E. rewrite in_map_iff. split.
    + intros [[<-|[]]|(x & <- & Hx)]; [auto|]. assert (Rx : inr x) by (eapply (g_range _ _ HG); [apply o_rng; exact Hp|exact Hx]).
      split; [now apply w_rng|]. right. now rewrite o_w.
    + intros (Hq & [->|H]); auto. right. exists (o q). split; auto. now apply w_o.
Qed.

(** ** Elimination *)
Fixpoint F (k : nat) (p q : Z) : Prop :=
  match k with
  | O => q = p \/ E p q
  | S k => F k p q \/ (Z.of_nat k < p /\ Z.of_nat k < q /\ p <> q /\ G p q /\ F k p (Z.of_nat k) /\ F k (Z.of_nat k) q)
  end.
Lemma F_sym k : forall p q, inr p -> inr q -> F k p q -> F k q p.
Proof.
  induction k as [|k IH]; intros p q Hp Hq H; cbn in *.
  - destruct H; auto. right. now apply E_sym.
  - destruct H as [H|(H1 & H2 & H3 & H4 & H5 & H6)]; [left; auto|]. right. unfold inr in *.
    repeat split; auto; try (now apply G_sym); apply IH; auto; unfold inr; lia.
Qed.
Lemma F_mono k m p q : (k <= m)%nat -> F k p q -> F m p q.
Proof. intros L H. induction L; auto. now left. Qed.
Lemma F_stab k m p q : (k <= m)%nat -> (p <= Z.of_nat k \/ q <= Z.of_nat k) -> F m p q -> F k p q.
Proof.
  intros L Hm. induction L as [|m L IH]; auto. intros [H|(H1 & H2 & _)]; [auto|lia].
Qed.
Lemma F_filled k : forall p q, inr p -> inr q -> p <> q -> F k p q -> pattern adj n2o iluCode p q.
Proof.
  induction k as [|k IH]; intros p q Hp Hq Hd H; cbn in H.
  - destruct H as [H|H]; [congruence|]. now apply f_edge.
  - destruct H as [H|(H1 & H2 & H3 & H4 & H5 & H6)]; [now apply IH|]. unfold inr in *.
    apply (f_fill _ _ (Z.of_nat k)); auto; try lia; apply IH; auto; unfold inr; lia.
Qed.
Lemma filled_F p q : pattern adj n2o iluCode p q -> inr p -> inr q -> F (Z.to_nat n) p q.
Proof.
  intro H. induction H as [i j Hd He|k i j Hk Hkj Hd Ha H1 IH1 H2 IH2]; intros Hi Hj.
  - apply (F_mono 0); [lia|]. right. exact He.
  - unfold inr in *. specialize (IH1 Hi ltac:(lia)). specialize (IH2 ltac:(lia) Hj).
    apply (F_mono (S (Z.to_nat k))); [lia|]. right. rewrite Z2Nat.id by lia.
    repeat split; auto; try lia; eapply F_stab; try eassumption; lia.
Qed.

Variable enl : list (list Z).
Hypothesis Henl : 0 < iluCode -> zlen enl = n /\ forall i j, 0 <= i < n -> (In j (row enl i) <-> j <> i /\ near adj (Z.to_nat iluCode) i j).

Lemma keep_ok p q : inr p -> inr q -> p <> q -> exists b, keep iluCode enl (o p) (o q) = Ok b /\ (b = true <-> G p q).
Proof.
  intros Hp Hq Hd. unfold keep, G, level. destruct (Z.ltb_spec iluCode 0) as [L|L].
  - exists true. split; [reflexivity|]. split; auto.
  - destruct (Z.ltb_spec 0 iluCode) as [L'|L'].
    + destruct (Henl L') as (H1 & H2). rewrite vget_row by (rewrite H1; now apply o_rng). cbn [bind]. eexists. split; [reflexivity|].
      rewrite member_In, H2 by (now apply o_rng). split.
      * intros (_ & H). auto.
      * intros [H|(_ & H)]; [lia|]. split; auto. intro E. apply Hd. symmetry. now apply o_inj.
    + exists false. split; [reflexivity|]. split; [discriminate|]. intros [H|(H & _)]; lia.
Qed.

Lemma fill_row_ok p : inr p -> forall r mid, (forall q, In q r -> inr q) -> zlen mid = n ->
  exists mid', fill_row iluCode enl n2o r p (o p) mid = Ok mid' /\ zlen mid' = n /\
    forall a b, inr a -> (In b (row mid' a) <-> In b (row mid a) \/
      exists q, In q r /\ p < q /\ G p q /\ ((a = q /\ b = p) \/ (a = p /\ b = q))).
Proof.
  intro Hp. unfold fill_row. induction r as [|q r IH]; intros mid Hr L; cbn [foldM].
  - exists mid. split; auto. split; auto. intros a b Ha. split; [auto|]. intros [H|(q & [] & _)]. exact H.
  - pose proof (Hr q (or_introl eq_refl)) as Hq. assert (Hr' : forall x, In x r -> inr x) by (intros; apply Hr; now right).
    destruct (Z.ltb_spec p q) as [Lt|Ge].
    + rewrite reorder_n2o by auto. cbn [bind]. destruct (keep_ok p q Hp Hq ltac:(lia)) as (y & -> & Hy). cbn [bind].
      destruct y.
      * rewrite vmod_row by (unfold inr in *; lia). cbn [bind]. rewrite vmod_row by (rewrite zlen_upd_; unfold inr in *; lia). cbn [bind].
        set (mid1 := upd _ _ _). destruct (IH mid1 Hr') as (mid' & E1 & E2 & E3); [unfold mid1; now rewrite !zlen_upd_|].
        exists mid'. split; auto. split; auto. intros a b Ha. rewrite E3 by auto.
        assert (M : In b (row mid1 a) <-> In b (row mid a) \/ ((a = q /\ b = p) \/ (a = p /\ b = q))).
        { unfold mid1, inr in *. rewrite row_upd by (rewrite ?zlen_upd_; lia).
          destruct (Z.eqb_spec a p) as [->|Nap]; rewrite ?row_upd by lia.
          - destruct (Z.eqb_spec p q); [lia|]. rewrite sins_In. intuition lia.
          - destruct (Z.eqb_spec a q) as [->|]; [rewrite sins_In|]; intuition lia. }
        rewrite M. split.
        -- intros [[H|H]|(x & H1 & H2)]; [auto| |].
           ++ right. exists q. split; [now left|]. split; auto. split; auto. now apply Hy.
           ++ right. exists x. split; [now right|auto].
        -- intros [H|(x & [<-|H1] & H2)]; [auto|tauto|]. right. exists x. auto.
      * destruct (IH mid Hr' L) as (mid' & E1 & E2 & E3). exists mid'. split; auto. split; auto. intros a b Ha. rewrite E3 by auto.
        split.
        -- intros [H|(x & H1 & H2)]; [auto|]. right. exists x. split; [now right|auto].
        -- intros [H|(x & [<-|H1] & H2 & H3 & H4)]; [auto| |right; exists x; auto]. exfalso. apply Hy in H3. discriminate.
    + cbn [bind]. destruct (IH mid Hr' L) as (mid' & E1 & E2 & E3). exists mid'. split; auto. split; auto. intros a b Ha. rewrite E3 by auto.
      split.
      * intros [H|(x & H1 & H2)]; [auto|]. right. exists x. split; [now right|auto].
      * intros [H|(x & [<-|H1] & H2)]; [auto|lia|]. right. exists x. auto.
Qed.

Definition noDups (l : list (list Z)) := forall i, inr i -> NoDup (row l i).

Lemma fill_loop_ok k r : inr k -> (forall q, In q r -> inr q) -> forall l mid low upp, (forall p, In p l -> inr p) ->
  zlen mid = n -> zlen low = n -> zlen upp = n -> noDups low -> noDups upp ->
  exists mid' low' upp',
    foldM (fun st p => if k <? p then
        do other <- reorder n2o p;
        do mid <- fill_row iluCode enl n2o r p other (fst (fst st));
        do low <- vmod (snd (fst st)) p (fun s => sins s k);
        do upp <- vmod (snd st) k (fun s => sins s p);
        Ok (mid, low, upp)
      else Ok st) (mid, low, upp) l = Ok (mid', low', upp') /\
    zlen mid' = n /\ zlen low' = n /\ zlen upp' = n /\ noDups low' /\ noDups upp' /\
    (forall a b, inr a -> (In b (row mid' a) <-> In b (row mid a) \/
      exists p q, In p l /\ k < p /\ In q r /\ p < q /\ G p q /\ ((a = q /\ b = p) \/ (a = p /\ b = q)))) /\
    (forall a b, inr a -> (In b (row low' a) <-> In b (row low a) \/ (In a l /\ k < a /\ b = k))) /\
    (forall a b, inr a -> (In b (row upp' a) <-> In b (row upp a) \/ (a = k /\ In b l /\ k < b))).
Proof.
  intros Hk Hr. induction l as [|p l IH]; intros mid low upp Hl L1 L2 L3 N1 N2; cbn [foldM].
  - exists mid, low, upp. split; [reflexivity|]. repeat (split; [assumption|]). split; [|split]; intros a b Ha; (split; [auto|]).
    + intros [H|(p & q & [] & _)]. exact H.
    + intros [H|([] & _)]. exact H.
    + intros [H|(_ & [] & _)]. exact H.
  - pose proof (Hl p (or_introl eq_refl)) as Hp. assert (Hl' : forall x, In x l -> inr x) by (intros; apply Hl; now right).
    destruct (Z.ltb_spec k p) as [Lt|Ge].
    + rewrite reorder_n2o by auto. cbn [bind fst snd].
      destruct (fill_row_ok p Hp r mid Hr L1) as (mid1 & -> & M1 & M2). cbn [bind].
      rewrite vmod_row by (unfold inr in *; lia). cbn [bind]. rewrite vmod_row by (unfold inr in *; lia). cbn [bind].
      set (low1 := upd _ _ low). set (upp1 := upd _ _ upp).
      destruct (IH mid1 low1 upp1 Hl' M1) as (mid' & low' & upp' & E1 & E2 & E3 & E4 & E5 & E6 & E7 & E8 & E9).
      * unfold low1. now rewrite zlen_upd_.
      * unfold upp1. now rewrite zlen_upd_.
      * intros i Hi. unfold low1, inr in *. rewrite row_upd by lia. destruct (i =? p) eqn:Q; [apply sins_NoDup|]; apply N1; unfold inr; lia.
      * intros i Hi. unfold upp1, inr in *. rewrite row_upd by lia. destruct (i =? k) eqn:Q; [apply sins_NoDup|]; apply N2; unfold inr; lia.
      * exists mid', low', upp'. split; [exact E1|]. repeat (split; [assumption|]). split; [|split]; intros a b Ha.
        -- rewrite E7, M2 by auto. split.
           ++ intros [[H|(q & H1 & H2)]|(x & q & H1 & H2)]; [auto| |].
              ** right. exists p, q. split; [now left|]. split; auto.
              ** right. exists x, q. split; [now right|auto].
           ++ intros [H|(x & q & [<-|H1] & H2 & H3)]; [auto| |].
              ** left. right. exists q. exact H3.
              ** right. exists x, q. auto.
        -- rewrite E8 by auto. unfold low1, inr in *. rewrite row_upd by lia. cbn [In].
           destruct (Z.eqb_spec a p) as [->|]; rewrite ?sins_In; intuition (try lia).
        -- rewrite E9 by auto. unfold upp1, inr in *. rewrite row_upd by lia. cbn [In].
           destruct (Z.eqb_spec a k) as [->|]; rewrite ?sins_In; intuition (try lia).
    + cbn [bind]. destruct (IH mid low upp Hl' L1 L2 L3 N1 N2) as (mid' & low' & upp' & E1 & E2 & E3 & E4 & E5 & E6 & E7 & E8 & E9).
      exists mid', low', upp'. split; [exact E1|]. repeat (split; [assumption|]). split; [|split]; intros a b Ha.
      * rewrite E7 by auto. split.
        -- intros [H|(x & q & H1 & H2)]; [auto|]. right. exists x, q. split; [now right|auto].
        -- intros [H|(x & q & [<-|H1] & H2 & H3)]; [auto|lia|]. right. exists x, q. auto.
      * rewrite E8 by auto. cbn [In]. intuition lia.
      * rewrite E9 by auto. cbn [In]. intuition lia.
Qed.

Definition inv (k : nat) (st : list (list Z) * list (list Z) * list (list Z)) : Prop :=
  let '(mid, low, upp) := st in
  zlen mid = n /\ zlen low = n /\ zlen upp = n /\ noDups low /\ noDups upp /\
  (forall a b, inr a -> (In b (row mid a) <-> inr b /\ F k a b)) /\
  (forall a b, inr a -> (In b (row low a) <-> 0 <= b < Z.of_nat k /\ b < a /\ F (Z.to_nat b) a b)) /\
  (forall a b, inr a -> (In b (row upp a) <-> a < Z.of_nat k /\ a < b < n /\ F (Z.to_nat a) a b)).

Lemma fill_column_ok k st : inr (Z.of_nat k) -> inv k st -> exists st', fill_column iluCode enl n2o st (Z.of_nat k) = Ok st' /\ inv (S k) st'.
Proof.
  intros Hk. destruct st as ((mid, low), upp). intros (L1 & L2 & L3 & N1 & N2 & I1 & I2 & I3).
  unfold fill_column. cbn [fst snd]. rewrite vget_row by (unfold inr in *; lia). cbn [bind].
  set (K := Z.of_nat k) in *. set (r := row mid K).
  assert (Hr : forall q, In q r -> inr q) by (intros q Hq; apply I1 in Hq; auto; apply Hq).
  destruct (fill_loop_ok K r Hk Hr r mid low upp Hr L1 L2 L3 N1 N2) as (mid' & low' & upp' & E1 & E2 & E3 & E4 & E5 & E6 & E7 & E8 & E9).
  exists (mid', low', upp'). split; [exact E1|]. unfold inv. repeat (split; [assumption|]). split; [|split]; intros a b Ha.
  - rewrite E7, I1 by auto. cbn [F]. fold K. split.
    + intros [(H1 & H2)|(p & q & H1 & H2 & H3 & H4 & H5 & H6)]; [auto|].
      apply I1 in H1; auto. apply I1 in H3; auto. destruct H1 as (Rp & Fp), H3 as (Rq & Fq).
      destruct H6 as [(-> & ->)|(-> & ->)].
      * split; auto. right. repeat split; try lia; auto; [now apply G_sym|now apply F_sym].
      * split; auto. right. repeat split; try lia; auto. now apply F_sym.
    + intros (Hb & [H|(H1 & H2 & H3 & H4 & H5 & H6)]); [auto|]. right.
      assert (Ra : In a r) by (apply I1; auto; split; auto; now apply F_sym).
      assert (Rb : In b r) by (apply I1; auto).
      destruct (Z.lt_ge_cases a b).
      * exists a, b. repeat split; auto.
      * exists b, a. repeat split; auto; try lia. now apply G_sym.
  - rewrite E8, I2 by auto. replace (Z.of_nat (S k)) with (K + 1) by lia. split.
    + intros [(H1 & H2)|(H1 & H2 & ->)]; [split; [lia|auto]|]. apply I1 in H1; auto. destruct H1 as (_ & H1).
      split; [unfold inr in *; lia|]. split; auto. unfold K. rewrite Nat2Z.id. now apply F_sym.
    + intros (H1 & H2 & H3). destruct (Z.eq_dec b K) as [->|]; [right|left; split; [lia|auto]].
      split; [|auto]. apply I1; auto. split; auto. unfold K in H3 at 1. rewrite Nat2Z.id in H3. now apply F_sym.
  - rewrite E9, I3 by auto. replace (Z.of_nat (S k)) with (K + 1) by lia. split.
    + intros [(H1 & H2)|(-> & H1 & H2)]; [split; [lia|auto]|]. apply I1 in H1; auto. destruct H1 as (Hb & H1).
      split; [lia|]. split; [unfold inr in *; lia|]. unfold K at 1. now rewrite Nat2Z.id.
    + intros (H1 & H2 & H3). destruct (Z.eq_dec a K) as [->|]; [right|left; split; [lia|auto]].
      split; [auto|]. split; [|lia]. apply I1; auto. unfold K in H3 at 1. rewrite Nat2Z.id in H3. split; [unfold inr; lia|auto].
Qed.

Lemma fill_all mid : zlen mid = n -> (forall p q, inr p -> (In q (row mid p) <-> inr q /\ (q = p \/ E p q))) ->
  exists st, foldM (fill_column iluCode enl n2o) (mid, repeat [] (Z.to_nat n), repeat [] (Z.to_nat n)) (range n) = Ok st /\ inv (Z.to_nat n) st.
Proof.
  intros L H. pose proof Hn as Hn. set (st0 := (mid, _, _)).
  assert (R : forall k, 0 <= k -> k <= n -> exists st, foldM (fill_column iluCode enl n2o) st0 (range k) = Ok st /\ inv (Z.to_nat k) st).
  { apply (natlike_ind (fun k => k <= n -> exists st, foldM (fill_column iluCode enl n2o) st0 (range k) = Ok st /\ inv (Z.to_nat k) st)).
    - intros _. exists st0. split; [reflexivity|]. unfold inv, st0. assert (Lr : zlen (repeat (@nil Z) (Z.to_nat n)) = n) by (unfold zlen; rewrite repeat_length; lia).
      do 3 (split; [auto|]). unfold noDups. split; [intros i _; rewrite row_repeat; constructor|]. split; [intros i _; rewrite row_repeat; constructor|].
      split; [|split]; intros a b Ha.
      + apply H. auto.
      + rewrite row_repeat. cbn. lia.
      + rewrite row_repeat. cbn. unfold inr in Ha. lia.
    - intros k Hk IH Hle. unfold Z.succ in *. destruct (IH ltac:(lia)) as (st & E1 & E2). rewrite range_succ by auto.
      destruct (fill_column_ok (Z.to_nat k) st) as (st' & E3 & E4); [unfold inr; lia|auto|].
      exists st'. rewrite (foldM_snoc _ _ _ _ _ E1). rewrite Z2Nat.id in E3 by auto. rewrite E3.
      split; [reflexivity|]. replace (Z.to_nat (k + 1)) with (S (Z.to_nat k)) by lia. exact E4. }
  apply R; lia.
Qed.

(** ** The tables made from the rows *)
Lemma old_rows_ok rows : zlen rows = n -> (forall i j, inr i -> In j (row rows i) -> inr j) ->
  exists t, old_rows n n2o rows = Ok (t, zsum (map (fun i => zlen (row rows i)) (range n))) /\ zlen t = n /\
    forall i, inr i -> row t (o i) = map o (row rows i).
Proof.
  intros L H. pose proof Hn as Hn. unfold old_rows. set (st0 := (repeat [] (Z.to_nat n), 0)).
  set (f := fun st iP => _).
  assert (R : forall k, 0 <= k -> k <= n -> exists t, foldM f st0 (range k) = Ok (t, zsum (map (fun i => zlen (row rows i)) (range k))) /\ zlen t = n /\
    forall i, inr i -> row t (o i) = if i <? k then map o (row rows i) else []).
  { apply (natlike_ind (fun k => k <= n -> exists t, foldM f st0 (range k) = Ok (t, zsum (map (fun i => zlen (row rows i)) (range k))) /\ zlen t = n /\
      forall i, inr i -> row t (o i) = if i <? k then map o (row rows i) else [])).
    - intros _. exists (repeat [] (Z.to_nat n)). split; [reflexivity|]. split; [unfold zlen; rewrite repeat_length; lia|].
      intros i Hi. rewrite row_repeat. destruct (Z.ltb_spec i 0); [unfold inr in Hi; lia|reflexivity].
    - intros k Hk IH Hle. unfold Z.succ in *. destruct (IH ltac:(lia)) as (t & E1 & E2 & E3). rewrite range_succ by auto.
      assert (Hki : inr k) by (unfold inr; lia).
      rewrite (foldM_snoc _ _ _ _ _ E1). unfold f at 1. rewrite reorder_n2o by auto. cbn [bind fst snd].
      rewrite vget_row by (unfold inr in *; lia). cbn [bind].
      rewrite (mapM_ext_Ok _ o) by (intros x Hx; apply reorder_n2o; eapply H; eauto). cbn [bind].
      pose proof (o_rng k Hki) as Ho. rewrite vget_row by lia. cbn [bind]. rewrite E3 by auto.
      rewrite Z.ltb_irrefl. cbn [app]. rewrite vset_z by lia. cbn [bind]. eexists. split.
      + rewrite map_app, zsum_app. cbn [map zsum fold_right]. rewrite zlen_map, Z.add_0_r. reflexivity.
      + split; [now rewrite zlen_upd_|]. intros i Hi. rewrite row_upd by (try lia; apply o_rng; auto).
        destruct (Z.eqb_spec (o i) (o k)) as [Eo|No].
        * apply o_inj in Eo; auto. subst i. destruct (Z.ltb_spec k (k + 1)); [reflexivity|lia].
        * rewrite E3 by auto. destruct (Z.ltb_spec i k), (Z.ltb_spec i (k + 1)); auto; try lia. exfalso. apply No. f_equal. lia. }
  destruct (R n Hn ltac:(lia)) as (t & E1 & E2 & E3). exists t. split; auto. split; auto. intros i Hi. rewrite E3 by auto.
  destruct (Z.ltb_spec i n); [reflexivity|unfold inr in Hi; lia].
Qed.

Definition pairs (rows : list (list Z)) : list (Z * Z) := flat_map (fun i => map (fun j => (i, j)) (row rows i)) (range n).
Lemma pairs_In rows i j : In (i, j) (pairs rows) <-> inr i /\ In j (row rows i).
Proof.
  unfold pairs. rewrite in_flat_map. split.
  - intros (x & Hx & I). apply in_map_iff in I. destruct I as (y & E & I). injection E as -> ->. apply range_In in Hx. auto.
  - intros (Hi & Hj). exists i. split; [now apply range_In|]. apply in_map_iff. eauto.
Qed.
Lemma pairs_length rows : Z.of_nat (length (pairs rows)) = zsum (map (fun i => zlen (row rows i)) (range n)).
Proof.
  unfold pairs. induction (range n) as [|i l IH]; [reflexivity|]. cbn [flat_map map zsum fold_right]. rewrite app_length, map_length, Nat2Z.inj_add, IH. reflexivity.
Qed.
Lemma pairs_NoDup rows : noDups rows -> NoDup (pairs rows).
Proof.
  intro H. unfold pairs. assert (Q : forall l, NoDup l -> (forall i, In i l -> inr i) -> NoDup (flat_map (fun i => map (fun j => (i, j)) (row rows i)) l)).
  { induction l as [|i l IH]; intros Nd Hl; cbn; [constructor|]. apply NoDup_cons_iff in Nd. destruct Nd as (N1 & N2).
    apply NoDup_app_.
    - apply FinFun.Injective_map_NoDup; [intros a b E; now injection E|]. apply H, Hl. now left.
    - apply IH; auto. intros; apply Hl; now right.
    - intros (a, b) I1 I2. apply in_map_iff in I1. destruct I1 as (y & E & _). injection E as <- <-.
      apply in_flat_map in I2. destruct I2 as (z & Hz & I2). apply in_map_iff in I2. destruct I2 as (u & E & _). injection E as -> _. auto. }
  apply Q; [apply range_NoDup|]. intros i I. now apply range_In.
Qed.

Lemma same_count low upp : noDups low -> noDups upp ->
  (forall i j, inr i -> In j (row low i) -> inr j) -> (forall i j, inr i -> In j (row upp i) -> inr j) ->
  (forall i j, inr i -> inr j -> (In j (row low i) <-> In i (row upp j))) ->
  zsum (map (fun i => zlen (row low i)) (range n)) = zsum (map (fun i => zlen (row upp i)) (range n)).
Proof.
  intros N1 N2 R1 R2 H. rewrite <- !pairs_length. f_equal.
  rewrite <- (map_length (fun p : Z * Z => (snd p, fst p)) (pairs low)). apply Permutation_length.
  apply NoDup_Permutation.
  - apply FinFun.Injective_map_NoDup; [|now apply pairs_NoDup]. intros (a, b) (c, d) Q. cbn in Q. now injection Q as -> ->.
  - now apply pairs_NoDup.
  - intros (a, b). rewrite in_map_iff, pairs_In. split.
    + intros ((x, y) & Q & I). cbn in Q. injection Q as -> ->. apply pairs_In in I. destruct I as (I1 & I2).
      pose proof (R1 _ _ I1 I2). split; auto. now apply H.
    + intros (I1 & I2). pose proof (R2 _ _ I1 I2). exists (b, a). split; [reflexivity|]. apply pairs_In. split; auto. now apply H.
Qed.

Lemma cross_ok rows others : zlen rows = n -> zlen others = n ->
  (forall i, inr i -> sasc (row others i)) -> (forall i j, inr i -> In j (row rows i) -> inr j /\ In i (row others j)) ->
  exists t, cross n rows others = Ok t /\ zlen t = n /\
    forall i, inr i -> Forall2 (fun j p => at_ (row others j) p i) (row rows i) (row t i).
Proof.
  intros L1 L2 Hs H. set (g := fun iP => map (fun jP => Z.of_nat (lb_lt (row others jP) iP)) (row rows iP)).
  assert (Q : forall i j, inr i -> In j (row rows i) -> nth_error (row others j) (lb_lt (row others j) i) = Some i).
  { intros i j Hi Hj. destruct (H i j Hi Hj) as (Rj & I). apply In_nth_error in I. destruct I as (p & Hp).
    now rewrite (lb_lt_sasc_found _ p) by auto. }
  exists (map g (range n)). split; [|split].
  - apply mapM_ext_Ok. intros i Hi. apply range_In in Hi. rewrite vget_row by lia. cbn [bind]. apply mapM_ext_Ok. intros j Hj.
    destruct (H i j Hi Hj) as (Rj & _). rewrite vget_row by (unfold inr in *; lia). cbn [bind]. f_equal.
    pose proof (nth_error_Some_lt _ _ _ _ (Q i j Hi Hj)) as Lt. apply Nat.ltb_lt in Lt. now rewrite Lt.
  - rewrite zlen_map. apply zlen_range, Hn.
  - intros i Hi. rewrite (row_map_range g) by auto. unfold g.
    assert (A : forall l, (forall j, In j l -> In j (row rows i)) -> Forall2 (fun j p => at_ (row others j) p i) l (map (fun jP => Z.of_nat (lb_lt (row others jP) i)) l)).
    { induction l as [|j l IH]; intro Hl; cbn; constructor.
      - split; [lia|]. rewrite Nat2Z.id. apply Q; auto. apply Hl. now left.
      - apply IH. intros; apply Hl; now right. }
    apply A. auto.
Qed.

Lemma full_row_pos_ok low upp lo uo : zlen low = n -> zlen upp = n ->
  (forall i, inr i -> sasc (row low i)) -> (forall i, inr i -> sasc (row upp i)) ->
  (forall i j, inr i -> In j (row low i) -> inr j) -> (forall i j, inr i -> In j (row upp i) -> inr j) ->
  (forall i j, inr i -> inr j -> E i j -> (j < i -> In j (row low i)) /\ (i < j -> In j (row upp i))) ->
  (forall i, inr i -> row lo (o i) = map o (row low i)) -> (forall i, inr i -> row uo (o i) = map o (row upp i)) ->
  exists t, full_row_pos n adj o2n low upp = Ok t /\ zlen t = n /\
    forall i, inr i -> Forall2 (fun j p => if Z.eq_dec j i then p = -1 else 0 < p /\ at_ (i :: row lo i ++ row uo i) p j) (row adj i) (row t i).
Proof.
  intros L1 L2 S1 S2 R1 R2 HE HL HU.
  set (pos := fun i j => if w j <? w i then Z.of_nat (lb_lt (row low (w i)) (w j)) + 1
     else if w i <? w j then Z.of_nat (lb_lt (row upp (w i)) (w j)) + zlen (row low (w i)) + 1 else -1).
  set (g := fun i => map (pos i) (row adj i)).
  assert (Edge : forall i j, inr i -> In j (row adj i) -> inr j /\ inr (w i) /\ inr (w j) /\ E (w i) (w j)).
  { intros i j Hi Hj. assert (Rj : inr j) by (eapply (g_range _ _ HG); eauto). pose proof (w_rng _ Hi). pose proof (w_rng _ Rj).
    split; [exact Rj|]. split; [exact H|]. split; [exact H0|]. unfold E. rewrite !o_w; auto. }
  assert (QL : forall i j, inr i -> In j (row adj i) -> w j < w i -> nth_error (row low (w i)) (lb_lt (row low (w i)) (w j)) = Some (w j)).
  { intros i j Hi Hj Lt. destruct (Edge i j Hi Hj) as (Rj & Ri' & Rj' & He). pose proof (proj1 (HE _ _ Ri' Rj' He) Lt) as I.
    apply In_nth_error in I. destruct I as (p & Hp). now rewrite (lb_lt_sasc_found _ p) by auto. }
  assert (QU : forall i j, inr i -> In j (row adj i) -> w i < w j -> nth_error (row upp (w i)) (lb_lt (row upp (w i)) (w j)) = Some (w j)).
  { intros i j Hi Hj Lt. destruct (Edge i j Hi Hj) as (Rj & Ri' & Rj' & He). pose proof (proj2 (HE _ _ Ri' Rj' He) Lt) as I.
    apply In_nth_error in I. destruct I as (p & Hp). now rewrite (lb_lt_sasc_found _ p) by auto. }
  exists (map g (range n)). split; [|split].
  - apply mapM_ext_Ok. intros i Hi. apply range_In in Hi. rewrite reorder_o2n by auto. cbn [bind]. rewrite vget_adj by auto. cbn [bind].
    apply mapM_ext_Ok. intros j Hj. destruct (Edge i j Hi Hj) as (Rj & Ri' & Rj' & He). rewrite reorder_o2n by auto. cbn [bind].
    unfold pos. destruct (Z.ltb_spec (w j) (w i)) as [Lt|Ge].
    + rewrite vget_row by (unfold inr in *; lia). cbn [bind].
      pose proof (nth_error_Some_lt _ _ _ _ (QL i j Hi Hj Lt)) as B. apply Nat.ltb_lt in B. rewrite B. reflexivity.
    + destruct (Z.ltb_spec (w i) (w j)) as [Lt|Ge']; [|reflexivity].
      rewrite vget_row by (unfold inr in *; lia). cbn [bind].
      pose proof (nth_error_Some_lt _ _ _ _ (QU i j Hi Hj Lt)) as B. apply Nat.ltb_lt in B. rewrite B. cbn [assert_ bind].
      rewrite vget_row by (unfold inr in *; lia). reflexivity.
  - rewrite zlen_map. apply zlen_range, Hn.
  - intros i Hi. rewrite (row_map_range g) by auto. unfold g.
    assert (A : forall l, (forall j, In j l -> In j (row adj i)) ->
      Forall2 (fun j p => if Z.eq_dec j i then p = -1 else 0 < p /\ at_ (i :: row lo i ++ row uo i) p j) l (map (pos i) l)).
    { induction l as [|j l IH]; intro Hl; cbn; constructor; [|apply IH; intros; apply Hl; now right].
      pose proof (Hl j (or_introl eq_refl)) as Hj. destruct (Edge i j Hi Hj) as (Rj & Ri' & Rj' & He). unfold pos.
      destruct (Z.eq_dec j i) as [->|Nji].
      - rewrite Z.ltb_irrefl. reflexivity.
      - assert (Ww : w j <> w i) by (intro Q; apply Nji; rewrite <- (o_w j), <- (o_w i), Q; auto).
        pose proof (HL _ Ri') as HLi. pose proof (HU _ Ri') as HUi. rewrite o_w in HLi, HUi by auto.
        destruct (Z.ltb_spec (w j) (w i)) as [Lt|Ge].
        + split; [lia|]. split; [lia|]. replace (Z.to_nat (Z.of_nat (lb_lt (row low (w i)) (w j)) + 1)) with (S (lb_lt (row low (w i)) (w j))) by lia.
          cbn [nth_error]. pose proof (QL i j Hi Hj Lt) as Q. rewrite nth_error_app1.
          * rewrite HLi, nth_error_map, Q. cbn. now rewrite o_w.
          * rewrite HLi, map_length. eapply nth_error_Some_lt; eauto.
        + destruct (Z.ltb_spec (w i) (w j)) as [Lt|Ge']; [|lia].
          split; [unfold zlen; lia|]. split; [unfold zlen; lia|].
          replace (Z.to_nat (Z.of_nat (lb_lt (row upp (w i)) (w j)) + zlen (row low (w i)) + 1))
            with (S (length (row lo i) + lb_lt (row upp (w i)) (w j)))%nat by (rewrite HLi, map_length; unfold zlen; lia).
          cbn [nth_error]. rewrite nth_error_app2 by lia. replace (length (row lo i) + _ - _)%nat with (lb_lt (row upp (w i)) (w j)) by lia.
          rewrite HUi, nth_error_map, (QU i j Hi Hj Lt). cbn. now rewrite o_w. }
    apply A. auto.
Qed.
End Sym.

(** ** Everything together *)
Lemma NoDup_asc_sasc l : NoDup l -> asc l -> sasc l.
Proof.
  induction l as [|x l IH]; intros N A; [apply sasc_nil|].
  apply NoDup_cons_iff in N. destruct N as (N1 & N2). apply asc_cons in A. destruct A as (A1 & A2).
  apply sasc_cons. split; [auto|]. intros y Hy. specialize (A2 y Hy). assert (x <> y) by (intro; subst; auto). lia.
Qed.
Lemma zsort_In l x : In x (zsort l) <-> In x l.
Proof. split; apply Permutation_in; [symmetry|]; apply zsort_perm. Qed.
Lemma zsort_sasc l : NoDup l -> sasc (zsort l).
Proof. intro H. apply NoDup_asc_sasc; [|apply zsort_asc]. eapply Permutation_NoDup; [apply zsort_perm|auto]. Qed.

Lemma pattern_sym n adj o2n n2o ilu p q : graph_ok n adj -> ordering_ok n o2n n2o ->
  0 <= p < n -> 0 <= q < n -> pattern adj n2o ilu p q -> pattern adj n2o ilu q p.
Proof.
  intros HG HO Hp Hq H. assert (q <> p) by (destruct H; auto).
  eapply (F_filled n adj n2o ilu (Z.to_nat n)); unfold inr; auto.
  eapply F_sym; eauto. eapply filled_F; eauto.
Qed.

Lemma symbolic_ok n adj o2n n2o iluCode : graph_ok n adj -> ordering_ok n o2n n2o -> iluCode <= 5 ->
  exists s, symbolic n adj o2n n2o iluCode = Ok s /\ structure_ok n adj o2n n2o (pattern adj n2o iluCode) s.
Proof.
  intros HG HO HI. assert (Hn : 0 <= n) by (rewrite <- (g_size _ _ HG); unfold zlen; lia).
  unfold symbolic. destruct (enlarge_ok n adj o2n iluCode HG HI) as (enl & -> & Henl). cbn [bind].
  destruct (columns_ok n adj o2n n2o HG HO) as (mid & -> & M1 & M2). cbn [bind].
  destruct (fill_all n adj o2n n2o iluCode HG HO enl Henl mid M1 M2) as (((mid', low), upp) & -> & I). cbn [bind fst snd].
  destruct I as (L1 & L2 & L3 & N1 & N2 & I1 & I2 & I3). clear I1 M1 M2 mid.
  assert (P1 : forall i j, 0 <= i < n -> (In j (row (map zsort low) i) <-> 0 <= j < i /\ pattern adj n2o iluCode i j)).
  { intros i j Hi. rewrite row_zsort, zsort_In, I2 by auto. split.
    - intros (H1 & H2 & H3). split; [lia|]. eapply (F_filled n); [| | |exact H3]; unfold inr; lia.
    - intros (H1 & H2). split; [lia|]. split; [lia|]. apply (F_stab adj n2o iluCode _ (Z.to_nat n)); [lia|right; lia|].
      apply filled_F; auto; unfold inr; lia. }
  assert (P2 : forall i j, 0 <= i < n -> (In j (row (map zsort upp) i) <-> i < j < n /\ pattern adj n2o iluCode i j)).
  { intros i j Hi. rewrite row_zsort, zsort_In, I3 by auto. split.
    - intros (H1 & H2 & H3). split; [lia|]. eapply (F_filled n); [| | |exact H3]; unfold inr; lia.
    - intros (H1 & H2). split; [lia|]. split; [lia|]. apply (F_stab adj n2o iluCode _ (Z.to_nat n)); [lia|left; lia|].
      apply filled_F; auto; unfold inr; lia. }
  assert (T : forall i j, 0 <= i < n -> 0 <= j < n -> (In j (row (map zsort low) i) <-> In i (row (map zsort upp) j))).
  { intros i j Hi Hj. rewrite P1, P2 by auto. split; intros (H1 & H2); (split; [lia|]); eapply pattern_sym; eauto. }
  assert (R1 : forall i j, inr n i -> In j (row (map zsort low) i) -> inr n j) by (intros i j Hi H; apply P1 in H; auto; unfold inr in *; lia).
  assert (R2 : forall i j, inr n i -> In j (row (map zsort upp) i) -> inr n j) by (intros i j Hi H; apply P2 in H; auto; unfold inr in *; lia).
  assert (S1 : forall i, inr n i -> sasc (row (map zsort low) i)) by (intros i Hi; rewrite row_zsort; apply zsort_sasc, N1; auto).
  assert (S2 : forall i, inr n i -> sasc (row (map zsort upp) i)) by (intros i Hi; rewrite row_zsort; apply zsort_sasc, N2; auto).
  assert (Z1 : zlen (map zsort low) = n) by now rewrite zlen_map.
  assert (Z2 : zlen (map zsort upp) = n) by now rewrite zlen_map.
  set (lowS := map zsort low) in *. set (uppS := map zsort upp) in *.
  destruct (old_rows_ok n adj o2n n2o HG HO lowS Z1 R1) as (lo & -> & A1 & A2). cbn [bind].
  destruct (old_rows_ok n adj o2n n2o HG HO uppS Z2 R2) as (uo & -> & B1 & B2). cbn [bind fst snd].
  rewrite (same_count n lowS uppS).
  2:{ intros i Hi. apply sasc_NoDup. auto. }
  2:{ intros i Hi. apply sasc_NoDup. auto. }
  2:{ exact R1. }
  2:{ exact R2. }
  2:{ exact T. }
  rewrite Z.eqb_refl. cbn [assert_ bind].
  destruct (cross_ok n adj HG lowS uppS Z1 Z2 S2) as (liu & -> & C1 & C2).
  { intros i j Hi Hj. pose proof (R1 i j Hi Hj). split; auto. apply T; auto. }
  cbn [bind]. destruct (cross_ok n adj HG uppS lowS Z2 Z1 S1) as (uil & -> & D1 & D2).
  { intros i j Hi Hj. pose proof (R2 i j Hi Hj). split; auto. apply T; auto. }
  cbn [bind]. destruct (full_row_pos_ok n adj o2n n2o HG HO lowS uppS lo uo Z1 Z2 S1 S2 R1 R2) as (pos & -> & E1 & E2); auto.
  { intros i j Hi Hj He. split; intro Lt; [apply P1|apply P2]; auto; (split; [unfold inr in *; lia|]); apply f_edge; auto; lia. }
  cbn [bind]. eexists. split; [reflexivity|]. constructor; cbn; auto.
  - repeat split; auto.
  - intros i Hi. exact (conj (S1 i Hi) (fun j => P1 i j Hi)).
  - intros i Hi. exact (conj (S2 i Hi) (fun j => P2 i j Hi)).
Qed.

Lemma ordering_choice : forall iluCode orderingCode, 
  (orderingCode <> int32_min -> getOrderingCode iluCode orderingCode = orderingCode) /\
  (orderingCode = int32_min -> iluCode = -1 -> getOrderingCode iluCode orderingCode = 2) /\
  (orderingCode = int32_min -> iluCode <> -1 -> getOrderingCode iluCode orderingCode = 0).
Proof.
  intros a b. unfold getOrderingCode. destruct (Z.eqb_spec b int32_min), (Z.eqb_spec a (-1)); repeat split; intros; congruence.
Qed.
