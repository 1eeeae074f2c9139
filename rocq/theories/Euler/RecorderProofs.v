(** Proofs about the recorders. *)
From Coq Require Import Reals List Arith ZArith Bool Lia Lra Psatz FunctionalExtensionality.
From Verif Require Import Base.Prelude Base.PreludeFacts Euler.GasModel Euler.RiemannModel Euler.DriverModel Euler.DriverProofs Solver.ScalarModel Solver.ScalarProofs
  Euler.RecorderModel Euler.RecorderSpec.
Import ListNotations.
Local Open Scope R_scope.

Lemma vs_pos : 0 < verySmallReal.
Proof. unfold verySmallReal. apply Rinv_0_lt_compat. apply pow_lt. lra. Qed.

(** *** intervals *)
Ltac cases := unfold overlap, Rmin, Rmax; repeat (match goal with |- context [Rle_dec ?x ?y] => match x with context [Rle_dec _ _] => fail 1 | _ => match y with context [Rle_dec _ _] => fail 1 | _ => destruct (Rle_dec x y) end end end); lra.
Lemma overlap_split : forall l r a b c, l <= r -> a <= b <= c -> overlap l r a b + overlap l r b c = overlap l r a c.
Proof. intros. cases. Qed.
Lemma overlap_nonneg : forall l r a b, 0 <= overlap l r a b.
Proof. intros. unfold overlap. apply Rmax_r. Qed.
Lemma overlap_inside : forall l r a b, a <= l -> l <= r -> r <= b -> overlap l r a b = r - l.
Proof. intros. cases. Qed.
Lemma overlap_before : forall l r a b, b <= l -> overlap l r a b = 0.
Proof. intros. cases. Qed.
Lemma overlap_after : forall l r a b, r <= a -> overlap l r a b = 0.
Proof. intros. cases. Qed.

Lemma lower_spec : forall l x, (lower_bound l x <= List.length l)%nat /\
  (forall i, (i < lower_bound l x)%nat -> nth i l 0 < x) /\ ((lower_bound l x < List.length l)%nat -> x <= nth (lower_bound l x) l 0).
Proof.
  induction l as [|y l IH]; intro x; cbn [lower_bound List.length]; [ split; [ lia | split; intros; lia ] | ].
  destruct (IH x) as (A & B & C). destruct (Rlt_dec y x) as [H | H].
  - split; [ lia | ]. split; [ intros [|i] Hi; cbn [nth]; [ assumption | apply B; lia ] | intro; cbn [nth]; apply C; lia ].
  - split; [ lia | ]. split; [ intros; lia | intros _; cbn [nth]; lra ].
Qed.
Lemma upper_spec : forall l x, (upper_bound l x <= List.length l)%nat /\
  (forall i, (i < upper_bound l x)%nat -> nth i l 0 <= x) /\ ((upper_bound l x < List.length l)%nat -> x < nth (upper_bound l x) l 0).
Proof.
  induction l as [|y l IH]; intro x; cbn [upper_bound List.length]; [ split; [ lia | split; intros; lia ] | ].
  destruct (IH x) as (A & B & C). destruct (Rle_dec y x) as [H | H].
  - split; [ lia | ]. split; [ intros [|i] Hi; cbn [nth]; [ assumption | apply B; lia ] | intro; cbn [nth]; apply C; lia ].
  - split; [ lia | ]. split; [ intros; lia | intros _; cbn [nth]; lra ].
Qed.
Lemma nondec_le : forall l i j, nondecreasing l -> (i <= j)%nat -> (j < List.length l)%nat -> nth i l 0 <= nth j l 0.
Proof. intros l i j N H L. destruct (Nat.eq_dec i j) as [-> | E]; [ lra | apply N; lia ]. Qed.

(** *** one interval *)
Lemma vget_nth : forall (A : Type) (l : list A) i d, (i < List.length l)%nat -> vget l (Z.of_nat i) = Ok (nth i l d).
Proof.
  intros. unfold vget. destruct (Z.ltb_spec (Z.of_nat i) 0); [ lia | ]. rewrite Nat2Z.id. rewrite (nth_error_nth' l d) by assumption. reflexivity.
Qed.
Lemma vset_upd : forall (A : Type) (l : list A) i x, (i < List.length l)%nat -> vset l (Z.of_nat i) x = Ok (upd i x l).
Proof.
  intros. unfold vset. destruct (Z.ltb_spec (Z.of_nat i) 0); [ lia | ]. destruct (Z.leb_spec (Z.of_nat (List.length l)) (Z.of_nat i)); [ lia | ]. cbn [orb].
  rewrite Nat2Z.id. reflexivity.
Qed.
Definition bump (v : vec) (w : R) (b : bin) : bin := {| b_v := vadd (b_v b) (vscale w v); b_div := b_div b + w |}.
Lemma bump0 : forall v b, bump v 0 b = b.
Proof. intros v [u d]. unfold bump. cbn. f_equal; [ | ring ]. apply functional_extensionality. intro c. unfold vadd, vscale. ring. Qed.

Lemma fold_bump : forall nodes v a l r n k bins, l <> r -> List.length bins = (List.length nodes - 1)%nat -> (k + n <= List.length bins)%nat ->
  exists bins', foldM (add_step nodes v a l r) bins (seq k n) = Ok bins' /\ List.length bins' = List.length bins /\
    forall i, (i < List.length bins)%nat -> nth i bins' bin0 =
      if ((k <=? i) && (i <? k + n))%nat%bool then bump v (a * (overlap l r (nth i nodes 0) (nth (i + 1) nodes 0) / (r - l))) (nth i bins bin0) else nth i bins bin0.
Proof.
  intros nodes v a l r. induction n as [|n IH]; intros k bins LR L K; cbn [seq foldM].
  - exists bins. split; [ reflexivity | ]. split; [ reflexivity | ]. intros i Hi.
    destruct (Nat.leb_spec k i), (Nat.ltb_spec i (k + 0)); cbn [andb]; auto. lia.
  - unfold add_step at 1. rewrite (vget_nth _ nodes k 0), (vget_nth _ nodes (k + 1) 0) by lia. cbn [bind]. unfold rdiv.
    destruct (Req_EM_T (r - l) 0) as [E | E]; [ exfalso; lra | ]. cbn [bind]. rewrite (vget_nth _ bins k bin0) by lia. cbn [bind].
    rewrite vset_upd by lia. cbn [bind].
    fold (overlap l r (nth k nodes 0) (nth (k + 1) nodes 0)).
    change ({| b_v := vadd (b_v (nth k bins bin0)) (vscale (a * (overlap l r (nth k nodes 0) (nth (k + 1) nodes 0) / (r - l))) v);
               b_div := b_div (nth k bins bin0) + a * (overlap l r (nth k nodes 0) (nth (k + 1) nodes 0) / (r - l)) |})
      with (bump v (a * (overlap l r (nth k nodes 0) (nth (k + 1) nodes 0) / (r - l))) (nth k bins bin0)).
    destruct (IH (S k) (upd k (bump v (a * (overlap l r (nth k nodes 0) (nth (k + 1) nodes 0) / (r - l))) (nth k bins bin0)) bins) LR) as (bins' & E1 & E2 & E3);
      [ rewrite upd_length; assumption | rewrite upd_length; lia | ].
    exists bins'. split; [ exact E1 | ]. rewrite upd_length in E2. split; [ exact E2 | ]. intros i Hi. rewrite E3 by (rewrite upd_length; assumption).
    rewrite nth_upd by lia. destruct (Nat.eqb_spec k i) as [<- | Ne].
    + destruct (Nat.leb_spec (S k) k); [ lia | ]. cbn [andb]. destruct (Nat.leb_spec k k); [ | lia ]. destruct (Nat.ltb_spec k (k + S n)); [ | lia ]. reflexivity.
    + destruct (Nat.leb_spec (S k) i), (Nat.leb_spec k i), (Nat.ltb_spec i (S k + n)), (Nat.ltb_spec i (k + S n)); cbn [andb]; try reflexivity; lia.
Qed.

Lemma add_unfold : forall p v a l r, (2 <= List.length (p_nodes p))%nat ->
  add_interval p v a l r =
  do bins <- foldM (add_step (p_nodes p) v a l r) (p_bins p)
    (seq (Nat.min (List.length (p_nodes p) - 1 - 1) (lower_bound (p_nodes p) l - 1))
       (Nat.min (List.length (p_nodes p) - 1) (upper_bound (p_nodes p) r) - Nat.min (List.length (p_nodes p) - 1 - 1) (lower_bound (p_nodes p) l - 1)));
  Ok {| p_nodes := p_nodes p; p_bins := bins |}.
Proof. intros [[|n nr] b] v a l r H; [ cbn in H; lia | reflexivity ]. Qed.
Lemma add_eq : forall p f, well_formed p -> f_l f < f_r f ->
  exists p', add_interval p (f_v f) (f_area f) (f_l f) (f_r f) = Ok p' /\ p_nodes p' = p_nodes p /\ well_formed p' /\
    forall i, (i < p_size p)%nat -> bin_of p' i = bump (f_v f) (share f (node p i) (node p (i + 1))) (bin_of p i).
Proof.
  intros p [v a l r] (L2 & ND & LB) LR. cbn [f_v f_area f_l f_r] in *. rewrite add_unfold by assumption.
  destruct (lower_spec (p_nodes p) l) as (A1 & A2 & A3). destruct (upper_spec (p_nodes p) r) as (B1 & B2 & B3).
  unfold p_size in *. set (N := List.length (p_nodes p)) in *.
  set (cl := Nat.min (N - 1 - 1) (lower_bound (p_nodes p) l - 1)). set (cr := Nat.min (N - 1) (upper_bound (p_nodes p) r)).
  destruct (fold_bump (p_nodes p) v a l r (cr - cl) cl (p_bins p)) as (bins' & E1 & E2 & E3).
  { lra. } { assumption. } { unfold cr, cl. lia. }
  rewrite E1. cbn [bind].
  eexists. split; [ reflexivity | ]. cbn [p_nodes p_bins]. split; [ reflexivity | ].
  split. { unfold well_formed. cbn [p_nodes p_bins]. rewrite E2. auto. }
  intros i Hi. unfold bin_of. cbn [p_bins]. rewrite E3 by lia. unfold share, node. cbn [f_area f_l f_r].
  destruct (Nat.leb_spec cl i) as [C1 | C1]; destruct (Nat.ltb_spec i (cl + (cr - cl))) as [C2 | C2]; cbn [andb]; try reflexivity; symmetry.
  - rewrite overlap_after. { unfold Rdiv. rewrite Rmult_0_l, Rmult_0_r. apply bump0. }
    assert (cr = upper_bound (p_nodes p) r) by (unfold cr, cl in *; lia).
    left. eapply Rlt_le_trans; [ apply B3; lia | ]. apply nondec_le; auto; lia.
  - rewrite overlap_before. { unfold Rdiv. rewrite Rmult_0_l, Rmult_0_r. apply bump0. }
    left. eapply Rle_lt_trans; [ | apply (A2 (lower_bound (p_nodes p) l - 1)%nat); unfold cl in *; lia ]. apply nondec_le; auto; unfold cl in *; lia.
  - rewrite overlap_before. { unfold Rdiv. rewrite Rmult_0_l, Rmult_0_r. apply bump0. }
    left. eapply Rle_lt_trans; [ | apply (A2 (lower_bound (p_nodes p) l - 1)%nat); unfold cl in *; lia ]. apply nondec_le; auto; unfold cl in *; lia.
Qed.

(** *** many faces *)
Lemma fill_eq : forall fs p, well_formed p -> (forall f, In f fs -> f_l f < f_r f) ->
  exists p', fill p fs = Ok p' /\ p_nodes p' = p_nodes p /\ well_formed p' /\
    forall i, (i < p_size p)%nat ->
      b_div (bin_of p' i) = b_div (bin_of p i) + sum_of (fun f => share f (node p i) (node p (i + 1))) fs /\
      forall c, b_v (bin_of p' i) c = b_v (bin_of p i) c + sum_of (fun f => share f (node p i) (node p (i + 1)) * f_v f c) fs.
Proof.
  induction fs as [|f fs IH]; intros p WF H; unfold fill; cbn [foldM].
  - exists p. repeat split; auto; try apply WF; cbn [sum_of]; intros; ring.
  - destruct (add_eq p f WF (H f (or_introl eq_refl))) as (p1 & E1 & N1 & W1 & B1). rewrite E1. cbn [bind].
    destruct (IH p1 W1 (fun g Hg => H g (or_intror Hg))) as (p' & E & N & W & B). exists p'. split; [ exact E | ]. split; [ congruence | ]. split; [ assumption | ].
    assert (S1 : p_size p1 = p_size p) by (unfold p_size; congruence). intros i Hi. destruct (B i) as (D & V); [ lia | ].
    assert (NN : forall j, node p1 j = node p j) by (intro; unfold node; congruence). rewrite !NN in *. rewrite (B1 i Hi) in D, V. cbn [bump b_v b_div] in D, V.
    cbn [sum_of]. split; [ rewrite D; ring | ]. intro c. rewrite V. unfold vadd, vscale. ring.
Qed.

Lemma sum_of_app : forall (A : Type) (f : A -> R) l l', sum_of f (l ++ l') = sum_of f l + sum_of f l'.
Proof. induction l; intros; cbn [app sum_of]; [ ring | rewrite IHl; ring ]. Qed.
Lemma share_split : forall f a b c, f_l f < f_r f -> a <= b <= c -> share f a b + share f b c = share f a c.
Proof. intros. unfold share. rewrite <- (overlap_split (f_l f) (f_r f) a b c) by lra. field. lra. Qed.
Lemma share_total : forall f l n, f_l f < f_r f -> nondecreasing l -> (n < List.length l)%nat ->
  sum_of (fun i => share f (nth i l 0) (nth (i + 1) l 0)) (seq 0 n) = share f (nth 0 l 0) (nth n l 0).
Proof.
  intros f l n LR ND. induction n as [|n IH]; intro L.
  - cbn [seq sum_of]. unfold share. rewrite (overlap_split (f_l f) (f_r f) (nth 0 l 0) (nth 0 l 0) (nth 0 l 0)) || idtac.
    replace (overlap (f_l f) (f_r f) (nth 0 l 0) (nth 0 l 0)) with 0. { unfold Rdiv. ring. }
    symmetry. pose proof (overlap_split (f_l f) (f_r f) (nth 0 l 0) (nth 0 l 0) (nth 0 l 0)). lra.
  - rewrite seq_S, sum_of_app, IH by lia. cbn [sum_of Nat.add]. rewrite Rplus_0_r. replace (n + 1)%nat with (S n) by lia. apply share_split; [ assumption | ].
    split; apply nondec_le; auto; lia.
Qed.
Lemma sum_of_swap : forall (A B : Type) (f : A -> B -> R) l m, sum_of (fun x => sum_of (f x) m) l = sum_of (fun y => sum_of (fun x => f x y) l) m.
Proof.
  induction l as [|x l IH]; intro m; cbn [sum_of].
  - induction m; cbn [sum_of]; [ reflexivity | lra ].
  - rewrite IH. induction m as [|y m IHm]; cbn [sum_of]; [ ring | rewrite <- IHm; ring ].
Qed.
Lemma sum_of_ext : forall (A : Type) (f g : A -> R) l, (forall x, In x l -> f x = g x) -> sum_of f l = sum_of g l.
Proof. induction l as [|x l IH]; intro H; cbn [sum_of]; [ reflexivity | ]. rewrite (H x) by (left; reflexivity). rewrite IH; auto. intros; apply H; right; assumption. Qed.
Lemma sum_of_scal : forall (A : Type) (f : A -> R) k l, sum_of (fun x => f x * k) l = sum_of f l * k.
Proof. induction l; cbn [sum_of]; [ ring | rewrite IHl; ring ]. Qed.

Lemma zero_wf : forall l, (2 <= List.length l)%nat -> nondecreasing l -> well_formed (zero_profile l).
Proof. intros. unfold well_formed, zero_profile. cbn [p_nodes p_bins]. rewrite repeat_length. auto. Qed.
Lemma zero_bin : forall l i, bin_of (zero_profile l) i = bin0.
Proof. intros. unfold bin_of, zero_profile. cbn [p_bins]. apply (nth_repeat_ bin bin0). Qed.

Lemma fill_zero : forall fs l, (2 <= List.length l)%nat -> nondecreasing l -> (forall f, In f fs -> f_l f < f_r f) ->
  exists p, fill (zero_profile l) fs = Ok p /\ p_nodes p = l /\ well_formed p /\
    forall i, (i < List.length l - 1)%nat ->
      b_div (bin_of p i) = sum_of (fun f => share f (nth i l 0) (nth (i + 1) l 0)) fs /\
      forall c, b_v (bin_of p i) c = sum_of (fun f => share f (nth i l 0) (nth (i + 1) l 0) * f_v f c) fs.
Proof.
  intros fs l L ND H. destruct (fill_eq fs (zero_profile l) (zero_wf l L ND) H) as (p & E & N & W & B). exists p. split; [ exact E | ]. split; [ exact N | ].
  split; [ exact W | ]. intros i Hi. destruct (B i Hi) as (D & V). rewrite zero_bin in D, V. cbn [bin0 b_div b_v] in D, V. unfold node in *. cbn [zero_profile p_nodes] in *.
  split; [ rewrite D; ring | ]. intro c. rewrite V. unfold vzero. ring.
Qed.
Lemma fill_total : forall fs l p, (2 <= List.length l)%nat -> nondecreasing l ->
  (forall f, In f fs -> nth 0 l 0 <= f_l f /\ f_l f < f_r f /\ f_r f <= nth (List.length l - 1) l 0) ->
  fill (zero_profile l) fs = Ok p ->
  sum_of b_div (p_bins p) = sum_of f_area fs /\ forall c, sum_of (fun b => b_v b c) (p_bins p) = sum_of (fun f => f_area f * f_v f c) fs.
Proof.
  intros fs l p L ND H E. destruct (fill_zero fs l L ND) as (p' & E' & N & (_ & _ & LB) & B); [ intros; apply H; assumption | ].
  rewrite E in E'. injection E' as <-. rewrite N in LB.
  assert (G : forall g : bin -> R, sum_of g (p_bins p) = sum_of (fun i => g (bin_of p i)) (seq 0 (List.length l - 1))).
  { intro g. rewrite <- LB. rewrite <- (map_nth_seq bin (p_bins p) bin0) at 1. unfold bin_of. generalize (seq 0 (List.length (p_bins p))).
    induction l0; cbn [map sum_of]; [ reflexivity | rewrite IHl0; reflexivity ]. }
  assert (T : forall f, In f fs -> sum_of (fun i => share f (nth i l 0) (nth (i + 1) l 0)) (seq 0 (List.length l - 1)) = f_area f).
  { intros f Hf. destruct (H f Hf) as (A1 & A2 & A3). rewrite share_total by (auto; lia). unfold share. rewrite overlap_inside by lra. field. lra. }
  split; [ | intro c ]; rewrite G.
  - rewrite (sum_of_ext _ _ (fun i => sum_of (fun f => share f (nth i l 0) (nth (i + 1) l 0)) fs)).
    2:{ intros i Hi. apply in_seq in Hi. apply B. lia. }
    rewrite sum_of_swap. apply sum_of_ext. exact T.
  - rewrite (sum_of_ext _ _ (fun i => sum_of (fun f => share f (nth i l 0) (nth (i + 1) l 0) * f_v f c) fs)).
    2:{ intros i Hi. apply in_seq in Hi. apply B. lia. }
    rewrite sum_of_swap. apply sum_of_ext. intros f Hf. rewrite sum_of_scal. rewrite T by assumption. reflexivity.
Qed.

(** *** ranks *)
Lemma bins_add_nth : forall a b i, List.length a = List.length b -> nth i (bins_add a b) bin0 = bin_add (nth i a bin0) (nth i b bin0) /\
  List.length (bins_add a b) = List.length b.
Proof.
  assert (Z : bin_add bin0 bin0 = bin0).
  { unfold bin_add, bin0. cbn. f_equal; [ | ring ]. apply functional_extensionality. intro. unfold vadd, vzero. ring. }
  induction a as [|x a IH]; intros [|y b] i L; cbn in L; try discriminate.
  - split; [ destruct i; cbn; symmetry; exact Z | reflexivity ].
  - cbn [bins_add List.length]. destruct (IH b (pred i)) as (A & B); [ lia | ]. split; [ | rewrite B; reflexivity ].
    destruct i as [|i]; cbn [nth]; [ reflexivity | ]. apply A.
Qed.
Lemma bin_eq : forall a b, b_div a = b_div b -> (forall c, b_v a c = b_v b c) -> a = b.
Proof. intros [u d] [v e] H1 H2. cbn in *. subst. f_equal. apply functional_extensionality. assumption. Qed.
Lemma profile_eq : forall p q, p_nodes p = p_nodes q -> well_formed p -> well_formed q -> (forall i, (i < p_size p)%nat -> bin_of p i = bin_of q i) -> p = q.
Proof.
  intros [n b] [m c] N (_ & _ & L1) (_ & _ & L2) H. unfold p_size, bin_of in H. cbn [p_nodes p_bins] in *. subst m. f_equal.
  apply (nth_ext _ _ bin0 bin0); [ congruence | ]. intros i Hi. apply H. lia.
Qed.
Lemma reduce_fill : forall l css ps, (2 <= List.length l)%nat -> nondecreasing l -> (forall fs, In fs css -> forall f, In f fs -> f_l f < f_r f) ->
  mapM (fill (zero_profile l)) css = Ok ps ->
  forall p, In p (profile_reduce ps) -> fill (zero_profile l) (List.concat css) = Ok p.
Proof.
  intros l css ps L ND H E p Hp.
  assert (P : forall css ps, (forall fs, In fs css -> forall f, In f fs -> f_l f < f_r f) -> mapM (fill (zero_profile l)) css = Ok ps ->
    (forall q, In q ps -> p_nodes q = l) /\
    let acc := fold_right (fun q acc => bins_add (p_bins q) acc) (p_bins (zero_profile l)) ps in
    List.length acc = (List.length l - 1)%nat /\ forall i, (i < List.length l - 1)%nat ->
      b_div (nth i acc bin0) = sum_of (fun f => share f (nth i l 0) (nth (i + 1) l 0)) (List.concat css) /\
      forall c, b_v (nth i acc bin0) c = sum_of (fun f => share f (nth i l 0) (nth (i + 1) l 0) * f_v f c) (List.concat css)).
  { clear -L ND. intros css. induction css as [|fs css IH]; intros ps H E; cbn [mapM] in E.
    - injection E as <-. split; [ intros q [] | ]. cbn [fold_right]. split; [ unfold zero_profile; cbn [p_bins]; apply repeat_length | ].
      intros i Hi. change (nth i (p_bins (zero_profile l)) bin0) with (bin_of (zero_profile l) i). rewrite zero_bin. split; reflexivity.
    - destruct (fill_zero fs l L ND) as (q & E1 & N & (_ & _ & LB) & B); [ intros; apply (H fs); [ left; reflexivity | assumption ] | ].
      rewrite E1 in E. cbn [bind] in E. destruct (mapM (fill (zero_profile l)) css) as [qs| |] eqn:EM; cbn [bind] in E; try discriminate. injection E as <-.
      destruct (IH qs) as (N' & LA & BA); [ intros; apply (H fs0); [ right; assumption | assumption ] | reflexivity | ].
      split. { intros q' [<- | Hq]; [ assumption | apply N'; assumption ]. }
      cbn [fold_right]. rewrite N in LB. split.
      { rewrite (proj2 (bins_add_nth _ _ 0 (eq_trans LB (eq_sym LA)))). assumption. }
      intros i Hi. rewrite (proj1 (bins_add_nth _ _ i (eq_trans LB (eq_sym LA)))). unfold bin_add. cbn [b_div b_v].
      destruct (B i Hi) as (D1 & V1). destruct (BA i Hi) as (D2 & V2). unfold bin_of in D1, V1. cbn [List.concat]. split.
      + rewrite D1, D2, sum_of_app. reflexivity.
      + intro c. unfold vadd. rewrite V1, V2, sum_of_app. reflexivity. }
  destruct (P css ps H E) as (N & LA & BA). unfold profile_reduce in Hp. apply in_map_iff in Hp. destruct Hp as (q & <- & Hq). rewrite (N q Hq).
  destruct (fill_zero (List.concat css) l L ND) as (r & E1 & N1 & W1 & B1).
  { intros f Hf. apply in_concat in Hf. destruct Hf as (fs & Hfs & Hf). exact (H fs Hfs f Hf). }
  rewrite E1. f_equal. apply profile_eq; [ exact N1 | exact W1 | unfold well_formed; cbn [p_nodes p_bins]; auto | ].
  intros i Hi. unfold p_size in Hi. rewrite N1 in Hi. destruct (B1 i Hi) as (D1 & V1). destruct (BA i Hi) as (D2 & V2). apply bin_eq.
  - rewrite D1. symmetry. exact D2.
  - intro c. rewrite V1. symmetry. apply V2.
Qed.
