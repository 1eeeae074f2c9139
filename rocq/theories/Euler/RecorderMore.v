(** Proofs about reading the profiles, the radial equilibrium, the anchors, the
    integrals and the distribution of nodes. *)
From Coq Require Import Reals List Arith ZArith Bool Lia Lra Psatz FunctionalExtensionality.
From Verif Require Import Base.Prelude Base.PreludeFacts Euler.GasModel Euler.RiemannModel Euler.DriverModel Euler.DriverProofs Solver.ScalarModel Solver.ScalarProofs
  Euler.RecorderModel Euler.RecorderSpec Euler.RecorderProofs.
Import ListNotations.
Local Open Scope R_scope.

(** *** reading *)
Lemma get_eq : forall p i, well_formed p -> (i < p_size p)%nat -> 0 <= b_div (bin_of p i) ->
  get p i = Ok (fun c => b_v (bin_of p i) c / (b_div (bin_of p i) + verySmallReal)).
Proof.
  intros p i (_ & _ & L) Hi D. unfold get. rewrite (proj2 (Nat.ltb_lt _ _) Hi). cbn [assert_ bind]. unfold p_size in Hi.
  rewrite (vget_nth _ _ _ bin0) by lia. cbn [bind]. fold (bin_of p i). unfold rdiv. pose proof vs_pos.
  destruct (Req_EM_T (b_div (bin_of p i) + verySmallReal) 0); [ lra | ]. reflexivity.
Qed.
Lemma sum_nonneg : forall (A : Type) (f : A -> R) l, (forall x, In x l -> 0 <= f x) -> 0 <= sum_of f l.
Proof. induction l as [|x l IH]; intro H; cbn [sum_of]; [ lra | ]. specialize (IH (fun y Hy => H y (or_intror Hy))). specialize (H x (or_introl eq_refl)). lra. Qed.
Lemma sum_le : forall (A : Type) (f g : A -> R) l, (forall x, In x l -> f x <= g x) -> sum_of f l <= sum_of g l.
Proof. induction l as [|x l IH]; intro H; cbn [sum_of]; [ lra | ]. specialize (IH (fun y Hy => H y (or_intror Hy))). specialize (H x (or_introl eq_refl)). lra. Qed.
Lemma share_nonneg : forall f a b, 0 <= f_area f -> f_l f < f_r f -> 0 <= share f a b.
Proof.
  intros. unfold share. apply Rmult_le_pos; [ assumption | ]. apply Rmult_le_pos; [ apply overlap_nonneg | ]. left. apply Rinv_0_lt_compat. lra.
Qed.
Lemma get_average : forall fs l p i c lo hi, (2 <= List.length l)%nat -> nondecreasing l ->
  (forall f, In f fs -> f_l f < f_r f /\ 0 <= f_area f /\ lo <= f_v f c <= hi) -> fill (zero_profile l) fs = Ok p -> (i < List.length l - 1)%nat ->
  exists u, get p i = Ok u /\
    u c * (b_div (bin_of p i) + verySmallReal) = sum_of (fun f => share f (nth i l 0) (nth (i + 1) l 0) * f_v f c) fs /\
    b_div (bin_of p i) = sum_of (fun f => share f (nth i l 0) (nth (i + 1) l 0)) fs /\ 0 <= b_div (bin_of p i) /\
    lo * b_div (bin_of p i) <= u c * (b_div (bin_of p i) + verySmallReal) <= hi * b_div (bin_of p i).
Proof.
  intros fs l p i c lo hi L ND H E Hi. destruct (fill_zero fs l L ND) as (p' & E' & N & W & B); [ intros; apply H; assumption | ].
  rewrite E in E'. injection E' as <-. destruct (B i Hi) as (D & V).
  assert (P : 0 <= b_div (bin_of p i)).
  { rewrite D. apply sum_nonneg. intros f Hf. destruct (H f Hf) as (H1 & H2 & _). apply share_nonneg; assumption. }
  pose proof vs_pos. eexists. split; [ apply get_eq; auto; unfold p_size; rewrite N; assumption | ]. cbv beta.
  replace (b_v (bin_of p i) c / (b_div (bin_of p i) + verySmallReal) * (b_div (bin_of p i) + verySmallReal)) with (b_v (bin_of p i) c) by (field; lra).
  split; [ apply V | ]. split; [ exact D | ]. split; [ assumption | ]. rewrite V, D.
  rewrite !(Rmult_comm _ (sum_of (fun f => share f _ _) fs)). rewrite <- !sum_of_scal.
  split; apply sum_le; intros f Hf; destruct (H f Hf) as (H1 & H2 & H3); pose proof (share_nonneg f (nth i l 0) (nth (i + 1) l 0) H2 H1); nra.
Qed.

Lemma plain_hull : forall p x c lo hi, well_formed p -> (forall i, (i < p_size p)%nat -> 0 <= b_div (bin_of p i)) ->
  (forall i u, (i < p_size p)%nat -> get p i = Ok u -> lo <= u c <= hi) ->
  exists u, get_plain p x = Ok u /\ lo <= u c <= hi.
Proof.
  intros p x c lo hi W D H. pose proof W as (L & ND & LB). pose proof vs_pos. unfold get_plain.
  set (k := Nat.min (p_size p - 1) (lower_bound (p_nodes p) x - 1)). assert (K : (k < p_size p)%nat) by (unfold k, p_size; lia).
  unfold p_size in K. rewrite !(vget_nth _ _ _ 0) by lia. cbn [bind]. fold (p_size p) in K.
  assert (Q : nth k (p_nodes p) 0 <= nth (k + 1) (p_nodes p) 0) by (apply nondec_le; auto; unfold p_size in K; lia).
  unfold rdiv. destruct (Req_EM_T (nth (k + 1) (p_nodes p) 0 - nth k (p_nodes p) 0 + verySmallReal) 0); [ lra | ]. cbn [bind].
  set (t := (x - _) / _).
  assert (T : 0 <= Rmax (Rmin t 1) 0 <= 1) by (split; [ apply Rmax_r | apply Rmax_lub; [ apply Rmin_r | lra ] ]).
  set (a := Rmax (Rmin t 1) 0) in *.
  assert (K1 : (k - 1 < p_size p)%nat) by lia. assert (K2 : (Nat.min (k + 1) (p_size p - 1) < p_size p)%nat) by lia.
  pose proof (get_eq p _ W K1 (D _ K1)) as G1. pose proof (get_eq p _ W K2 (D _ K2)) as G2. pose proof (get_eq p _ W K (D _ K)) as G3.
  pose proof (H _ _ K1 G1) as H1. pose proof (H _ _ K2 G2) as H2. pose proof (H _ _ K G3) as H3. rewrite G1, G2, G3. cbn [bind].
  eexists. split; [ reflexivity | ]. cbv beta in *. nra.
Qed.
Lemma lower_zero : forall l x, x <= nth 0 l 0 -> lower_bound l x = 0%nat \/ l = [].
Proof. intros [|y l] x H; [ auto | ]. left. cbn [lower_bound nth] in *. destruct (Rlt_dec y x); [ lra | reflexivity ]. Qed.
Lemma lower_all : forall l x, (forall i, (i < List.length l)%nat -> nth i l 0 < x) -> lower_bound l x = List.length l.
Proof.
  induction l as [|y l IH]; intros x H; cbn [lower_bound List.length]; [ reflexivity | ]. destruct (Rlt_dec y x) as [Q | Q].
  - f_equal. apply IH. intros i Hi. apply (H (S i)). cbn. lia.
  - exfalso. apply Q. apply (H 0%nat). cbn. lia.
Qed.
Lemma plain_ends : forall p x, well_formed p -> (forall i, (i < p_size p)%nat -> 0 <= b_div (bin_of p i)) ->
  (x <= node p 0 -> exists u w, get_plain p x = Ok u /\ get p 0 = Ok w /\ forall c, u c = w c) /\
  (node p (p_size p) + verySmallReal <= x -> exists u w, get_plain p x = Ok u /\ get p (p_size p - 1) = Ok w /\ forall c, u c = w c).
Proof.
  intros p x W D. pose proof W as (L & ND & LB). pose proof vs_pos. unfold node.
  assert (G : forall i, (i < p_size p)%nat -> exists u, get p i = Ok u) by (intros i Hi; eexists; apply get_eq; auto).
  assert (P0 : (0 < p_size p)%nat) by (unfold p_size; lia).
  assert (Q : forall k, (k < p_size p)%nat -> nth k (p_nodes p) 0 <= nth (k + 1) (p_nodes p) 0) by (intros; apply nondec_le; auto; unfold p_size in *; lia).
  split; intro X; unfold get_plain.
  - destruct (lower_zero _ _ X) as [-> | E0]; [ | rewrite E0 in L; cbn in L; lia ]. replace (Nat.min (p_size p - 1) (0 - 1)) with 0%nat by lia.
    rewrite !(vget_nth _ _ _ 0) by lia. cbn [bind]. unfold rdiv. specialize (Q 0%nat P0).
    destruct (Req_EM_T (nth (0 + 1) (p_nodes p) 0 - nth 0 (p_nodes p) 0 + verySmallReal) 0); [ lra | ]. cbn [bind].
    replace (Rmax (Rmin ((x - nth 0 (p_nodes p) 0) / (nth (0 + 1) (p_nodes p) 0 - nth 0 (p_nodes p) 0 + verySmallReal)) 1) 0) with 0.
    2:{ symmetry. apply Rmax_right. eapply Rle_trans; [ apply Rmin_l | ]. apply Rmult_le_reg_r with (nth (0 + 1) (p_nodes p) 0 - nth 0 (p_nodes p) 0 + verySmallReal); [ lra | ].
        unfold Rdiv. rewrite Rmult_assoc, Rinv_l by lra. lra. }
    destruct (G 0%nat P0) as (w & Ew). destruct (G (Nat.min (0 + 1) (p_size p - 1))) as (b & Eb); [ lia | ]. cbn [Nat.sub]. rewrite Ew, Eb. cbn [bind].
    eexists. exists w. split; [ reflexivity | ]. split; [ reflexivity | ]. intro c. cbv beta. field.
  - assert (LA : lower_bound (p_nodes p) x = List.length (p_nodes p)).
    { apply lower_all. intros i Hi. eapply Rle_lt_trans; [ apply (nondec_le _ i (p_size p)); auto; unfold p_size in *; lia | ]. lra. }
    rewrite LA. replace (Nat.min (p_size p - 1) (List.length (p_nodes p) - 1)) with (p_size p - 1)%nat by (unfold p_size; lia).
    assert (P1 : (p_size p - 1 < p_size p)%nat) by lia.
    rewrite !(vget_nth _ _ _ 0) by (unfold p_size in *; lia). cbn [bind]. unfold rdiv. specialize (Q (p_size p - 1)%nat P1).
    replace (p_size p - 1 + 1)%nat with (p_size p) in * by lia.
    destruct (Req_EM_T (nth (p_size p) (p_nodes p) 0 - nth (p_size p - 1) (p_nodes p) 0 + verySmallReal) 0); [ lra | ]. cbn [bind].
    match goal with |- context [Rmax (Rmin ?t 1) 0] => replace (Rmax (Rmin t 1) 0) with 1 end.
    2:{ symmetry. rewrite Rmin_right. apply Rmax_left. lra. apply Rmult_le_reg_r with (nth (p_size p) (p_nodes p) 0 - nth (p_size p - 1) (p_nodes p) 0 + verySmallReal); [ lra | ].
        unfold Rdiv. rewrite Rmult_assoc, Rinv_l by lra. lra. }
    destruct (G (p_size p - 1)%nat P1) as (w & Ew). destruct (G (p_size p - 1 - 1)%nat) as (b & Eb); [ lia | ].
    replace (Nat.min (p_size p) (p_size p - 1)) with (p_size p - 1)%nat by lia. rewrite Eb, Ew. cbn [bind].
    eexists. exists w. split; [ reflexivity | ]. split; [ reflexivity | ]. intro c. cbv beta. field.
Qed.

(** a face at one radius *)
Lemma thin_face : forall p v a x, well_formed p -> node p 0 <= x < node p (p_size p) -> add_interval p v a x x = UB.
Proof.
  intros p v a x (L & ND & LB) X. unfold node in X. rewrite add_unfold by assumption.
  destruct (lower_spec (p_nodes p) x) as (A1 & A2 & A3). destruct (upper_spec (p_nodes p) x) as (B1 & B2 & B3).
  set (lb := lower_bound (p_nodes p) x) in *. set (ub := upper_bound (p_nodes p) x) in *. unfold p_size in X.
  assert (U : (0 < ub)%nat). { destruct (Nat.eq_dec ub 0) as [E | E]; [ | lia ]. rewrite E in B3. specialize (B3 ltac:(lia)). lra. }
  assert (LU : (lb <= ub)%nat). { destruct (Nat.le_gt_cases lb ub) as [? | E]; [ assumption | ]. specialize (A2 ub E). specialize (B3 ltac:(lia)). lra. }
  assert (S1 : exists k n, seq (Nat.min (List.length (p_nodes p) - 1 - 1) (lb - 1)) (Nat.min (List.length (p_nodes p) - 1) ub - Nat.min (List.length (p_nodes p) - 1 - 1) (lb - 1)) = k :: seq (S k) n /\ (k < List.length (p_nodes p) - 1)%nat).
  { set (cl := Nat.min (List.length (p_nodes p) - 1 - 1) (lb - 1)). set (cr := Nat.min (List.length (p_nodes p) - 1) ub).
    assert (C : (cl < cr)%nat) by (unfold cl, cr; lia). exists cl, (cr - cl - 1)%nat. split; [ | unfold cr in C; lia ].
    destruct (cr - cl)%nat as [|m] eqn:E; [ lia | ]. cbn [seq]. f_equal. f_equal. lia. }
  destruct S1 as (k & n & -> & Hk). cbn [foldM]. unfold add_step at 1. rewrite !(vget_nth _ _ _ 0) by lia. cbn [bind]. unfold rdiv.
  destruct (Req_EM_T (x - x) 0) as [_ | E]; [ reflexivity | exfalso; apply E; ring ].
Qed.

(** *** anchors *)
Lemma anchors_ok : forall l a, (a_dist (anchors a l) <= a_dist a) /\ (forall x, In x l -> a_dist (anchors a l) <= snd x) /\
  (anchors a l = a \/ exists x, In x l /\ anchors a l = {| a_val := Some (fst x); a_dist := snd x |}).
Proof.
  induction l as [|[v d] l IH]; intro a; unfold anchors; cbn [fold_left].
  - split; [ lra | ]. split; [ intros x [] | left; reflexivity ].
  - fold (anchors (anchor_add a (fst (v, d)) (snd (v, d))) l). cbn [fst snd]. destruct (IH (anchor_add a v d)) as (A & B & C).
    unfold anchor_add in *. destruct (Rlt_dec d (a_dist a)) as [H | H]; cbn [a_dist] in *.
    + split; [ lra | ]. split; [ intros x [<- | Hx]; [ cbn; lra | apply B; assumption ] | ].
      right. destruct C as [C | (x & Hx & C)]; [ exists (v, d); split; [ left; reflexivity | exact C ] | exists x; split; [ right; assumption | exact C ] ].
    + split; [ lra | ]. split; [ intros x [<- | Hx]; [ cbn; lra | apply B; assumption ] | ].
      destruct C as [C | (x & Hx & C)]; [ left; exact C | right; exists x; split; [ right; assumption | exact C ] ].
Qed.
Lemma minloc_ok : forall ds b d k, (b < k)%nat -> exists j e, minloc (b, d) k ds = (j, e) /\ e <= d /\ (forall x, In x ds -> e <= x) /\
  ((j = b /\ e = d) \/ (k <= j)%nat /\ nth_error ds (j - k) = Some e).
Proof.
  induction ds as [|x ds IH]; intros b d k B; cbn [minloc].
  - exists b, d. split; [ reflexivity | ]. split; [ lra | ]. split; [ intros ? [] | auto ].
  - cbn [snd]. destruct (Rlt_dec x d) as [H | H].
    + destruct (IH k x (S k)) as (j & e & E & A1 & A2 & A3); [ lia | ]. exists j, e. split; [ exact E | ]. split; [ lra | ].
      split; [ intros y [<- | Hy]; auto | ]. right. destruct A3 as [(-> & ->) | (A3 & A4)].
      * split; [ lia | ]. rewrite Nat.sub_diag. reflexivity.
      * split; [ lia | ]. replace (j - k)%nat with (S (j - S k)) by lia. exact A4.
    + destruct (IH b d (S k)) as (j & e & E & A1 & A2 & A3); [ lia | ]. exists j, e. split; [ exact E | ]. split; [ lra | ].
      split; [ intros y [<- | Hy]; [ lra | auto ] | ]. destruct A3 as [A3 | (A3 & A4)]; [ left; exact A3 | ].
      right. split; [ lia | ]. replace (j - k)%nat with (S (j - S k)) by lia. exact A4.
Qed.
Lemma anchor_ok : forall old xs rs, List.length old = List.length xs ->
  (exists l x, In l xs /\ In x l /\ snd x < veryLarge) ->
  anchor_obtain (map (fun '(a, l) => anchors (anchor_reset a) l) (combine old xs)) = Ok rs ->
  exists l x, In l xs /\ In x l /\ (forall r, In r rs -> a_val r = Some (fst x)) /\ forall l' x', In l' xs -> In x' l' -> snd x <= snd x'.
Proof.
  intros old xs rs LE (l0 & x0 & HL & HX & HV). set (as_ := map (fun '(a, l) => anchors (anchor_reset a) l) (combine old xs)).
  assert (SP : forall j a, nth_error as_ j = Some a -> exists o l, nth_error xs j = Some l /\ a = anchors (anchor_reset o) l).
  { intros j a E. unfold as_ in E. rewrite nth_error_map in E. destruct (nth_error (combine old xs) j) as [[o l]|] eqn:C; [ | discriminate ].
    cbn in E. injection E as <-. exists o, l. split; [ | reflexivity ]. clear - C. revert old xs C. induction j; intros [|o' old] [|l' xs] C; cbn in *; try discriminate.
    injection C as _ <-. reflexivity. eauto. }
  assert (AL : forall l, In l xs -> exists o, In (anchors (anchor_reset o) l) as_).
  { intros l Hl. unfold as_. clear - LE Hl. revert old LE Hl. induction xs as [|y xs IH]; intros [|o old] LE Hl; cbn in LE; try discriminate; [ destruct Hl | ].
    destruct Hl as [-> | Hl]; [ exists o; left; reflexivity | ]. destruct (IH old) as (o' & Ho); [ lia | assumption | ]. exists o'. right. assumption. }
  unfold anchor_obtain. destruct as_ as [|r0 rest] eqn:EA; [ discriminate | ].
  destruct (minloc_ok (map a_dist rest) 0 (a_dist r0) 1) as (j & e & E & A1 & A2 & A3); [ lia | ]. rewrite E. cbn [fst].
  assert (J : exists r, nth_error (r0 :: rest) j = Some r /\ a_dist r = e).
  { destruct A3 as [(-> & ->) | (A3 & A4)]; [ exists r0; auto | ]. destruct j as [|j]; [ lia | ]. cbn [nth_error]. replace (S j - 1)%nat with j in A4 by lia.
    rewrite nth_error_map in A4. destruct (nth_error rest j) as [r|]; [ | discriminate ]. cbn in A4. injection A4 as A4. exists r. auto. }
  destruct J as (r & Jr & Er).
  assert (MIN : forall a, In a (r0 :: rest) -> e <= a_dist a).
  { intros a [<- | Ha]; [ assumption | ]. apply A2. apply in_map. assumption. }
  unfold vget. destruct (Z.ltb_spec (Z.of_nat j) 0); [ lia | ]. rewrite Nat2Z.id, Jr. cbn [bind].
  rewrite <- EA in SP. destruct (SP j r) as (o & l & Nl & Rl); [ rewrite EA; exact Jr | ].
  assert (Hin : In l xs) by (eapply nth_error_In; eauto).
  assert (SM : e < veryLarge).
  { destruct (AL l0 HL) as (o0 & Ho). destruct (anchors_ok l0 (anchor_reset o0)) as (_ & B & _). specialize (B x0 HX). specialize (MIN _ Ho). lra. }
  destruct (anchors_ok l (anchor_reset o)) as (_ & _ & [C | (x & Hx & C)]).
  { exfalso. rewrite <- Rl in C. assert (a_dist r = veryLarge) by (rewrite C; reflexivity). lra. }
  rewrite <- Rl in C. rewrite C. cbn [a_val]. intro OK. injection OK as <-. exists l, x. split; [ assumption | ]. split; [ assumption | ]. split.
  - intros r' [<- | Hr]; [ reflexivity | ]. apply in_map_iff in Hr. destruct Hr as (? & <- & _). reflexivity.
  - intros l' x' Hl' Hx'. destruct (AL l' Hl') as (o' & Ho'). destruct (anchors_ok l' (anchor_reset o')) as (_ & B & _). specialize (B x' Hx'). specialize (MIN _ Ho').
    assert (a_dist r = snd x) by (rewrite C; reflexivity). lra.
Qed.
Lemma anchor_defined : forall old xs, List.length old = List.length xs -> (exists l x, In l xs /\ In x l /\ snd x < veryLarge) ->
  exists rs, anchor_obtain (map (fun '(a, l) => anchors (anchor_reset a) l) (combine old xs)) = Ok rs.
Proof.
  intros old xs LE (l0 & x0 & HL & HX & HV). set (as_ := map (fun '(a, l) => anchors (anchor_reset a) l) (combine old xs)).
  assert (AL : exists o, In (anchors (anchor_reset o) l0) as_).
  { unfold as_. clear - LE HL. revert old LE HL. induction xs as [|y xs IH]; intros [|o old] LE Hl; cbn in LE; try discriminate; [ destruct Hl | ].
    destruct Hl as [-> | Hl]; [ exists o; left; reflexivity | ]. destruct (IH old) as (o' & Ho); [ lia | assumption | ]. exists o'. right. assumption. }
  assert (AV : forall a, In a as_ -> a_dist a < veryLarge -> exists v, a_val a = Some v).
  { intros a Ha Da. unfold as_ in Ha. apply in_map_iff in Ha. destruct Ha as ([o l] & <- & _). destruct (anchors_ok l (anchor_reset o)) as (_ & _ & [C | (x & Hx & C)]).
    - exfalso. rewrite C in Da. cbn in Da. lra.
    - rewrite C. eexists. reflexivity. }
  unfold anchor_obtain. destruct as_ as [|r0 rest] eqn:EA; [ destruct AL as (o & []) | ].
  destruct (minloc_ok (map a_dist rest) 0 (a_dist r0) 1) as (j & e & E & A1 & A2 & A3); [ lia | ]. rewrite E. cbn [fst].
  assert (J : exists r, nth_error (r0 :: rest) j = Some r /\ a_dist r = e).
  { destruct A3 as [(-> & ->) | (A3 & A4)]; [ exists r0; auto | ]. destruct j as [|j]; [ lia | ]. cbn [nth_error]. replace (S j - 1)%nat with j in A4 by lia.
    rewrite nth_error_map in A4. destruct (nth_error rest j) as [r|]; [ | discriminate ]. cbn in A4. injection A4 as A4. exists r. auto. }
  destruct J as (r & Jr & Er). unfold vget. destruct (Z.ltb_spec (Z.of_nat j) 0); [ lia | ]. rewrite Nat2Z.id, Jr. cbn [bind].
  destruct (AV r) as (v & Ev).
  { eapply nth_error_In; eauto. }
  { destruct AL as (o & Ho). destruct (anchors_ok l0 (anchor_reset o)) as (_ & B & _). specialize (B x0 HX).
    destruct Ho as [Ho | Ho]; [ rewrite Ho in A1; lra | ]. specialize (A2 _ (in_map a_dist _ _ Ho)). lra. }
  rewrite Ev. eexists. reflexivity.
Qed.
Lemma anchor_none : forall n, (0 < n)%nat -> anchor_obtain (repeat anchor_new n) = UB.
Proof.
  intros [|n] H; [ lia | ]. unfold anchor_obtain. cbn [repeat].
  destruct (minloc_ok (map a_dist (repeat anchor_new n)) 0 (a_dist anchor_new) 1) as (j & e & E & A1 & A2 & A3); [ lia | ]. rewrite E. cbn [fst].
  assert (J : (j < S n)%nat).
  { destruct A3 as [(-> & _) | (_ & A4)]; [ lia | ]. assert (Q : (j - 1 < List.length (map a_dist (repeat anchor_new n)))%nat) by (apply nth_error_Some; congruence).
    rewrite map_length, repeat_length in Q. lia. }
  change (anchor_new :: repeat anchor_new n) with (repeat anchor_new (S n)). rewrite (vget_nth _ _ _ anchor_new) by (rewrite repeat_length; assumption).
  rewrite nth_repeat_. reflexivity.
Qed.

(** *** integrals *)
Lemma integrals_ok : forall l r, i_div (integrals r l) = i_div r + sum_of snd l /\ forall c, i_v (integrals r l) c = i_v r c + sum_of (fun x => fst x c) l.
Proof.
  induction l as [|[v d] l IH]; intro r; unfold integrals; cbn [fold_left sum_of]; [ split; intros; ring | ].
  fold (integrals (integral_add r (fst (v, d)) (snd (v, d))) l). destruct (IH (integral_add r (fst (v, d)) (snd (v, d)))) as (A & B). cbn [fst snd integral_add i_div i_v] in *.
  split; [ rewrite A; ring | ]. intro c. rewrite B. unfold vadd. ring.
Qed.
Lemma reduce_ok : forall xs r, In r (integral_reduce (map (integrals integral_reset) xs)) ->
  i_div r = INR (List.length xs) * verySmallReal + sum_of snd (List.concat xs) /\ forall c, i_v r c = sum_of (fun x => fst x c) (List.concat xs).
Proof.
  intros xs r H. unfold integral_reduce in H. apply in_map_iff in H. destruct H as (_ & <- & _). cbn [i_div i_v].
  induction xs as [|l xs (IHd & IHv)]; cbn [map fold_right List.concat sum_of]; [ split; [ cbn; ring | reflexivity ] | ].
  destruct (integrals_ok l integral_reset) as (A & B). cbn [integral_reset i_div i_v] in A, B. split.
  - rewrite IHd, A, sum_of_app. change (List.length (l :: xs)) with (S (List.length xs)). rewrite S_INR. ring.
  - intro c. unfold vadd at 1. rewrite IHv, B, sum_of_app. unfold vzero. rewrite Rplus_0_l. reflexivity.
Qed.
Lemma reduce_twice : forall rs r c, In r (integral_reduce rs) -> forall r', In r' (integral_reduce (integral_reduce rs)) -> i_v r' c = INR (List.length rs) * i_v r c.
Proof.
  intros rs r c H r' H'. unfold integral_reduce in H. apply in_map_iff in H. destruct H as (_ & E & _).
  unfold integral_reduce at 1 in H'. apply in_map_iff in H'. destruct H' as (_ & <- & _). cbn [i_v].
  assert (Q : forall (l : list integral) t, fold_right (fun r acc => vadd (i_v r) acc) vzero (map (fun _ => t) l) c = INR (List.length l) * i_v t c).
  { induction l; intro t; cbn [map fold_right]; [ cbn; unfold vzero; ring | ]. unfold vadd. rewrite IHl. change (List.length (a :: l)) with (S (List.length l)). rewrite S_INR. ring. }
  unfold integral_reduce. rewrite Q, E. reflexivity.
Qed.
