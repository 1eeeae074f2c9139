(** The linear problems of variational reconstruction: what they compute. *)
From Coq Require Import List ZArith Reals Bool Lia Lra FunctionalExtensionality.
From Verif Require Import Base.Prelude Base.PreludeFacts Geom.AdjModel Geom.BoundaryModel Geom.PeriodicModel Geom.PeriodicSpec Geom.PeriodicProofs
  Geom.BaseFnModel Geom.BaseFnSpec Geom.DiffTensorModel Geom.DiffTensorSpec Geom.DiffTensorProofs Geom.DiffTensorNormProofs
  CFV.RecModel CFV.RecDiffModel CFV.RecSpec CFV.RecDiffSpec CFV.RecPolyProofs CFV.RecBaseProofs CFV.RecMeanProofs CFV.RecFunProofs CFV.RecCoefProofs CFV.RecIterProofs CFV.RecFixProofs CFV.RecExactProofs CFV.RecEnergyProofs.
Import ListNotations.
Local Open Scope R_scope.

Lemma foldM_same : forall A B (f g : A -> B -> res A) l a, (forall a b, In b l -> f a b = g a b) -> foldM f a l = foldM g a l.
Proof.
  intros A B f g l. induction l as [|b l IH]; intros a H; cbn [foldM]; auto. rewrite (H a b (or_introl eq_refl)). destruct (g a b); cbn [bind]; auto.
  apply IH. intros; apply H; right; auto.
Qed.

Lemma upd_own : forall (l : list mat) i, (0 <= i < zlen l)%Z -> upd (Z.to_nat i) (get zero_mat l i) l = l.
Proof.
  intros l i H. unfold zlen, get in *. assert (L : (Z.to_nat i < length l)%nat) by lia. clear H. revert L. generalize (Z.to_nat i) as m.
  induction l as [|x l IH]; intros [|m] L; cbn in *; try lia; auto. f_equal. apply IH. lia.
Qed.
(** A list of cells changed one after the other, each from all values at that time. *)
Section InPlace.
Variables (M N : Z) (n : nat) (next : Z -> list mat -> mat).
Hypothesis MN : (M <= N)%Z.
Definition near (r r' : list mat) : Prop := zlen r' = zlen r /\ forall i l v, (0 <= i < zlen r)%Z -> (l < n)%nat -> get zero_mat r' i l v = get zero_mat r i l v.
Hypothesis next_near : forall i r r', (0 <= i < M)%Z -> zlen r = N -> near r r' -> forall l v, (l < n)%nat -> next i r' l v = next i r l v.
Definition through (is : list Z) (r : list mat) : list mat := fold_left (fun r i => upd (Z.to_nat i) (next i r) r) is r.
Definition stays (r : list mat) (i : Z) : Prop := forall l v, (l < n)%nat -> next i r l v = get zero_mat r i l v.
Lemma through_zlen : forall is r, zlen (through is r) = zlen r.
Proof. intros is. induction is as [|i is IH]; intros r; auto. change (zlen (through is (upd (Z.to_nat i) (next i r) r)) = zlen r). rewrite IH. apply zlen_upd. Qed.
Lemma through_other : forall is r j, (0 <= j)%Z -> (forall i, In i is -> 0 <= i)%Z -> ~ In j is -> get zero_mat (through is r) j = get zero_mat r j.
Proof.
  intros is. induction is as [|i is IH]; intros r j Hj HI NI; auto. change (get zero_mat (through is (upd (Z.to_nat i) (next i r) r)) j = get zero_mat r j). rewrite IH; auto.
  - apply get_upd_other; auto; [apply HI; left; auto|]. intros ->. apply NI. left; auto.
  - intros; apply HI; right; auto.
  - intros X; apply NI; right; auto.
Qed.
Lemma near_refl : forall r, near r r.
Proof. split; auto. Qed.
Lemma near_trans : forall a b c, near a b -> near b c -> near a c.
Proof. intros a b c [L1 H1] [L2 H2]. split; [congruence|]. intros. rewrite H2, H1; auto. congruence. Qed.
Lemma near_sym : forall a b, near a b -> near b a.
Proof. intros a b [L H]. split; [congruence|]. intros. rewrite H; auto. congruence. Qed.
Lemma stays_near : forall r r' i, (0 <= i < M)%Z -> zlen r = N -> near r r' -> stays r i -> stays r' i.
Proof. intros r r' i Hi L H S l v Hl. rewrite (next_near i r r' Hi L H l v Hl), (S l v Hl). symmetry. apply H; auto. lia. Qed.
Lemma step_near : forall r i, (0 <= i < M)%Z -> zlen r = N -> stays r i -> near r (upd (Z.to_nat i) (next i r) r).
Proof.
  intros r i Hi L S. split; [apply zlen_upd|]. intros j l v Hj Hl. destruct (Z.eq_dec i j) as [<-|Ne].
  - rewrite get_upd_same by lia. auto.
  - rewrite get_upd_other by lia. reflexivity.
Qed.
Lemma through_stays : forall is r, zlen r = N -> (forall i, In i is -> 0 <= i < M)%Z -> (forall i, In i is -> stays r i) -> near r (through is r).
Proof.
  intros is. induction is as [|i is IH]; intros r L HI S; cbn; [apply near_refl|].
  pose proof (step_near r i (HI i (or_introl eq_refl)) L (S i (or_introl eq_refl))) as A.
  eapply near_trans; [exact A|]. apply IH.
  - rewrite zlen_upd. auto.
  - intros; apply HI; right; auto.
  - intros j Hj. apply (stays_near r); auto; [apply HI; right; auto|apply S; right; auto].
Qed.
Lemma stays_through : forall is r, zlen r = N -> NoDup is -> (forall i, In i is -> 0 <= i < M)%Z -> near r (through is r) -> forall i, In i is -> stays r i.
Proof.
  intros is. induction is as [|i is IH]; intros r L ND HI A j Hj; [destruct Hj|]. cbn in A. apply NoDup_cons_iff in ND. destruct ND as [NI ND'].
  pose proof (HI i (or_introl eq_refl)) as Hi.
  assert (S : stays r i).
  { intros l v Hl. rewrite <- (proj2 A i l v) by lia. change (fold_left _ is ?x) with (through is x). rewrite through_other; [|lia| |auto].
    - rewrite get_upd_same by lia. reflexivity.
    - intros x Hx. apply (HI x). right; auto. }
  destruct Hj as [<-|Hj]; auto.
  pose proof (step_near r i Hi L S) as A1.
  apply (stays_near (upd (Z.to_nat i) (next i r) r)); auto.
  - apply HI; right; auto.
  - rewrite zlen_upd. auto.
  - apply near_sym. auto.
  - apply IH; auto.
    + rewrite zlen_upd. auto.
    + intros; apply HI; right; auto.
    + eapply near_trans; [apply near_sym; exact A1|exact A].
Qed.
End InPlace.

Section Diff.
Variables (st : settings) (cells : list cell) (faces : list face) (inverse : mat -> mat) (nCell : Z) (u : list vec).
Variable FBD : vec -> vec -> vec -> Z -> Z -> nat -> vec.
Variables FT FTB : vec -> Z -> vec.
Variable uRec : list mat.
Hypothesis HS : supported st.
Hypothesis KS : known_scale st.
Hypothesis HP : sound_periods st.
Hypothesis HM : sound_mesh st nCell cells faces.
Hypothesis LU : zlen u = zlen cells.
Hypothesis LR : zlen uRec = zlen cells.
Hypothesis HT : linear_change FT.
Hypothesis HTB : linear_change FTB.

Notation n := (NDOF st - 1)%nat.
Notation cell_of := (the_cell cells).
Notation face_at := (the_face faces).

(** As an iteration with means zero and a boundary of its own. *)
Definition at_boundary (i k : Z) (g : nat) : vec := fun v =>
  match nth_error (points (face_at k)) g with
  | Some (_, _, x) => match FaceDiffBaseValue st cells (face_at k) i 1 x with Ok dbv => mmul n dbv (get zero_mat uRec i) 0%nat v | _ => 0 end
  | None => 0
  end + get zero_vec u i v.
Definition FB0 (a _ : vec) (i k : Z) (g : nat) : vec := FBD (at_boundary i k g) a (get zero_vec u i) i k g.
Definition u0 : list vec := map (fun _ => zero_vec) u.
Lemma get_u0 : forall i, get zero_vec u0 i = zero_vec.
Proof. intros i. unfold get, u0. rewrite nth_nth_error, nth_error_map. destruct (nth_error u (Z.to_nat i)); reflexivity. Qed.
Lemma len_u0 : zlen u0 = zlen cells.
Proof. unfold u0, zlen. rewrite map_length. exact LU. Qed.
Notation rhs0 := (face_rhs st cells faces u0 FB0 FT FTB).
Notation total0 := (total st cells faces u0 FB0 FT FTB).
Notation residual0 := (residual st cells faces u0 FB0 FT FTB).

Lemma vec_zero_plus : forall f : vec, (fun v => f v + zero_vec v) = f.
Proof. intros f. apply functional_extensionality. intros. unfold zero_vec. ring. Qed.
Lemma vec_zero_minus : forall f : vec, (fun v => f v - zero_vec v) = f.
Proof. intros f. apply functional_extensionality. intros. unfold zero_vec. ring. Qed.
Lemma bound_diff : forall i k di, GetBoundaryRHSDiff st FBD cells (face_at k) (get zero_mat uRec i) di (get zero_vec u i) i k =
  GetBoundaryRHS st FB0 cells (face_at k) di (get zero_vec u0 i) i k.
Proof.
  intros i k di. unfold GetBoundaryRHSDiff, GetBoundaryRHS. destruct (FaceIDIsExternalBC (zone (face_at k))); cbn [assert_ bind]; auto.
  apply foldM_same. intros BCC [iG [[w J] x]] HI. apply combine_at in HI. destruct HI as [HI _]. rewrite Nat.sub_0_r in HI. destruct (FaceDiffBaseValue st cells (face_at k) i 1 x) eqn:E; cbn [bind]; auto.
  rewrite get_u0, vec_zero_plus. unfold FB0, at_boundary. rewrite HI, E. f_equal. apply f_equal. apply functional_extensionality. intros _.
  rewrite vec_zero_minus. reflexivity.
Qed.
Lemma turn_zero : forall f back v, turn_vec st FT FTB f back zero_vec v = 0.
Proof.
  assert (Z0 : forall F z v, linear_change F -> F zero_vec z v = 0).
  { intros F z v L. assert (E : zero_vec = (fun k => 0 * zero_vec k + 0 * zero_vec k)) by (apply functional_extensionality; intros; unfold zero_vec; ring).
    rewrite E, L. ring. }
  intros f back v. unfold turn_vec. destruct (which_turn st f back); auto.
Qed.
Lemma brings_ok : forall i K e k x, is_coeff st cells faces inverse i K -> (0 <= i < nCell)%Z -> nth_error (cell2face (cell_of i)) e = Some k -> zlen x = zlen cells ->
  face_brings st FBD FT FTB cells faces u uRec x K i (e, k) = Ok (mmul n (AInv K) (rhs0 i k x (get zero_mat x i))).
Proof.
  intros i K e k x HK Hi HE LX. assert (HF : own_face cells nCell i k) by (split; auto; eapply nth_error_In; eauto).
  destruct (own_face_ok st cells faces nCell HM i k HF) as [Ef Jf]. destruct (joins_other cells _ _ Jf) as [EO EB]. pose proof HM as ((B0 & B1) & _ & _).
  unfold face_brings. rewrite Ef. cbn [bind]. rewrite EO, EB. cbn [bind].
  destruct (FaceIDIsExternalBC (zone (face_at k))) eqn:EX.
  - assert (EUn : other (face_at k) i = UnInitIndex).
    { unfold joins in Jf. rewrite EX in Jf. unfold other. destruct Jf as [J0 J1]. rewrite J0, Z.eqb_refl. auto. }
    rewrite EUn, Z.eqb_refl. cbn [negb]. rewrite (get_vget _ zero_mat uRec i), (get_vget _ zero_mat x i), (get_vget _ zero_vec u i) by lia. cbn [bind].
    rewrite bound_diff. destruct (boundary_ok st cells faces nCell u0 FB0 FT FTB HS KS HP HM i k (get zero_mat x i) HF EX) as [BCC [EBC HB]]. rewrite EBC. cbn [bind].
    f_equal. apply mat_ext. intros a b. unfold mmul. apply sumn_ext. intros q Hq. f_equal. rewrite HB by auto. unfold face_rhs. rewrite EX. reflexivity.
  - destruct (joins_inner cells _ _ Jf EX) as (HO & Hne & HF2).
    replace (other (face_at k) i =? UnInitIndex)%Z with false by (symmetry; apply Z.eqb_neq; pose proof int64_min_neg; lia). cbn [negb].
    rewrite (get_vget _ zero_mat x) by lia. cbn [bind].
    destruct (entry_B st cells faces inverse i K e k HK HE EX) as (B & b & E1 & E2 & HB & Hb). rewrite E1. cbn [bind].
    f_equal. apply mat_ext. intros a c. rewrite mmul_assoc. unfold mmul. apply sumn_ext. intros p Hp. f_equal. unfold face_rhs. rewrite EX.
    rewrite !get_u0, turn_zero. unfold zero_vec. rewrite Rminus_0_r, Rmult_0_r, Rplus_0_r. apply sumn_ext. intros q Hq. rewrite HB by (split; auto). reflexivity.
Qed.

(** *** the difference *)
Lemma diff_fold : forall i K x es New, is_coeff st cells faces inverse i K -> (0 <= i < nCell)%Z ->
  (forall e k, In (e, k) es -> nth_error (cell2face (cell_of i)) e = Some k) -> zlen x = zlen cells -> zlen New = zlen cells ->
  foldM (fun New e => do inc <- face_brings st FBD FT FTB cells faces u uRec x K i e; add_at New i (fun a b => - inc a b)) New es =
  Ok (upd (Z.to_nat i) (fun a b => get zero_mat New i a b - sum_over es (fun e => mmul n (AInv K) (rhs0 i (snd e) x (get zero_mat x i)) a b)) New).
Proof.
  intros i K x es. pose proof HM as ((B0 & B1) & _ & _). induction es as [|[e k] es IH]; intros New HK Hi HE LX LN; cbn [foldM].
  - f_equal. rewrite <- (upd_own New i) at 1 by lia. f_equal. apply mat_ext. intros. unfold sum_over. cbn. ring.
  - rewrite brings_ok by (auto; apply HE; left; auto). cbn [bind]. rewrite add_at_ok by lia. cbn [bind].
    rewrite IH; auto; [|intros; apply HE; right; auto|rewrite zlen_upd; auto]. rewrite upd_upd, (get_upd_same _ zero_mat New) by lia. do 2 f_equal. apply mat_ext. intros a b.
    rewrite sum_cons. cbn [snd]. ring.
Qed.
Lemma cell_diff_ok : forall i K Ks x New, vget Ks i = Ok K -> is_coeff st cells faces inverse i K -> (0 <= i < nCell)%Z -> zlen x = zlen cells -> zlen New = zlen cells ->
  cell_diff st FBD FT FTB cells faces Ks u uRec x New i = Ok (upd (Z.to_nat i) (residual0 i K x) New).
Proof.
  intros i K Ks x New EK HK Hi LX LN. pose proof HM as ((B0 & B1) & _ & _). unfold cell_diff.
  rewrite (get_vget _ none) by lia. fold (cell_of i). cbn [bind]. rewrite EK, (get_vget _ zero_mat x) by lia. cbn [bind]. rewrite vset_ok by lia. cbn [bind].
  rewrite diff_fold; auto; [|apply positions|rewrite zlen_upd; auto]. rewrite upd_upd, (get_upd_same _ zero_mat New) by lia. do 2 f_equal. apply mat_ext. intros a b.
  rewrite (sum_snd (cell2face (cell_of i)) (fun k => mmul n (AInv K) (rhs0 i k x (get zero_mat x i)) a b)).
  unfold residual, total. rewrite (mmul_sum _ _ _ _ (fun k => rhs0 i k x (get zero_mat x i))). cbv beta. ring.
Qed.
Lemma diff_ok : forall Ks x New, are_coeffs st cells faces inverse nCell Ks -> zlen x = zlen cells -> zlen New = zlen cells ->
  exists Nd, DoReconstructionIterDiff st FBD FT FTB nCell cells faces Ks u uRec x New = Ok Nd /\ zlen Nd = zlen cells /\
  forall i, (0 <= i < nCell)%Z -> get zero_mat Nd i = residual0 i (K_of Ks i) x.
Proof.
  intros Ks x New HK LX LN. unfold DoReconstructionIterDiff. pose proof HM as ((B0 & B1) & _ & _).
  assert (G : forall is, (forall i, In i is -> 0 <= i < nCell)%Z -> NoDup is -> forall New, zlen New = zlen cells -> exists Nd, foldM (cell_diff st FBD FT FTB cells faces Ks u uRec x) New is = Ok Nd /\ zlen Nd = zlen cells /\
    (forall i, In i is -> get zero_mat Nd i = residual0 i (K_of Ks i) x) /\ forall i, (0 <= i)%Z -> ~ In i is -> get zero_mat Nd i = get zero_mat New i).
  { intros is. induction is as [|i is IH]; intros HI ND N0 L0; cbn [foldM].
    - exists N0. split; [auto|split; [auto|split; [intros i []|auto]]].
    - pose proof (HI i (or_introl eq_refl)) as Hi. destruct (coeffs_at st cells faces inverse nCell Ks i HK Hi) as [EK CK]. rewrite (cell_diff_ok i (K_of Ks i)) by auto. cbn [bind].
      apply NoDup_cons_iff in ND. destruct ND as [NI ND].
      destruct (IH (fun j Hj => HI j (or_intror Hj)) ND (upd (Z.to_nat i) (residual0 i (K_of Ks i) x) N0)) as (Nd & E & L & G1 & G2); [rewrite zlen_upd; auto|].
      exists Nd. split; [auto|split; [auto|split]].
      + intros j [<-|Hj]; auto. rewrite G2 by (auto; lia). apply get_upd_same. lia.
      + intros j Hj NJ. rewrite G2; auto; [|intros X; apply NJ; right; auto]. apply get_upd_other; auto; [lia|]. intros ->. apply NJ. left; auto. }
  destruct (G (upto nCell)) with (New := New) as (Nd & E & L & G1 & _); auto.
  - intros i Hi. apply in_upto; auto.
  - apply nodup_upto.
  - exists Nd. split; [auto|split; [auto|]]. intros i Hi. apply G1, in_upto; auto.
Qed.

(** *** relaxation *)
Hypothesis QB : (forall a b c ui i k g, FBD a b ui i k g = FBD a c ui i k g) \/ forall i, (0 <= i < nCell)%Z -> own_inside cells faces nCell i.
Definition sor_next (Ks : list coeff) (inc : list mat) (i : Z) (x : list mat) : mat := fun a b =>
  (1 - relax (cell_of i)) * get zero_mat x i a b + get zero_mat inc i a b + relax (cell_of i) * mmul n (AInv (K_of Ks i)) (total0 i x (get zero_mat x i)) a b.
Lemma rhs0_quiet : forall i k x c c', own_face cells nCell i k -> rhs0 i k x c = rhs0 i k x c'.
Proof.
  intros i k x c c' HF. destruct QB as [Q|Q].
  - apply (rhs_steady st cells faces u0 FB0 FT FTB i k x c c'). intros a b ui j l g. apply Q.
  - unfold face_rhs. rewrite (Q i (proj1 HF) k HF). reflexivity.
Qed.
Lemma sor_fold : forall i K es x ci, is_coeff st cells faces inverse i K -> (0 <= i < nCell)%Z ->
  (forall e k, In (e, k) es -> nth_error (cell2face (cell_of i)) e = Some k) -> zlen x = zlen cells ->
  foldM (fun New e => do inc <- face_brings st FBD FT FTB cells faces u uRec New K i e; add_at New i (fun a b => relax (cell_of i) * inc a b)) x es =
  Ok (upd (Z.to_nat i) (fun a b => get zero_mat x i a b + relax (cell_of i) * sum_over es (fun e => mmul n (AInv K) (rhs0 i (snd e) x ci) a b)) x).
Proof.
  intros i K es. pose proof HM as ((B0 & B1) & _ & _). induction es as [|[e k] es IH]; intros x ci HK Hi HE LX; cbn [foldM].
  - f_equal. rewrite <- (upd_own x i) at 1 by lia. f_equal. apply mat_ext. intros. unfold sum_over. cbn. ring.
  - assert (OF : forall e' k', In (e', k') ((e, k) :: es) -> own_face cells nCell i k') by (intros e' k' H; split; auto; eapply nth_error_In; apply HE; eauto).
    rewrite brings_ok by (auto; apply HE; left; auto). cbn [bind]. rewrite add_at_ok by lia. cbn [bind].
    rewrite (IH _ ci); auto; [|intros; apply HE; right; auto|rewrite zlen_upd; auto]. rewrite upd_upd, (get_upd_same _ zero_mat x) by lia. do 2 f_equal. apply mat_ext. intros a b.
    rewrite sum_cons. cbn [snd]. rewrite (rhs0_quiet i k x (get zero_mat x i) ci) by (eapply OF; left; eauto).
    rewrite (sum_over_ext _ es _ (fun e => mmul n (AInv K) (rhs0 i (snd e) x ci) a b)); [ring|].
    intros [e' k'] He. cbn [snd]. rewrite (rhs_own st cells faces nCell u0 FB0 FT FTB HM) by (eapply OF; right; eauto). reflexivity.
Qed.
Lemma sor_cell : forall i Ks inc x, are_coeffs st cells faces inverse nCell Ks -> (0 <= i < nCell)%Z -> zlen x = zlen cells -> zlen inc = zlen cells ->
  cell_sor_step st FBD FT FTB cells faces Ks u uRec inc x i = Ok (upd (Z.to_nat i) (sor_next Ks inc i x) x).
Proof.
  intros i Ks inc x HK Hi LX LI. pose proof HM as ((B0 & B1) & _ & _). destruct (coeffs_at st cells faces inverse nCell Ks i HK Hi) as [EK CK]. unfold cell_sor_step.
  rewrite (get_vget _ none) by lia. fold (cell_of i). cbn [bind]. rewrite EK, (get_vget _ zero_mat x), (get_vget _ zero_mat inc) by lia. cbn [bind]. rewrite vset_ok by lia. cbn [bind].
  rewrite (sor_fold i (K_of Ks i) _ _ (get zero_mat x i)); auto; [|apply positions|rewrite zlen_upd; auto]. rewrite upd_upd, (get_upd_same _ zero_mat x) by lia. do 2 f_equal. apply mat_ext. intros a b.
  match goal with |- context [sum_over (combine (seq 0 (length ?l)) ?l) (fun e => mmul n (AInv ?K) (face_rhs st cells faces u0 FB0 FT FTB i (snd e) ?U ?C) a b)] =>
    rewrite (sum_snd l (fun k => mmul n (AInv K) (rhs0 i k U C) a b)) end.
  rewrite (sum_over_ext _ _ _ (fun k => mmul n (AInv (K_of Ks i)) (rhs0 i k x (get zero_mat x i)) a b)).
  - unfold sor_next, total. rewrite (mmul_sum _ _ _ _ (fun k => rhs0 i k x (get zero_mat x i))). cbv beta. ring.
  - intros k Hk. rewrite (rhs_own st cells faces nCell u0 FB0 FT FTB HM) by (split; auto). reflexivity.
Qed.
Definition scan (reverse : bool) : list Z := map (fun iScan => if reverse then (nCell - 1 - iScan)%Z else iScan) (upto nCell).
Lemma in_scan : forall reverse i, In i (scan reverse) <-> (0 <= i < nCell)%Z.
Proof.
  intros reverse i. unfold scan. rewrite in_map_iff. split.
  - intros [x [<- H]]. apply in_upto in H. destruct reverse; lia.
  - intros H. exists (if reverse then (nCell - 1 - i)%Z else i). rewrite in_upto. destruct reverse; lia.
Qed.
Lemma nodup_scan : forall reverse, NoDup (scan reverse).
Proof. intros reverse. apply FinFun.Injective_map_NoDup; [|apply nodup_upto]. intros a b. destruct reverse; lia. Qed.
Lemma sor_ok : forall Ks inc reverse x, are_coeffs st cells faces inverse nCell Ks -> zlen x = zlen cells -> zlen inc = zlen cells ->
  DoReconstructionIterSOR st FBD FT FTB nCell cells faces Ks u reverse uRec inc x = Ok (through (sor_next Ks inc) (scan reverse) x).
Proof.
  intros Ks inc reverse x HK LX LI. unfold DoReconstructionIterSOR. fold (scan reverse). assert (HI := in_scan reverse). revert x LX. generalize dependent (scan reverse). intros is HI.
  assert (HI' : forall i, In i is -> (0 <= i < nCell)%Z) by (intros; apply HI; auto). clear HI. induction is as [|i is IH]; intros x LX; cbn [foldM]; auto.
  rewrite sor_cell; auto; [|apply HI'; left; auto]. cbn [bind]. rewrite IH; [reflexivity|intros; apply HI'; right; auto|rewrite zlen_upd; auto].
Qed.
End Diff.
