(** Proofs about the polynomial basis (C51). *)
From Coq Require Import List ZArith Reals Bool Lia Lra.
From Verif Require Import Base.Prelude Base.PreludeFacts Geom.BaseFnModel Geom.BaseFnSpec.
Import ListNotations.
Local Open Scope R_scope.

(** *** derivatives of monomials *)
Fixpoint ff (p d : nat) : nat := match d with O => 1 | S d' => ff p d' * (p - d') end%nat.
Definition G (l : R) (p d : nat) (x : R) : R := INR (ff p d) * x ^ (p - d) / l ^ d.

Lemma ext_derivable : forall f g x a, (forall t, f t = g t) -> derivable_pt_lim f x a -> derivable_pt_lim g x a.
Proof. intros f g x a H D e He. destruct (D e He) as [dl Hd]. exists dl. intros h Hh Hl. rewrite <- !H. auto. Qed.

Lemma pow_div_derivable : forall l n X, l <> 0 ->
  derivable_pt_lim (fun t => (t / l) ^ n) X (INR n * (X / l) ^ (n - 1) / l).
Proof.
  intros l n X Hl.
  assert (A : derivable_pt_lim (fun t => t / l) X (/ l)).
  { apply (ext_derivable (mult_real_fct (/ l) id)); [intros t; unfold mult_real_fct, id; field; auto|].
    pose proof (derivable_pt_lim_scal id (/ l) X 1 (derivable_pt_lim_id X)) as D. rewrite Rmult_1_r in D. exact D. }
  apply (ext_derivable (comp (fun y => y ^ n) (fun t => t / l))); [intros; reflexivity|].
  replace (INR n * (X / l) ^ (n - 1) / l) with (INR n * (X / l) ^ Init.Nat.pred n * / l).
  - apply derivable_pt_lim_comp; auto. apply derivable_pt_lim_pow.
  - replace (Init.Nat.pred n) with (n - 1)%nat by lia. field; auto.
Qed.

Lemma G_derivable : forall l p d X, l <> 0 ->
  derivable_pt_lim (fun t => G l p d (t / l)) X (G l p (S d) (X / l)).
Proof.
  intros l p d X Hl. unfold G. cbn [ff pow]. rewrite mult_INR.
  apply (ext_derivable (mult_real_fct (INR (ff p d) / l ^ d) (fun t => (t / l) ^ (p - d)))).
  { intros t. unfold mult_real_fct. field. apply pow_nonzero; auto. }
  replace (INR (ff p d) * INR (p - d) * (X / l) ^ (p - S d) / (l * l ^ d))
    with (INR (ff p d) / l ^ d * (INR (p - d) * (X / l) ^ (p - d - 1) / l)).
  - apply derivable_pt_lim_scal. apply pow_div_derivable; auto.
  - replace (p - d - 1)%nat with (p - S d)%nat by lia. field. split; auto. apply pow_nonzero; auto.
Qed.

Definition H3 (lx ly lz : R) (p d : nat * nat * nat) (x y z : R) : R :=
  let '(p0, p1, p2) := p in let '(d0, d1, d2) := d in G lx p0 d0 x * G ly p1 d1 y * G lz p2 d2 z.

Lemma scal_r : forall f x a c, derivable_pt_lim f x a -> derivable_pt_lim (fun t => f t * c) x (a * c).
Proof.
  intros f x a c D. rewrite Rmult_comm. apply (ext_derivable (mult_real_fct c f)); [intros; unfold mult_real_fct; ring|].
  apply derivable_pt_lim_scal; auto.
Qed.

Section Der.
Variables lx ly lz : R.
Hypothesis Hx : lx <> 0. Hypothesis Hy : ly <> 0. Hypothesis Hz : lz <> 0.

Definition add_axis (a : axis) (d : nat * nat * nat) : nat * nat * nat :=
  let '(d0, d1, d2) := d in
  match a with AX => (S d0, d1, d2) | AY => (d0, S d1, d2) | AZ => (d0, d1, S d2) end.
Definition add3 (d e : nat * nat * nat) : nat * nat * nat :=
  let '(d0, d1, d2) := d in let '(e0, e1, e2) := e in (d0 + e0, d1 + e1, d2 + e2)%nat.

Definition Hphys p d : fn := fun X Y Z => H3 lx ly lz p d (X / lx) (Y / ly) (Z / lz).

Lemma H3_along : forall a p d, along a (Hphys p d) (Hphys p (add_axis a d)).
Proof.
  intros a [[p0 p1] p2] [[d0 d1] d2] X Y Z. unfold Hphys, H3. destruct a; cbn [add_axis].
  - apply scal_r, scal_r, G_derivable; auto.
  - apply scal_r. rewrite (Rmult_comm _ (G ly p1 (S d1) (Y / ly))). apply (ext_derivable (fun t => G ly p1 d1 (t / ly) * G lx p0 d0 (X / lx))); [intros; ring|].
    apply scal_r, G_derivable; auto.
  - rewrite (Rmult_comm _ (G lz p2 (S d2) (Z / lz))). apply (ext_derivable (fun t => G lz p2 d2 (t / lz) * (G lx p0 d0 (X / lx) * G ly p1 d1 (Y / ly)))); [intros; ring|].
    apply scal_r, G_derivable; auto.
Qed.

Lemma multi_cons : forall a ds d, add3 (multi (a :: ds)) d = add3 (multi ds) (add_axis a d).
Proof.
  intros a ds [[d0 d1] d2]. unfold multi, times, add3, add_axis. destruct a; cbn [filter axis_eqb length];
    repeat match goal with |- (_, _) = (_, _) => apply f_equal2 end; lia.
Qed.

Lemma H3_partial : forall ds p d, partial ds (Hphys p d) (Hphys p (add3 (multi ds) d)).
Proof.
  induction ds as [|a ds IH]; intros p d.
  - destruct d as [[d0 d1] d2]. apply partial_none.
  - rewrite multi_cons. apply (partial_next a ds _ (Hphys p (add_axis a d))); [apply H3_along|apply IH].
Qed.

Lemma monomial_H : forall p X Y Z, monomial lx ly lz p X Y Z = Hphys p (0, 0, 0)%nat X Y Z.
Proof.
  intros [[p0 p1] p2] X Y Z. unfold monomial, Hphys, H3, G. cbn [ff pow INR]. rewrite !Nat.sub_0_r. field.
Qed.
End Der.

Lemma along_ext : forall a f f' g, (forall X Y Z, f X Y Z = f' X Y Z) -> along a f g -> along a f' g.
Proof.
  intros a f f' g H D X Y Z. specialize (D X Y Z). destruct a; (eapply ext_derivable; [|exact D]); intros; apply H.
Qed.

Lemma partial_ext : forall ds f f' g, (forall X Y Z, f X Y Z = f' X Y Z) -> partial ds f g ->
  exists g', partial ds f' g' /\ forall X Y Z, g' X Y Z = g X Y Z.
Proof.
  intros ds f f' g H D. destruct D as [f|a ds f f1 g A D].
  - exists f'. split; [apply partial_none|auto].
  - exists g. split; auto. apply (partial_next a ds f' f1); auto. eapply along_ext; eauto.
Qed.

Lemma monomial_partial : forall lx ly lz, lx <> 0 -> ly <> 0 -> lz <> 0 -> forall ds p,
  exists g, partial ds (monomial lx ly lz p) g /\
    forall X Y Z, g X Y Z = H3 lx ly lz p (multi ds) (X / lx) (Y / ly) (Z / lz).
Proof.
  intros lx ly lz Hx Hy Hz ds p.
  destruct (partial_ext ds (Hphys lx ly lz p (0, 0, 0)%nat) (monomial lx ly lz p) _
              (fun X Y Z => eq_sym (monomial_H lx ly lz p X Y Z)) (H3_partial lx ly lz Hx Hy Hz ds p _)) as [g [D E]].
  exists g. split; auto. intros. rewrite E. unfold Hphys.
  replace (add3 (multi ds) (0, 0, 0)%nat) with (multi ds); auto.
  unfold multi, add3. repeat match goal with |- (_, _) = (_, _) => apply f_equal2 end; lia.
Qed.

(** *** the coefficients *)
Lemma dFactorial_ok : forall p d, (p <= 3)%nat -> (d <= 3)%nat -> dFactorial (Z.of_nat p) (Z.of_nat d) = Ok (Z.of_nat (ff p d)).
Proof. intros p d Hp Hd. do 4 (destruct p as [|p]; [do 4 (destruct d as [|d]; [reflexivity|]); lia|]). lia. Qed.

Lemma iPow_ok : forall p d x, (p <= 3)%nat -> (d <= p)%nat -> iPow (Z.of_nat p - Z.of_nat d) x = x ^ (p - d).
Proof.
  intros p d x Hp Hd. replace (Z.of_nat p - Z.of_nat d)%Z with (Z.of_nat (p - d)) by lia.
  remember (p - d)%nat as n. assert (n <= 3)%nat by lia. clear Heqn.
  do 4 (destruct n as [|n]; [cbv -[Rmult R1 R0 IZR]; ring|]). lia.
Qed.

Lemma ff_zero : forall p d, (p <= 3)%nat -> (d <= 3)%nat -> ff p d = 0%nat <-> (p < d)%nat.
Proof. intros p d Hp Hd. do 4 (destruct p as [|p]; [do 4 (destruct d as [|d]; [cbn; lia|]); lia|]). lia. Qed.

Definition small (m : nat * nat * nat) : Prop := let '(a, b, c) := m in (a <= 3 /\ b <= 3 /\ c <= 3)%nat.

Lemma ipow_scale : forall d l, (d <= 3)%nat -> iPow (Z.of_nat d) l = l ^ d.
Proof. intros d l H. pose proof (iPow_ok d 0 l H ltac:(lia)) as E. rewrite Nat.sub_0_r in E. rewrite <- E. f_equal. lia. Qed.

Lemma FPoly_ok : forall p d x y z lx ly lz, lx <> 0 -> ly <> 0 -> lz <> 0 -> small p -> small d ->
  let '(px, py, pz) := multi_Z p in let '(dx, dy, dz) := multi_Z d in
  exists v, FPolynomial3D px py pz dx dy dz x y z = Ok v /\
    v / (iPow dx lx * iPow dy ly * iPow dz lz) = H3 lx ly lz p d x y z.
Proof.
  intros [[p0 p1] p2] [[d0 d1] d2] x y z lx ly lz Hx Hy Hz (A&B&C) (A'&B'&C'). unfold multi_Z, FPolynomial3D.
  rewrite !dFactorial_ok by auto. cbn [bind]. eexists. split; [reflexivity|].
  rewrite !ipow_scale by auto. unfold H3, G.
  pose proof (ff_zero p0 d0 A A'). pose proof (ff_zero p1 d1 B B'). pose proof (ff_zero p2 d2 C C').
  assert (N : forall l n, l <> 0 -> l ^ n <> 0) by (intros; apply pow_nonzero; auto).
  destruct (Z.eqb_spec (Z.of_nat (ff p0 d0) * Z.of_nat (ff p1 d1) * Z.of_nat (ff p2 d2)) 0).
  - assert (E : ff p0 d0 = 0%nat \/ ff p1 d1 = 0%nat \/ ff p2 d2 = 0%nat) by nia.
    destruct E as [-> |[-> | ->]]; cbn [INR]; field; auto.
  - rewrite !iPow_ok by (auto; nia). rewrite !mult_IZR, <- !INR_IZR_INZ. field; auto.
Qed.

(** *** the matrices *)
Definition nat3 (m : index3) : nat * nat * nat := let '(a, b, c) := m in (Z.to_nat a, Z.to_nat b, Z.to_nat c).
Definition op (ops : list index3) (i : Z) : nat * nat * nat := nat3 (nth (Z.to_nat i) ops (0, 0, 0)%Z).
Definition ff0 (p d : nat * nat * nat) : bool :=
  let '(p0, p1, p2) := p in let '(d0, d1, d2) := d in
  (ff p0 d0 =? 0)%nat || (ff p1 d1 =? 0)%nat || (ff p2 d2 =? 0)%nat.

Definition zrange (n : Z) : list Z := map Z.of_nat (seq 0 (Z.to_nat n)).
Lemma in_zrange : forall n i, In i (zrange n) <-> (0 <= i < n)%Z.
Proof.
  intros n i. unfold zrange. rewrite in_map_iff. split.
  - intros [k [<- Hk]]. apply in_seq in Hk. lia.
  - intros H. exists (Z.to_nat i). split; [lia|]. apply in_seq. lia.
Qed.

Lemma H3_zero : forall lx ly lz p d x y z, ff0 p d = true -> H3 lx ly lz p d x y z = 0.
Proof.
  intros lx ly lz [[p0 p1] p2] [[d0 d1] d2] x y z H. unfold ff0 in H. unfold H3, G.
  apply orb_true_iff in H. destruct H as [H|H]; [apply orb_true_iff in H; destruct H as [H|H]|];
    apply Nat.eqb_eq in H; rewrite H; cbn [INR]; unfold Rdiv; ring.
Qed.

(** every needed entry is assigned or zero, and every assignment is right *)
Definition has (T : list (Z * Z * R)) (i j : Z) : bool := existsb (fun '(a, b, _) => (a =? i) && (b =? j))%Z T.

Lemma entry_ok : forall (V : Z -> Z -> R) (zero : Z -> Z -> bool) T i j,
  Forall (fun '(a, b, v) => v = V a b) T ->
  (zero i j = true -> V i j = 0) -> has T i j || zero i j = true -> entry T i j = V i j.
Proof.
  intros V zero T i j F Z0 H. unfold entry.
  destruct (find (fun '(a, b, _) => (a =? i)%Z && (b =? j)%Z) (rev T)) as [[[a b] v]|] eqn:E.
  - apply find_some in E. destruct E as [In1 E]. apply in_rev in In1. rewrite Forall_forall in F. specialize (F _ In1). cbn in F.
    apply andb_true_iff in E. destruct E as [E1 E2]. apply Z.eqb_eq in E1. apply Z.eqb_eq in E2. subst. auto.
  - symmetry. apply Z0. apply orb_true_iff in H. destruct H as [H|H]; auto.
    unfold has in H. apply existsb_exists in H. destruct H as [[[a b] v] [In1 Eq]].
    pose proof (find_none _ _ E (a, b, v)) as N. rewrite N in Eq; [discriminate|]. apply in_rev in In1; auto.
Qed.

Section Fills.
Variables x y z lx ly lz : R.
Hypothesis Hx : lx <> 0. Hypothesis Hy : ly <> 0. Hypothesis Hz : lz <> 0.

Definition V (ops : list index3) (i j : Z) : R := H3 lx ly lz (op ops j) (op ops i) x y z.
Definition good (ops : list index3) (rows cols : Z) (T : list (Z * Z * R)) : Prop :=
  forall i j, (0 <= i < rows)%Z -> (0 <= j < cols)%Z -> entry T i j = V ops i j.

Lemma good_check : forall ops rows cols T, Forall (fun '(a, b, v) => v = V ops a b) T ->
  forallb (fun ij => has T (fst ij) (snd ij) || ff0 (op ops (snd ij)) (op ops (fst ij))) (list_prod (zrange rows) (zrange cols)) = true ->
  good ops rows cols T.
Proof.
  intros ops rows cols T F H i j Hi Hj. rewrite forallb_forall in H.
  apply (entry_ok (V ops) (fun i j => ff0 (op ops j) (op ops i))); auto.
  - intros Z0. apply H3_zero. auto.
  - apply (H (i, j)). apply in_prod; apply in_zrange; auto.
Qed.

Ltac one := cbv -[Rplus Rmult Rdiv Ropp Rinv IZR]; field; auto.
Ltac all_puts := repeat (apply Forall_cons; [one|]); apply Forall_nil.
Ltac fill := apply good_check; [unfold put; all_puts|vm_compute; reflexivity].

Lemma good3_20_20 : good diffOperatorOrderList 20 20 (fill3D_20_20 x y z lx ly lz). Proof. fill. Qed.
Lemma good3_4_20 : good diffOperatorOrderList 4 20 (fill3D_4_20 x y z lx ly lz). Proof. fill. Qed.
Lemma good3_1_20 : good diffOperatorOrderList 1 20 (fill3D_1_20 x y z). Proof. fill. Qed.
Lemma good3_10_10 : good diffOperatorOrderList 10 10 (fill3D_10_10 x y z lx ly lz). Proof. fill. Qed.
Lemma good3_4_10 : good diffOperatorOrderList 4 10 (fill3D_4_10 x y z lx ly lz). Proof. fill. Qed.
Lemma good3_1_10 : good diffOperatorOrderList 1 10 (fill3D_1_10 x y z). Proof. fill. Qed.
Lemma good3_4_4 : good diffOperatorOrderList 4 4 (fill3D_4_4 x y z lx ly lz). Proof. fill. Qed.
Lemma good3_1_4 : good diffOperatorOrderList 1 4 (fill3D_1_4 x y z). Proof. fill. Qed.
Lemma good2_10_10 : good diffOperatorOrderList2D 10 10 (fill2D_10_10 x y lx ly). Proof. fill. Qed.
Lemma good2_3_10 : good diffOperatorOrderList2D 3 10 (fill2D_3_10 x y lx ly). Proof. fill. Qed.
Lemma good2_1_10 : good diffOperatorOrderList2D 1 10 (fill2D_1_10 x y). Proof. fill. Qed.
Lemma good2_6_6 : good diffOperatorOrderList2D 6 6 (fill2D_6_6 x y lx ly). Proof. fill. Qed.
Lemma good2_3_6 : good diffOperatorOrderList2D 3 6 (fill2D_3_6 x y lx ly). Proof. fill. Qed.
Lemma good2_1_6 : good diffOperatorOrderList2D 1 6 (fill2D_1_6 x y). Proof. fill. Qed.
Lemma good2_3_3 : good diffOperatorOrderList2D 3 3 (fill2D_3_3 x y lx ly). Proof. fill. Qed.
Lemma good2_1_3 : good diffOperatorOrderList2D 1 3 (fill2D_1_3 x y). Proof. fill. Qed.

(** *** the loops *)
Definition okops (ops : list index3) : Prop := Forall (fun m => exists n, small n /\ m = multi_Z n) ops.

Lemma op_multi : forall ops i m, okops ops -> vat ops i = Ok m -> small (op ops i) /\ m = multi_Z (op ops i).
Proof.
  intros ops i m F E. unfold op. unfold vat in E. destruct (i <? 0)%Z eqn:Hi; [discriminate|].
  destruct (nth_error ops (Z.to_nat i)) as [m'|] eqn:En; [|discriminate]. injection E as ->.
  rewrite (nth_error_nth _ _ _ En). unfold okops in F. rewrite Forall_forall in F. destruct (F m (nth_error_In _ _ En)) as [[[a b] c] [Sm ->]].
  unfold nat3, multi_Z. rewrite !Nat2Z.id. auto.
Qed.

Lemma loop_good : forall ops z' lz' rows cols, okops ops -> (rows <= zlen ops)%Z -> (cols <= zlen ops)%Z -> z' = z -> lz' = lz ->
  exists T, fill_loop x y lx ly ops z' lz' rows cols = Ok T /\ good ops rows cols T.
Proof.
  intros ops z' lz' rows cols F Hr Hc -> ->. unfold fill_loop. fold (zrange rows). fold (zrange cols).
  assert (X : forall l, (forall ij, In ij l -> (0 <= fst ij < rows)%Z /\ (0 <= snd ij < cols)%Z) ->
    exists T, mapM (fun ij : Z * Z => do b <- vat ops (snd ij); do d <- vat ops (fst ij);
      (let '(px, py, pz) := b in let '(ndx, ndy, ndz) := d in
      do v <- FPolynomial3D px py pz ndx ndy ndz x y z;
      Ok (put (fst ij) (snd ij) (v / (iPow ndx lx * iPow ndy ly * iPow ndz lz))))) l = Ok T /\
      Forall (fun '(a, b, v) => v = V ops a b) T /\ forall ij, In ij l -> has T (fst ij) (snd ij) = true).
  { induction l as [|ij l IH]; intros Hl.
    - exists []. split; [reflexivity|]. split; [constructor|intros ij []].
    - destruct (IH (fun q Hq => Hl q (or_intror Hq))) as [T [E [FT HT]]]. destruct (Hl ij (or_introl eq_refl)) as [Hi Hj].
      assert (V1 : forall k, (0 <= k < zlen ops)%Z -> exists m, vat ops k = Ok m).
      { intros k Hk. unfold zlen in Hk. unfold vat. destruct (Z.ltb_spec k 0); [lia|].
        destruct (nth_error ops (Z.to_nat k)) eqn:En; eauto. apply nth_error_None in En. lia. }
      destruct (V1 (snd ij) ltac:(lia)) as [b Eb]. destruct (V1 (fst ij) ltac:(lia)) as [d Ed].
      destruct (op_multi _ _ _ F Eb) as [Sb ->]. destruct (op_multi _ _ _ F Ed) as [Sd ->].
      cbn [mapM]. rewrite Eb, Ed. cbn [bind].
      pose proof (FPoly_ok (op ops (snd ij)) (op ops (fst ij)) x y z lx ly lz Hx Hy Hz Sb Sd) as P.
      destruct (multi_Z (op ops (snd ij))) as [[px py] pz]. destruct (multi_Z (op ops (fst ij))) as [[dx dy] dz].
      destruct P as [v [P1 P2]]. rewrite P1. cbn [bind]. rewrite E. cbn [bind]. eexists. split; [reflexivity|]. split.
      + constructor; auto.
      + intros q [<-|Hq]; unfold has; cbn [existsb put]; [rewrite !Z.eqb_refl; auto|]. rewrite (HT q Hq : existsb _ _ = true). apply orb_true_r. }
  destruct (X (list_prod (zrange rows) (zrange cols))) as [T [E [FT HT]]].
  { intros [i j] Hij. apply in_prod_iff in Hij. rewrite !in_zrange in Hij. auto. }
  exists T. split; [exact E|]. intros i j Hi Hj. apply (entry_ok (V ops) (fun _ _ => false)); auto; [discriminate|].
  rewrite orb_false_r. apply (HT (i, j)). apply in_prod; apply in_zrange; auto.
Qed.

Lemma okops3 : okops diffOperatorOrderList.
Proof.
  unfold diffOperatorOrderList, okops. repeat (apply Forall_cons; [|]); try apply Forall_nil.
  all: match goal with |- exists n, small n /\ (?a, ?b, ?c) = multi_Z n => exists (Z.to_nat a, Z.to_nat b, Z.to_nat c) end.
  all: split; [cbn; lia|reflexivity].
Qed.
Lemma okops2 : okops diffOperatorOrderList2D.
Proof.
  unfold diffOperatorOrderList2D, okops. repeat (apply Forall_cons; [|]); try apply Forall_nil.
  all: match goal with |- exists n, small n /\ (?a, ?b, ?c) = multi_Z n => exists (Z.to_nat a, Z.to_nat b, Z.to_nat c) end.
  all: split; [cbn; lia|reflexivity].
Qed.

Ltac pick L := match goal with |- exists T, (if ((?r =? ?a) && (?c =? ?b))%Z then _ else _) = Ok T /\ _ =>
  destruct ((r =? a) && (c =? b))%Z eqn:?; [eexists; split; [reflexivity|];
    match goal with E : ((r =? a) && (c =? b))%Z = true |- _ => apply andb_true_iff in E; let F1 := fresh in let F2 := fresh in destruct E as [F1 F2]; apply Z.eqb_eq in F1; apply Z.eqb_eq in F2; subst; exact L end|] end.

Lemma fill3_good : forall rows cols, (rows <= 20)%Z -> (cols <= 20)%Z ->
  exists T, FPolynomialFill3D x y z lx ly lz rows cols = Ok T /\ good diffOperatorOrderList rows cols T.
Proof.
  intros rows cols Hr Hc. unfold FPolynomialFill3D.
  pick good3_20_20. pick good3_4_20. pick good3_1_20. pick good3_10_10. pick good3_4_10. pick good3_1_10. pick good3_4_4. pick good3_1_4.
  apply loop_good; auto. apply okops3.
Qed.

Lemma fill2_good : forall z0 rows cols, lz = 1 -> z = z0 -> (rows <= 10)%Z -> (cols <= 10)%Z ->
  exists T, FPolynomialFill2D x y z0 lx ly rows cols = Ok T /\ good diffOperatorOrderList2D rows cols T.
Proof.
  intros z0 rows cols E1 E2 Hr Hc. unfold FPolynomialFill2D.
  pick good2_10_10. pick good2_3_10. pick good2_1_10. pick good2_6_6. pick good2_3_6. pick good2_1_6. pick good2_3_3. pick good2_1_3.
  apply loop_good; auto; [apply okops2|]. subst. field.
Qed.
End Fills.

(** *** indices of derivatives *)
Definition dim_axes (dim2 : bool) : list axis := if dim2 then [AX; AY] else [AX; AY; AZ].

Lemma short_list : forall (ds : list axis), (length ds <= 3)%nat ->
  ds = [] \/ (exists a, ds = [a]) \/ (exists a b, ds = [a; b]) \/ (exists a b c, ds = [a; b; c]).
Proof.
  intros [|a [|b [|c [|d l]]]] H; cbn in H; try lia; eauto 10.
Qed.

Lemma index3_ok : forall ds, (length ds <= 3)%nat ->
  let i := diffOperatorIJK2I (map axis_no ds) in (0 <= i < 20)%Z /\ vat diffOperatorOrderList i = Ok (multi_Z (multi ds)).
Proof.
  intros ds H. destruct (short_list ds H) as [-> |[[a ->]|[[a [b ->]]|[a [b [c ->]]]]]]; cbv zeta;
    repeat match goal with x : axis |- _ => destruct x end; (split; [vm_compute; split; [discriminate|reflexivity]|reflexivity]).
Qed.

Lemma index2_ok : forall ds, (length ds <= 3)%nat -> ~ In AZ ds ->
  let i := diffOperatorIJK2I2D (map axis_no ds) in (0 <= i < 10)%Z /\ vat diffOperatorOrderList2D i = Ok (multi_Z (multi ds)).
Proof.
  intros ds H N. destruct (short_list ds H) as [-> |[[a ->]|[[a [b ->]]|[a [b [c ->]]]]]]; cbv zeta;
    repeat match goal with x : axis |- _ => destruct x end; try (exfalso; apply N; cbn; auto; fail);
    (split; [vm_compute; split; [discriminate|reflexivity]|reflexivity]).
Qed.

Lemma multi_Z_inj : forall a b, multi_Z a = multi_Z b -> a = b.
Proof. intros [[a0 a1] a2] [[b0 b1] b2] H. unfold multi_Z in H. injection H as A B C. apply f_equal2; [apply f_equal2|]; lia. Qed.

Lemma op_of : forall ops i m, okops ops -> vat ops i = Ok (multi_Z m) -> op ops i = m.
Proof. intros ops i m F E. destruct (op_multi ops i _ F E) as [_ X]. symmetry. apply multi_Z_inj; auto. Qed.

Lemma fill3_derivatives : forall lx ly lz rows cols, lx <> 0 -> ly <> 0 -> lz <> 0 ->
  (rows <= 20)%Z -> (cols <= 20)%Z ->
  forall ds i j m, (length ds <= 3)%nat -> diffOperatorIJK2I (map axis_no ds) = i -> (i < rows)%Z ->
  (j < cols)%Z -> vat diffOperatorOrderList j = Ok (multi_Z m) ->
  exists g, partial ds (monomial lx ly lz m) g /\
    forall X Y Z, exists T, FPolynomialFill3D (X / lx) (Y / ly) (Z / lz) lx ly lz rows cols = Ok T /\ entry T i j = g X Y Z.
Proof.
  intros lx ly lz rows cols Hx Hy Hz Hr Hc ds i j m Hd Hi Hir Hj Em.
  destruct (index3_ok ds Hd) as [I1 I2]. rewrite Hi in I1, I2.
  destruct (monomial_partial lx ly lz Hx Hy Hz ds m) as [g [D E]]. exists g. split; auto.
  intros X Y Z. destruct (fill3_good (X / lx) (Y / ly) (Z / lz) lx ly lz Hx Hy Hz rows cols Hr Hc) as [T [E1 E2]].
  exists T. split; auto. rewrite E, E2; [|lia|].
  - unfold V. rewrite (op_of _ _ _ okops3 I2), (op_of _ _ _ okops3 Em). auto.
  - split; auto. unfold vat in Em. destruct (Z.ltb_spec j 0); [discriminate|lia].
Qed.

Lemma fill2_derivatives : forall lx ly rows cols, lx <> 0 -> ly <> 0 -> (rows <= 10)%Z -> (cols <= 10)%Z ->
  forall ds i j m, (length ds <= 3)%nat -> ~ In AZ ds -> diffOperatorIJK2I2D (map axis_no ds) = i -> (i < rows)%Z ->
  (j < cols)%Z -> vat diffOperatorOrderList2D j = Ok (multi_Z m) ->
  exists g, partial ds (monomial lx ly 1 m) g /\
    forall X Y Z, exists T, FPolynomialFill2D (X / lx) (Y / ly) Z lx ly rows cols = Ok T /\ entry T i j = g X Y Z.
Proof.
  intros lx ly rows cols Hx Hy Hr Hc ds i j m Hd Nz Hi Hir Hj Em.
  destruct (index2_ok ds Hd Nz) as [I1 I2]. rewrite Hi in I1, I2. assert (H1 : 1 <> 0) by lra.
  destruct (monomial_partial lx ly 1 Hx Hy H1 ds m) as [g [D E]]. exists g. split; auto.
  intros X Y Z. destruct (fill2_good (X / lx) (Y / ly) Z lx ly 1 Hx Hy H1 Z rows cols eq_refl eq_refl Hr Hc) as [T [E1 E2]].
  exists T. split; auto. rewrite E, E2; [|lia|].
  - unfold V. rewrite (op_of _ _ _ okops2 I2), (op_of _ _ _ okops2 Em). f_equal. field.
  - split; auto. unfold vat in Em. destruct (Z.ltb_spec j 0); [discriminate|lia].
Qed.
