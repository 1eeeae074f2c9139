(** One iteration of the reconstruction: what it computes. *)
From Coq Require Import List ZArith Reals Bool Lia Lra FunctionalExtensionality.
From Verif Require Import Base.Prelude Base.PreludeFacts Geom.AdjModel Geom.BoundaryModel Geom.PeriodicModel Geom.PeriodicSpec Geom.PeriodicProofs
  Geom.BaseFnModel Geom.BaseFnSpec Geom.DiffTensorModel Geom.DiffTensorSpec Geom.DiffTensorProofs Geom.DiffTensorNormProofs
  CFV.RecModel CFV.RecSpec CFV.RecPolyProofs CFV.RecBaseProofs CFV.RecMeanProofs CFV.RecFunProofs CFV.RecCoefProofs.
Import ListNotations.
Local Open Scope R_scope.

Definition none : cell := Cell (fun _ => 0) (fun _ => 0) (fun _ => 0) (fun _ _ => 0) (fun _ => 0) 0 [].
Definition noface : face := Face 0 0 0 (fun _ => 0) (fun _ => 0) (fun _ _ => 0) [].
Definition get {A} (d : A) (l : list A) (i : Z) : A := nth (Z.to_nat i) l d.
Definition zero_mat : mat := fun _ _ => 0.
Definition zero_vec : vec := fun _ => 0.
Lemma get_vget : forall A (d : A) l i, (0 <= i < zlen l)%Z -> vget l i = Ok (get d l i).
Proof. intros A d l i H. apply vget_Ok. unfold zlen in H. split; [lia|]. apply nth_error_nth'. lia. Qed.
Lemma vget_get : forall A (d : A) l i x, vget l i = Ok x -> get d l i = x.
Proof. intros A d l i x H. apply vget_Ok in H. apply nth_error_nth. apply H. Qed.
Lemma get_upd_same : forall A (d : A) l i x, (0 <= i < zlen l)%Z -> get d (upd (Z.to_nat i) x l) i = x.
Proof. intros A d l i x H. apply nth_error_nth. apply nth_error_upd_same. unfold zlen in H. lia. Qed.
Lemma nth_nth_error : forall A (d : A) l n, nth n l d = match nth_error l n with Some x => x | None => d end.
Proof. intros A d l. induction l; intros [|n]; cbn; auto. Qed.
Lemma get_upd_other : forall A (d : A) l i j x, (0 <= i)%Z -> (0 <= j)%Z -> i <> j -> get d (upd (Z.to_nat i) x l) j = get d l j.
Proof. intros A d l i j x Hi Hj H. unfold get. rewrite !nth_nth_error, nth_error_upd_other by lia. reflexivity. Qed.
Lemma zlen_upd : forall A l n (x : A), zlen (upd n x l) = zlen l.
Proof. intros. unfold zlen. rewrite upd_length. reflexivity. Qed.
Lemma vset_ok : forall A (l : list A) i x, (0 <= i < zlen l)%Z -> vset l i x = Ok (upd (Z.to_nat i) x l).
Proof.
  intros A l i x H. unfold vset, zlen in *. destruct (Z.ltb_spec i 0); [lia|]. destruct (Z.leb_spec (Z.of_nat (length l)) i); [lia|]. reflexivity.
Qed.
Lemma upd_upd : forall A n (x y : A) l, upd n x (upd n y l) = upd n x l.
Proof. intros A n. induction n as [|n IH]; intros x y [|z l]; cbn; auto. rewrite IH. reflexivity. Qed.
Lemma add_at_ok : forall l i inc, (0 <= i < zlen l)%Z -> add_at l i inc = Ok (upd (Z.to_nat i) (fun a b => get zero_mat l i a b + inc a b) l).
Proof. intros l i inc H. unfold add_at. rewrite (get_vget _ zero_mat) by auto. cbn [bind]. apply vset_ok. auto. Qed.

Section Iter.
Variables (st : settings) (cells : list cell) (faces : list face) (inverse : mat -> mat) (nCell : Z) (u : list vec).
Variable FBoundary : vec -> vec -> Z -> Z -> nat -> vec.
Variables FTransPeriodic FTransPeriodicBack : vec -> Z -> vec.
Hypothesis HS : supported st.
Hypothesis KS : known_scale st.
Hypothesis HP : sound_periods st.
Hypothesis HM : sound_mesh st nCell cells faces.
Hypothesis LU : zlen u = zlen cells.

Notation n := (NDOF st - 1)%nat.
Definition the_cell (i : Z) : cell := get none cells i.
Definition the_face (k : Z) : face := get noface faces k.
Definition other (f : face) (i : Z) : Z := if (f2c0 f =? i)%Z then f2c1 f else f2c0 f.
Definition isback (f : face) (i : Z) : bool := (f2c0 f =? i)%Z.

Lemma the_cell_sound : forall i, (0 <= i < zlen cells)%Z -> sound_cell st (the_cell i).
Proof. intros i H. destruct HM as (_ & F & _). rewrite Forall_forall in F. apply F. unfold the_cell, get. apply nth_In. unfold zlen in H. lia. Qed.

Definition own_face (i k : Z) : Prop := (0 <= i < nCell)%Z /\ In k (cell2face (the_cell i)).
Lemma own_face_ok : forall i k, own_face i k -> vget faces k = Ok (the_face k) /\ joins (zlen cells) (the_face k) i.
Proof.
  intros i k [Hi Hk]. destruct HM as (B & _ & F). destruct (F i (the_cell i) k Hi) as [f [Ef Jf]]; auto.
  - apply get_vget. lia.
  - unfold the_face. rewrite (vget_get _ noface _ _ _ Ef). auto.
Qed.
Lemma joins_side : forall f i, joins (zlen cells) f i -> side f i.
Proof. intros f i H. unfold joins in H. destruct (FaceIDIsExternalBC (zone f)); [left; apply H|apply H]. Qed.
Lemma joins_other : forall f i, joins (zlen cells) f i -> CellFaceOther f i = Ok (other f i) /\ CellIsFaceBack f i = Ok (isback f i).
Proof.
  intros f i H. apply joins_side in H. unfold CellFaceOther. rewrite side_back by auto. cbn [bind]. split; reflexivity.
Qed.
Lemma joins_inner : forall f i, joins (zlen cells) f i -> FaceIDIsExternalBC (zone f) = false ->
  (0 <= other f i < zlen cells)%Z /\ i <> other f i /\ (f2c0 f = i /\ f2c1 f = other f i \/ f2c0 f = other f i /\ f2c1 f = i).
Proof.
  intros f i H E. unfold joins in H. rewrite E in H. destruct H as (S & N & B0 & B1). unfold other.
  destruct (Z.eqb_spec (f2c0 f) i) as [e|e]; [split; [lia|split; [lia|left; lia]]|].
  destruct S as [S|S]; [lia|]. split; [lia|split; [lia|right; lia]].
Qed.

(** The coefficients. *)
Definition A_of (i : Z) (l q : nat) : R := sum_over (cell2face (the_cell i)) (fun k => face_A st (the_cell i) (the_face k) (isback (the_face k) i) l q).
Definition is_B (i k : Z) (B : option mat) : Prop :=
  if FaceIDIsExternalBC (zone (the_face k)) then B = None else
  exists M, B = Some M /\ forall l q, below2 n l q -> M l q = face_B st (the_cell i) (the_cell (other (the_face k) i)) (the_face k) (isback (the_face k) i) l q.
Definition is_b (i k : Z) (b : option mat) : Prop :=
  if FaceIDIsExternalBC (zone (the_face k)) then b = None else
  exists M, b = Some M /\ forall l v, (l < n)%nat -> M l v = face_b st (the_cell i) (the_face k) (isback (the_face k) i) l.
Definition is_coeff (i : Z) (K : coeff) : Prop :=
  (forall l q, below2 n l q -> matA K l q = A_of i l q) /\ AInv K = inverse (matA K) /\
  exists Bs bs, Forall2 (is_B i) (cell2face (the_cell i)) Bs /\ Forall2 (is_b i) (cell2face (the_cell i)) bs /\
  AInvB K = map (option_map (fun B => mmul n (AInv K) B)) Bs /\ AInvb K = map (option_map (fun b => mmul n (AInv K) b)) bs.

Lemma int64_min_neg : (UnInitIndex < 0)%Z.
Proof. vm_compute. reflexivity. Qed.

Lemma get_Bs_ok : forall i c2f A Bs0, (0 <= i < nCell)%Z -> (forall k, In k c2f -> own_face i k) ->
  exists Bs, foldM (fun '(A, Bs) iFace =>
    do f <- vget faces iFace;
    do iCellOther <- CellFaceOther f i;
    do back <- CellIsFaceBack f i;
    if FaceIDIsExternalBC (zone f) then
      do _ <- assert_ (iCellOther =? UnInitIndex)%Z; Ok (A, Bs ++ [None])
    else
      do _ <- vget cells iCellOther;
      do B <- matrix_B st cells f i iCellOther back;
      if (iCellOther =? i)%Z then Ok ((fun i j => A i j - B i j), Bs ++ [Some (fun _ _ => 0)])
      else Ok (A, Bs ++ [Some B])) (A, Bs0) c2f = Ok (A, Bs0 ++ Bs) /\ Forall2 (is_B i) c2f Bs.
Proof.
  intros i c2f A. induction c2f as [|k c2f IH]; intros Bs0 Hi HF; cbn [foldM].
  - exists []. rewrite app_nil_r. auto.
  - destruct (own_face_ok i k (HF k (or_introl eq_refl))) as [Ef Jf]. rewrite Ef. cbn [bind].
    destruct (joins_other _ _ Jf) as [EO EB]. rewrite EO, EB. cbn [bind].
    destruct (FaceIDIsExternalBC (zone (the_face k))) eqn:EX.
    + assert (EU : other (the_face k) i = UnInitIndex).
      { unfold joins in Jf. rewrite EX in Jf. unfold other. destruct Jf as [J0 J1]. rewrite J0, Z.eqb_refl. auto. }
      rewrite EU, Z.eqb_refl. cbn [assert_ bind].
      destruct (IH (Bs0 ++ [None]) Hi (fun x Hx => HF x (or_intror Hx))) as [Bs [E H]].
      exists (None :: Bs). rewrite <- app_assoc in E. split; [exact E|]. constructor; auto. unfold is_B. rewrite EX. reflexivity.
    + destruct (joins_inner _ _ Jf EX) as (HO & Hne & HF2). destruct HM as ((B0 & B1) & _ & _).
      rewrite (get_vget _ none) by auto. cbn [bind].
      destruct (matrix_B_ok st cells (the_face k) i (other (the_face k) i) (the_cell i) (the_cell (other (the_face k) i)) HS KS HP HF2 Hne) as [M [EM HMM]].
      1:{ apply get_vget. lia. } 1:{ apply the_cell_sound. lia. } 1:{ apply get_vget; auto. } 1:{ apply the_cell_sound; auto. }
      unfold isback. rewrite EM. cbn [bind]. destruct (Z.eqb_spec (other (the_face k) i) i); [lia|].
      destruct (IH (Bs0 ++ [Some M]) Hi (fun x Hx => HF x (or_intror Hx))) as [Bs [E H]].
      exists (Some M :: Bs). rewrite <- app_assoc in E. split; [exact E|]. constructor; auto. unfold is_B. rewrite EX. exists M. split; auto.
Qed.
Lemma get_bs_ok : forall i c2f, (0 <= i < nCell)%Z -> (forall k, In k c2f -> own_face i k) ->
  exists bs, mapM (fun iFace =>
    do f <- vget faces iFace;
    if FaceIDIsExternalBC (zone f) then Ok None else do b <- vector_b st cells f i; Ok (Some b)) c2f = Ok bs /\ Forall2 (is_b i) c2f bs.
Proof.
  intros i c2f Hi. induction c2f as [|k c2f IH]; intros HF; cbn [mapM].
  - exists []. auto.
  - destruct (own_face_ok i k (HF k (or_introl eq_refl))) as [Ef Jf]. rewrite Ef. cbn [bind].
    destruct (IH (fun x Hx => HF x (or_intror Hx))) as [bs [E H]].
    destruct (FaceIDIsExternalBC (zone (the_face k))) eqn:EX.
    + exists (None :: bs). rewrite E. cbn [bind]. split; auto. constructor; auto. unfold is_b. rewrite EX. reflexivity.
    + destruct HM as ((B0 & B1) & _ & _).
      destruct (vector_b_ok st cells (the_face k) i (the_cell i) HS KS HP (joins_side _ _ Jf)) as [b [Eb Hb]].
      1:{ apply get_vget. lia. } 1:{ apply the_cell_sound. lia. }
      rewrite Eb. cbn [bind]. rewrite E. cbn [bind]. exists (Some b :: bs). split; auto. constructor; auto. unfold is_b. rewrite EX. exists b. split; auto.
Qed.
Lemma rec_coeff_ok : forall i, (0 <= i < nCell)%Z -> exists K, RecCoeff st inverse cells faces i = Ok K /\ is_coeff i K.
Proof.
  intros i Hi. pose proof HM as ((B0 & B1) & _ & _).
  assert (HF : forall k, In k (cell2face (the_cell i)) -> own_face i k) by (intros k Hk; split; auto).
  assert (EC : vget cells i = Ok (the_cell i)) by (apply get_vget; lia).
  unfold RecCoeff. rewrite EC. cbn [bind]. unfold matrix_A.
  destruct (matrix_A_fold st cells faces i (the_cell i) (cell2face (the_cell i)) (fun _ _ => 0) HS KS HP EC (the_cell_sound i ltac:(lia))) as [A [EA HA]].
  { intros k Hk. destruct (own_face_ok i k (HF k Hk)) as [Ef Jf]. exists (the_face k). split; auto. apply joins_side; auto. }
  rewrite EA. cbn [bind]. destruct (get_Bs_ok i (cell2face (the_cell i)) A [] Hi HF) as [Bs [EB HB]].
  assert (EB' : get_Bs st cells faces i A (cell2face (the_cell i)) = Ok (A, Bs)) by exact EB. rewrite EB'. cbn [bind]. destruct (get_bs_ok i (cell2face (the_cell i)) Hi HF) as [bs [Eb Hb]]. rewrite Eb. cbn [bind].
  eexists. split; [reflexivity|]. split; [|split; [reflexivity|]]; cbn [matA AInv AInvB AInvb].
  - intros l q Hlq. rewrite HA by auto. rewrite Rplus_0_l. unfold A_of. apply sum_over_ext. intros k Hk.
    rewrite (proj1 (own_face_ok i k (HF k Hk))). reflexivity.
  - exists Bs, bs. auto.
Qed.
Definition are_coeffs (Ks : list coeff) : Prop := zlen Ks = nCell /\ forall i, (0 <= i < nCell)%Z -> exists K, vget Ks i = Ok K /\ is_coeff i K.
Lemma mapM_upto : forall A (g : Z -> res A) (Q : Z -> A -> Prop) N, (forall i, (0 <= i < N)%Z -> exists x, g i = Ok x /\ Q i x) -> (0 <= N)%Z ->
  exists l, mapM g (upto N) = Ok l /\ zlen l = N /\ forall i, (0 <= i < N)%Z -> exists x, vget l i = Ok x /\ Q i x.
Proof.
  intros A g Q N H HN. unfold upto.
  assert (G : forall a b, (Z.of_nat (a + b) <= N)%Z -> exists l, mapM g (map Z.of_nat (seq a b)) = Ok l /\ length l = b /\
     forall i, (i < b)%nat -> exists x, nth_error l i = Some x /\ Q (Z.of_nat (a + i)) x).
  { intros a b. revert a. induction b as [|b IH]; intros a Hab; cbn [seq map mapM].
    - exists []. split; [auto|split; [auto|intros; lia]].
    - destruct (H (Z.of_nat a) ltac:(lia)) as [x [Ex Qx]]. rewrite Ex. cbn [bind].
      destruct (IH (S a) ltac:(lia)) as [l [El [Ll Hl]]]. rewrite El. cbn [bind]. exists (x :: l). split; auto. split; [cbn; lia|].
      intros [|i] Hi; cbn [nth_error]; [exists x; rewrite Nat.add_0_r; auto|].
      destruct (Hl i ltac:(lia)) as [y Hy]. exists y. replace (a + S i)%nat with (S a + i)%nat by lia. auto. }
  destruct (G 0%nat (Z.to_nat N) ltac:(lia)) as [l [El [Ll Hl]]]. exists l. split; auto. split; [unfold zlen; lia|].
  intros i Hi. destruct (Hl (Z.to_nat i) ltac:(lia)) as [x [N1 Q1]]. exists x. rewrite Nat.add_0_l, Z2Nat.id in Q1 by lia. split; auto.
  apply vget_Ok. split; auto. lia.
Qed.
Lemma construct_ok : exists Ks, ConstructRecCoeff st inverse nCell cells faces = Ok Ks /\ are_coeffs Ks.
Proof.
  destruct (mapM_upto _ (RecCoeff st inverse cells faces) is_coeff nCell rec_coeff_ok ltac:(destruct HM; lia)) as [Ks [E [L H]]].
  exists Ks. split; auto. split; auto.
Qed.

(** *** what a face brings to a cell *)
Definition over_numbered (rule : list (R * R * vec)) (g : nat -> vec -> R) : R :=
  sum_over (combine (seq 0 (length rule)) rule) (fun '(iG, (w, J, x)) => g iG x * J * w).
Definition bound_value (i k : Z) (ci : mat) (iG : nat) (x : vec) : vec :=
  FBoundary (fun v => sumn n (fun q => own_d st (the_cell i) (the_face k) (isback (the_face k) i) x q zero3 * ci q v) + get zero_vec u i v) (get zero_vec u i) i k iG.
Definition face_rhs (i k : Z) (uRec : list mat) (ci : mat) : mat := fun l v =>
  let f := the_face k in let back := isback f i in let j := other f i in
  if FaceIDIsExternalBC (zone f) then
    over_numbered (points f) (fun iG x => product st f 0 (own_d st (the_cell i) f back x l) (fun _ => bound_value i k ci iG x v - get zero_vec u i v))
  else
    sumn n (fun q => face_B st (the_cell i) (the_cell j) f back l q * turn_rows st FTransPeriodic FTransPeriodicBack f back (get zero_mat uRec j) q v) +
    face_b st (the_cell i) f back l * (turn_vec st FTransPeriodic FTransPeriodicBack f back (get zero_vec u j) v - get zero_vec u i v).

Lemma boundary_ok : forall i k ci, own_face i k -> FaceIDIsExternalBC (zone (the_face k)) = true ->
  exists BCC, GetBoundaryRHS st FBoundary cells (the_face k) ci (get zero_vec u i) i k = Ok BCC /\
  forall l v, (l < n)%nat -> BCC l v = face_rhs i k [] ci l v.
Proof.
  intros i k ci HF EX. destruct (own_face_ok i k HF) as [Ef Jf]. destruct HF as [Hi _]. destruct HM as ((B0 & B1) & _ & _).
  unfold GetBoundaryRHS. rewrite EX. cbn [assert_ bind]. unfold face_rhs. rewrite EX. cbv zeta. unfold over_numbered.
  set (pts := combine (seq 0 (length (points (the_face k)))) (points (the_face k))). clearbody pts.
  match goal with |- exists BCC, foldM ?F _ _ = _ /\ _ => set (Fs := F) end.
  assert (G : forall BCC0 : mat, exists BCC, foldM Fs BCC0 pts = Ok BCC /\
     forall l v, (l < n)%nat -> BCC l v = BCC0 l v + sum_over pts (fun '(iG, (w, J, x)) =>
       product st (the_face k) 0 (own_d st (the_cell i) (the_face k) (isback (the_face k) i) x l) (fun _ => bound_value i k ci iG x v - get zero_vec u i v) * J * w)).
  { induction pts as [|[iG [[w J] x]] pts IH]; intros BCC0; cbn [foldM].
    - exists BCC0. split; auto. intros. unfold sum_over. cbn. ring.
    - change (Fs BCC0 (iG, (w, J, x))) with (do dbv <- FaceDiffBaseValue st cells (the_face k) i 1 x;
        do vInc <- FFaceFunctional st (the_face k) 1 dbv (fun _ v => FBoundary (fun v => mmul n dbv ci 0%nat v + get zero_vec u i v) (get zero_vec u i) i k iG v - get zero_vec u i v);
        Ok (fun i j => BCC0 i j + vInc i j * J * w)).
      destruct (own_values st cells (the_face k) i (the_cell i) 0 x HS HP (joins_side _ _ Jf)) as [D [ED HD]].
      1:{ apply get_vget; lia. } 1:{ apply the_cell_sound; lia. } 1:{ lia. }
      rewrite rows_0 in ED, HD by (apply HS). rewrite ED. cbn [bind].
      set (uBV := FBoundary (fun v => mmul n D ci 0%nat v + get zero_vec u i v) (get zero_vec u i) i k iG).
      assert (EU : uBV = bound_value i k ci iG x).
      { unfold uBV, bound_value. f_equal. apply functional_extensionality. intros v. f_equal. unfold mmul. apply sumn_ext. intros q Hq. f_equal.
        apply (HD q Hq 0%nat zero3); [lia|]. destruct (proj1 HS) as [E|E]; rewrite E; reflexivity. }
      destruct (functional st (the_face k) 0 D (fun _ v => uBV v - get zero_vec u i v) HS KS ltac:(lia)) as [F [EF HF']]. rewrite rows_0 in EF, HF' by (apply HS).
      rewrite EF. cbn [bind].
      destruct (IH (fun i j => BCC0 i j + F i j * J * w)) as [BCC [EB HB]]. exists BCC. split; [exact EB|]. intros l v Hl. rewrite HB by auto.
      cbn [sum_over fold_right]. rewrite (HF' l v (own_d st (the_cell i) (the_face k) (isback (the_face k) i) x l) (fun _ => bound_value i k ci iG x v - get zero_vec u i v)).
      + fold (sum_over pts (fun '(iG, (w, J, x)) =>
          product st (the_face k) 0 (own_d st (the_cell i) (the_face k) (isback (the_face k) i) x l) (fun _ => bound_value i k ci iG x v - get zero_vec u i v) * J * w)). ring.
      + apply HD; auto.
      + intros r m _ _. rewrite EU. reflexivity. }
  destruct (G (fun _ _ => 0)) as [BCC [E H]]. exists BCC. split; [exact E|]. intros l v Hl. rewrite H by auto. ring.
Qed.

(** *** one face *)
Lemma entry_B : forall i K e k, is_coeff i K -> nth_error (cell2face (the_cell i)) e = Some k -> FaceIDIsExternalBC (zone (the_face k)) = false ->
  exists B b, entry_of (AInvB K) e = Ok (mmul n (AInv K) B) /\ entry_of (AInvb K) e = Ok (mmul n (AInv K) b) /\
  (forall l q, below2 n l q -> B l q = face_B st (the_cell i) (the_cell (other (the_face k) i)) (the_face k) (isback (the_face k) i) l q) /\
  (forall l v, (l < n)%nat -> b l v = face_b st (the_cell i) (the_face k) (isback (the_face k) i) l).
Proof.
  intros i K e k (_ & _ & Bs & bs & FB & Fb & EB & Eb) HE EX.
  assert (G : forall T (P : Z -> T -> Prop) (l : list Z) l', Forall2 P l l' -> forall e k, nth_error l e = Some k -> exists x, nth_error l' e = Some x /\ P k x).
  { intros T P l l' F. induction F as [|a b l l' Pab F IH]; intros e0 k0 H; [destruct e0; discriminate|]. destruct e0 as [|e0]; cbn in *; [injection H as <-; eauto|eauto]. }
  destruct (G _ _ _ _ FB e k HE) as [B [NB PB]]. destruct (G _ _ _ _ Fb e k HE) as [b [Nb Pb]].
  unfold is_B in PB. unfold is_b in Pb. rewrite EX in PB, Pb. destruct PB as [M [-> HB]]. destruct Pb as [m [-> Hb]].
  exists M, m. unfold entry_of. rewrite EB, Eb, !nth_error_map, NB, Nb. cbn [option_map]. auto.
Qed.

Lemma face_ok : forall i K e k rInc uRec New, is_coeff i K -> (0 <= i < nCell)%Z -> nth_error (cell2face (the_cell i)) e = Some k ->
  zlen uRec = zlen cells -> zlen New = zlen cells ->
  let inc := mmul n (AInv K) (face_rhs i k uRec (get zero_mat uRec i)) in
  face_iter st FBoundary FTransPeriodic FTransPeriodicBack cells faces u K rInc false i (uRec, New) (e, k) =
  if rInc then Ok (uRec, upd (Z.to_nat i) (fun a b => get zero_mat New i a b + - inc a b) New) else
  if SORInstead st then Ok (upd (Z.to_nat i) (fun a b => get zero_mat uRec i a b + relax (the_cell i) * inc a b) uRec, New)
  else Ok (uRec, upd (Z.to_nat i) (fun a b => get zero_mat New i a b + relax (the_cell i) * inc a b) New).
Proof.
  intros i K e k rInc uRec New HK Hi HE L1 L2 inc.
  assert (HF : own_face i k) by (split; auto; eapply nth_error_In; eauto).
  destruct (own_face_ok i k HF) as [Ef Jf]. destruct (joins_other _ _ Jf) as [EO EB]. pose proof HM as ((B0 & B1) & _ & _).
  assert (EC : vget cells i = Ok (the_cell i)) by (apply get_vget; lia).
  assert (EU : vget u i = Ok (get zero_vec u i)) by (apply get_vget; lia).
  unfold face_iter. rewrite Ef. cbn [bind]. rewrite EO, EB. cbn [bind]. rewrite EC, EU. cbn [bind].
  destruct (FaceIDIsExternalBC (zone (the_face k))) eqn:EX.
  - assert (EUn : other (the_face k) i = UnInitIndex).
    { unfold joins in Jf. rewrite EX in Jf. unfold other. destruct Jf as [J0 J1]. rewrite J0, Z.eqb_refl. auto. }
    rewrite EUn, Z.eqb_refl. cbn [negb]. rewrite (get_vget _ zero_mat uRec i) by lia. cbn [bind].
    destruct (boundary_ok i k (get zero_mat uRec i) HF EX) as [BCC [EBC HB]]. rewrite EBC. cbn [bind].
    assert (EI : mmul n (AInv K) BCC = inc).
    { apply functional_extensionality. intros a. apply functional_extensionality. intros b. unfold inc, mmul. apply sumn_ext. intros q Hq. f_equal.
      rewrite HB by auto. unfold face_rhs. rewrite EX. reflexivity. }
    rewrite EI. destruct rInc; [|destruct (SORInstead st)]; rewrite add_at_ok by lia; reflexivity.
  - destruct (joins_inner _ _ Jf EX) as (HO & Hne & HF2).
    replace (other (the_face k) i =? UnInitIndex)%Z with false by (symmetry; apply Z.eqb_neq; pose proof int64_min_neg; lia). cbn [negb].
    rewrite (get_vget _ zero_vec u) by lia. rewrite (get_vget _ zero_mat uRec) by lia. cbn [bind].
    destruct (entry_B i K e k HK HE EX) as (B & b & E1 & E2 & HB & Hb). rewrite E1, E2. cbn [bind].
    set (X := turn_rows st FTransPeriodic FTransPeriodicBack (the_face k) (isback (the_face k) i) (get zero_mat uRec (other (the_face k) i))).
    set (y := turn_vec st FTransPeriodic FTransPeriodicBack (the_face k) (isback (the_face k) i) (get zero_vec u (other (the_face k) i))).
    assert (EI : (fun a c => mmul n (mmul n (AInv K) B) X a c + mmul n (AInv K) b a 0%nat * (y c - get zero_vec u i c)) = inc).
    { apply functional_extensionality. intros a. apply functional_extensionality. intros c. rewrite mmul_assoc. unfold inc, mmul.
      rewrite (Rmult_comm (sumn _ _) (y c - _)), <- sumn_scal, <- sumn_plus. apply sumn_ext. intros p Hp.
      rewrite Hb by auto. unfold face_rhs. rewrite EX. fold X y.
      match goal with |- _ = _ * (sumn n ?G + _) => rewrite (sumn_ext n G (fun q => B p q * X q c)) end.
      - ring.
      - intros q Hq. rewrite HB by (split; auto). reflexivity. }
    pose proof (fun a c => f_equal (fun g : mat => g a c) EI) as EI'. cbn beta in EI'.
    destruct rInc; [|destruct (SORInstead st)]; rewrite add_at_ok by lia; cbn [bind]; do 3 f_equal;
      apply functional_extensionality; intros a; apply functional_extensionality; intros c; rewrite EI'; reflexivity.
Qed.

(** *** one cell *)
Lemma upd_self : forall A (d : A) l i, (0 <= i < zlen l)%Z -> upd (Z.to_nat i) (get d l i) l = l.
Proof.
  intros A d l i H. unfold zlen, get in *. assert (L : (Z.to_nat i < length l)%nat) by lia. clear H. revert L. generalize (Z.to_nat i) as m.
  induction l as [|x l IH]; intros [|m] L; cbn in *; try lia; auto. f_equal. apply IH. lia.
Qed.
Lemma mat_ext : forall f g : mat, (forall a b, f a b = g a b) -> f = g.
Proof. intros. apply functional_extensionality. intros a. apply functional_extensionality. intros b. auto. Qed.

Definition total (i : Z) (uRec : list mat) (ci : mat) : mat := fun l v => sum_over (cell2face (the_cell i)) (fun k => face_rhs i k uRec ci l v).
Lemma mmul_sum : forall A (X : mat) (l : list A) (Y : A -> mat) a b,
  mmul n X (fun p q => sum_over l (fun k => Y k p q)) a b = sum_over l (fun k => mmul n X (Y k) a b).
Proof.
  intros A X l Y a b. unfold mmul. induction l as [|k l IH].
  - rewrite (sumn_ext n _ (fun _ => 0)); [apply sumn_zero|]. intros. unfold sum_over. cbn. ring.
  - cbn [sum_over fold_right]. fold (sum_over l (fun k => sumn n (fun j => X a j * Y k j b))). rewrite <- IH, <- sumn_plus. apply sumn_ext. intros. unfold sum_over. ring.
Qed.
Definition step (i : Z) (K : coeff) (uRec : list mat) : mat := fun a b =>
  get zero_mat uRec i a b * (1 - relax (the_cell i)) + relax (the_cell i) * mmul n (AInv K) (total i uRec (get zero_mat uRec i)) a b.
Definition residual (i : Z) (K : coeff) (uRec : list mat) : mat := fun a b =>
  get zero_mat uRec i a b - mmul n (AInv K) (total i uRec (get zero_mat uRec i)) a b.

Lemma sum_cons : forall A (x : A) l f, sum_over (x :: l) f = f x + sum_over l f.
Proof. reflexivity. Qed.
Lemma fold_new : forall i K (rInc : bool) uRec es New, is_coeff i K -> (0 <= i < nCell)%Z ->
  (forall e k, In (e, k) es -> nth_error (cell2face (the_cell i)) e = Some k) ->
  (rInc = true \/ SORInstead st = false) ->
  zlen uRec = zlen cells -> zlen New = zlen cells ->
  foldM (face_iter st FBoundary FTransPeriodic FTransPeriodicBack cells faces u K rInc false i) (uRec, New) es =
  Ok (uRec, upd (Z.to_nat i) (fun a b => get zero_mat New i a b + (if rInc then -1 else relax (the_cell i)) *
    sum_over es (fun e => mmul n (AInv K) (face_rhs i (snd e) uRec (get zero_mat uRec i)) a b)) New).
Proof.
  intros i K rInc uRec es. induction es as [|[e k] es IH]; intros New HK Hi HE HR L1 L2; cbn [foldM].
  - pose proof HM as ((B0 & B1) & _ & _). do 2 f_equal. rewrite <- (upd_self _ zero_mat New i) at 1 by lia. f_equal. apply mat_ext. intros. unfold sum_over. cbn. ring.
  - pose proof HM as ((B0 & B1) & _ & _). assert (N0 : nth_error (cell2face (the_cell i)) e = Some k) by (apply HE; left; auto). rewrite face_ok; auto.
    assert (HE' : forall e k, In (e, k) es -> nth_error (cell2face (the_cell i)) e = Some k) by (intros; apply HE; right; auto).
    destruct rInc.
    + cbn [bind]. rewrite IH; auto; [|rewrite zlen_upd; auto]. rewrite upd_upd, (get_upd_same _ zero_mat New) by lia. do 3 f_equal. apply mat_ext. intros.
      rewrite sum_cons. cbn [snd]. ring.
    + destruct HR as [HR|HR]; [discriminate|]. rewrite HR. cbn [bind]. rewrite IH; auto; [|rewrite zlen_upd; auto]. rewrite upd_upd, (get_upd_same _ zero_mat New) by lia. do 3 f_equal. apply mat_ext. intros.
      rewrite sum_cons. cbn [snd]. ring.
Qed.
Lemma sum_snd : forall (l : list Z) g m, sum_over (combine (seq m (length l)) l) (fun e => g (snd e)) = sum_over l g.
Proof. induction l as [|k l IH]; intros g m; cbn [length seq combine sum_over fold_right snd]; auto. specialize (IH g (S m)). unfold sum_over in IH. rewrite IH. reflexivity. Qed.
Lemma combine_nth_ : forall (l : list Z) m e k, In (e, k) (combine (seq m (length l)) l) -> nth_error l (e - m) = Some k /\ (m <= e)%nat.
Proof.
  induction l as [|x l IH]; intros m e k H; cbn [length seq combine] in H; [destruct H|].
  destruct H as [E|H]; [injection E as <- <-; rewrite Nat.sub_diag; auto|]. destruct (IH (S m) e k H) as [N L].
  replace (e - m)%nat with (S (e - S m)) by lia. split; auto. lia.
Qed.
Lemma positions : forall (l : list Z) e k, In (e, k) (combine (seq 0 (length l)) l) -> nth_error l e = Some k.
Proof. intros l e k H. destruct (combine_nth_ l 0 e k H) as [N _]. rewrite Nat.sub_0_r in N. auto. Qed.

Lemma cell_new : forall i K Ks (rInc : bool) uRec New, vget Ks i = Ok K -> is_coeff i K -> (0 <= i < nCell)%Z ->
  (rInc = true \/ SORInstead st = false) -> zlen uRec = zlen cells -> zlen New = zlen cells ->
  cell_iter st FBoundary FTransPeriodic FTransPeriodicBack cells faces u Ks rInc false (uRec, New) i =
  Ok (uRec, upd (Z.to_nat i) (if rInc then residual i K uRec else step i K uRec) New).
Proof.
  intros i K Ks rInc uRec New EK HK Hi HR L1 L2. pose proof HM as ((B0 & B1) & _ & _).
  unfold cell_iter. rewrite (get_vget _ none) by lia. fold (the_cell i). cbn [bind]. rewrite EK. cbn [bind].
  rewrite (get_vget _ zero_mat uRec) by lia. cbn [bind].
  destruct rInc; [|destruct HR as [HR|HR]; [discriminate|rewrite HR]]; (rewrite vset_ok by lia; cbn [bind];
    rewrite fold_new; auto; [|apply positions|rewrite zlen_upd; auto]; rewrite upd_upd, (get_upd_same _ zero_mat New) by lia; do 3 f_equal; apply mat_ext; intros a b).
  - rewrite (sum_snd (cell2face (the_cell i)) (fun k => mmul n (AInv K) (face_rhs i k uRec (get zero_mat uRec i)) a b)).
    unfold residual, total. rewrite (mmul_sum _ _ _ (fun k => face_rhs i k uRec (get zero_mat uRec i))). cbv beta. ring.
  - rewrite (sum_snd (cell2face (the_cell i)) (fun k => mmul n (AInv K) (face_rhs i k uRec (get zero_mat uRec i)) a b)).
    unfold step, total. rewrite (mmul_sum _ _ _ (fun k => face_rhs i k uRec (get zero_mat uRec i))). cbv beta. ring.
Qed.

(** In place: the own coefficients change from face to face. *)
Definition steady : Prop := forall a b ui i k g, FBoundary a ui i k g = FBoundary b ui i k g.
Lemma rhs_own : forall i k uRec x ci, own_face i k -> face_rhs i k (upd (Z.to_nat i) x uRec) ci = face_rhs i k uRec ci.
Proof.
  intros i k uRec x ci HF. destruct (own_face_ok i k HF) as [Ef Jf]. apply mat_ext. intros l v. unfold face_rhs.
  destruct (FaceIDIsExternalBC (zone (the_face k))) eqn:EX; auto. destruct (joins_inner _ _ Jf EX) as (HO & Hne & _).
  rewrite get_upd_other by (destruct HF; lia). reflexivity.
Qed.
Lemma rhs_steady : forall i k uRec ci ci', steady -> face_rhs i k uRec ci = face_rhs i k uRec ci'.
Proof.
  intros i k uRec ci ci' HD. apply mat_ext. intros l v. unfold face_rhs, bound_value.
  destruct (FaceIDIsExternalBC (zone (the_face k))); auto. unfold over_numbered. apply sum_seq_map. intros [iG [[w J] x]]. f_equal. f_equal. f_equal.
  apply functional_extensionality. intros. apply (f_equal (fun g : vec => g v - get zero_vec u i v)). apply HD.
Qed.
Lemma fold_sor : forall i K es uRec New, is_coeff i K -> (0 <= i < nCell)%Z ->
  (forall e k, In (e, k) es -> nth_error (cell2face (the_cell i)) e = Some k) ->
  SORInstead st = true -> (steady \/ forall k, own_face i k -> FaceIDIsExternalBC (zone (the_face k)) = false) ->
  zlen uRec = zlen cells -> zlen New = zlen cells -> forall ci,
  foldM (face_iter st FBoundary FTransPeriodic FTransPeriodicBack cells faces u K false false i) (uRec, New) es =
  Ok (upd (Z.to_nat i) (fun a b => get zero_mat uRec i a b + relax (the_cell i) *
    sum_over es (fun e => mmul n (AInv K) (face_rhs i (snd e) uRec ci) a b)) uRec, New).
Proof.
  intros i K es. induction es as [|[e k] es IH]; intros uRec New HK Hi HE HR HD L1 L2 ci; cbn [foldM].
  - pose proof HM as ((B0 & B1) & _ & _). do 2 f_equal. rewrite <- (upd_self _ zero_mat uRec i) at 1 by lia. f_equal. apply mat_ext. intros. unfold sum_over. cbn. ring.
  - pose proof HM as ((B0 & B1) & _ & _).
    assert (N0 : nth_error (cell2face (the_cell i)) e = Some k) by (apply HE; left; auto).
    rewrite face_ok; auto. rewrite HR. cbn [bind].
    assert (HE' : forall e k, In (e, k) es -> nth_error (cell2face (the_cell i)) e = Some k) by (intros; apply HE; right; auto).
    assert (ST : forall k uRec ci ci', own_face i k -> face_rhs i k uRec ci = face_rhs i k uRec ci').
    { intros k0 uR c1 c2 HF0. destruct HD as [HD|HD]; [apply rhs_steady; auto|]. unfold face_rhs. rewrite HD by auto. reflexivity. }
    assert (OF : forall e k, In (e, k) es -> own_face i k) by (intros e0 k0 H0; split; auto; eapply nth_error_In; apply HE'; eauto).
    assert (OF0 : own_face i k) by (split; auto; eapply nth_error_In; eauto).
    rewrite (IH _ New HK Hi HE' HR HD) with (ci := ci); auto; [|rewrite zlen_upd; auto]. rewrite upd_upd, (get_upd_same _ zero_mat uRec) by lia. do 3 f_equal. apply mat_ext. intros a b.
    rewrite (ST k uRec (get zero_mat uRec i) ci OF0). cbn [sum_over fold_right snd].
    match goal with |- _ + _ + _ * ?S1 = _ + _ * (_ + ?S2) => assert (ES : S1 = S2) end.
    { fold (sum_over es (fun e => mmul n (AInv K) (face_rhs i (snd e) uRec ci) a b)). apply sum_over_ext. intros [e0 k0] H0. cbn [snd]. rewrite rhs_own by (eapply OF; eauto). reflexivity. }
    rewrite ES. ring.
Qed.
Lemma cell_sor : forall i K Ks uRec New, vget Ks i = Ok K -> is_coeff i K -> (0 <= i < nCell)%Z ->
  SORInstead st = true -> (steady \/ forall k, own_face i k -> FaceIDIsExternalBC (zone (the_face k)) = false) ->
  zlen uRec = zlen cells -> zlen New = zlen cells ->
  cell_iter st FBoundary FTransPeriodic FTransPeriodicBack cells faces u Ks false false (uRec, New) i =
  Ok (upd (Z.to_nat i) (step i K uRec) uRec, New).
Proof.
  intros i K Ks uRec New EK HK Hi HR HD L1 L2. pose proof HM as ((B0 & B1) & _ & _).
  unfold cell_iter. rewrite (get_vget _ none) by lia. fold (the_cell i). cbn [bind]. rewrite EK. cbn [bind].
  rewrite (get_vget _ zero_mat uRec) by lia. cbn [bind]. rewrite HR, vset_ok by lia. cbn [bind].
  rewrite fold_sor with (ci := get zero_mat uRec i); auto; [|apply positions|rewrite zlen_upd; auto].
  rewrite upd_upd, (get_upd_same _ zero_mat uRec) by lia. do 3 f_equal. apply mat_ext. intros a b.
  match goal with |- context [sum_over (combine (seq 0 (length ?l)) ?l) (fun e => mmul n (AInv K) (face_rhs i (snd e) ?U ?C) a b)] =>
    rewrite (sum_snd l (fun k => mmul n (AInv K) (face_rhs i k U C) a b)) end.
  rewrite (sum_over_ext _ _ _ (fun k => mmul n (AInv K) (face_rhs i k uRec (get zero_mat uRec i)) a b)).
  - unfold step, total. rewrite (mmul_sum _ _ _ (fun k => face_rhs i k uRec (get zero_mat uRec i))). cbv beta. reflexivity.
  - intros k Hk. rewrite rhs_own by (split; auto). reflexivity.
Qed.

(** *** the loops over the cells *)
Definition nocoeff : coeff := Coeff zero_mat zero_mat [] [].
Definition K_of (Ks : list coeff) (i : Z) : coeff := get nocoeff Ks i.
Lemma coeffs_at : forall Ks i, are_coeffs Ks -> (0 <= i < nCell)%Z -> vget Ks i = Ok (K_of Ks i) /\ is_coeff i (K_of Ks i).
Proof. intros Ks i [L H] Hi. destruct (H i Hi) as [K [E C]]. unfold K_of. rewrite (vget_get _ nocoeff _ _ _ E). auto. Qed.
Lemma in_upto : forall i N, In i (upto N) <-> (0 <= i < N)%Z.
Proof.
  intros i N. unfold upto. rewrite in_map_iff. split.
  - intros [x [<- H]]. apply in_seq in H. lia.
  - intros H. exists (Z.to_nat i). split; [lia|]. apply in_seq. lia.
Qed.
Lemma nodup_upto : forall N, NoDup (upto N).
Proof. intros N. unfold upto. apply FinFun.Injective_map_NoDup; [intros a b; lia|]. apply seq_NoDup. Qed.

Lemma loop_new : forall Ks (rInc : bool) uRec is New, are_coeffs Ks -> (forall i, In i is -> 0 <= i < nCell)%Z -> NoDup is ->
  (rInc = true \/ SORInstead st = false) -> zlen uRec = zlen cells -> zlen New = zlen cells ->
  exists New', foldM (cell_iter st FBoundary FTransPeriodic FTransPeriodicBack cells faces u Ks rInc false) (uRec, New) is = Ok (uRec, New') /\
  zlen New' = zlen cells /\
  (forall i, In i is -> get zero_mat New' i = if rInc then residual i (K_of Ks i) uRec else step i (K_of Ks i) uRec) /\
  (forall i, (0 <= i)%Z -> ~ In i is -> get zero_mat New' i = get zero_mat New i).
Proof.
  intros Ks rInc uRec is. induction is as [|i is IH]; intros New HK HI ND HR L1 L2; cbn [foldM].
  - exists New. split; [auto|split; [auto|split; [intros i []|auto]]].
  - pose proof HM as ((B0 & B1) & _ & _). destruct (coeffs_at Ks i HK (HI i (or_introl eq_refl))) as [EK CK]. pose proof (HI i (or_introl eq_refl)) as Hi.
    rewrite (cell_new i (K_of Ks i)) by auto. cbn [bind]. inversion ND as [|? ? NI ND']; subst.
    destruct (IH (upd (Z.to_nat i) (if rInc then residual i (K_of Ks i) uRec else step i (K_of Ks i) uRec) New) HK (fun x Hx => HI x (or_intror Hx)) ND' HR L1) as (New' & E & LN & G1 & G2); [rewrite zlen_upd; auto|].
    exists New'. split; [exact E|]. split; [auto|]. split.
    + intros j [<-|Hj]; auto. rewrite G2 by (auto; lia). apply get_upd_same. lia.
    + intros j Hj Hn. rewrite G2; [|auto|intros X; apply Hn; right; auto]. apply get_upd_other; auto; [lia|]. intros ->. apply Hn. left. auto.
Qed.
Definition own_inside (i : Z) : Prop := forall k, own_face i k -> FaceIDIsExternalBC (zone (the_face k)) = false.
Definition sweep (Ks : list coeff) (r : list mat) (i : Z) : list mat := upd (Z.to_nat i) (step i (K_of Ks i) r) r.
Lemma loop_sor : forall Ks is uRec New, are_coeffs Ks -> (forall i, In i is -> 0 <= i < nCell)%Z ->
  SORInstead st = true -> (steady \/ forall i, In i is -> own_inside i) -> zlen uRec = zlen cells -> zlen New = zlen cells ->
  foldM (cell_iter st FBoundary FTransPeriodic FTransPeriodicBack cells faces u Ks false false) (uRec, New) is = Ok (fold_left (sweep Ks) is uRec, New).
Proof.
  intros Ks is. induction is as [|i is IH]; intros uRec New HK HI HR HD L1 L2; cbn [foldM fold_left]; auto.
  destruct (coeffs_at Ks i HK (HI i (or_introl eq_refl))) as [EK CK]. pose proof (HI i (or_introl eq_refl)) as Hi.
  rewrite (cell_sor i (K_of Ks i)); auto. 2:{ destruct HD as [HD|HD]; [left; auto|right]. apply HD. left. auto. }
  cbn [bind]. fold (sweep Ks uRec i). apply IH; auto.
  - intros x Hx. apply HI. right. auto.
  - destruct HD as [HD|HD]; [left; auto|right]. intros x Hx. apply HD. right. auto.
  - unfold sweep. rewrite zlen_upd. auto.
Qed.

(** *** the iteration *)
Definition agree (r r' : list mat) : Prop := zlen r' = zlen cells /\
  forall i l v, (0 <= i < zlen cells)%Z -> (l < n)%nat -> get zero_mat r' i l v = get zero_mat r i l v.
Lemma swap_lookup : forall A (a b : list A) N, (N <= length a)%nat -> length a = length b ->
  length (firstn N b ++ skipn N a) = length a /\ forall i, nth_error (firstn N b ++ skipn N a) i = if Nat.ltb i N then nth_error b i else nth_error a i.
Proof.
  intros A a. induction a as [|x a IH]; intros [|y b] [|N] HN HL; cbn in *; try lia.
  - split; auto.
  - split; auto.
  - destruct (IH b N ltac:(lia) ltac:(lia)) as [L G]. split; [lia|]. intros [|i]; cbn; auto.
Qed.
Lemma get_swap : forall (a b : list mat) N i, (0 <= N <= zlen a)%Z -> zlen a = zlen b -> (0 <= i < zlen a)%Z ->
  zlen (fst (swap_own N a b)) = zlen a /\ get zero_mat (fst (swap_own N a b)) i = if (i <? N)%Z then get zero_mat b i else get zero_mat a i.
Proof.
  intros a b N i HN HL Hi. unfold swap_own, get, zlen in *. cbn [fst].
  destruct (swap_lookup _ a b (Z.to_nat N) ltac:(lia) ltac:(lia)) as [L G]. rewrite L. split; auto.
  rewrite !nth_nth_error, G. destruct (Z.ltb_spec i N); destruct (Nat.ltb_spec (Z.to_nat i) (Z.to_nat N)); try lia; reflexivity.
Qed.

(** Solutions of the equations of the cells, and the iteration: it fixes the solutions. *)
Definition solves_at (Ks : list coeff) (uRec : list mat) (i : Z) : Prop := forall l v, (l < n)%nat ->
  mmul n (AInv (K_of Ks i)) (total i uRec (get zero_mat uRec i)) l v = get zero_mat uRec i l v.
Lemma rhs_agree : forall i k r r' ci ci', (0 <= i < nCell)%Z -> own_face i k -> agree r r' -> (forall l v, (l < n)%nat -> ci' l v = ci l v) ->
  face_rhs i k r' ci' = face_rhs i k r ci.
Proof.
  intros i k r r' ci ci' Hi HF HA HC. destruct (own_face_ok i k HF) as [Ef Jf]. apply mat_ext. intros l v. unfold face_rhs.
  destruct (FaceIDIsExternalBC (zone (the_face k))) eqn:EX.
  - unfold over_numbered. apply sum_seq_map. intros [iG [[w J] x]]. f_equal. f_equal. f_equal. apply functional_extensionality. intros _.
    unfold bound_value. apply (f_equal (fun a => FBoundary a (get zero_vec u i) i k iG v - get zero_vec u i v)).
    apply functional_extensionality. intros v0. f_equal. apply sumn_ext. intros q Hq. rewrite HC by auto. reflexivity.
  - destruct (joins_inner _ _ Jf EX) as (HO & _). f_equal. apply sumn_ext. intros q Hq. f_equal. unfold turn_rows.
    assert (E : get zero_mat r' (other (the_face k) i) q = get zero_mat r (other (the_face k) i) q) by (apply functional_extensionality; intros; apply HA; auto).
    rewrite E. reflexivity.
Qed.
Lemma total_agree : forall i r r' ci ci', (0 <= i < nCell)%Z -> agree r r' -> (forall l v, (l < n)%nat -> ci' l v = ci l v) -> total i r' ci' = total i r ci.
Proof.
  intros i r r' ci ci' Hi HA HC. apply mat_ext. intros l v. unfold total. apply sum_over_ext. intros k Hk.
  rewrite (rhs_agree i k r r' ci ci'); auto. split; auto.
Qed.
Lemma step_solves : forall Ks r i, solves_at Ks r i -> forall l v, (l < n)%nat -> step i (K_of Ks i) r l v = get zero_mat r i l v.
Proof. intros Ks r i H l v Hl. unfold step. rewrite H by auto. ring. Qed.
Lemma solves_step : forall Ks r i, relax (the_cell i) <> 0 -> (forall l v, (l < n)%nat -> step i (K_of Ks i) r l v = get zero_mat r i l v) -> solves_at Ks r i.
Proof.
  intros Ks r i HR H l v Hl. specialize (H l v Hl). unfold step in H.
  apply (Rmult_eq_reg_l (relax (the_cell i))); auto. lra.
Qed.
Lemma step_agree : forall Ks r r' i, (0 <= i < nCell)%Z -> agree r r' -> forall l v, (l < n)%nat -> step i (K_of Ks i) r' l v = step i (K_of Ks i) r l v.
Proof.
  intros Ks r r' i Hi HA l v Hl. pose proof HM as ((B0 & B1) & _ & _). unfold step. rewrite (proj2 HA i l v) by (auto; lia).
  rewrite (total_agree i r r' (get zero_mat r i) (get zero_mat r' i)); auto. intros. apply HA; auto. lia.
Qed.
Lemma agree_refl : forall r, zlen r = zlen cells -> agree r r.
Proof. intros r H. split; auto. Qed.
Lemma agree_trans : forall a b c, agree a b -> agree b c -> agree a c.
Proof. intros a b c [L1 H1] [L2 H2]. split; auto. intros. rewrite H2, H1; auto. Qed.
Lemma sweep_fixed : forall Ks is r, zlen r = zlen cells -> (forall i, In i is -> 0 <= i < nCell)%Z -> (forall i, In i is -> solves_at Ks r i) ->
  agree r (fold_left (sweep Ks) is r).
Proof.
  intros Ks is. induction is as [|i is IH]; intros r L HI HSv; cbn [fold_left]; [apply agree_refl; auto|].
  pose proof HM as ((B0 & B1) & _ & _). pose proof (HI i (or_introl eq_refl)) as Hi.
  assert (A1 : agree r (sweep Ks r i)).
  { split; [unfold sweep; rewrite zlen_upd; auto|]. intros j l v Hj Hl. unfold sweep. destruct (Z.eq_dec i j) as [<-|Hne].
    - rewrite get_upd_same by lia. apply step_solves; auto. apply HSv. left; auto.
    - rewrite get_upd_other by lia. reflexivity. }
  eapply agree_trans; [exact A1|]. apply IH.
  - unfold sweep. rewrite zlen_upd. auto.
  - intros x Hx. apply HI. right; auto.
  - intros j Hj l v Hl. pose proof (HI j (or_intror Hj)) as Hj'. rewrite (total_agree j r (sweep Ks r i) (get zero_mat r j)); auto.
    + rewrite (HSv j (or_intror Hj) l v Hl). symmetry. apply A1; auto. lia.
    + intros. apply A1; auto. lia.
Qed.
(** A sweep leaves alone the cells that are not in its list. *)
Lemma sweep_other : forall Ks is r j, (0 <= j)%Z -> (forall i, In i is -> 0 <= i)%Z -> ~ In j is -> get zero_mat (fold_left (sweep Ks) is r) j = get zero_mat r j.
Proof.
  intros Ks is. induction is as [|i is IH]; intros r j Hj HI Hn; cbn [fold_left]; auto.
  rewrite IH; auto; [|intros x Hx; apply HI; right; auto|intros X; apply Hn; right; auto]. unfold sweep. apply get_upd_other; auto.
  - apply HI. left; auto.
  - intros ->. apply Hn. left; auto.
Qed.
Lemma sweep_zlen : forall Ks is r, zlen (fold_left (sweep Ks) is r) = zlen r.
Proof. intros Ks is. induction is as [|i is IH]; intros r; cbn [fold_left]; auto. rewrite IH. unfold sweep. apply zlen_upd. Qed.
Lemma fixed_sweep : forall Ks is r, zlen r = zlen cells -> NoDup is -> (forall i, In i is -> 0 <= i < nCell)%Z -> (forall i, In i is -> relax (the_cell i) <> 0) ->
  agree r (fold_left (sweep Ks) is r) -> forall i, In i is -> solves_at Ks r i.
Proof.
  intros Ks is. induction is as [|i is IH]; intros r L ND HI HR HA j Hj; [destruct Hj|]. cbn [fold_left] in HA.
  pose proof HM as ((B0 & B1) & _ & _). pose proof (HI i (or_introl eq_refl)) as Hi. inversion ND as [|? ? NI ND']; subst.
  assert (HI' : forall x, In x is -> (0 <= x < nCell)%Z) by (intros x Hx; apply HI; right; auto).
  assert (Si : solves_at Ks r i).
  { apply solves_step; [apply HR; left; auto|]. intros l v Hl. rewrite <- (proj2 HA i l v) by (auto; lia).
    rewrite sweep_other; auto; [|lia|intros x Hx; apply HI' in Hx; lia]. unfold sweep. rewrite get_upd_same by lia. reflexivity. }
  destruct Hj as [<-|Hj]; auto.
  assert (A1 : agree r (sweep Ks r i)).
  { split; [unfold sweep; rewrite zlen_upd; auto|]. intros q l v Hq Hl. unfold sweep. destruct (Z.eq_dec i q) as [<-|Hne].
    - rewrite get_upd_same by lia. apply step_solves; auto.
    - rewrite get_upd_other by lia. reflexivity. }
  assert (Sj : solves_at Ks (sweep Ks r i) j).
  { apply IH; auto. + unfold sweep. rewrite zlen_upd; auto. + intros x Hx. apply HR. right; auto.
    + split; [rewrite sweep_zlen; unfold sweep; rewrite zlen_upd; auto|]. intros q l v Hq Hl. rewrite (proj2 HA q l v) by auto. symmetry. apply A1; auto. }
  pose proof (HI' j Hj) as Hj'. intros l v Hl. specialize (Sj l v Hl).
  rewrite (total_agree j r (sweep Ks r i) (get zero_mat r j)) in Sj; auto.
  - rewrite Sj. apply A1; auto. lia.
  - intros. apply A1; auto. lia.
Qed.

Definition solves (Ks : list coeff) (uRec : list mat) : Prop := forall i, (0 <= i < nCell)%Z -> solves_at Ks uRec i.
Definition may_sweep : Prop := SORInstead st = true -> steady \/ forall i, (0 <= i < nCell)%Z -> own_inside i.
(** One iteration gives new coefficients, in [uRec] or in [uRecNew]. *)
Lemma iter_ok : forall Ks (into : bool) uRec New, are_coeffs Ks -> may_sweep -> zlen uRec = zlen cells -> zlen New = zlen cells ->
  exists r N, DoReconstructionIter st FBoundary FTransPeriodic FTransPeriodicBack nCell cells faces Ks u into false false uRec New = Ok (r, N) /\
  zlen (if into then N else r) = zlen cells /\
  if SORInstead st then forall i, (0 <= i < zlen cells)%Z -> get zero_mat (if into then N else r) i =
      if (i <? nCell)%Z then get zero_mat (fold_left (sweep Ks) (upto nCell) uRec) i else get zero_mat (if into then New else uRec) i
  else forall i, (0 <= i < zlen cells)%Z -> get zero_mat (if into then N else r) i =
      if (i <? nCell)%Z then step i (K_of Ks i) uRec else get zero_mat (if into then New else uRec) i.
Proof.
  intros Ks into uRec New HK HW L1 L2. pose proof HM as ((B0 & B1) & _ & _). unfold DoReconstructionIter. cbn [bind].
  destruct (SORInstead st) eqn:ES.
  - rewrite loop_sor; auto; [|intros i Hi; apply in_upto in Hi; auto|].
    2:{ destruct (HW ES) as [H|H]; [left; auto|right]. intros i Hi. apply H. apply in_upto. auto. }
    cbn [bind]. rewrite andb_true_r. set (r1 := fold_left (sweep Ks) (upto nCell) uRec).
    assert (LR : zlen r1 = zlen cells) by (unfold r1; rewrite sweep_zlen; auto).
    destruct into; cbn [negb andb].
    + destruct (swap_own nCell New r1) as [a b] eqn:SW. exists b, a. split; auto. assert (Ea : a = fst (swap_own nCell New r1)) by (rewrite SW; reflexivity).
      split. * subst a. destruct (Z.eq_dec (zlen cells) 0) as [Z0|Z0]; [|destruct (get_swap New r1 nCell 0 ltac:(lia) ltac:(lia) ltac:(unfold zlen in *; lia)) as [LL _]; lia].
        unfold swap_own, zlen in *. cbn [fst]. rewrite app_length, firstn_length, skipn_length. lia.
      * intros i Hi. subst a. destruct (get_swap New r1 nCell i ltac:(lia) ltac:(lia) ltac:(lia)) as [_ G]. exact G.
    + exists r1, New. split; auto. split; auto. intros i Hi. destruct (Z.ltb_spec i nCell); auto. unfold r1. apply sweep_other; [lia| |].
      * intros x Hx. apply in_upto in Hx. lia. * intros X. apply in_upto in X. lia.
  - destruct (loop_new Ks false uRec (upto nCell) New HK) as (New' & E & LN & G1 & G2); auto.
    { intros i Hi. apply in_upto in Hi. auto. } { apply nodup_upto. }
    rewrite E. cbn [bind]. rewrite andb_false_r. cbn [negb]. rewrite andb_true_r.
    assert (GN : forall i, (0 <= i < zlen cells)%Z -> get zero_mat New' i = if (i <? nCell)%Z then step i (K_of Ks i) uRec else get zero_mat New i).
    { intros i Hi. destruct (Z.ltb_spec i nCell). + apply G1. apply in_upto. lia. + apply G2; [lia|]. intros X. apply in_upto in X. lia. }
    destruct into; cbn [negb].
    + exists uRec, New'. split; auto.
    + destruct (swap_own nCell uRec New') as [a b] eqn:SW. exists a, b. split; auto. assert (Ea : a = fst (swap_own nCell uRec New')) by (rewrite SW; reflexivity).
      split. * subst a. destruct (Z.eq_dec (zlen cells) 0) as [Z0|Z0]; [|destruct (get_swap uRec New' nCell 0 ltac:(lia) ltac:(lia) ltac:(unfold zlen in *; lia)) as [LL _]; lia].
        unfold swap_own, zlen in *. cbn [fst]. rewrite app_length, firstn_length, skipn_length. lia.
      * intros i Hi. subst a. destruct (get_swap uRec New' nCell i ltac:(lia) ltac:(lia) ltac:(lia)) as [_ G]. rewrite G. destruct (Z.ltb_spec i nCell); auto.
        rewrite GN by lia. destruct (Z.ltb_spec i nCell); auto. lia.
Qed.
Lemma record_ok : forall Ks uRec New, are_coeffs Ks -> zlen uRec = zlen cells -> zlen New = zlen cells ->
  exists N, DoReconstructionIter st FBoundary FTransPeriodic FTransPeriodicBack nCell cells faces Ks u true true false uRec New = Ok (uRec, N) /\
  forall i, (0 <= i < nCell)%Z -> get zero_mat N i = residual i (K_of Ks i) uRec.
Proof.
  intros Ks uRec New HK L1 L2. unfold DoReconstructionIter. cbn [assert_ bind].
  destruct (loop_new Ks true uRec (upto nCell) New HK) as (New' & E & LN & G1 & G2); auto.
  { intros i Hi. apply in_upto in Hi. auto. } { apply nodup_upto. }
  rewrite E. cbn [bind]. exists New'. split; auto. intros i Hi. apply G1. apply in_upto. auto.
Qed.
End Iter.
