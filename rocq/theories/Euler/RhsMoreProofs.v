(** Proofs for C54: threads, uniform flow, wall force, frames. *)
From Coq Require Import List ZArith Reals Lra Lia Bool Permutation.
From Verif Require Import Base.Prelude Base.PreludeFacts Geom.AdjModel Geom.BoundaryModel Geom.PeriodicModel
  Geom.PeriodicSpec Geom.PeriodicProofs Euler.RhsModel Euler.RhsSpec Euler.RhsProofs.
Import ListNotations.
Local Open Scope R_scope.

Section Run.
Variables (dim : nat) (isPeriodic : bool) (p : Periodicity).
Hypothesis Hdim : dim = 2%nat \/ dim = 3%nat.
Hypothesis Hrot : length (rotation p) = 4%nat.
Variable vol : nat -> R.

(** ** With threads *)
Definition dface : gface := GFace 0 None 0 false (fun _ => 0).

Lemma Forall2_nth_error_l : forall A B (P : A -> B -> Prop) l m j a, Forall2 P l m -> nth_error l j = Some a ->
  exists b, nth_error m j = Some b /\ P a b.
Proof.
  intros A B P l m j a H. revert j. induction H as [|x y l m H1 H IH]; intros j Hj; [destruct j; discriminate|].
  destruct j as [|j]; [injection Hj as <-; exists y; auto|]. apply IH, Hj.
Qed.
Lemma Forall2_nth_error_r : forall A B (P : A -> B -> Prop) l m j b, Forall2 P l m -> nth_error m j = Some b ->
  exists a, nth_error l j = Some a /\ P a b.
Proof.
  intros A B P l m j b H. revert j. induction H as [|x y l m H1 H IH]; intros j Hj; [destruct j; discriminate|].
  destruct j as [|j]; [injection Hj as <-; exists x; auto|]. apply IH, Hj.
Qed.
(** A local side is the cell of the global side. *)
Lemma same_cell : forall (cells : list nat) (x : Z) c i c', NoDup cells -> (0 <= x)%Z -> nth_error cells (Z.to_nat x) = Some c ->
  nth_error cells i = Some c' -> (x = Z.of_nat i <-> c = c').
Proof.
  intros cells x c i c' ND Hx Hc Hi. split.
  - intros ->. rewrite Nat2Z.id in Hc. congruence.
  - intros <-. assert (Z.to_nat x = i); [|lia]. apply (proj1 (NoDup_nth_error cells) ND); [apply nth_error_Some|]; congruence.
Qed.
Lemma cell_face_add_ok : forall cells table_ gs i c j rhs f,
  NoDup cells -> length rhs = length cells -> nth_error cells i = Some c ->
  Forall2 (matches cells) table_ gs -> Forall (fun g => side1 g <> Some (side0 g)) gs ->
  (0 <= j)%Z -> nth_error table_ (Z.to_nat j) = Some f -> (f2c0 f = Z.of_nat i \/ f2c1 f = Z.of_nat i) ->
  exists rhs', cell_face_add dim isPeriodic p (map vol cells) table_ (Z.of_nat i) rhs j = Ok rhs' /\
    added cells rhs rhs' (fun c' k => if Nat.eqb c c' then
      face_rate dim isPeriodic p vol c k (nth (Z.to_nat j) gs dface) else 0).
Proof.
  intros cells table_ gs i c j rhs f ND L Hc HM HS Hj Hf Hs. unfold cell_face_add.
  assert (Vf : vget table_ j = Ok f) by (apply vget_Ok; auto). rewrite Vf. cbn [bind].
  destruct (Forall2_nth_error_l _ _ _ _ _ _ _ HM Hf) as (g & Hg & (H0 & Hc0 & H1 & Hz & _ & Hfl)).
  rewrite (nth_error_nth _ _ dface Hg).
  assert (NS : side1 g <> Some (side0 g)) by (rewrite Forall_forall in HS; apply HS; eapply nth_error_In; exact Hg).
  pose proof (same_cell cells (f2c0 f) (side0 g) i c ND H0 Hc0 Hc) as S0.
  assert (Hi : (0 <= Z.of_nat i)%Z) by lia.
  assert (Hc' : nth_error cells (Z.to_nat (Z.of_nat i)) = Some c) by (rewrite Nat2Z.id; exact Hc).
  unfold CellIsFaceBack. destruct (Z.eqb_spec (f2c0 f) (Z.of_nat i)) as [E0|E0].
  - cbn [orb assert_ bind Z.eqb]. rewrite to_cell_0. cbn [bind].
    destruct (add_row_ok vol cells rhs (Z.of_nat i) c (fun k => fluxEs f k * 1) ND L Hi Hc') as (rhs' & E & A).
    exists rhs'. split; [exact E|]. eapply added_ext; [|exact A]. intros c' k _. cbv beta.
    destruct (Nat.eqb_spec c c') as [_|_]; [|reflexivity]. unfold face_rate. apply S0 in E0. rewrite E0, Nat.eqb_refl.
    rewrite Hfl. destruct (side1 g) as [c1|] eqn:E1; [|lra].
    destruct (Nat.eqb_spec c1 c) as [K|]; [|lra]. exfalso. apply NS. congruence.
  - destruct Hs as [Hs|Hs]; [contradiction|]. rewrite (proj2 (Z.eqb_eq _ _) Hs). cbn [orb assert_ bind Z.eqb].
    destruct (to_cell_1 dim isPeriodic p Hdim Hrot (fun k => fluxEs f k * -1) (zone f)) as (v & -> & Hv). cbn [bind].
    destruct (add_row_ok vol cells rhs (Z.of_nat i) c v ND L Hi Hc') as (rhs' & E & A).
    exists rhs'. split; [exact E|]. eapply added_ext; [|exact A]. intros c' k _. cbv beta.
    destruct (Nat.eqb_spec c c') as [_|_]; [|reflexivity]. unfold face_rate.
    destruct (Nat.eqb_spec (side0 g) c) as [K|_]; [exfalso; apply E0, S0, K|].
    destruct (side1 g) as [c1|] eqn:E1.
    + destruct H1 as [H1 Hc1]. pose proof (proj1 (same_cell cells (f2c1 f) c1 i c ND H1 Hc1 Hc) Hs) as ->.
      rewrite Nat.eqb_refl, Hv, Hz.
      rewrite (turned_ext dim isPeriodic p _ _ (fun j => - gflux g j) k) by (intros; rewrite Hfl; lra).
      rewrite turned_opp. unfold Rdiv. lra.
    + pose proof UnInit_neg. rewrite H1 in Hs. lia.
Qed.
Lemma cell_add_ok : forall G r cell2face gs i c rhs,
  has_faces G r -> Forall2 (fun i gf => nth_error G i = Some gf) (fs r) gs -> Forall2 (matches (own r ++ ghost r)) (table r) gs ->
  Forall (fun g => side1 g <> Some (side0 g)) gs -> has_cell2face r cell2face ->
  length rhs = length (own r ++ ghost r) -> nth_error (own r) i = Some c ->
  exists rhs', cell_add dim isPeriodic p (map vol (own r ++ ghost r)) (table r) cell2face rhs (Z.of_nat i) = Ok rhs' /\
    added (own r ++ ghost r) rhs rhs' (fun c' k => if Nat.eqb c c' then cell_rate dim isPeriodic p vol G c k else 0).
Proof.
  intros G r cell2face gs i c rhs HF HG HM HS [HL HC] L Hc. pose proof HF as (ND & NF & HT & HI).
  assert (Hc' : nth_error (own r ++ ghost r) i = Some c).
  { rewrite nth_error_app1; [exact Hc|]. apply nth_error_Some. congruence. }
  unfold cell_add.
  destruct (nth_error_lt_Some _ cell2face i) as [l Hl]; [rewrite HL; apply nth_error_Some; congruence|].
  rewrite (vget_of_nat _ _ _ _ Hl). cbn [bind]. destruct (HC i l Hl) as [NDl Hin].
  destruct (added_fold (own r ++ ghost r) Z
    (cell_face_add dim isPeriodic p (map vol (own r ++ ghost r)) (table r) (Z.of_nat i))
    (fun j c' k => if Nat.eqb c c' then face_rate dim isPeriodic p vol c k (nth (Z.to_nat j) gs dface) else 0) l)
    with (rhs := rhs) as (rhs' & E & A); [|exact L|].
  - intros j rh Hj Lr. apply Hin in Hj. destruct Hj as (f & Hj & Hf & Hs).
    exact (cell_face_add_ok _ _ _ i c j rh f ND Lr Hc' HM HS Hj Hf Hs).
  - exists rhs'. split; [exact E|]. eapply added_ext; [|exact A]. intros c' k _. cbv beta.
    destruct (Nat.eqb_spec c c') as [_|_]; [|apply rsum_zero; reflexivity].
    rewrite <- (faces_sum dim isPeriodic p vol G r c k HF (nth_error_In _ _ Hc) gs HG).
    transitivity (rsum (map (face_rate dim isPeriodic p vol c k) gs)); [|reflexivity].
    rewrite <- (rsum_listed _ (face_rate dim isPeriodic p vol c k) gs (map Z.to_nat l)) with (d := dface).
    + rewrite map_map. reflexivity.
    + assert (NN : forall j, In j l -> (0 <= j)%Z) by (intros j Hj; apply Hin in Hj; destruct Hj as (f & Hj & _); exact Hj).
      clear - NDl NN. induction NDl as [|x l Hx ND IH]; [constructor|]. cbn [map]. constructor.
      * intros K. apply in_map_iff in K. destruct K as (y & Ey & Hy). apply Hx.
        assert (x = y); [|subst; exact Hy].
        pose proof (NN x (or_introl eq_refl)). pose proof (NN y (or_intror Hy)). lia.
      * apply IH. intros; apply NN; right; assumption.
    + intros n Hn. apply in_map_iff in Hn. destruct Hn as (j & <- & Hj). apply Hin in Hj. destruct Hj as (f & Hj & Hf & _).
      destruct (Forall2_nth_error_l _ _ _ _ _ _ _ HM Hf) as (g & Hg & _). apply nth_error_Some. congruence.
    + intros n g Hg Hn. destruct (Forall2_nth_error_r _ _ _ _ _ _ _ HM Hg) as (f & Hf & (H0 & Hc0 & H1 & _)).
      assert (NT : ~ (f2c0 f = Z.of_nat i \/ f2c1 f = Z.of_nat i)).
      { intros K. apply Hn. apply in_map_iff. exists (Z.of_nat n). split; [apply Nat2Z.id|]. apply Hin. exists f.
        split; [lia|]. split; [rewrite Nat2Z.id; exact Hf|exact K]. }
      unfold face_rate. destruct (Nat.eqb_spec (side0 g) c) as [K|_].
      { exfalso. apply NT. left. apply (same_cell _ _ _ i c ND H0 Hc0 Hc'). exact K. }
      destruct (side1 g) as [c1|] eqn:E1; [|lra]. destruct (Nat.eqb_spec c1 c) as [K|_]; [|lra].
      exfalso. apply NT. right. destruct H1 as [H1 Hc1]. apply (same_cell _ _ _ i c ND H1 Hc1 Hc'). exact K.
Qed.
Theorem threads_rows : forall alpha S noSource G r cell2face, has_faces G r ->
  Forall (fun g => side1 g <> Some (side0 g)) G -> has_cell2face r cell2face ->
  exists rhs, run_threads dim isPeriodic p vol alpha S noSource cell2face r = Ok rhs /\
    length rhs = length (own r ++ ghost r) /\
    forall j c, nth_error (own r) j = Some c -> exists row, nth_error rhs j = Some row /\
      forall k, row k = cell_rate dim isPeriodic p vol G c k + source_rate vol alpha S noSource c k.
Proof.
  intros alpha S noSource G r cell2face H HS HC. pose proof H as (ND & NF & HT & HI).
  destruct (table_split G r HT) as (gs & HG & HM).
  assert (HS' : Forall (fun g => side1 g <> Some (side0 g)) gs).
  { rewrite Forall_forall in *. intros g Hg. apply In_nth_error in Hg. destruct Hg as [j Hg].
    destruct (Forall2_nth_error_r _ _ _ _ _ _ _ HG Hg) as (i & _ & E). apply HS. eapply nth_error_In; exact E. }
  destruct (added_fold (own r ++ ghost r) Z
    (cell_add dim isPeriodic p (map vol (own r ++ ghost r)) (table r) cell2face)
    (fun x c k => if Nat.eqb (nth (Z.to_nat x) (own r) 0%nat) c then cell_rate dim isPeriodic p vol G c k else 0)
    (upto (Z.of_nat (length (own r))))) with (rhs := map (fun (_ : R) (_ : nat) => 0) (map vol (own r ++ ghost r)))
    as (r1 & E1 & A1); [|apply zero_rows|].
  - intros x rh Hx Lr. unfold upto in Hx. apply in_map_iff in Hx. destruct Hx as (n & <- & Hn).
    rewrite Nat2Z.id in Hn. apply in_seq in Hn.
    destruct (cell_add_ok G r cell2face gs n (nth n (own r) 0%nat) rh H HG HM HS' HC Lr) as (rh' & E & A).
    { apply nth_error_nth'. lia. }
    exists rh'. split; [exact E|]. eapply added_ext; [|exact A]. intros c k _. cbv beta. rewrite Nat2Z.id.
    destruct (Nat.eqb_spec (nth n (own r) 0%nat) c) as [->|]; reflexivity.
  - destruct (sources_ok vol alpha S noSource r r1 ND (proj1 A1)) as (r2 & E2 & L2 & A2).
    exists r2. unfold run_threads, EvaluateRHS_threads. split; [|split; [exact L2|]].
    + match goal with |- bind ?x _ = _ => replace x with (@Ok (list state) r1) end. cbn [bind]. exact E2.
    + intros j c Hc. assert (Hc' : nth_error (own r ++ ghost r) j = Some c).
      { rewrite nth_error_app1; [exact Hc|]. apply nth_error_Some. congruence. }
      destruct (proj2 A1 j c _ Hc' (zero_row vol _ _ _ Hc')) as (q1 & Q1 & X1).
      destruct (A2 j c q1 Hc Q1) as (q2 & Q2 & X2). exists q2. split; [exact Q2|]. intros k. rewrite X2, X1.
      rewrite (sum_over_own (own r) c); [lra|eapply NoDup_app_l; exact ND|eapply nth_error_In; exact Hc].
Qed.

(** ** Uniform flow *)
Lemma uniform_rate : forall G (area : gface -> nat -> R) (F : nat -> nat -> R) c k,
  Forall (fun f => forall j, gflux f j = - sumn dim (fun d => F j d * area f d)) G ->
  Forall (untouched dim isPeriodic p k) G -> closed area G c -> cell_rate dim isPeriodic p vol G c k = 0.
Proof.
  intros G area F c k HF HU HC. unfold cell_rate.
  rewrite (rsum_map_ext _ _ (fun f => sumn dim (fun d => (- F k d / vol c) *
    ((if Nat.eqb (side0 f) c then area f d else 0) - match side1 f with Some c' => if Nat.eqb c' c then area f d else 0 | None => 0 end)))).
  - assert (X : forall n, rsum (map (fun f => sumn n (fun d => (- F k d / vol c) *
      ((if Nat.eqb (side0 f) c then area f d else 0) - match side1 f with Some c' => if Nat.eqb c' c then area f d else 0 | None => 0 end))) G) = 0).
    { induction n as [|n IH]; [apply rsum_zero; reflexivity|]. cbn [sumn]. rewrite rsum_plus, IH, rsum_scal, (HC n). lra. }
    apply X.
  - intros f Hf. rewrite Forall_forall in HF, HU. unfold face_rate.
    rewrite (HF f Hf k). assert (T : forall c', side1 f = Some c' -> turned dim isPeriodic p (gzone f) (gflux f) k = - sumn dim (fun d => F k d * area f d)).
    { intros c' _. rewrite (untouched_turned dim isPeriodic p Hdim Hrot f k _ (HU f Hf)). apply HF, Hf. }
    assert (Y : forall n b g, (forall d, g d = b * area f d) ->
      sumn n (fun d => (- F k d / vol c) * g d) = b * (- sumn n (fun d => F k d * area f d) / vol c)).
    { induction n as [|n IH]; intros b g Hg; cbn [sumn]; [unfold Rdiv; ring|]. rewrite (IH b g Hg), Hg. unfold Rdiv. ring. }
    destruct (side1 f) as [c1|] eqn:E1.
    + rewrite (T c1 eq_refl). destruct (Nat.eqb (side0 f) c), (Nat.eqb c1 c); symmetry; etransitivity.
      1: apply (Y dim 0); intros; ring. 2: apply (Y dim 1); intros; ring. 3: apply (Y dim (-1)); intros; ring.
      4: apply (Y dim 0); intros; ring. all: unfold Rdiv; ring.
    + destruct (Nat.eqb (side0 f) c); symmetry; etransitivity.
      1: apply (Y dim 1); intros; ring. 2: apply (Y dim 0); intros; ring. all: unfold Rdiv; ring.
Qed.

(** ** Frames *)
Lemma frames : forall u z if2c, well_formed dim p -> if2c = 0%Z \/ if2c = 1%Z ->
  exists v w, UFromCell2Face dim isPeriodic p u z if2c = Ok v /\ UFromFace2Cell dim isPeriodic p v z if2c = Ok w /\
    forall k, w k = u k.
Proof.
  intros u z if2c W HI. unfold UFromCell2Face, UFromFace2Cell.
  destruct isPeriodic; cbn [negb]; [|exists u, u; auto].
  destruct (FaceIDIsPeriodic z) eqn:E; cbn [negb]; [|exists u, u; auto].
  destruct HI as [-> | ->]; cbn [Z.eqb Pos.eqb andb bind]; [exists u, u; auto|].
  destruct (vec_slots dim p z Hdim W E) as (Q & O & F & B & _).
  assert (X : forall A, (forall v i, (i < dim)%nat -> mmul dim A (mmul dim (tr A) v) i 0%nat = v i 0%nat) ->
    forall f g, (forall v, f v = Ok (mmul dim (tr A) v)) -> (forall v, g v = Ok (mmul dim A v)) ->
    exists v w, on_momentum dim f u = Ok v /\ on_momentum dim g v = Ok w /\ forall k, w k = u k).
  { intros A HA f g Hf Hg. unfold on_momentum. rewrite Hf. cbn [bind]. eexists. eexists. split; [reflexivity|].
    rewrite Hg. cbn [bind]. split; [reflexivity|]. intros k. cbv beta.
    destruct (Nat.leb 1 k && Nat.leb k dim) eqn:K; [|reflexivity].
    apply andb_true_iff in K. destruct K as [K1 K2]. apply Nat.leb_le in K1, K2.
    transitivity (mmul dim A (mmul dim (tr A) (fun i _ => u (S i))) (Nat.pred k) 0%nat).
    - unfold mmul at 1 3. apply sumn_ext. intros j Hj. f_equal.
      assert (Nat.leb 1 (S j) && Nat.leb (S j) dim = true) as -> by (apply andb_true_iff; split; apply Nat.leb_le; lia).
      reflexivity.
    - rewrite HA by lia. f_equal. lia. }
  assert (MD : FaceIDIsPeriodicMain z = negb (FaceIDIsPeriodicDonor z)).
  { assert (z = -1 \/ z = -2 \/ z = -3 \/ z = -4 \/ z = -5 \/ z = -6)%Z as C.
    { unfold FaceIDIsPeriodic, BC_ID_PERIODIC_1, BC_ID_PERIODIC_2, BC_ID_PERIODIC_3, BC_ID_PERIODIC_1_DONOR,
        BC_ID_PERIODIC_2_DONOR, BC_ID_PERIODIC_3_DONOR in E. rewrite !orb_true_iff, !Z.eqb_eq in E. tauto. }
    destruct C as [->|[->|[->|[->|[->| ->]]]]]; reflexivity. }
  rewrite MD. destruct (FaceIDIsPeriodicDonor z); cbn [negb bind].
  - apply (X (tr Q)); [|exact F|exact B]. intros v i Hi. apply (orth_cancel dim Q v i 0%nat O Hi).
  - destruct (X Q) with (f := fun m => TransVectorBack dim p m z) (g := fun m => TransVector dim p m z) as (v & w & E1 & E2 & K).
    + intros v i Hi. apply (orth_cancel dim (tr Q) v i 0%nat (orth_tr _ _ O) Hi).
    + exact B.
    + exact F.
    + exists v, w. rewrite E1. cbn [bind]. rewrite E2. auto.
Qed.
End Run.

(** ** The wall force *)

Lemma wall_sum_ok : forall cells table_ gs n nF s, Forall2 (matches cells) table_ gs ->
  (forall j g, nth_error gs j = Some g -> gwall g = true -> (n + j < nF)%nat) ->
  exists s', foldM (fun (s : state) '(iFace, f) =>
    if is_wall f then do _ <- assert_ (iFace <? Z.of_nat nF)%Z; Ok (fun k => s k - fluxEs f k) else Ok s)
    s (combine (map Z.of_nat (seq n (length table_))) table_) = Ok s' /\
    forall k, s' k = s k - rsum (map (fun g => gflux g k) (filter gwall gs)).
Proof.
  intros cells table_ gs n nF s H. revert n s. induction H as [|lf gf l l' H1 H IH]; intros n s HW.
  - exists s. split; [reflexivity|]. intros; cbn; lra.
  - destruct H1 as (_ & _ & _ & _ & Hw & Hf). cbn [length seq map combine foldM]. rewrite Hw.
    assert (HW' : forall j g, nth_error l' j = Some g -> gwall g = true -> (S n + j < nF)%nat).
    { intros j g Hj Hg. specialize (HW (S j) g Hj Hg). lia. }
    cbn [filter]. destruct (gwall gf) eqn:Eg.
    + specialize (HW 0%nat gf eq_refl Eg). destruct (Z.ltb_spec (Z.of_nat n) (Z.of_nat nF)); [|lia]. cbn [assert_ bind].
      destruct (IH (S n) (fun k => s k - fluxEs lf k) HW') as (s' & E & X). exists s'. split; [exact E|].
      intros k. rewrite X, Hf. unfold rsum. cbn [map fold_right]. lra.
    + cbn [bind]. exact (IH (S n) s HW').
Qed.
Theorem wall_force : forall n G ranks,
  distributed n ranks -> Forall (has_faces G) ranks -> Forall (sides_in n) G ->
  Forall (fun f => gwall f = true -> side1 f = None) G -> Forall (wall_first G) ranks ->
  exists F, fluxWallSum (map (fun r => (Z.of_nat (nFace r), table r)) ranks) = Ok F /\
    forall k, F k = - rsum (map (fun f => gflux f k) (filter gwall G)).
Proof.
  intros n G ranks HD HF HS HB HW. unfold fluxWallSum.
  assert (X : exists sums, mapM (fun '(nF, faces) => wall_sum nF faces) (map (fun r => (Z.of_nat (nFace r), table r)) ranks) = Ok sums /\
    forall k, fold_left (fun a (s : state) => a + s k) sums 0 =
      rsum (map (fun c => - rsum (map (fun f => if gwall f && Nat.eqb (side0 f) c then gflux f k else 0) G)) (concat (map own ranks)))).
  { assert (X : exists sums, mapM (fun '(nF, faces) => wall_sum nF faces) (map (fun r => (Z.of_nat (nFace r), table r)) ranks) = Ok sums /\
      forall k a0, fold_left (fun a (s : state) => a + s k) sums a0 = a0 +
      rsum (map (fun c => - rsum (map (fun f => if gwall f && Nat.eqb (side0 f) c then gflux f k else 0) G)) (concat (map own ranks)))).
    2:{ destruct X as (sums & E & X). exists sums. split; [exact E|]. intros k. rewrite X. lra. }
    clear HD. induction ranks as [|r ranks IH]; [exists []; split; [reflexivity|intros; cbn; lra]|].
    inversion HF as [|? ? F1 F2]; subst. inversion HW as [|? ? W1 W2]; subst.
    destruct (IH F2 W2) as (sums & E & X). pose proof F1 as (ND & NF & HT & HI).
    destruct (table_split G r HT) as (gs & HG & HM).
    destruct (wall_sum_ok _ _ gs 0 (nFace r) (fun _ => 0) HM) as (s & Es & Xs).
    { intros j g Hg Hw. destruct (Forall2_nth_error_r _ _ _ _ _ _ _ HG Hg) as (i & Hi & Ei). exact (W1 j i g Hi Ei Hw). }
    exists (s :: sums). split.
    - cbn [map mapM]. change (wall_sum (Z.of_nat (nFace r)) (table r)) with
        (foldM (fun (s : state) '(iFace, f) =>
           if is_wall f then do _ <- assert_ (iFace <? Z.of_nat (nFace r))%Z; Ok (fun k => s k - fluxEs f k) else Ok s)
           (fun _ => 0) (combine (map Z.of_nat (seq 0 (length (table r)))) (table r))).
      rewrite Es. cbn [bind]. rewrite E. reflexivity.
    - intros k a0. cbn [fold_left map concat]. rewrite X, map_app, rsum_app, Xs. rewrite <- rsum_filter.
      assert (Y : rsum (map (fun g => if gwall g then gflux g k else 0) gs) =
        rsum (map (fun c => rsum (map (fun f => if gwall f && Nat.eqb (side0 f) c then gflux f k else 0) G)) (own r))).
      { rewrite (rsum_swap _ _ (fun c f => if gwall f && Nat.eqb (side0 f) c then gflux f k else 0)).
        set (h := fun f : gface => rsum (map (fun c => if gwall f && Nat.eqb (side0 f) c then gflux f k else 0) (own r))).
        assert (NDo : NoDup (own r)) by (eapply NoDup_app_l; exact ND).
        assert (H1 : forall f, In (side0 f) (own r) -> h f = if gwall f then gflux f k else 0).
        { intros f Hf. unfold h. destruct (gwall f); cbn [andb]; [|apply rsum_zero; reflexivity].
          clear - NDo Hf. induction NDo as [|x l Hx ND IH]; [contradiction|]. unfold rsum in *. cbn [map fold_right].
          destruct Hf as [->|Hf].
          - rewrite Nat.eqb_refl. fold (rsum (map (fun c => if Nat.eqb (side0 f) c then gflux f k else 0) l)).
            rewrite rsum_zero; [lra|]. intros c Hc. destruct (Nat.eqb_spec (side0 f) c) as [<-|]; [contradiction|reflexivity].
          - rewrite (IH Hf). destruct (Nat.eqb_spec (side0 f) x) as [<-|]; [contradiction|lra]. }
        assert (H0 : forall f, ~ In (side0 f) (own r) -> h f = 0).
        { intros f Hf. unfold h. apply rsum_zero. intros c Hc. destruct (Nat.eqb_spec (side0 f) c) as [<-|]; [contradiction|].
          rewrite andb_false_r. reflexivity. }
        rewrite Forall_forall in HB.
        assert (Hgs : forall g, In g gs -> (if gwall g then gflux g k else 0) = h g).
        { intros g Hg. apply In_nth_error in Hg. destruct Hg as [j Hg].
          destruct (Forall2_nth_error_r _ _ _ _ _ _ _ HG Hg) as (i & Hi & Ei).
          destruct (gwall g) eqn:Ew.
          - assert (T : touches (own r) g) by (apply (HI i g Ei); eapply nth_error_In; exact Hi).
            destruct T as [T|(c & T & _)].
            + rewrite (H1 g T), Ew. reflexivity.
            + rewrite (HB g (nth_error_In _ _ Ei) Ew) in T. discriminate.
          - unfold h. rewrite Ew. cbn [andb]. symmetry. apply rsum_zero. reflexivity. }
        rewrite (rsum_map_ext _ _ h gs Hgs).
        rewrite <- (rsum_listed _ h G (fs r) NF) with (d := dface).
        - f_equal. clear - HG. induction HG as [|x y l l' H HG IH]; [reflexivity|]. cbn [map]. f_equal; [|exact IH].
          f_equal. symmetry. apply nth_error_nth. exact H.
        - intros i Hi. apply In_nth_error in Hi. destruct Hi as [j Hi].
          destruct (Forall2_nth_error_l _ _ _ _ _ _ _ HG Hi) as (g & _ & E'). apply nth_error_Some. congruence.
        - intros i g Hg Hn. apply H0. intros K. apply Hn. apply (HI i g Hg). left. exact K. }
      rewrite Y. rewrite (rsum_map_ext _ (fun c => - rsum (map (fun f => if gwall f && Nat.eqb (side0 f) c then gflux f k else 0) G))
        (fun c => -1 * rsum (map (fun f => if gwall f && Nat.eqb (side0 f) c then gflux f k else 0) G)) (own r)) by (intros; lra).
      rewrite rsum_scal. lra. }
  destruct X as (sums & E & X). rewrite E. cbn [bind]. eexists. split; [reflexivity|]. intros k. cbv beta. rewrite X.
  rewrite (rsum_perm _ _ (Permutation_map _ HD)).
  rewrite (rsum_map_ext _ _ (fun c => -1 * rsum (map (fun f => if gwall f && Nat.eqb (side0 f) c then gflux f k else 0) G))) by (intros; lra).
  rewrite rsum_scal, (rsum_swap _ _ (fun c f => if gwall f && Nat.eqb (side0 f) c then gflux f k else 0)), <- rsum_filter.
  rewrite (rsum_map_ext _ _ (fun f => if gwall f then gflux f k else 0) G); [lra|].
  intros f Hf. rewrite Forall_forall in HS. destruct (HS f Hf) as [H0 _].
  destruct (gwall f); cbn [andb]; [|apply rsum_zero; reflexivity].
  apply (rsum_one (side0 f) (fun _ => gflux f k)). exact H0.
Qed.
(** A wall among the faces of another rank is refused. *)
Theorem wall_refused : forall nF faces j f, nth_error faces j = Some f -> is_wall f = true -> (nF <= j)%nat ->
  wall_sum (Z.of_nat nF) faces = Abort.
Proof.
  intros nF faces j f Hj Hw Hn. unfold wall_sum.
  assert (X : forall n (s : state) j, nth_error faces j = Some f -> (nF <= n + j)%nat ->
    foldM (fun (s : state) '(iFace, f) =>
      if is_wall f then do _ <- assert_ (iFace <? Z.of_nat nF)%Z; Ok (fun k => s k - fluxEs f k) else Ok s)
      s (combine (map Z.of_nat (seq n (length faces))) faces) = Abort).
  { clear Hj Hn j. induction faces as [|f0 faces IH]; intros n s j Hj Hn; [destruct j; discriminate|].
    cbn [length seq map combine foldM]. destruct j as [|j].
    - injection Hj as ->. rewrite Hw. destruct (Z.ltb_spec (Z.of_nat n) (Z.of_nat nF)); [lia|]. reflexivity.
    - destruct (is_wall f0).
      + destruct (Z.of_nat n <? Z.of_nat nF)%Z; [|reflexivity]. cbn [assert_ bind]. apply (IH (S n) _ j Hj). lia.
      + cbn [bind]. apply (IH (S n) _ j Hj). lia. }
  apply (X 0%nat _ j Hj). lia.
Qed.

(** ** Statements *)
Theorem threads_agree : forall dim isPeriodic p vol alpha S noSource G r cell2face,
  dim = 2%nat \/ dim = 3%nat -> length (rotation p) = 4%nat -> has_faces G r ->
  Forall (fun g => side1 g <> Some (side0 g)) G -> has_cell2face r cell2face ->
  exists rhs rhs', run dim isPeriodic p vol alpha S noSource r = Ok rhs /\
    run_threads dim isPeriodic p vol alpha S noSource cell2face r = Ok rhs' /\
    forall j, (j < length (own r))%nat -> exists row row', nth_error rhs j = Some row /\ nth_error rhs' j = Some row' /\
      forall k, row k = row' k.
Proof.
  intros dim isPeriodic p vol alpha S noSource G r cell2face HD HR HF HS HC.
  destruct (rank_rows dim isPeriodic p HD HR vol alpha S noSource G r HF) as (a & E1 & _ & X1).
  destruct (threads_rows dim isPeriodic p HD HR vol alpha S noSource G r cell2face HF HS HC) as (b & E2 & _ & X2).
  exists a, b. split; [exact E1|]. split; [exact E2|]. intros j Hj.
  destruct (nth_error_lt_Some _ (own r) j Hj) as [c Hc]. destruct (X1 j c Hc) as (x & Ex & Yx). destruct (X2 j c Hc) as (y & Ey & Yy).
  exists x, y. split; [exact Ex|]. split; [exact Ey|]. intros k. rewrite Yx, Yy. reflexivity.
Qed.
Theorem uniform_rows : forall dim isPeriodic p vol alpha S G (area : gface -> nat -> R) (F : nat -> nat -> R) r k,
  dim = 2%nat \/ dim = 3%nat -> length (rotation p) = 4%nat -> has_faces G r ->
  Forall (fun f => forall j, gflux f j = - sumn dim (fun d => F j d * area f d)) G ->
  Forall (untouched dim isPeriodic p k) G -> (forall c, In c (own r) -> closed area G c) ->
  exists rhs, run dim isPeriodic p vol alpha S true r = Ok rhs /\
    forall j, (j < length (own r))%nat -> exists row, nth_error rhs j = Some row /\ row k = 0.
Proof.
  intros dim isPeriodic p vol alpha S G area F r k HD HR HF HA HU HC.
  destruct (rank_rows dim isPeriodic p HD HR vol alpha S true G r HF) as (a & E1 & _ & X1).
  exists a. split; [exact E1|]. intros j Hj. destruct (nth_error_lt_Some _ (own r) j Hj) as [c Hc].
  destruct (X1 j c Hc) as (x & Ex & Yx). exists x. split; [exact Ex|]. rewrite Yx. unfold source_rate.
  rewrite (uniform_rate dim isPeriodic p HD HR vol G area F c k HA HU (HC c (nth_error_In _ _ Hc))). lra.
Qed.

(** *** the flux of a face *)
Lemma face_flux_sum : forall f k, fluxEs f k = rsum (map (fun q => fst (fst q) * snd (fst q) * snd q k) (points f)).
Proof.
  intros f k. unfold fluxEs.
  assert (G : forall l b, fold_left (fun buf '(w, jac, fincC) => buf + fincC k * jac * w) l b = b + rsum (map (fun q : R * R * state => fst (fst q) * snd (fst q) * snd q k) l)).
  { induction l as [|[[w j] F] l IH]; intro b; cbn [fold_left map rsum fst snd]; [unfold rsum; cbn; ring|]. rewrite IH. unfold rsum. cbn [fold_right]. ring. }
  rewrite G. apply Rplus_0_l.
Qed.
Lemma face_flux_constant : forall f c k, (forall q, In q (points f) -> snd q k = c) ->
  fluxEs f k = c * rsum (map (fun q => fst (fst q) * snd (fst q)) (points f)).
Proof.
  intros f c k H. rewrite face_flux_sum. induction (points f) as [|q l IH]; [unfold rsum; cbn; ring|].
  cbn [map]. unfold rsum in *. cbn [fold_right]. rewrite IH by (intros; apply H; right; auto). pose proof (H q (or_introl eq_refl)) as E. unfold state in *. rewrite E. ring.
Qed.
