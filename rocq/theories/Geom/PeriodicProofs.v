From Coq Require Import Reals ZArith List Bool Lra Lia.
From Verif Require Import Base.Prelude Base.PreludeFacts Geom.BoundaryModel Geom.BoundaryProofs
  Geom.PeriodicModel Geom.PeriodicSpec.
Import ListNotations.
Open Scope R_scope.

Lemma sumn_ext n : forall f g, (forall i, (i < n)%nat -> f i = g i) -> sumn n f = sumn n g.
Proof. induction n; intros f g H; cbn; auto. rewrite (IHn f g), H; auto. Qed.
Lemma sumn_plus n : forall f g, sumn n (fun i => f i + g i) = sumn n f + sumn n g.
Proof. induction n; intros; cbn; [lra|]. rewrite IHn. lra. Qed.
Lemma sumn_scal n : forall c f, sumn n (fun i => c * f i) = c * sumn n f.
Proof. induction n; intros; cbn; [lra|]. rewrite IHn. lra. Qed.
Lemma sumn_zero n : sumn n (fun _ => 0) = 0.
Proof. induction n; cbn; lra. Qed.
Lemma sumn_swap n m : forall f, sumn n (fun i => sumn m (f i)) = sumn m (fun j => sumn n (fun i => f i j)).
Proof.
  induction n; intros f; cbn.
  - symmetry. apply sumn_zero.
  - rewrite IHn, <- sumn_plus. reflexivity.
Qed.
Lemma sumn_kron n : forall i f, (i < n)%nat -> sumn n (fun j => kron i j * f j) = f i.
Proof.
  induction n; intros i f H; [lia|]. cbn. unfold kron at 2.
  destruct (Nat.eqb_spec i n) as [->|N].
  - rewrite (sumn_ext n _ (fun _ => 0)).
    + rewrite sumn_zero. lra.
    + intros j Hj. unfold kron. destruct (Nat.eqb_spec n j); [lia|lra].
  - rewrite IHn by lia. lra.
Qed.

Lemma mmul_assoc n m A B C i j :
  mmul n (mmul m A B) C i j = mmul m A (mmul n B C) i j.
Proof.
  unfold mmul.
  rewrite (sumn_ext n _ (fun k => sumn m (fun l => A i l * B l k * C k j))).
  - rewrite sumn_swap. apply sumn_ext. intros l _. rewrite <- sumn_scal.
    apply sumn_ext. intros k _. ring.
  - intros k _. rewrite Rmult_comm, <- sumn_scal. apply sumn_ext. intros; ring.
Qed.

Lemma mmul_ext n A A' B B' i j :
  (forall k, (k < n)%nat -> A i k = A' i k) -> (forall k, (k < n)%nat -> B k j = B' k j) ->
  mmul n A B i j = mmul n A' B' i j.
Proof. intros H K. apply sumn_ext. intros k Hk. rewrite H, K; auto. Qed.

Lemma mmul_kron_l n A i j : (i < n)%nat -> mmul n kron A i j = A i j.
Proof. intros H. unfold mmul. apply (sumn_kron n i (fun k => A k j) H). Qed.

Lemma mmul_kron_r n A i j : (j < n)%nat -> mmul n A kron i j = A i j.
Proof.
  intros H. unfold mmul. rewrite <- (sumn_kron n j (A i) H).
  apply sumn_ext. intros k _. unfold kron. rewrite Nat.eqb_sym. ring.
Qed.

Lemma orth_trQ_Q n Q i j : orthogonal n Q -> (i < n)%nat -> (j < n)%nat ->
  mmul n (tr Q) Q i j = kron i j.
Proof. intros H Hi Hj. apply (H i j Hi Hj). Qed.
Lemma orth_Q_trQ n Q i j : orthogonal n Q -> (i < n)%nat -> (j < n)%nat ->
  mmul n Q (tr Q) i j = kron i j.
Proof. intros H Hi Hj. apply (H i j Hi Hj). Qed.

Lemma orth_cancel n Q v i j : orthogonal n Q -> (i < n)%nat ->
  mmul n (tr Q) (mmul n Q v) i j = v i j.
Proof.
  intros H Hi. rewrite <- mmul_assoc.
  rewrite (mmul_ext n _ kron v v) by (intros; auto using orth_trQ_Q).
  apply mmul_kron_l, Hi.
Qed.

Lemma orth_tr n Q : orthogonal n Q -> orthogonal n (tr Q).
Proof. intros H i j Hi Hj. destruct (H i j Hi Hj). split; assumption. Qed.

Lemma mvec_mmul n A v i : mvec n A v i = mmul n A (fun i _ => v i) i 0%nat.
Proof. reflexivity. Qed.

Lemma orth_cancel_vec n Q v i : orthogonal n Q -> (i < n)%nat ->
  mvec n (tr Q) (mvec n Q v) i = v i.
Proof.
  intros H Hi. rewrite mvec_mmul.
  exact (orth_cancel n Q (fun i _ => v i) i 0%nat H Hi).
Qed.
Lemma orth_cancel_vec' n Q v i : orthogonal n Q -> (i < n)%nat ->
  mvec n Q (mvec n (tr Q) v) i = v i.
Proof. intros H. exact (orth_cancel_vec n (tr Q) v i (orth_tr n Q H)). Qed.

Lemma orth_cancel_mat n Q m i j : orthogonal n Q -> (i < n)%nat -> (j < n)%nat ->
  mmul n (mmul n (tr Q) (mmul n (mmul n Q m) (tr Q))) Q i j = m i j.
Proof.
  intros H Hi Hj.
  rewrite (mmul_ext n _ (mmul n m (tr Q)) Q Q).
  - rewrite mmul_assoc. rewrite (mmul_ext n m m _ kron).
    + apply mmul_kron_r, Hj.
    + auto.
    + intros k Hk. apply orth_trQ_Q; auto.
  - intros k Hk.
    rewrite (mmul_ext n (tr Q) (tr Q) _ (mmul n Q (mmul n m (tr Q)))).
    + apply orth_cancel; auto.
    + auto.
    + intros l Hl. apply mmul_assoc.
  - auto.
Qed.

(** ** The index of a periodic id *)
Lemma period_index_ok id : FaceIDIsPeriodic id = true ->
  exists i, period_index id = Ok (Z.of_nat i) /\ (1 <= i <= 3)%nat.
Proof.
  intros H. destruct (periodic_split id) as [P _]. apply P in H. clear P.
  assert (id = -1 \/ id = -2 \/ id = -3 \/ id = -4 \/ id = -5 \/ id = -6)%Z as C by lia.
  destruct C as [->|[->|[->|[->|[->| ->]]]]];
    [exists 1%nat|exists 2%nat|exists 3%nat|exists 1%nat|exists 2%nat|exists 3%nat];
    (split; [reflexivity|lia]).
Qed.

Lemma period_index_fail id : FaceIDIsPeriodic id = false -> period_index id = Abort.
Proof. unfold period_index. intros ->. reflexivity. Qed.

Lemma vat_of_nat {A} (l : list A) i : (i < length l)%nat ->
  exists x, vat l (Z.of_nat i) = Ok x /\ nth_error l i = Some x.
Proof.
  intros H. destruct (nth_error l i) as [x|] eqn:E.
  - exists x. split; [|reflexivity]. unfold vat.
    rewrite Nat2Z.id, E. destruct (Z.ltb_spec (Z.of_nat i) 0); [lia|reflexivity].
  - apply nth_error_None in E. lia.
Qed.

(** Everything a transformation reads, for a periodic id. *)
Lemma slots n p id : well_formed n p -> FaceIDIsPeriodic id = true ->
  exists i Q o t, period_index id = Ok i /\ vat (rotation p) i = Ok Q /\
    vat (rotationCenter p) i = Ok o /\ vat (translation p) i = Ok t /\ orthogonal n Q.
Proof.
  intros (L1 & L2 & L3 & O) H.
  destruct (period_index_ok id H) as (i & E & B).
  destruct (vat_of_nat (rotation p) i) as (Q & EQ & NQ); [lia|].
  destruct (vat_of_nat (rotationCenter p) i) as (o & Eo & _); [lia|].
  destruct (vat_of_nat (translation p) i) as (t & Et & _); [lia|].
  exists (Z.of_nat i), Q, o, t. split; [exact E|]. split; [exact EQ|].
  split; [exact Eo|]. split; [exact Et|]. eapply O; eauto.
Qed.

Lemma same_vec_refl n v : same_vec n v v.
Proof. intros i _; reflexivity. Qed.
Lemma same_mat_refl n m v : same_mat n m v v.
Proof. intros i j _ _; reflexivity. Qed.
Lemma same_vec_trans n u v w : same_vec n u v -> same_vec n v w -> same_vec n u w.
Proof. intros H K i Hi. rewrite H, K; auto. Qed.
Lemma same_mat_trans n m u v w : same_mat n m u v -> same_mat n m v w -> same_mat n m u w.
Proof. intros H K i j Hi Hj. rewrite H, K; auto. Qed.

(** ** Points *)
Definition fwd (Q : mat) (o t c : vec) : vec := vadd (vadd (mvec 3 Q (vsub c o)) o) t.
Definition bwd (Q : mat) (o t c : vec) : vec := vadd (mvec 3 (tr Q) (vsub (vsub c t) o)) o.

Lemma mvec_ext n A u v i : same_vec n u v -> mvec n A u i = mvec n A v i.
Proof. intros H. apply sumn_ext. intros k Hk. rewrite H; auto. Qed.

Lemma bwd_fwd Q o t c : orthogonal 3 Q -> same_vec 3 (bwd Q o t (fwd Q o t c)) c.
Proof.
  intros H i Hi. unfold bwd, fwd, vadd.
  rewrite (mvec_ext 3 (tr Q) _ (mvec 3 Q (vsub c o))).
  - rewrite orth_cancel_vec by assumption. unfold vsub. ring.
  - intros k _. unfold vsub at 1 2. unfold vadd. ring.
Qed.
Lemma fwd_bwd Q o t c : orthogonal 3 Q -> same_vec 3 (fwd Q o t (bwd Q o t c)) c.
Proof.
  intros H i Hi. unfold bwd, fwd, vadd.
  rewrite (mvec_ext 3 Q _ (mvec 3 (tr Q) (vsub (vsub c t) o))).
  - rewrite orth_cancel_vec' by assumption. unfold vsub. ring.
  - intros k _. unfold vsub at 1. unfold vadd. ring.
Qed.
Lemma fwd_ext Q o t u v : same_vec 3 u v -> same_vec 3 (fwd Q o t u) (fwd Q o t v).
Proof.
  intros H i Hi. unfold fwd, vadd. f_equal. f_equal. apply mvec_ext.
  intros k Hk. unfold vsub. rewrite H; auto.
Qed.
Lemma bwd_ext Q o t u v : same_vec 3 u v -> same_vec 3 (bwd Q o t u) (bwd Q o t v).
Proof.
  intros H i Hi. unfold bwd, vadd. f_equal. apply mvec_ext.
  intros k Hk. unfold vsub. rewrite H; auto.
Qed.

Lemma coord_slots p id : well_formed 3 p -> FaceIDIsPeriodic id = true ->
  exists Q o t, orthogonal 3 Q /\
    (forall c, TransCoord p c id = Ok (fwd Q o t c)) /\
    (forall c, TransCoordBack p c id = Ok (bwd Q o t c)).
Proof.
  intros W H. destruct (slots 3 p id W H) as (i & Q & o & t & E & EQ & Eo & Et & O).
  exists Q, o, t. split; [exact O|].
  unfold TransCoord, TransCoordBack. rewrite E. cbn [bind]. rewrite EQ, Eo, Et.
  split; reflexivity.
Qed.

Lemma coord_roundtrip p id c : well_formed 3 p -> FaceIDIsPeriodic id = true ->
  yields (do q <- TransCoord p c id; TransCoordBack p q id) (fun r => same_vec 3 r c) /\
  yields (do q <- TransCoordBack p c id; TransCoord p q id) (fun r => same_vec 3 r c).
Proof.
  intros W H. destruct (coord_slots p id W H) as (Q & o & t & O & F & B).
  split.
  - rewrite F. cbn [bind]. rewrite B. eexists; split; [reflexivity|]. apply bwd_fwd, O.
  - rewrite B. cbn [bind]. rewrite F. eexists; split; [reflexivity|]. apply fwd_bwd, O.
Qed.

Lemma coord_not_periodic p id c : FaceIDIsPeriodic id = false ->
  TransCoord p c id = Abort /\ TransCoordBack p c id = Abort.
Proof.
  intros H. unfold TransCoord, TransCoordBack. rewrite period_index_fail by exact H.
  split; reflexivity.
Qed.

Lemma mvec_sub n A u v i : mvec n A (vsub u v) i = mvec n A u i - mvec n A v i.
Proof.
  unfold mvec. rewrite (sumn_ext n _ (fun k => A i k * u k + (-1) * (A i k * v k)))
    by (intros; unfold vsub; ring).
  rewrite sumn_plus, sumn_scal. ring.
Qed.

(** Vectors move as differences of points do. *)
Lemma vector_is_difference p id a b : well_formed 3 p -> FaceIDIsPeriodic id = true ->
  exists a' b' w, TransCoord p a id = Ok a' /\ TransCoord p b id = Ok b' /\
    TransVector 3 p (fun i _ => a i - b i) id = Ok w /\
    forall i, (i < 3)%nat -> w i 0%nat = a' i - b' i.
Proof.
  intros W H. destruct (slots 3 p id W H) as (i & Q & o & t & E & EQ & Eo & Et & O).
  unfold TransCoord, TransVector. rewrite E. cbn [bind]. rewrite EQ, Eo, Et. cbn [bind].
  exists (fwd Q o t a), (fwd Q o t b), (mmul 3 Q (fun i _ => a i - b i)).
  split; [reflexivity|]. split; [reflexivity|]. split; [reflexivity|].
  intros k Hk. unfold fwd, vadd.
  rewrite !mvec_sub. change (mmul 3 Q (fun i0 _ => a i0 - b i0) k 0%nat)
    with (mvec 3 Q (vsub a b) k). rewrite mvec_sub. ring.
Qed.

Lemma isometry p id a b a' b' : well_formed 3 p ->
  TransCoord p a id = Ok a' -> TransCoord p b id = Ok b' ->
  dist2 a' b' = dist2 a b.
Proof.
  intros W Ea Eb. destruct (FaceIDIsPeriodic id) eqn:H.
  2:{ destruct (coord_not_periodic p id a H). congruence. }
  destruct (coord_slots p id W H) as (Q & o & t & O & F & _).
  rewrite F in Ea, Eb. inversion Ea; inversion Eb; subst. clear Ea Eb F.
  unfold dist2. set (d := vsub a b).
  rewrite (sumn_ext 3 _ (fun i => mvec 3 Q d i * mvec 3 Q d i)).
  2:{ intros i _. unfold fwd, vadd, d. rewrite !mvec_sub. ring. }
  transitivity (sumn 3 (fun i => mvec 3 (tr Q) (mvec 3 Q d) i * d i)).
  - cbn [sumn]. unfold mvec, tr. cbn [sumn]. ring.
  - apply sumn_ext. intros i Hi. rewrite orth_cancel_vec by assumption. reflexivity.
Qed.

(** ** Vectors and matrices, for the dimensions the library instantiates *)
Lemma dim_cases (dim : nat) : dim = 2%nat \/ dim = 3%nat ->
  (if Nat.eqb dim 3 then 3 else 2)%nat = dim.
Proof. intros [->| ->]; reflexivity. Qed.

Lemma vec_slots dim p id : dim = 2%nat \/ dim = 3%nat ->
  well_formed dim p -> FaceIDIsPeriodic id = true ->
  exists Q, orthogonal dim Q /\
    (forall v, TransVector dim p v id = Ok (mmul dim Q v)) /\
    (forall v, TransVectorBack dim p v id = Ok (mmul dim (tr Q) v)) /\
    (forall m, TransMat dim p m id = Ok (mmul dim (mmul dim Q m) (tr Q))) /\
    (forall m, TransMatBack dim p m id = Ok (mmul dim (mmul dim (tr Q) m) Q)).
Proof.
  intros D W H. destruct (slots dim p id W H) as (i & Q & o & t & E & EQ & Eo & Et & O).
  exists Q. split; [exact O|].
  unfold TransVector, TransVectorBack, TransMat, TransMatBack.
  rewrite E. cbn [bind]. rewrite EQ. cbn [bind].
  destruct D as [->| ->]; repeat split; reflexivity.
Qed.

Lemma vector_roundtrip dim nVec p id v : dim = 2%nat \/ dim = 3%nat ->
  well_formed dim p -> FaceIDIsPeriodic id = true ->
  yields (do w <- TransVector dim p v id; TransVectorBack dim p w id)
    (fun r => same_mat dim nVec r v) /\
  yields (do w <- TransVectorBack dim p v id; TransVector dim p w id)
    (fun r => same_mat dim nVec r v).
Proof.
  intros D W H. destruct (vec_slots dim p id D W H) as (Q & O & F & B & _).
  split.
  - rewrite F. cbn [bind]. rewrite B. eexists; split; [reflexivity|].
    intros i j Hi _. apply orth_cancel; auto.
  - rewrite B. cbn [bind]. rewrite F. eexists; split; [reflexivity|].
    intros i j Hi _. apply (orth_cancel dim (tr Q) v i j (orth_tr _ _ O) Hi).
Qed.

Lemma tensor_roundtrip dim p id m : dim = 2%nat \/ dim = 3%nat ->
  well_formed dim p -> FaceIDIsPeriodic id = true ->
  yields (do w <- TransMat dim p m id; TransMatBack dim p w id)
    (fun r => same_mat dim dim r m) /\
  yields (do w <- TransMatBack dim p m id; TransMat dim p w id)
    (fun r => same_mat dim dim r m).
Proof.
  intros D W H. destruct (vec_slots dim p id D W H) as (Q & O & _ & _ & F & B).
  split.
  - rewrite F. cbn [bind]. rewrite B. eexists; split; [reflexivity|].
    intros i j Hi Hj. apply orth_cancel_mat; auto.
  - rewrite B. cbn [bind]. rewrite F. eexists; split; [reflexivity|].
    intros i j Hi Hj. apply (orth_cancel_mat dim (tr Q) m i j (orth_tr _ _ O) Hi Hj).
Qed.

(** The transformed matrix acts on transformed vectors as the matrix acts on
    vectors. *)
Lemma tensor_equivariant dim nVec p id m v : dim = 2%nat \/ dim = 3%nat ->
  well_formed dim p -> FaceIDIsPeriodic id = true ->
  exists m' v' w', TransMat dim p m id = Ok m' /\ TransVector dim p v id = Ok v' /\
    TransVector dim p (mmul dim m v) id = Ok w' /\
    same_mat dim nVec (mmul dim m' v') w'.
Proof.
  intros D W H. destruct (vec_slots dim p id D W H) as (Q & O & F & _ & G & _).
  rewrite G, !F. do 3 eexists. split; [reflexivity|]. split; [reflexivity|].
  split; [reflexivity|]. intros i j Hi Hj.
  rewrite mmul_assoc. rewrite (mmul_ext dim (mmul dim Q m) (mmul dim Q m) _ v).
  - apply mmul_assoc.
  - auto.
  - intros k Hk. apply orth_cancel; auto.
Qed.

(** ** Bits *)
Lemma step_bits (b : bool) (T B : vec -> res vec) c :
  (exists f g, (forall c, T c = Ok (f c)) /\ (forall c, B c = Ok (g c)) /\
     (forall c, same_vec 3 (g (f c)) c) /\ (forall u v, same_vec 3 u v -> same_vec 3 (g u) (g v))) ->
  exists r, (if b then T c else Ok c) = Ok r /\
    forall r', same_vec 3 r' r -> exists s, (if b then B r' else Ok r') = Ok s /\ same_vec 3 s c.
Proof.
  intros (f & g & F & G & I & X). destruct b.
  - exists (f c). split; [apply F|]. intros r' H. exists (g r'). split; [apply G|].
    eapply same_vec_trans; [apply X, H|apply I].
  - exists c. split; [reflexivity|]. intros r' H. exists r'. auto.
Qed.

Lemma coord_hyp p id : well_formed 3 p -> FaceIDIsPeriodic id = true ->
  exists f g, (forall c, TransCoord p c id = Ok (f c)) /\ (forall c, TransCoordBack p c id = Ok (g c)) /\
     (forall c, same_vec 3 (g (f c)) c) /\ (forall u v, same_vec 3 u v -> same_vec 3 (g u) (g v)).
Proof.
  intros W H. destruct (coord_slots p id W H) as (Q & o & t & O & F & B).
  exists (fwd Q o t), (bwd Q o t). split; [exact F|]. split; [exact B|].
  split; [intros; apply bwd_fwd, O|]. intros; apply bwd_ext; assumption.
Qed.
Lemma coord_hyp' p id : well_formed 3 p -> FaceIDIsPeriodic id = true ->
  exists f g, (forall c, TransCoordBack p c id = Ok (f c)) /\ (forall c, TransCoord p c id = Ok (g c)) /\
     (forall c, same_vec 3 (g (f c)) c) /\ (forall u v, same_vec 3 u v -> same_vec 3 (g u) (g v)).
Proof.
  intros W H. destruct (coord_slots p id W H) as (Q & o & t & O & F & B).
  exists (bwd Q o t), (fwd Q o t). split; [exact B|]. split; [exact F|].
  split; [intros; apply fwd_bwd, O|]. intros; apply fwd_ext; assumption.
Qed.

Lemma bits_coord p b c : well_formed 3 p ->
  yields (do q <- GetCoordByBits p c b; GetCoordBackByBits p q b) (fun r => same_vec 3 r c) /\
  yields (do q <- GetCoordBackByBits p c b; GetCoordByBits p q b) (fun r => same_vec 3 r c).
Proof.
  intros W. unfold GetCoordByBits, GetCoordBackByBits.
  destruct (b =? 0)%Z.
  { split; (exists c; split; [reflexivity|apply same_vec_refl]). }
  split.
  - destruct (step_bits (getP3 b) _ _ c (coord_hyp p BC_ID_PERIODIC_3 W eq_refl)) as (r3 & E3 & K3).
    rewrite E3; cbn [bind].
    destruct (step_bits (getP2 b) _ _ r3 (coord_hyp p BC_ID_PERIODIC_2 W eq_refl)) as (r2 & E2 & K2).
    rewrite E2; cbn [bind].
    destruct (step_bits (getP1 b) _ _ r2 (coord_hyp p BC_ID_PERIODIC_1 W eq_refl)) as (r1 & E1 & K1).
    rewrite E1; cbn [bind].
    destruct (K1 r1 (same_vec_refl 3 r1)) as (s1 & F1 & S1). rewrite F1; cbn [bind].
    destruct (K2 s1 S1) as (s2 & F2 & S2). rewrite F2; cbn [bind].
    destruct (K3 s2 S2) as (s3 & F3 & S3). rewrite F3. exists s3; auto.
  - destruct (step_bits (getP1 b) _ _ c (coord_hyp' p BC_ID_PERIODIC_1 W eq_refl)) as (r3 & E3 & K3).
    rewrite E3; cbn [bind].
    destruct (step_bits (getP2 b) _ _ r3 (coord_hyp' p BC_ID_PERIODIC_2 W eq_refl)) as (r2 & E2 & K2).
    rewrite E2; cbn [bind].
    destruct (step_bits (getP3 b) _ _ r2 (coord_hyp' p BC_ID_PERIODIC_3 W eq_refl)) as (r1 & E1 & K1).
    rewrite E1; cbn [bind].
    destruct (K1 r1 (same_vec_refl 3 r1)) as (s1 & F1 & S1). rewrite F1; cbn [bind].
    destruct (K2 s1 S1) as (s2 & F2 & S2). rewrite F2; cbn [bind].
    destruct (K3 s2 S2) as (s3 & F3 & S3). rewrite F3. exists s3; auto.
Qed.

Lemma step_bits_m dim n (b : bool) (T B : mat -> res mat) c :
  (exists f g, (forall c, T c = Ok (f c)) /\ (forall c, B c = Ok (g c)) /\
     (forall c, same_mat dim n (g (f c)) c) /\ (forall u v, same_mat dim n u v -> same_mat dim n (g u) (g v))) ->
  exists r, (if b then T c else Ok c) = Ok r /\
    forall r', same_mat dim n r' r -> exists s, (if b then B r' else Ok r') = Ok s /\ same_mat dim n s c.
Proof.
  intros (f & g & F & G & I & X). destruct b.
  - exists (f c). split; [apply F|]. intros r' H. exists (g r'). split; [apply G|].
    eapply same_mat_trans; [apply X, H|apply I].
  - exists c. split; [reflexivity|]. intros r' H. exists r'. auto.
Qed.

Lemma mmul_cong dim n A u v : same_mat dim n u v -> same_mat dim n (mmul dim A u) (mmul dim A v).
Proof. intros H i j Hi Hj. apply mmul_ext; auto. Qed.

Lemma vector_hyp dim n p id : dim = 2%nat \/ dim = 3%nat ->
  well_formed dim p -> FaceIDIsPeriodic id = true ->
  exists f g, (forall c, TransVector dim p c id = Ok (f c)) /\ (forall c, TransVectorBack dim p c id = Ok (g c)) /\
     (forall c, same_mat dim n (g (f c)) c) /\ (forall u v, same_mat dim n u v -> same_mat dim n (g u) (g v)).
Proof.
  intros D W H. destruct (vec_slots dim p id D W H) as (Q & O & F & B & _).
  do 2 eexists. split; [exact F|]. split; [exact B|]. split.
  - intros c i j Hi _. apply orth_cancel; auto.
  - intros u v. apply mmul_cong.
Qed.
Lemma vector_hyp' dim n p id : dim = 2%nat \/ dim = 3%nat ->
  well_formed dim p -> FaceIDIsPeriodic id = true ->
  exists f g, (forall c, TransVectorBack dim p c id = Ok (f c)) /\ (forall c, TransVector dim p c id = Ok (g c)) /\
     (forall c, same_mat dim n (g (f c)) c) /\ (forall u v, same_mat dim n u v -> same_mat dim n (g u) (g v)).
Proof.
  intros D W H. destruct (vec_slots dim p id D W H) as (Q & O & F & B & _).
  do 2 eexists. split; [exact B|]. split; [exact F|]. split.
  - intros c i j Hi _. exact (orth_cancel dim (tr Q) c i j (orth_tr _ _ O) Hi).
  - intros u v. apply mmul_cong.
Qed.

Lemma bits_vector dim n p b c : dim = 2%nat \/ dim = 3%nat -> well_formed dim p ->
  yields (do q <- GetVectorByBits dim p c b; GetVectorBackByBits dim p q b)
    (fun r => same_mat dim n r c) /\
  yields (do q <- GetVectorBackByBits dim p c b; GetVectorByBits dim p q b)
    (fun r => same_mat dim n r c).
Proof.
  intros D W. unfold GetVectorByBits, GetVectorBackByBits.
  destruct (b =? 0)%Z.
  { split; (exists c; split; [reflexivity|apply same_mat_refl]). }
  split.
  - destruct (step_bits_m dim n (getP3 b) _ _ c (vector_hyp dim n p BC_ID_PERIODIC_3 D W eq_refl)) as (r3 & E3 & K3).
    rewrite E3; cbn [bind].
    destruct (step_bits_m dim n (getP2 b) _ _ r3 (vector_hyp dim n p BC_ID_PERIODIC_2 D W eq_refl)) as (r2 & E2 & K2).
    rewrite E2; cbn [bind].
    destruct (step_bits_m dim n (getP1 b) _ _ r2 (vector_hyp dim n p BC_ID_PERIODIC_1 D W eq_refl)) as (r1 & E1 & K1).
    rewrite E1; cbn [bind].
    destruct (K1 r1 (same_mat_refl dim n r1)) as (s1 & F1 & S1). rewrite F1; cbn [bind].
    destruct (K2 s1 S1) as (s2 & F2 & S2). rewrite F2; cbn [bind].
    destruct (K3 s2 S2) as (s3 & F3 & S3). rewrite F3. exists s3; auto.
  - destruct (step_bits_m dim n (getP1 b) _ _ c (vector_hyp' dim n p BC_ID_PERIODIC_1 D W eq_refl)) as (r3 & E3 & K3).
    rewrite E3; cbn [bind].
    destruct (step_bits_m dim n (getP2 b) _ _ r3 (vector_hyp' dim n p BC_ID_PERIODIC_2 D W eq_refl)) as (r2 & E2 & K2).
    rewrite E2; cbn [bind].
    destruct (step_bits_m dim n (getP3 b) _ _ r2 (vector_hyp' dim n p BC_ID_PERIODIC_3 D W eq_refl)) as (r1 & E1 & K1).
    rewrite E1; cbn [bind].
    destruct (K1 r1 (same_mat_refl dim n r1)) as (s1 & F1 & S1). rewrite F1; cbn [bind].
    destruct (K2 s1 S1) as (s2 & F2 & S2). rewrite F2; cbn [bind].
    destruct (K3 s2 S2) as (s3 & F3 & S3). rewrite F3. exists s3; auto.
Qed.

(** ** The two sides of a face *)
Lemma two_sides p id c s : well_formed 3 p -> s = 0%Z \/ s = 1%Z ->
  yields (do q <- GetOtherCellPointFromCell p id s c; GetOtherCellPointFromCell p id (1 - s) q)
    (fun r => same_vec 3 r c).
Proof.
  intros W S. unfold GetOtherCellPointFromCell.
  destruct (FaceIDIsPeriodic id) eqn:P; cbn [negb].
  2:{ exists c. split; [reflexivity|apply same_vec_refl]. }
  destruct (coord_roundtrip p id c W P) as (A & B).
  destruct (periodic_split id) as (_ & U & X & _). rewrite P in U.
  destruct (FaceIDIsPeriodicMain id), (FaceIDIsPeriodicDonor id);
    try discriminate; destruct S as [->| ->]; cbn; assumption.
Qed.

Lemma face_and_cell_frames p id c :
  GetFacePointFromCell p id 0 c = Ok c /\
  GetFacePointFromCell p id 1 c = GetOtherCellPointFromCell p id 1 c.
Proof.
  unfold GetFacePointFromCell, GetOtherCellPointFromCell.
  destruct (FaceIDIsPeriodic id); cbn [negb]; [|split; reflexivity].
  destruct (FaceIDIsPeriodicMain id), (FaceIDIsPeriodicDonor id); split; reflexivity.
Qed.

(** ** Bit sets *)
Lemma getP_testbit b :
  getP1 b = Z.testbit b 0 /\ getP2 b = Z.testbit b 1 /\ getP3 b = Z.testbit b 2.
Proof.
  assert (G : forall k, (0 <= k)%Z -> negb (Z.land b (2 ^ k) =? 0)%Z = Z.testbit b k).
  { intros k Hk. destruct (Z.eqb_spec (Z.land b (2 ^ k)) 0) as [E|E].
    - cbn. symmetry. assert (T : Z.testbit (Z.land b (2 ^ k)) k = false)
        by (rewrite E; apply Z.bits_0).
      rewrite Z.land_spec, Z.pow2_bits_true, andb_true_r in T by exact Hk. exact T.
    - cbn. symmetry. destruct (Z.testbit b k) eqn:T; [reflexivity|]. exfalso. apply E.
      apply Z.bits_inj. intros j. rewrite Z.land_spec, Z.bits_0.
      destruct (Z.eqb_spec j k) as [->|N]; [rewrite T; reflexivity|].
      rewrite Z.pow2_bits_false by auto. apply andb_false_r. }
  split; [exact (G 0%Z ltac:(lia))|]. split; [exact (G 1%Z ltac:(lia))|exact (G 2%Z ltac:(lia))].
Qed.

Lemma reduce_spec row :
  (getP1 (bitandReduce row) = forallb getP1 row) /\
  (getP2 (bitandReduce row) = forallb getP2 row) /\
  (getP3 (bitandReduce row) = forallb getP3 row).
Proof.
  assert (G : forall k l a, Z.testbit (fold_left Z.land l a) k
              = Z.testbit a k && forallb (fun b => Z.testbit b k) l).
  { intros k l. induction l as [|x l IH]; intros a; cbn [fold_left forallb].
    - symmetry. apply andb_true_r.
    - rewrite IH, Z.land_spec, andb_assoc. reflexivity. }
  unfold bitandReduce.
  assert (E : forall f k, (forall b, f b = Z.testbit b k) -> Z.testbit 7 k = true ->
            f (fold_left Z.land row 7%Z) = forallb f row).
  { intros f k Hf H7. rewrite Hf, G, H7. cbn [andb].
    clear -Hf. induction row as [|x l IH]; cbn; [reflexivity|]. rewrite Hf, IH. reflexivity. }
  split; [|split].
  - apply (E getP1 0%Z); [intros; apply getP_testbit|reflexivity].
  - apply (E getP2 1%Z); [intros; apply getP_testbit|reflexivity].
  - apply (E getP3 2%Z); [intros; apply getP_testbit|reflexivity].
Qed.

Lemma collaborative_spec a b :
  (isCollaborativeNodePeriodicBits a b = Ok true <->
   length a = length b /\
   exists v, forall i x y, nth_error a i = Some x -> nth_error b i = Some y -> Z.lxor x y = v) /\
  (isCollaborativeNodePeriodicBits a b = Abort <-> length a <> length b).
Proof.
  unfold isCollaborativeNodePeriodicBits, zlen.
  destruct (Z.eqb_spec (Z.of_nat (length a)) (Z.of_nat (length b))) as [E|E]; cbn [assert_ bind].
  2:{ split; split; try discriminate; [intros [L _]; lia|intros _; lia|reflexivity]. }
  apply Nat2Z.inj in E. split.
  2:{ split; [|lia]. destruct a, b; discriminate. }
  destruct a as [|x a], b as [|y b]; cbn in E; try lia.
  - split; [|reflexivity]. intros _. split; [reflexivity|]. exists 0%Z.
    intros [|i]; discriminate.
  - split.
    + intros H. split; [exact (f_equal S (eq_add_S _ _ E))|].
      assert (F : forallb (fun q => (Z.lxor (fst q) (snd q) =? Z.lxor x y)%Z) (combine a b) = true)
        by congruence.
      exists (Z.lxor x y). rewrite forallb_forall in F.
      intros [|i] u v; cbn; intros Hu Hv; [congruence|].
      assert (I : In (u, v) (combine a b)).
      { clear -Hu Hv. revert b i Hu Hv. induction a as [|p a IH]; intros [|q b] [|i]; cbn;
          try discriminate; intros; [left; congruence|right; eauto]. }
      apply F in I. cbn in I. apply Z.eqb_eq in I. exact I.
    + intros (_ & v & H). f_equal. apply forallb_forall. intros [p q] I. cbn.
      apply Z.eqb_eq. rewrite (H 0%nat x y eq_refl eq_refl).
      apply In_nth_error in I. destruct I as [i I].
      apply (H (S i) p q); cbn; clear -I; revert b i I;
        induction a as [|p' a IH]; intros [|q' b] [|i]; cbn; try discriminate; intros; try congruence; eauto.
Qed.

(** ** The default data is well formed *)
Lemma ident_orthogonal n : orthogonal n ident.
Proof.
  intros i j Hi Hj. split.
  - rewrite (sumn_ext n _ (fun k => kron i k * ident k j)).
    + exact (sumn_kron n i (fun k => ident k j) Hi).
    + intros k _. unfold ident at 1, kron. rewrite Nat.eqb_sym. reflexivity.
  - rewrite (sumn_ext n _ (fun k => kron i k * ident j k)).
    + rewrite (sumn_kron n i (fun k => ident j k) Hi). unfold ident, kron. rewrite Nat.eqb_sym. reflexivity.
    + intros k _. reflexivity.
Qed.
Lemma default_well_formed n : well_formed n default_periodicity.
Proof.
  repeat split; try reflexivity;
  destruct i as [|[|[|[|i]]]]; cbn in *; try lia; inversion H0; subst; apply ident_orthogonal; auto.
Qed.

(** A quarter turn about the third axis with a centre and a translation. *)
Definition quarter : mat := fun i j =>
  match i, j with
  | 0%nat, 1%nat => 1 | 1%nat, 0%nat => -1 | 2%nat, 2%nat => 1 | _, _ => 0 end.
Definition turned : Periodicity :=
  {| rotation := [ident; quarter; ident; ident];
     translation := [vzero; unit_vec 2; unit_vec 1; unit_vec 2];
     rotationCenter := [vzero; unit_vec 0; vzero; vzero] |}.
Lemma turned_well_formed n : n = 2%nat \/ n = 3%nat -> well_formed n turned.
Proof.
  intros D. split; [reflexivity|]. split; [reflexivity|]. split; [reflexivity|].
  intros i Q B E. destruct i as [|[|[|[|i]]]]; cbn in E; try lia; inversion E; subst;
    try apply ident_orthogonal.
  intros a b Ha Hb. destruct D as [-> | ->].
  - destruct a as [|[|a]], b as [|[|b]]; try lia; cbn; unfold kron; cbn; lra.
  - destruct a as [|[|[|a]]], b as [|[|[|b]]]; try lia; cbn; unfold kron; cbn; lra.
Qed.
Lemma turned_moves : exists q, TransCoord turned vzero BC_ID_PERIODIC_1_DONOR = Ok q /\
  q 0%nat = 1 /\ q 1%nat = 1 /\ q 2%nat = 1.
Proof.
  eexists. split; [reflexivity|]. unfold vadd, mvec, vsub, unit_vec, vzero. cbn. lra.
Qed.
