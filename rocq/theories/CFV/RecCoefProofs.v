(** What the coefficients of the reconstruction are: sums over the points of the faces of
    the products of the base functions of the cell and of its neighbours. *)
From Coq Require Import List ZArith Reals Bool Lia Lra.
From Verif Require Import Base.Prelude Base.PreludeFacts Geom.AdjModel Geom.BoundaryModel Geom.PeriodicModel Geom.PeriodicSpec Geom.PeriodicProofs
  Geom.BaseFnModel Geom.BaseFnSpec Geom.BaseFnProofs Geom.BaseFnTableProofs Geom.BoundaryProofs Geom.DiffTensorModel Geom.DiffTensorSpec Geom.DiffTensorProofs Geom.DiffTensorLinProofs Geom.DiffTensorMapProofs Geom.DiffTensorNormProofs Geom.DiffTensorInvProofs
  CFV.RecModel CFV.RecSpec CFV.RecPolyProofs CFV.RecBaseProofs CFV.RecMeanProofs CFV.RecFunProofs.
Import ListNotations.
Local Open Scope R_scope.

(** *** the base functions as lists of coefficients *)
Definition zero3 : nat * nat * nat := (0, 0, 0)%nat.
Fixpoint ppow (l : poly) (n : nat) : poly := match n with O => [(1, zero3)] | S n => pmul l (ppow l n) end.
Definition pcomp (l : poly) (xa : axis -> poly) : poly :=
  flat_map (fun t => let '(a, b, c) := snd t in pmul [(fst t, zero3)] (pmul (pmul (ppow (xa AX) a) (ppow (xa AY) b)) (ppow (xa AZ) c))) l.
Definition pcoord (st : settings) (c : cell) (a : nat) : poly :=
  let g i := (if localOrientation st then majorCoord c i a else kron i a) / own_length st c a in
  [(g 0%nat, (1, 0, 0)%nat); (g 1%nat, (0, 1, 0)%nat); (g 2%nat, (0, 0, 1)%nat);
   (- (g 0%nat * cent c 0%nat + g 1%nat * cent c 1%nat + g 2%nat * cent c 2%nat), zero3)].
Definition bpoly (st : settings) (c : cell) (j : nat) : poly :=
  pcomp [(1, exponents st j)] (fun a => pcoord st c (number_of a)) ++ [(- moment c j, zero3)].

Lemma peval_app : forall l l' X Y Z, peval (l ++ l') X Y Z = peval l X Y Z + peval l' X Y Z.
Proof. intros. unfold peval. apply sum_over_app. Qed.
Lemma ppow_eval : forall l n X Y Z, peval (ppow l n) X Y Z = peval l X Y Z ^ n.
Proof.
  intros l n X Y Z. induction n as [|n IH]; cbn [ppow pow].
  - unfold peval. cbn. ring.
  - rewrite pmul_eval, IH. reflexivity.
Qed.
Lemma pcomp_eval : forall l xa X Y Z, peval (pcomp l xa) X Y Z = peval l (peval (xa AX) X Y Z) (peval (xa AY) X Y Z) (peval (xa AZ) X Y Z).
Proof.
  intros l xa X Y Z. unfold pcomp, peval at 1. rewrite sum_over_flat. unfold peval at 1. apply sum_seq_map. intros [k [[a b] c]].
  cbn [fst snd]. match goal with |- sum_over ?l (fun t => fst t * mono (snd t) X Y Z) = _ => change (peval l X Y Z = k * mono (a, b, c) (peval (xa AX) X Y Z) (peval (xa AY) X Y Z) (peval (xa AZ) X Y Z)) end.
  rewrite !pmul_eval, !ppow_eval. unfold peval at 1. cbn. ring.
Qed.
Lemma pcoord_eval : forall st c a X Y Z, (a < 3)%nat -> peval (pcoord st c a) X Y Z = own_coordinate st c a X Y Z / own_length st c a.
Proof.
  intros st c a X Y Z Ha. unfold peval, pcoord, own_coordinate, vsub, point, kron. destruct (localOrientation st);
  destruct a as [|[|[|a]]]; try lia; cbn [sum_over fold_right fst snd mono zero3 sumn axis_at coordinate Nat.eqb pow]; unfold Rdiv; ring.
Qed.
Lemma bpoly_eval : forall st c j X Y Z, peval (bpoly st c j) X Y Z = base_fn st c j X Y Z.
Proof.
  intros. unfold bpoly. rewrite peval_app, pcomp_eval. unfold base_fn. cbn [number_of]. rewrite !pcoord_eval by lia.
  unfold peval. cbn [sum_over fold_right fst snd mono zero3 pow]. ring.
Qed.
Lemma bpoly_smooth : forall k st c j, smooth_in everywhere k (base_fn st c j) (dpeval (bpoly st c j)).
Proof. intros. eapply smooth_same; [|apply peval_smooth]. intros. apply bpoly_eval. Qed.

(** Two lists with the same values have the same derivatives. *)
Lemma dpeval_unique : forall l l' m X Y Z, (forall X Y Z, peval l X Y Z = peval l' X Y Z) -> dpeval l m X Y Z = dpeval l' m X Y Z.
Proof.
  intros l l' [[a b] c] X Y Z H.
  set (ds := repeat AX a ++ repeat AY b ++ repeat AZ c).
  assert (Em : multi ds = (a, b, c)%nat).
  { unfold ds, multi. rewrite !times_app, !times_repeat. cbn. repeat f_equal; lia. }
  pose proof (smooth_partial everywhere (length ds) (peval l) _ (peval_smooth everywhere _ l) ds (0, 0, 0)%nat ltac:(cbn; lia)) as P.
  rewrite multi_add_all in P.
  destruct (partial_in_same everywhere ds _ (peval l') _ (fun X Y Z => eq_trans (proj1 (peval_smooth everywhere (length ds) l) X Y Z) (H X Y Z)) P) as [g [Pg Vg]].
  rewrite <- Em. rewrite <- Vg. apply (smooth_value (length ds) (peval l')); auto. apply peval_smooth.
Qed.
Definition pscal (k : R) (l : poly) : poly := map (fun t => (k * fst t, snd t)) l.
Lemma dpeval_app : forall l l' m X Y Z, dpeval (l ++ l') m X Y Z = dpeval l m X Y Z + dpeval l' m X Y Z.
Proof. intros. unfold dpeval. apply sum_over_app. Qed.
Lemma dpeval_scal : forall k l m X Y Z, dpeval (pscal k l) m X Y Z = k * dpeval l m X Y Z.
Proof. intros. unfold dpeval, pscal. rewrite sum_over_map, <- sum_over_scal. apply sum_seq_map. intros. cbn [fst snd]. ring. Qed.
Lemma peval_dpeval : forall l X Y Z, peval l X Y Z = dpeval l zero3 X Y Z.
Proof. intros. symmetry. apply (proj1 (peval_smooth everywhere 0 l)). Qed.
Fixpoint psum (n : nat) (c : nat -> R) (l : nat -> poly) : poly :=
  match n with O => [] | S n => psum n c l ++ pscal (c n) (l n) end.
Lemma dpeval_sum : forall n c l m X Y Z, dpeval (psum n c l) m X Y Z = sumn n (fun i => c i * dpeval (l i) m X Y Z).
Proof.
  intros n c l m X Y Z. induction n as [|n IH]; cbn [psum sumn]; [reflexivity|]. rewrite dpeval_app, dpeval_scal, IH. reflexivity.
Qed.
Lemma dpeval_const : forall k m X Y Z, dpeval [(k, zero3)] m X Y Z = if Nat.eqb (order_of m) 0 then k else 0.
Proof.
  intros k [[a b] c] X Y Z. unfold dpeval, zero3. cbn [sum_over fold_right fst snd]. unfold dmono, dpow.
  assert (Z0 : forall d, ff 0 (S d) = 0%nat) by (induction d; [reflexivity|]; change (ff 0 (S (S d))) with (ff 0 (S d) * (0 - S d))%nat; rewrite IHd; reflexivity).
  destruct a as [|a]; [destruct b as [|b]; [destruct c as [|c]|]|]; rewrite ?Z0; cbn [order_of Nat.add Nat.eqb ff INR Nat.sub pow]; ring.
Qed.

(** *** the frames *)
Definition in_frame (st : settings) (f : face) (back : bool) (x : vec) : vec :=
  if isPeriodic st then match GetFacePointFromCell (periodicity st) (zone f) (if back then 0 else 1) x with Ok y => y | _ => x end else x.
(** The coordinates of the neighbour across a face. *)
Definition across (st : settings) (f : face) (back : bool) (x : vec) : vec :=
  match which_turn st f back with
  | Stay => x
  | Forth => match TransCoordBack (periodicity st) x (zone f) with Ok y => y | _ => x end
  | Back => match TransCoord (periodicity st) x (zone f) with Ok y => y | _ => x end
  end.

Lemma frame_ok : forall st f (back : bool) x, sound_periods st ->
  (if isPeriodic st then GetFacePointFromCell (periodicity st) (zone f) (if back then 0 else 1)%Z x else Ok x) = Ok (in_frame st f back x).
Proof.
  intros st f back x HP. unfold in_frame. destruct (isPeriodic st) eqn:E; auto. destruct (HP E) as [W _].
  unfold GetFacePointFromCell. destruct (FaceIDIsPeriodic (zone f)) eqn:P; cbn [negb]; auto.
  destruct (coord_slots _ _ W P) as (Q & o & t & O & F & B). rewrite F, B.
  destruct back; cbn [Z.eqb Pos.eqb andb]; auto. destruct (FaceIDIsPeriodicMain (zone f)), (FaceIDIsPeriodicDonor (zone f)); reflexivity.
Qed.
(** The turn is an affine map of coordinates, and the frames agree. *)
Lemma turn_cases : forall st f (back : bool), sound_periods st -> supported st ->
  (which_turn st f back = Stay /\ (forall x, in_frame st f back x = x) /\ (forall x, in_frame st f (negb back) x = x)) \/
  (which_turn st f back <> Stay /\ exists A c,
     (forall D, turn_diffs st f back D = ConvertDiffsLinMap (dim st) (NDOF st) D A) /\
     (forall a x, affine (dim st) A c a (x 0%nat) (x 1%nat) (x 2%nat) = across st f back x (number_of a)) /\
     (forall x, same_vec 3 (across st f back (in_frame st f back x)) (in_frame st f (negb back) x))).
Proof.
  intros st f back HP HS. unfold which_turn, in_frame, turn_diffs, across, which_turn. destruct (isPeriodic st) eqn:E; cbn [negb]; [|left; auto].
  destruct (HP E) as [W PL]. destruct (periodic_split (zone f)) as (_ & U & X & _).
  destruct (FaceIDIsPeriodic (zone f)) eqn:P.
  2:{ left. destruct (FaceIDIsPeriodicMain (zone f)); [discriminate|]. destruct (FaceIDIsPeriodicDonor (zone f)); [discriminate|].
      rewrite !andb_false_r. cbn [orb]. split; auto. unfold GetFacePointFromCell. rewrite P. cbn [negb]. auto. }
  right. destruct (slots 3 (periodicity st) (zone f) W P) as (i & Q & o & t & E1 & EQ & Eo & Et & O).
  assert (IQ : forall (T : Type) (l : list T) z x, vat l z = Ok x -> In x l).
  { intros T l z x0 Hz. unfold vat in Hz. destruct (z <? 0)%Z; [discriminate|].
    destruct (nth_error l (Z.to_nat z)) eqn:N; [|discriminate]. injection Hz as <-. eapply nth_error_In; eauto. }
  assert (TF : forall x, TransCoord (periodicity st) x (zone f) = Ok (fwd Q o t x)) by (intros x; unfold TransCoord; rewrite E1; cbn [bind]; rewrite EQ, Eo, Et; reflexivity).
  assert (TB : forall x, TransCoordBack (periodicity st) x (zone f) = Ok (bwd Q o t x)) by (intros x; unfold TransCoordBack; rewrite E1; cbn [bind]; rewrite EQ, Eo, Et; reflexivity).
  assert (AF : forall a x, affine (dim st) (tr Q) (fun m => o m + t m - sumn 3 (fun k => Q m k * o k)) a (x 0%nat) (x 1%nat) (x 2%nat) = fwd Q o t x (number_of a)).
  { intros a x. unfold fwd, vadd, mvec, vsub, tr. destruct HS as [[H|H] _].
    - destruct (PL H) as [PQ Pt]. pose proof (PQ Q (IQ _ _ _ _ EQ)) as PQ'. pose proof (Pt t (IQ _ _ _ _ Et)) as Pt'.
      pose proof (PQ' 0%nat ltac:(lia)) as [q02 q20]. pose proof (PQ' 1%nat ltac:(lia)) as [q12 q21]. pose proof (PQ' 2%nat ltac:(lia)) as [q22 _].
      unfold kron in *. cbn [Nat.eqb] in *. unfold affine. rewrite H.
      destruct a; cbn [Nat.eqb sumn axis_at coordinate number_of]; rewrite ?q02, ?q12, ?q22, ?q20, ?q21, ?Pt'; ring.
    - unfold affine. rewrite H. destruct a; cbn [Nat.eqb sumn axis_at coordinate number_of]; ring. }
  assert (AB : forall a x, affine (dim st) Q (fun m => o m - sumn 3 (fun k => Q k m * (t k + o k))) a (x 0%nat) (x 1%nat) (x 2%nat) = bwd Q o t x (number_of a)).
  { intros a x. unfold bwd, vadd, mvec, vsub, tr. destruct HS as [[H|H] _].
    - destruct (PL H) as [PQ Pt]. pose proof (PQ Q (IQ _ _ _ _ EQ)) as PQ'. pose proof (Pt t (IQ _ _ _ _ Et)) as Pt'.
      pose proof (PQ' 0%nat ltac:(lia)) as [q02 q20]. pose proof (PQ' 1%nat ltac:(lia)) as [q12 q21]. pose proof (PQ' 2%nat ltac:(lia)) as [q22 _].
      unfold kron in *. cbn [Nat.eqb] in *. unfold affine. rewrite H.
      destruct a; cbn [Nat.eqb sumn axis_at coordinate number_of]; rewrite ?q02, ?q12, ?q22, ?q20, ?q21, ?Pt'; ring.
    - unfold affine. rewrite H. destruct a; cbn [Nat.eqb sumn axis_at coordinate number_of]; ring. }
  unfold GetFacePointFromCell. rewrite P. cbn [negb].
  destruct (FaceIDIsPeriodicMain (zone f)), (FaceIDIsPeriodicDonor (zone f)); try discriminate; destruct back; cbn [negb andb orb Z.eqb Pos.eqb];
  (split; [discriminate|]); unfold TransDiValueInplace, TransDiValueBackInplace; rewrite E1; cbn [bind]; rewrite EQ; cbn [bind].
  all: try (exists (tr Q), (fun m => o m + t m - sumn 3 (fun k => Q m k * o k))%R; split; [reflexivity|split; [intros; rewrite TF; apply AF|]];
            intros x; rewrite ?TF, ?TB; rewrite ?TF, ?TB; (apply same_vec_refl || (apply fwd_bwd; exact O))).
  all: exists Q, (fun m => o m - sumn 3 (fun k => Q k m * (t k + o k)))%R; split; [reflexivity|split; [intros; rewrite TB; apply AB|]];
            intros x; rewrite ?TF, ?TB; rewrite ?TF, ?TB; (apply same_vec_refl || (apply bwd_fwd; exact O)).
Qed.

(** The coordinates across a face as lists of coefficients. *)
Definition xpoly (st : settings) (f : face) (back : bool) (a : axis) : poly :=
  let at_ x y z := across st f back (point x y z) (number_of a) in
  [(at_ 0 0 0, zero3); (at_ 1 0 0 - at_ 0 0 0, (1, 0, 0)%nat); (at_ 0 1 0 - at_ 0 0 0, (0, 1, 0)%nat); (at_ 0 0 1 - at_ 0 0 0, (0, 0, 1)%nat)].
Lemma xpoly_eval : forall st f back a X Y Z, supported st -> sound_periods st ->
  peval (xpoly st f back a) X Y Z = across st f back (point X Y Z) (number_of a).
Proof.
  intros st f back a X Y Z HS HP. unfold xpoly.
  destruct (turn_cases st f back HP HS) as [(T & _ & _)|(T & A & c0 & _ & AX_ & _)].
  - unfold across. rewrite T. unfold peval, point. destruct a; cbn [sum_over fold_right fst snd mono zero3 number_of axis_at coordinate pow]; ring.
  - pose proof (fun x y z => AX_ a (point x y z)) as AP. unfold point in AP at 1 2 3. cbn [axis_at coordinate] in AP. rewrite <- !AP.
    unfold peval, affine. destruct HS as [[E|E] _]; rewrite E; destruct a; cbn [Nat.eqb sum_over fold_right fst snd mono zero3 sumn axis_at coordinate pow]; ring.
Qed.

(** *** values on the faces *)
Definition side (f : face) (i : Z) : Prop := f2c0 f = i \/ f2c1 f = i.
Lemma side_back : forall f i, side f i -> CellIsFaceBack f i = Ok (f2c0 f =? i)%Z.
Proof. intros f i H. unfold CellIsFaceBack. replace ((f2c0 f =? i) || (f2c1 f =? i))%Z with true; [reflexivity|]. symmetry. apply orb_true_iff. destruct H; [left|right]; apply Z.eqb_eq; auto. Qed.

Definition own_d (st : settings) (c : cell) (f : face) (back : bool) (pnt : vec) (l : nat) (m : nat * nat * nat) : R :=
  value_at (dpeval (bpoly st c (S l)) m) (in_frame st f back pnt).
Definition other_d (st : settings) (c : cell) (f : face) (back : bool) (pnt : vec) (l : nat) (m : nat * nat * nat) : R :=
  value_at (dpeval (pcomp (bpoly st c (S l)) (xpoly st f back)) m) (in_frame st f back pnt).

Lemma own_values : forall st cells f i c k pnt, supported st -> sound_periods st -> side f i -> vget cells i = Ok c -> sound_cell st c -> (k <= 3)%nat ->
  exists D, FaceDiffBaseValue st cells f i (rows_up_to (dim st) k) pnt = Ok D /\
  forall l, (l < NDOF st - 1)%nat -> holds (dim st) 0 (rows_up_to (dim st) k) D l (own_d st c f (f2c0 f =? i)%Z pnt l).
Proof.
  intros st cells f i c k pnt HS HP HF HC SC Hk. unfold FaceDiffBaseValue. rewrite side_back by auto. cbn [bind].
  rewrite frame_ok by auto. cbn [bind]. rewrite HC. cbn [bind].
  destruct (base_values st c k (in_frame st f (f2c0 f =? i)%Z pnt) HS SC Hk) as [D [E H]]. rewrite E. cbn [bind].
  eexists. split; [reflexivity|]. intros l Hl r m Hr N.
  exact (derivatives_hold (dim st) k D (S l) _ _ _ _ _ (proj1 HS) Hk (bpoly_smooth k st c (S l)) (H (S l) ltac:(lia)) r m Hr N).
Qed.

Lemma other_values : forall st cells f i j c, supported st -> sound_periods st ->
  (f2c0 f = i /\ f2c1 f = j \/ f2c0 f = j /\ f2c1 f = i) -> i <> j -> vget cells j = Ok c -> sound_cell st c ->
  forall pnt, exists D D', FaceDiffBaseValue st cells f j (NDOF st) pnt = Ok D /\ turn_diffs st f (f2c0 f =? i)%Z D = Ok D' /\
  forall l, (l < NDOF st - 1)%nat -> holds (dim st) 0 (NDOF st) D' l (other_d st c f (f2c0 f =? i)%Z pnt l).
Proof.
  intros st cells f i j c HS HP HF Hij HC SC.
  set (back := (f2c0 f =? i)%Z).
  assert (EB : (f2c0 f =? j)%Z = negb back).
  { unfold back. destruct HF as [[A B]|[A B]]; rewrite A; [rewrite Z.eqb_refl|rewrite Z.eqb_refl].
    - apply Z.eqb_neq. lia.
    - symmetry. apply negb_true_iff. apply Z.eqb_neq. lia. }
  assert (HFj : side f j) by (destruct HF as [[A B]|[A B]]; [right|left]; auto).
  assert (Hk : (maxOrder st <= 3)%nat) by (apply HS).
  destruct (turn_cases st f back HP HS) as [(T & F1 & F2)|(T & A & c0 & TD & AX_ & FR)].
  - intros pnt. destruct (own_values st cells f j c (maxOrder st) pnt HS HP HFj HC SC Hk) as [D [E H]]. rewrite <- ndof_rows in E, H by auto.
      exists D, D. split; [exact E|]. split; [unfold turn_diffs; rewrite T; reflexivity|].
      intros l Hl r m Hr N. rewrite (H l Hl r m Hr N). unfold own_d, other_d. rewrite EB, F1, F2. unfold value_at. apply dpeval_unique.
      intros X Y Z. rewrite pcomp_eval, !xpoly_eval by auto. unfold across. rewrite T. reflexivity.
  - intros pnt. destruct (own_values st cells f j c (maxOrder st) pnt HS HP HFj HC SC Hk) as [D [E H]].
    set (x := in_frame st f back pnt).
    assert (AT : forall a, affine (dim st) A c0 a (x 0%nat) (x 1%nat) (x 2%nat) = in_frame st f (negb back) pnt (number_of a)).
    { intros a. rewrite AX_. apply FR. destruct a; cbn; lia. }
    destruct (linear_map_col (dim st) (maxOrder st) A c0 everywhere everywhere (fun l => base_fn st c (S l)) (fun l => dpeval (bpoly st c (S l))) D
                (x 0%nat) (x 1%nat) (x 2%nat) (fun l => (l < NDOF st - 1)%nat) (proj1 HS) Hk (fun _ _ _ _ => I)) as [D' [ED' HD']].
    { intros l _. apply bpoly_smooth. }
    { intros l Hl r m Hr N. rewrite (H l Hl r m Hr N). unfold own_d, value_at, compose. rewrite EB, !AT. reflexivity. }
    rewrite <- ndof_rows in E, ED', HD' by auto. exists D, D'. split; [exact E|]. split; [rewrite TD; exact ED'|].
    intros l Hl r m Hr N. rewrite ndof_rows in Hr, HD', Hl by auto.
    refine (derivatives_hold (dim st) (maxOrder st) D' l _ _ _ _ _ (proj1 HS) Hk _ (HD' l Hl) r m Hr N).
    eapply smooth_same; [|apply peval_smooth]. intros X Y Z. rewrite pcomp_eval. unfold compose. rewrite !xpoly_eval, bpoly_eval by auto.
    rewrite <- !AX_. reflexivity.
Qed.

(** *** the matrices of a face *)
Lemma integration_ok : forall pts (P : nat -> nat -> Prop) g (h : nat -> nat -> vec -> R) buf,
  (forall x, exists v, g x = Ok v /\ forall i j, P i j -> v i j = h i j x) ->
  exists out, Integration buf pts g = Ok out /\ forall i j, P i j -> out i j = buf i j + over_rule pts (h i j).
Proof.
  intros pts P g h. unfold Integration. induction pts as [|[[w J] x] pts IH]; intros buf H; cbn [foldM].
  - exists buf. split; auto. intros. unfold over_rule, sum_over. cbn. ring.
  - destruct (H x) as [v [E V]]. rewrite E. cbn [bind].
    destruct (IH (fun i j => buf i j + v i j * J * w) H) as [out [EO HO]]. exists out. split; auto.
    intros i j Pij. rewrite HO, V by auto. unfold over_rule, sum_over. cbn [fold_right]. ring.
Qed.

Definition below2 (n : nat) (i j : nat) : Prop := (i < n)%nat /\ (j < n)%nat.
Definition face_A (st : settings) (c : cell) (f : face) (back : bool) (l q : nat) : R :=
  over_rule (points f) (fun x => product st f (maxOrder st) (own_d st c f back x l) (own_d st c f back x q)).
Definition face_B (st : settings) (c c' : cell) (f : face) (back : bool) (l q : nat) : R :=
  over_rule (points f) (fun x => product st f (maxOrder st) (own_d st c f back x l) (other_d st c' f back x q)).
Definition face_b (st : settings) (c : cell) (f : face) (back : bool) (l : nat) : R :=
  over_rule (points f) (fun x => product st f 0 (own_d st c f back x l) (fun _ => 1)).

Lemma vector_b_ok : forall st cells f i c, supported st -> known_scale st -> sound_periods st -> side f i -> vget cells i = Ok c -> sound_cell st c ->
  exists b, vector_b st cells f i = Ok b /\ forall l v, (l < NDOF st - 1)%nat -> b l v = face_b st c f (f2c0 f =? i)%Z l.
Proof.
  intros st cells f i c HS KS HP HF HC SC. unfold vector_b.
  destruct (integration_ok (points f) (fun l _ => (l < NDOF st - 1)%nat)
     (fun pnt => do DiffI <- FaceDiffBaseValue st cells f i 1 pnt; FFaceFunctional st f 1 DiffI (fun _ _ => 1))
     (fun l _ x => product st f 0 (own_d st c f (f2c0 f =? i)%Z x l) (fun _ => 1)) (fun _ _ => 0)) as [b [E H]].
  - intros x. destruct (own_values st cells f i c 0 x HS HP HF HC SC ltac:(lia)) as [D [ED HD]]. rewrite rows_0 in ED, HD by (apply HS).
    rewrite ED. cbn [bind]. destruct (functional st f 0 D (fun _ _ => 1) HS KS ltac:(lia)) as [F [EF HF']]. rewrite rows_0 in EF, HF' by (apply HS).
    exists F. split; auto. intros l v Hl. apply HF'; [apply HD; auto|]. intros r m _ _. reflexivity.
  - exists b. split; auto. intros l v Hl. rewrite (H l v Hl). unfold face_b. ring.
Qed.

Lemma matrix_B_ok : forall st cells f i j c c', supported st -> known_scale st -> sound_periods st ->
  (f2c0 f = i /\ f2c1 f = j \/ f2c0 f = j /\ f2c1 f = i) -> i <> j ->
  vget cells i = Ok c -> sound_cell st c -> vget cells j = Ok c' -> sound_cell st c' ->
  exists B, matrix_B st cells f i j (f2c0 f =? i)%Z = Ok B /\
  forall l q, below2 (NDOF st - 1) l q -> B l q = face_B st c c' f (f2c0 f =? i)%Z l q.
Proof.
  intros st cells f i j c c' HS KS HP HF Hij HC SC HC' SC'.
  pose proof (other_values st cells f i j c' HS HP HF Hij HC' SC') as HO.
  unfold matrix_B.
  edestruct (integration_ok (points f) (below2 (NDOF st - 1))) as [B [E H]].
  2:{ exists B. split; [exact E|]. intros l q Hlq. rewrite (H l q Hlq). unfold face_B. apply Rplus_0_l. }
  intros x. assert (HFi : side f i) by (destruct HF as [[A B]|[A B]]; [left|right]; auto).
  destruct (own_values st cells f i c (maxOrder st) x HS HP HFi HC SC (proj2 HS)) as [D [ED HD]]. rewrite <- ndof_rows in ED, HD by auto.
  rewrite ED. cbn [bind]. destruct (HO x) as (DJ & DJ' & EJ & ET & HJ). rewrite EJ. cbn [bind]. rewrite ET. cbn [bind].
  destruct (functional st f (maxOrder st) D DJ' HS KS (proj2 HS)) as [F [EF HF']]. rewrite <- ndof_rows in EF, HF' by auto.
  exists F. split; auto. intros l q [Hl Hq]. apply HF'; auto.
Qed.

Lemma matrix_A_fold : forall st cells faces i c c2f A0, supported st -> known_scale st -> sound_periods st -> vget cells i = Ok c -> sound_cell st c ->
  (forall iFace, In iFace c2f -> exists f, vget faces iFace = Ok f /\ side f i) ->
  exists A, foldM (fun A iFace =>
    do f <- vget faces iFace;
    Integration A (points f) (fun pnt =>
      do DiffI <- FaceDiffBaseValue st cells f i (NDOF st) pnt;
      FFaceFunctional st f (NDOF st) DiffI DiffI)) A0 c2f = Ok A /\
  forall l q, below2 (NDOF st - 1) l q -> A l q = A0 l q +
    sum_over c2f (fun iFace => match vget faces iFace with Ok f => face_A st c f (f2c0 f =? i)%Z l q | _ => 0 end).
Proof.
  intros st cells faces i c c2f. induction c2f as [|iFace c2f IH]; intros A0 HS KS HP HC SC HF; cbn [foldM].
  - exists A0. split; auto. intros. unfold sum_over. cbn. ring.
  - destruct (HF iFace (or_introl eq_refl)) as [f [Ef Sf]]. rewrite Ef. cbn [bind].
    edestruct (integration_ok (points f) (below2 (NDOF st - 1))) as [A1 [E H]].
    2:{ rewrite E. cbn [bind]. destruct (IH A1 HS KS HP HC SC (fun x Hx => HF x (or_intror Hx))) as [A [EA HA]]. exists A. split; [exact EA|].
        intros l q Hlq. rewrite HA, H by auto. cbn [sum_over fold_right]. rewrite Ef. fold (sum_over c2f (fun iFace => match vget faces iFace with Ok f => face_A st c f (f2c0 f =? i)%Z l q | _ => 0 end)).
        rewrite Rplus_assoc. f_equal. f_equal. unfold face_A. reflexivity. }
    intros x. destruct (own_values st cells f i c (maxOrder st) x HS HP Sf HC SC (proj2 HS)) as [D [ED HD]]. rewrite <- ndof_rows in ED, HD by auto.
    rewrite ED. cbn [bind].
    destruct (functional st f (maxOrder st) D D HS KS (proj2 HS)) as [F [EF HF']]. rewrite <- ndof_rows in EF, HF' by auto.
    exists F. split; auto. intros l q [Hl Hq]. apply HF'; auto.
Qed.
