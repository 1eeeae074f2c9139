From Coq Require Import List ZArith QArith Bool Arith Permutation Lia.
From Verif Require Import Base.Prelude Base.PreludeFacts Base.MPIModel Geom.ElemModel Geom.AdjModel Geom.BoundaryModel Geom.PeriodicModel Geom.PeriodicSpec Geom.VtkModel Geom.VtkSpec Geom.VtkPut Geom.VtkFlags Geom.VtkNumber Geom.VtkRecreate Geom.VtkFile Geom.VtkGrid.
Import ListNotations.
Local Open Scope Z_scope.

(** ** The library's own periods *)
Lemma vat_ok A (l : list A) i : 0 <= i < zlen l -> exists x, vat l i = Ok x.
Proof.
  intros H. unfold vat. destruct (nth_error_lt_Some _ l (Z.to_nat i)) as [x Hx]; [unfold zlen in *; lia|].
  destruct (Z.ltb_spec i 0); [lia|]. rewrite Hx. eauto.
Qed.
Lemma trans_ok p c id : well_formed 3 p -> In id [BC_ID_PERIODIC_1; BC_ID_PERIODIC_2; BC_ID_PERIODIC_3] -> exists y, TransCoord p c id = Ok y.
Proof.
  intros (L1 & L2 & L3 & _) I. unfold TransCoord.
  assert (E : exists i, period_index id = Ok i /\ 0 <= i < 4). { cbn in I. destruct I as [<-|[<-|[<-|[]]]]; [exists 1|exists 2|exists 3]; (split; [reflexivity|lia]). }
  destruct E as (i & -> & Hi). cbn [bind].
  destruct (vat_ok _ (rotation p) i) as [Q ->]; [unfold zlen; lia|]. destruct (vat_ok _ (rotationCenter p) i) as [o ->]; [unfold zlen; lia|].
  destruct (vat_ok _ (translation p) i) as [t ->]; [unfold zlen; lia|]. cbn [bind]. eauto.
Qed.
Lemma library_can_turn p : well_formed 3 p -> can_turn (GetCoordByBits p).
Proof.
  intros W x b _. unfold GetCoordByBits. destruct (b =? 0); eauto.
  assert (T : forall (c : bool) id v, In id [BC_ID_PERIODIC_1; BC_ID_PERIODIC_2; BC_ID_PERIODIC_3] -> exists y, (if c then TransCoord p v id else Ok v) = Ok y).
  { intros c id v I. destruct c; eauto. apply trans_ok; auto. }
  destruct (T (getP3 b) BC_ID_PERIODIC_3 x) as [y ->]; [cbn; auto|]. cbn [bind].
  destruct (T (getP2 b) BC_ID_PERIODIC_2 y) as [z ->]; [cbn; auto|]. cbn [bind]. apply T. cbn; auto.
Qed.

(** ** No two nodes of a cell are at the same place *)
Lemma same_trans a b c : same_point a c -> same_point b c -> same_pointb a b = true.
Proof.
  destruct a as [[x y] z], b as [[u v] w], c as [[p q] r]. cbn. intros (A1 & A2 & A3) (B1 & B2 & B3).
  rewrite !andb_true_iff, !Qeq_bool_iff. rewrite A1, A2, A3, B1, B2, B3. repeat split; reflexivity.
Qed.
Definition distinct (t : ElemType) : bool :=
  let ps := map (to_unit t) (GetStandardCoord t) in
  forallb (fun q => forallb (fun q' => implb (same_pointb (snd q) (snd q')) (Nat.eqb (fst q) (fst q'))) (combine (seq 0 (length ps)) ps)) (combine (seq 0 (length ps)) ps).
Lemma distinct_all t : distinct t = true.
Proof. destruct t; vm_compute; reflexivity. Qed.
Lemma belongs_unique t n n' ty k : belongs t n ty k -> belongs t n' ty k -> n = n'.
Proof.
  intros (a & s & ps & b & A1 & A2 & A3 & A4 & A5) (a' & s' & ps' & b' & B1 & B2 & B3 & B4 & B5).
  assert (ps' = ps) by congruence. subst ps'. assert (b' = b) by congruence. subst b'.
  pose proof (same_trans _ _ _ A5 B5) as S. pose proof (distinct_all t) as D. unfold distinct in D.
  set (us := map (to_unit t) (GetStandardCoord t)) in *.
  assert (I : forall i x, nth_error (GetStandardCoord t) i = Some x -> In (i, to_unit t x) (combine (seq 0 (length us)) us)).
  { intros i x H. assert (U : nth_error us i = Some (to_unit t x)) by (apply map_nth_error; exact H).
    apply nth_error_In with i. apply nth_combine_eq; auto. rewrite nth_error_seq, (proj2 (Nat.ltb_lt _ _)); auto. eapply in_nth; eauto. }
  rewrite forallb_forall in D. specialize (D _ (I _ _ A1)). rewrite forallb_forall in D. specialize (D _ (I _ _ B1)). cbn [fst snd] in D.
  rewrite S in D. cbn in D. apply Nat.eqb_eq in D. auto.
Qed.
Definition complete (t : ElemType) : Prop := In t [Line2; Line3; Tri3; Tri6; Quad4; Tet4; Tet10; Hex8; Prism6; Pyramid5].
Definition completeb (t : ElemType) : bool :=
  match vtk_row t with
  | Ok (ty, ns) => forallb (fun n => existsb (Z.eqb (Z.of_nat n)) ns) (seq 0 (GetNumNodes t))
  | _ => false
  end.
Lemma complete_ok t : complete t -> forall ty ns, vtk_row t = Ok (ty, ns) -> forall n, (n < GetNumNodes t)%nat -> exists k, nth_error ns k = Some (Z.of_nat n).
Proof.
  intros C ty ns E n H. assert (B : completeb t = true). { cbn in C. decompose [or] C; try subst t; try reflexivity; contradiction. }
  unfold completeb in B. rewrite E in B. rewrite forallb_forall in B. specialize (B n). rewrite in_seq in B. specialize (B ltac:(lia)).
  apply existsb_exists in B as (z & Z1 & Z2). apply Z.eqb_eq in Z2. subst z. apply In_nth_error in Z1. auto.
Qed.

Section Picture.
Variable P : Type.
Variable turn : P -> Z -> res P.
Implicit Types m : list (part P).

Lemma node_number_fun m r l g g' : node_number m r l g -> node_number m r l g' -> g = g'.
Proof.
  intros (p & Hp & A) (q & Hq & B). assert (q = p) by congruence. subst q.
  destruct A as [[A1 A2]|[A1 A2]], B as [[B1 B2]|[B1 B2]]; try lia; congruence.
Qed.
Lemma corner_fun m per r c n g b g' b' : has_corner m per r c n g b -> has_corner m per r c n g' b' -> g = g' /\ b = b'.
Proof.
  intros (l & L1 & L2 & L3) (l' & M1 & M2 & M3). assert (l' = l) by congruence. subst l'. split; [eapply node_number_fun; eauto|].
  destruct per; congruence.
Qed.

Lemma all_drawn m per keys f : picture turn m per keys f -> forall r j c, cell_of m r j c -> complete (c_type c) ->
  forall n g b, has_corner m per r c n g b -> (n < GetNumNodes (c_type c))%nat ->
  exists ty ids id, file_cell f (cells_before m r + j) ty ids /\ In id ids /\ nth_error keys (Z.to_nat id) = Some (g, b).
Proof.
  intros F r j c Hc C n g b Hn Ln. destruct (pic_cells _ _ _ _ _ _ F _ _ _ Hc) as (ty & ids & s & ps & F0 & F1 & F2 & F3 & F4 & F5).
  assert (T : c_type c <> UnknownElem). { intros Q. rewrite Q in C. cbn in C. decompose [or] C; try discriminate; contradiction. }
  destruct (table_ok _ T) as (ty' & ns & s' & ps' & E1 & E0 & E2 & E3 & E4 & R). assert (ty' = ty) by congruence. subst ty'.
  assert (ps' = ps) by congruence. subst ps'. exists ty, ids.
  destruct (complete_ok _ C _ _ E1 n Ln) as [k K]. pose proof (proj2 (R _ _ K)) as Bk. rewrite Nat2Z.id in Bk.
  destruct (nth_error_lt_Some _ ids k) as [id Hid]; [apply in_nth in K; lia|]. exists id. split; auto. split; [eapply nth_error_In; eauto|].
  destruct (F5 _ _ Hid) as (n' & g' & b' & G1 & G2 & G3 & G4). assert (n' = n) by (eapply belongs_unique; eauto). subst n'.
  destruct (corner_fun _ _ _ _ _ _ _ _ _ Hn G2) as [-> ->]. auto.
Qed.

Lemma drawn_place m per keys f : picture turn m per keys f -> forall r j c, cell_of m r j c ->
  exists ty ids, vtk_type (c_type c) = Some ty /\ file_cell f (cells_before m r + j) ty ids /\
    forall k id, nth_error ids k = Some id -> exists n g b y,
      belongs (c_type c) n ty k /\ has_corner m per r c n g b /\ place turn m g b y /\ point_at f id y.
Proof.
  intros F r j c Hc. destruct (pic_cells _ _ _ _ _ _ F _ _ _ Hc) as (ty & ids & s & ps & F0 & F1 & F2 & F3 & F4 & F5).
  exists ty, ids. split; auto. split; auto. intros k id Hk. destruct (F5 _ _ Hk) as (n & g & b & G1 & G2 & G3 & G4).
  destruct (pic_points _ _ _ _ _ _ F _ _ _ G4) as (y & Y1 & Y2). exists n, g, b, y. rewrite Z2Nat.id in Y1 by auto. auto.
Qed.

Lemma shared m per keys f : picture turn m per keys f -> forall r j c r' j' c' ty ids ty' ids' k k' id id' n g b n' g' b',
  cell_of m r j c -> cell_of m r' j' c' ->
  file_cell f (cells_before m r + j) ty ids -> file_cell f (cells_before m r' + j') ty' ids' ->
  nth_error ids k = Some id -> nth_error ids' k' = Some id' ->
  belongs (c_type c) n ty k -> belongs (c_type c') n' ty' k' ->
  has_corner m per r c n g b -> has_corner m per r' c' n' g' b' ->
  (id = id' <-> g = g' /\ b = b').
Proof.
  intros F r j c r' j' c' ty ids ty' ids' k k' id id' n g b n' g' b' C C' FC FC' N N' B B' H H'.
  assert (ONE : forall r j c ty ids k id n g b, cell_of m r j c -> file_cell f (cells_before m r + j) ty ids -> nth_error ids k = Some id -> belongs (c_type c) n ty k ->
    has_corner m per r c n g b -> 0 <= id /\ nth_error keys (Z.to_nat id) = Some (g, b)).
  { clear -F. intros r j c ty ids k id n g b C FC N B H. destruct (pic_cells _ _ _ _ _ _ F _ _ _ C) as (ty1 & ids1 & s & ps & F0 & F1 & F2 & F3 & F4 & F5).
    assert (E : ty1 = ty /\ ids1 = ids).
    { destruct FC as (A1 & a & a' & A2 & A3 & A4 & A5 & A6), F1 as (D1 & d & d' & D2 & D3 & D4 & D5 & D6). assert (a = d /\ a' = d') as [-> ->] by (split; congruence).
      split; [congruence|]. rewrite A5 in D5. apply (f_equal (map (fun o => match o with Some x => x | None => 0 end))) in D5. rewrite !map_map, !map_id in D5. auto. }
    destruct E as [-> ->]. destruct (F5 _ _ N) as (n1 & g1 & b1 & G1 & G2 & G3 & G4). assert (n1 = n) by (eapply belongs_unique; eauto). subst n1.
    destruct (corner_fun _ _ _ _ _ _ _ _ _ H G2) as [-> ->]. auto. }
  destruct (ONE _ _ _ _ _ _ _ _ _ _ C FC N B H) as [P1 P2]. destruct (ONE _ _ _ _ _ _ _ _ _ _ C' FC' N' B' H') as [Q1 Q2]. split.
  - intros ->. rewrite P2 in Q2. injection Q2 as -> ->. auto.
  - intros [-> ->]. assert (E : Z.to_nat id = Z.to_nat id'); [|lia]. eapply (proj1 (NoDup_nth_error keys) (pic_once _ _ _ _ _ _ F)); [eapply in_nth; eauto|congruence].
Qed.
End Picture.
