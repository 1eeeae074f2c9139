From Coq Require Import List ZArith Bool Lia Permutation.
From Verif Require Import Base.Prelude Base.PreludeFacts Base.MPIModel Base.MPIFacts
  Geom.RcmModel Geom.RcmSpec.
Import ListNotations.
Local Open Scope Z_scope.

(** ** The graph check *)

Definition dir_from (a : nat) (g : graph) : list (Z * Z) :=
  concat (map (fun ia => map (fun j => (fst ia, j))
                           (filter (fun j => negb (fst ia =? j)) (snd ia)))
            (combine (map Z.of_nat (seq a (length g))) g)).

Lemma directed_dir g : directed_of g = dir_from 0 g.
Proof. reflexivity. Qed.

Lemma edge_eqb_spec a b : reflect (a = b) (edge_eqb a b).
Proof.
  unfold edge_eqb. destruct a as [a1 a2], b as [b1 b2]; cbn [fst snd].
  destruct (Z.eqb_spec a1 b1), (Z.eqb_spec a2 b2); constructor; congruence.
Qed.

Lemma ecount_app e l m : ecount e (l ++ m) = (ecount e l + ecount e m)%nat.
Proof. unfold ecount. rewrite filter_app, app_length. reflexivity. Qed.

Lemma ecount_row i j a x :
  ecount (i, j) (map (fun y => (a, y)) (filter (fun y => negb (a =? y)) x)) =
  if (i =? a) && negb (i =? j) then count_occ Z.eq_dec x j else 0%nat.
Proof.
  induction x as [|y x IH]; cbn [filter map].
  - destruct (_ && _); reflexivity.
  - unfold ecount in *.
    destruct (Z.eqb_spec a y) as [E|E]; cbn [negb map filter].
    + rewrite IH. subst y. cbn [count_occ].
      destruct (Z.eqb_spec i a); cbn [andb]; auto.
      destruct (Z.eqb_spec i j); cbn [negb]; auto.
      destruct (Z.eq_dec a j); [congruence|auto].
    + destruct (edge_eqb_spec (i, j) (a, y)) as [Q|Q]; cbn [length]; rewrite IH; cbn [count_occ].
      * injection Q as -> ->. rewrite Z.eqb_refl.
        destruct (Z.eqb_spec a y); [congruence|]. cbn [negb andb].
        destruct (Z.eq_dec y y); congruence.
      * destruct (Z.eqb_spec i a); cbn [andb]; auto.
        destruct (Z.eqb_spec i j); cbn [negb]; auto.
        destruct (Z.eq_dec y j); [congruence|auto].
Qed.

Lemma ecount_dir i j g : forall a,
  ecount (i, j) (dir_from a g) =
  if (Z.of_nat a <=? i) && (i <? Z.of_nat a + zlen g) && negb (i =? j)
  then count_occ Z.eq_dec (nth (Z.to_nat i - a) g []) j else 0%nat.
Proof.
  induction g as [|x g IH]; intros a.
  - unfold zlen. cbn [length]. change (dir_from a []) with (@nil (Z * Z)).
    destruct (Z.leb_spec (Z.of_nat a) i), (Z.ltb_spec i (Z.of_nat a + Z.of_nat 0)); cbn [andb]; auto; lia.
  - change (dir_from a (x :: g)) with
      (map (fun y => (Z.of_nat a, y)) (filter (fun y => negb (Z.of_nat a =? y)) x)
        ++ dir_from (S a) g).
    rewrite ecount_app, ecount_row, IH. unfold zlen. cbn [length].
    destruct (Z.eqb_spec i (Z.of_nat a)) as [E|E].
    + subst i. rewrite Nat2Z.id, Nat.sub_diag.
      replace (Z.of_nat (S a) <=? Z.of_nat a) with false by (symmetry; apply Z.leb_gt; lia).
      replace (Z.of_nat a <=? Z.of_nat a) with true by (symmetry; apply Z.leb_le; lia).
      rewrite (proj2 (Z.ltb_lt (Z.of_nat a) (Z.of_nat a + Z.of_nat (S (length g))))) by lia.
      cbn [andb nth]. rewrite Nat.add_0_r. reflexivity.
    + cbn [andb]. rewrite Nat.add_0_l.
      destruct (Z.leb_spec (Z.of_nat a) i), (Z.leb_spec (Z.of_nat (S a)) i); try lia; cbn [andb]; auto.
      replace (i <? Z.of_nat (S a) + Z.of_nat (length g)) with (i <? Z.of_nat a + Z.of_nat (S (length g)))
        by (f_equal; lia).
      replace (Z.to_nat i - a)%nat with (S (Z.to_nat i - S a)) by lia. reflexivity.
Qed.

Definition vertexb (g : graph) (i : Z) : bool := (0 <=? i) && (i <? zlen g).
Lemma vertexb_spec g i : vertexb g i = true <-> vertex g i.
Proof. unfold vertexb, vertex. rewrite andb_true_iff, Z.leb_le, Z.ltb_lt. tauto. Qed.

Lemma ecount_directed i j g :
  ecount (i, j) (directed_of g) =
  if vertexb g i && negb (i =? j) then count_occ Z.eq_dec (adj g i) j else 0%nat.
Proof.
  rewrite directed_dir, ecount_dir. unfold vertexb, adj.
  change (Z.of_nat 0) with 0. rewrite Z.add_0_l, Nat.sub_0_r. reflexivity.
Qed.

Definition sym (e : Z * Z) : Z * Z := (Z.min (snd e) (fst e), Z.max (snd e) (fst e)).

Lemma edges_sym g : edges_of g = map sym (directed_of g).
Proof.
  unfold edges_of, directed_of. rewrite concat_map, map_map. f_equal. apply map_ext.
  intros [i a]. rewrite map_map. reflexivity.
Qed.

Lemma ecount_sym k l d : k < l -> (forall e, In e d -> fst e <> snd e) ->
  ecount (k, l) (map sym d) = (ecount (k, l) d + ecount (l, k) d)%nat.
Proof.
  intros H. unfold ecount. induction d as [|[i j] d IH]; intros N; cbn [map filter]; auto.
  assert (i <> j) by (apply (N (i, j)); left; auto).
  specialize (IH ltac:(intros; apply N; right; auto)).
  unfold sym at 1. cbn [fst snd].
  destruct (edge_eqb_spec (k, l) (Z.min j i, Z.max j i)) as [E|E];
  destruct (edge_eqb_spec (k, l) (i, j)) as [E1|E1];
  destruct (edge_eqb_spec (l, k) (i, j)) as [E2|E2]; cbn [length]; rewrite ?IH; try lia;
  exfalso; repeat match goal with H : (_, _) = (_, _) |- _ => injection H as ? ? end; subst; try lia.
  - apply E1. f_equal; destruct (Z.le_gt_cases j i); rewrite ?Z.min_l, ?Z.max_r, ?Z.min_r, ?Z.max_l by lia; try lia; exfalso; apply E2; f_equal; lia.
  - apply E. f_equal; lia.
  - apply E. f_equal; lia.
Qed.

Lemma in_ecount e l : In e l <-> (0 < ecount e l)%nat.
Proof.
  unfold ecount. split.
  - intros I. destruct (filter (edge_eqb e) l) as [|x t] eqn:E; cbn; [|lia].
    assert (Q : In e (filter (edge_eqb e) l)).
    { apply filter_In. split; auto. destruct (edge_eqb_spec e e); congruence. }
    rewrite E in Q. destruct Q.
  - intros H. destruct (filter (edge_eqb e) l) as [|x t] eqn:E; cbn in H; [lia|].
    assert (Q : In x (filter (edge_eqb e) l)) by (rewrite E; left; auto).
    apply filter_In in Q as [Q1 Q2]. destruct (edge_eqb_spec e x); congruence.
Qed.

Lemma in_directed i j g : In (i, j) (directed_of g) <-> vertex g i /\ i <> j /\ In j (adj g i).
Proof.
  rewrite in_ecount, ecount_directed. rewrite (count_occ_In Z.eq_dec).
  destruct (vertexb g i) eqn:V; cbn [andb].
  - apply vertexb_spec in V. destruct (Z.eqb_spec i j); cbn [negb].
    + split; [lia|tauto].
    + unfold gt. tauto.
  - split; [lia|]. intros (V' & _). apply vertexb_spec in V'. congruence.
Qed.

Lemma check_exact g : CheckAdj true true g = Ok 0 <-> symmetric_simple g.
Proof.
  unfold CheckAdj. cbn [negb orb].
  assert (NL : forall e, In e (directed_of g) -> fst e <> snd e).
  { intros [i j] I. apply in_directed in I. cbn. tauto. }
  assert (D : forall i j, vertex g i -> i <> j ->
     ecount (i, j) (directed_of g) = count_occ Z.eq_dec (adj g i) j).
  { intros i j V N. rewrite ecount_directed. apply vertexb_spec in V. rewrite V.
    destruct (Z.eqb_spec i j); [congruence|]. reflexivity. }
  split.
  - destruct (forallb _ (directed_of g)) eqn:F1; cbn [assert_ bind]; [|discriminate].
    destruct (forallb _ (edges_of g)) eqn:F2; cbn [assert_ bind]; [|discriminate].
    intros _ i j V I N. rewrite forallb_forall in F1, F2.
    assert (Id : In (i, j) (directed_of g)) by (apply in_directed; auto).
    pose proof (F1 _ Id) as C1. apply Nat.eqb_eq in C1. rewrite D in C1 by auto.
    assert (Ie : In (sym (i, j)) (edges_of g)) by (rewrite edges_sym; apply in_map; auto).
    pose proof (F2 _ Ie) as C2. apply Nat.eqb_eq in C2. rewrite edges_sym in C2.
    unfold sym in C2. cbn [fst snd] in C2. rewrite ecount_sym in C2; auto; [|lia].
    assert (R : ecount (j, i) (directed_of g) = 1%nat).
    { destruct (Z.lt_trichotomy i j) as [L|[L|L]]; [|congruence|].
      - rewrite Z.min_r, Z.max_l in C2 by lia. rewrite (D i j) in C2 by auto. lia.
      - rewrite Z.min_l, Z.max_r in C2 by lia. rewrite (D i j) in C2 by auto. lia. }
    assert (Ij : In (j, i) (directed_of g)) by (apply in_ecount; lia).
    apply in_directed in Ij. tauto.
  - intros G.
    replace (forallb _ (directed_of g)) with true.
    2:{ symmetry. apply forallb_forall. intros [i j] I. apply Nat.eqb_eq.
        apply in_directed in I as (V & N & I). rewrite D by auto. apply G; auto. }
    replace (forallb _ (edges_of g)) with true; auto.
    symmetry. apply forallb_forall. intros e I. apply Nat.eqb_eq.
    rewrite edges_sym in *. apply in_map_iff in I as ([i j] & <- & I).
    apply in_directed in I as (V & N & I). destruct (G i j V I N) as (Vj & Ij & C).
    destruct (G j i Vj Ij ltac:(congruence)) as (_ & _ & C').
    unfold sym. cbn [fst snd]. rewrite ecount_sym; auto; [|lia].
    destruct (Z.lt_trichotomy i j) as [L|[L|L]]; [|congruence|].
    + rewrite Z.min_r, Z.max_l by lia. rewrite (D i j), (D j i) by auto. lia.
    + rewrite Z.min_l, Z.max_r by lia. rewrite (D i j), (D j i) by auto. lia.
Qed.

(** The check raises on all other graphs: it has no other outcome. *)
Lemma check_total p s g : CheckAdj p s g = Ok 0 \/ CheckAdj p s g = Abort.
Proof.
  unfold CheckAdj. destruct (negb p || _); cbn [assert_ bind]; auto.
  destruct (negb s || _); cbn [assert_ bind]; auto.
Qed.

(** ** Breadth-first search *)

Definition lay (layer : list Z) (j : Z) : Z := nth (Z.to_nat j) layer (-1).

Lemma vat_in {A} (l : list A) i d : 0 <= i < zlen l -> vat l i = Ok (nth (Z.to_nat i) l d).
Proof.
  intros H. unfold vat. destruct (Z.ltb_spec i 0); [lia|].
  rewrite (nth_error_nth' l d); auto. unfold zlen in H. lia.
Qed.

Lemma vat_set_in {A} (l : list A) i x : 0 <= i < zlen l -> vat_set l i x = Ok (upd (Z.to_nat i) x l).
Proof.
  intros H. unfold vat_set. destruct (Z.leb_spec 0 i); [|lia]. destruct (Z.ltb_spec i (zlen l)); [|lia].
  reflexivity.
Qed.

Lemma zlen_upd {A} n (x : A) l : zlen (upd n x l) = zlen l.
Proof. unfold zlen. rewrite upd_length. reflexivity. Qed.

Lemma nth_upd {A} (l : list A) : forall n m x d,
  nth m (upd n x l) d = if (Nat.eqb n m && (m <? length l)%nat)%bool then x else nth m l d.
Proof.
  induction l as [|a l IH]; intros [|n] [|m] x d; cbn [upd nth length Nat.eqb andb]; auto.
  - rewrite andb_false_r. auto.
  - rewrite IH. reflexivity.
Qed.

Lemma lay_upd layer j x k : 0 <= j < zlen layer -> 0 <= k ->
  lay (upd (Z.to_nat j) x layer) k = if j =? k then x else lay layer k.
Proof.
  intros Hj Hk. unfold lay. rewrite nth_upd.
  destruct (Z.eqb_spec j k) as [E|E].
  - subst k. rewrite Nat.eqb_refl. replace (Z.to_nat j <? length layer)%nat with true; auto.
    symmetry. apply Nat.ltb_lt. unfold zlen in Hj. lia.
  - destruct (Nat.eqb_spec (Z.to_nat j) (Z.to_nat k)); [lia|]. reflexivity.
Qed.

Lemma NoDup_app_iff {A} (l m : list A) :
  NoDup (l ++ m) <-> NoDup l /\ NoDup m /\ (forall x, In x l -> ~ In x m).
Proof.
  induction l as [|a l IH]; cbn [app].
  - split; [intros; repeat split; auto; constructor|tauto].
  - split.
    + intros H. apply NoDup_cons_iff in H as [N H']. apply IH in H' as (Ha & Hb & Hc).
      rewrite in_app_iff in N. split; [constructor; tauto|]. split; auto.
      intros y [<-|I]; [tauto|auto].
    + intros (H1 & H2 & H3). apply NoDup_cons_iff in H1 as [Na H1]. constructor.
      * rewrite in_app_iff. intros [I|I]; [tauto|]. apply (H3 a); auto. left; auto.
      * apply IH. repeat split; auto. intros y I. apply H3. right; auto.
Qed.

Section Push.
  Variable L : Z.
  Hypothesis HL : 0 <= L.

  Lemma push_ok a : forall layer new,
    Forall (fun j => 0 <= j < zlen layer) a ->
    exists layer' add, foldM (push_next L) (layer, new) a = Ok (layer', new ++ add) /\
      zlen layer' = zlen layer /\ NoDup add /\
      (forall j, In j add -> In j a /\ lay layer j = -1) /\
      (forall j, 0 <= j -> lay layer' j = if in_dec Z.eq_dec j add then L + 1 else lay layer j) /\
      (forall j, In j a -> lay layer' j <> -1).
  Proof.
    induction a as [|j a IH]; intros layer new F; cbn [foldM].
    - exists layer, []. rewrite app_nil_r. repeat split; auto; try constructor; contradiction.
    - apply Forall_cons_iff in F as [Fj F].
      unfold push_next at 1. rewrite (vat_in layer j (-1)) by auto. cbn [bind].
      change (nth (Z.to_nat j) layer (-1)) with (lay layer j).
      destruct (Z.eqb_spec (lay layer j) (-1)) as [E|E].
      + rewrite vat_set_in by auto. cbn [bind].
        destruct (IH (upd (Z.to_nat j) (L + 1) layer) (new ++ [j])) as (layer' & add & H1 & H2 & H3 & H4 & H5 & H6).
        { rewrite zlen_upd. auto. }
        rewrite zlen_upd in H2.
        assert (Nj : ~ In j add).
        { intros I. apply H4 in I as [_ I]. rewrite lay_upd, Z.eqb_refl in I by lia. lia. }
        exists layer', (j :: add). rewrite H1, <- app_assoc. split; [auto|]. split; [auto|].
        split; [constructor; auto|]. split; [|split].
        * intros k [<-|I]; [split; [left|]; auto|].
          destruct (H4 k I) as [Ia Il]. split; [right; auto|].
          rewrite lay_upd in Il; [|lia|]. 2:{ rewrite Forall_forall in F. apply F in Ia. lia. }
          destruct (Z.eqb_spec j k); [congruence|auto].
        * intros k Hk. rewrite H5, lay_upd by lia.
          destruct (in_dec Z.eq_dec k add), (in_dec Z.eq_dec k (j :: add)) as [I|I]; auto.
          -- exfalso. apply I. right; auto.
          -- destruct I as [->|I]; [|tauto]. rewrite Z.eqb_refl. auto.
          -- destruct (Z.eqb_spec j k); auto. exfalso. apply I. left; auto.
        * intros k [<-|I]; [|auto]. rewrite H5, lay_upd, Z.eqb_refl by lia.
          destruct (in_dec _ _ _); lia.
      + destruct (IH layer new F) as (layer' & add & H1 & H2 & H3 & H4 & H5 & H6).
        exists layer', add. split; [auto|]. split; [auto|]. split; [auto|]. split; [|split; [auto|]].
        * intros k I. destruct (H4 k I). split; [right|]; auto.
        * intros k [<-|I]; [|auto]. rewrite H5 by lia. destruct (in_dec _ _ _); [lia|auto].
  Qed.
End Push.

Section Bfs.
  Context {St : Type}.
  Variable g : graph.
  Variable root : Z.
  Hypothesis InRange : forall i j, vertex g i -> In j (adj g i) -> vertex g j.
  Hypothesis Root : vertex g root.
  Variable fnode : St -> Z -> Z -> res St.
  Variable inlayer : St -> list Z -> list Z -> res (list Z).
  (** [P s done]: the state after visiting [done], in this order. *)
  Variable P : St -> list Z -> Prop.
  Hypothesis Fnode : forall s done i l, P s done -> vertex g i -> ~ In i done -> reach g root i ->
    exists s', fnode s i l = Ok s' /\ P s' (done ++ [i]).
  Hypothesis Inlayer : forall s done layer new, P s done -> zlen layer = zlen g ->
    Forall (vertex g) new -> exists new', inlayer s layer new = Ok new' /\ Permutation new new'.

  (** The invariant: [all] are the vertices with a layer, of which [done] have
      been visited. *)
  Record inv (L : Z) (layer done rest next : list Z) (s : St) : Prop := {
    i_len : zlen layer = zlen g;
    i_nd : NoDup (done ++ rest ++ next);
    i_vert : forall j, In j (done ++ rest ++ next) -> vertex g j;
    i_iff : forall j, vertex g j -> (lay layer j <> -1 <-> In j (done ++ rest ++ next));
    i_walk : forall j, In j (done ++ rest ++ next) ->
      0 <= lay layer j <= L + 1 /\ walk g root (Z.to_nat (lay layer j)) j;
    i_rest : forall j, In j rest -> lay layer j = L;
    i_next : forall j, In j next -> lay layer j = L + 1;
    i_done : forall i j, In i done -> In j (adj g i) ->
      In j (done ++ rest ++ next) /\ lay layer j <= lay layer i + 1;
    i_root : In root (done ++ rest ++ next) /\ lay layer root = 0;
    i_P : P s done }.

  Lemma visit_ok L layer done i rest next s : 0 <= L ->
    inv L layer done (i :: rest) next s ->
    exists layer' next' s',
      visit fnode inlayer g L ((layer, next), s) i = Ok ((layer', next'), s') /\
      inv L layer' (done ++ [i]) rest next' s'.
  Proof.
    intros HL I. destruct I as [Ilen Ind Iv Iiff Iw Ir In_ Id Iroot IP].
    assert (Vi : vertex g i) by (apply Iv; apply in_app_iff; right; left; auto).
    assert (Ii : In i (done ++ (i :: rest) ++ next)) by (apply in_app_iff; right; left; auto).
    assert (Ni : ~ In i done).
    { apply NoDup_app_iff in Ind as (_ & _ & Q). intros X. apply (Q i X). left; auto. }
    assert (Li : lay layer i = L) by (apply Ir; left; auto).
    unfold visit.
    destruct (Fnode s done i L IP Vi Ni) as (s' & -> & IP').
    { exists (Z.to_nat (lay layer i)). apply Iw; auto. }
    cbn [bind]. unfold graph in *. rewrite (vat_in g i []) by exact Vi. cbn [bind].
    change (nth (Z.to_nat i) g []) with (adj g i).
    assert (Fa : Forall (fun j => 0 <= j < zlen layer) (adj g i)).
    { apply Forall_forall. intros j J. rewrite Ilen. apply (InRange i j); auto. }
    destruct (push_ok L HL (adj g i) layer [] Fa) as (layer' & add & -> & H2 & H3 & H4 & H5 & H6).
    cbn [bind app].
    assert (Fv : Forall (vertex g) add).
    { apply Forall_forall. intros j J. apply H4 in J as [J _]. apply (InRange i j); auto. }
    destruct (Inlayer s' (done ++ [i]) layer' add IP' ltac:(congruence) Fv) as (add' & -> & Pm).
    cbn [bind]. exists layer', (next ++ add'), s'. split; auto.
    assert (Old : forall j, In j (done ++ (i :: rest) ++ next) -> vertex g j /\ ~ In j add /\ lay layer' j = lay layer j).
    { intros j J. pose proof (Iv j J) as V. pose proof (proj2 (Iiff j V) J) as N.
      assert (Na : ~ In j add) by (intros X; apply H4 in X as [_ X]; congruence).
      split; auto. split; auto. rewrite H5 by (unfold vertex in V; lia).
      destruct (in_dec _ _ _); [tauto|auto]. }
    assert (New : forall j, In j add -> vertex g j /\ lay layer' j = L + 1 /\ In j (adj g i)).
    { intros j J. rewrite Forall_forall in Fv. pose proof (Fv j J) as V. split; auto. split.
      - rewrite H5 by (unfold vertex in V; lia). destruct (in_dec _ _ _); [auto|tauto].
      - apply H4; auto. }
    assert (Mem : forall j, In j ((done ++ [i]) ++ rest ++ next ++ add') <->
       In j (done ++ (i :: rest) ++ next) \/ In j add).
    { intros j. assert (X : In j add' <-> In j add).
      { split; apply Permutation_in; auto. symmetry; auto. }
      rewrite !in_app_iff. cbn [In]. rewrite X. tauto. }
    constructor.
    - congruence.
    - replace ((done ++ [i]) ++ rest ++ next ++ add') with ((done ++ (i :: rest) ++ next) ++ add')
        by (rewrite <- !app_assoc; cbn [app]; rewrite <- ?app_assoc; reflexivity).
      apply NoDup_app_iff. split; auto. split; [eapply Permutation_NoDup; eauto|].
      intros j J X. apply Old in J as (_ & J & _). apply J.
      eapply Permutation_in; [symmetry; eauto|auto].
    - intros j J. apply Mem in J as [J|J]; [apply Old in J|apply New in J]; tauto.
    - intros j V. rewrite Mem. rewrite H5 by (unfold vertex in V; lia).
      destruct (in_dec Z.eq_dec j add) as [X|X].
      + split; [tauto|]. intros _. lia.
      + rewrite (Iiff j V). tauto.
    - intros j J. apply Mem in J as [J|J].
      + destruct (Old j J) as (_ & _ & ->). apply Iw; auto.
      + destruct (New j J) as (_ & -> & A). split; [lia|].
        replace (Z.to_nat (L + 1)) with (S (Z.to_nat L)) by lia.
        apply walk_step with i; auto. destruct (Iw i Ii) as [_ W]. rewrite Li in W. auto.
    - intros j J. assert (In j (done ++ (i :: rest) ++ next)) as J'.
      { rewrite !in_app_iff. cbn [In]. tauto. }
      destruct (Old j J') as (_ & _ & ->). apply Ir. right; auto.
    - intros j J. apply in_app_iff in J as [J|J].
      + assert (In j (done ++ (i :: rest) ++ next)) as J' by (rewrite !in_app_iff; tauto).
        destruct (Old j J') as (_ & _ & ->). apply In_; auto.
      + apply New. eapply Permutation_in; [symmetry; eauto|auto].
    - intros k j K J. rewrite Mem. apply in_app_iff in K as [K|[<-|[]]].
      + destruct (Id k j K J) as [X Y]. split; [auto|].
        assert (In k (done ++ (i :: rest) ++ next)) as K' by (rewrite in_app_iff; tauto).
        destruct (Old j X) as (_ & _ & ->). destruct (Old k K') as (_ & _ & ->). auto.
      + assert (V : vertex g j) by (apply (InRange i j); auto).
        pose proof (H6 j J) as N. rewrite H5 in N by (unfold vertex in V; lia).
        destruct (Old i Ii) as (_ & _ & Q). rewrite Q, Li.
        destruct (in_dec Z.eq_dec j add) as [X|X].
        * split; auto. destruct (New j X) as (_ & -> & _). lia.
        * apply (Iiff j V) in N. split; auto. destruct (Old j N) as (_ & _ & ->). apply Iw; auto.
    - destruct Iroot as [R1 R2]. split; [apply Mem; auto|]. destruct (Old root R1) as (_ & _ & ->). auto.
    - auto.
  Qed.

  Lemma visits_ok L rest : 0 <= L -> forall layer done next s,
    inv L layer done rest next s ->
    exists layer' next' s',
      foldM (visit fnode inlayer g L) ((layer, next), s) rest = Ok ((layer', next'), s') /\
      inv L layer' (done ++ rest) [] next' s'.
  Proof.
    intros HL. induction rest as [|i rest IH]; intros layer done next s I; cbn [foldM].
    - exists layer, next, s. rewrite app_nil_r. auto.
    - destruct (visit_ok _ _ _ _ _ _ _ HL I) as (l1 & n1 & s1 & -> & I1). cbn [bind].
      destruct (IH _ _ _ _ I1) as (l2 & n2 & s2 & -> & I2).
      exists l2, n2, s2. split; auto. rewrite <- app_assoc in I2. exact I2.
  Qed.

  Lemma NoDup_vertices l : NoDup l -> (forall j, In j l -> vertex g j) -> zlen l <= zlen g.
  Proof.
    intros N V. assert (Le : (length l <= length (ranks (length g)))%nat).
    { apply NoDup_incl_length; auto. intros j J. apply V in J. unfold vertex, zlen in J.
      unfold ranks. apply in_map_iff. exists (Z.to_nat j). split; [lia|]. apply in_seq. lia. }
    rewrite ranks_length in Le. unfold zlen. lia.
  Qed.

  Lemma layers_ok k : forall L layer done cur s, 0 <= L ->
    inv L layer done cur [] s ->
    (* each earlier layer had at least one vertex *)
    L <= zlen done -> zlen g <= L + Z.of_nat k ->
    exists layer' s' done' L', layers fnode inlayer g k L layer cur s = Ok (layer', s') /\
      inv L' layer' done' [] [] s'.
  Proof.
    induction k as [|k IH]; intros L layer done cur s HL I Hd Hk; cbn [layers].
    - assert (cur = []) as ->.
      { destruct cur as [|c cur]; auto. exfalso.
        pose proof (NoDup_vertices _ (i_nd _ _ _ _ _ _ I) (i_vert _ _ _ _ _ _ I)) as Q.
        unfold zlen in *. rewrite !app_length in Q. cbn [length] in Q. lia. }
      exists layer, s, done, L. auto.
    - destruct cur as [|c cur]; [exists layer, s, done, L; auto|].
      destruct (visits_ok L (c :: cur) HL _ _ _ _ I) as (l1 & n1 & s1 & -> & I1). cbn [bind].
      destruct (IH (L + 1) l1 (done ++ c :: cur) n1 s1) as (l2 & s2 & d2 & L2 & E & I2).
      + lia.
      + destruct I1 as [Ilen Ind Iv Iiff Iw Ir In_ Id Iroot IP].
        cbn [app] in *. constructor; rewrite ?app_nil_r in *; auto.
        * intros j J. destruct (Iw j J). split; auto. lia.
        * intros j [].
      + unfold zlen in *. rewrite app_length. cbn [length]. lia.
      + lia.
      + exists l2, s2, d2, L2. auto.
  Qed.

  Lemma bfs_ok s : P s [] ->
    exists layer' s' done, bfs fnode inlayer g root s = Ok (layer', s') /\
      P s' done /\ NoDup done /\ (forall j, In j done <-> reach g root j) /\
      (forall j, In j done -> vertex g j) /\
      zlen layer' = zlen g /\
      (forall j d, vertex g j -> (lay layer' j = Z.of_nat d <->
          walk g root d j /\ forall d', walk g root d' j -> (d <= d')%nat)) /\
      (forall j, vertex g j -> (lay layer' j = -1 <-> ~ reach g root j)).
  Proof.
    intros Ps. unfold bfs. unfold vertex in Root.
    destruct (Z.leb_spec (nvert g) root) as [X|X]; [unfold nvert, graph in *; lia|].
    destruct (Z.ltb_spec root 0); [lia|]. cbn [orb].
    assert (Lr : zlen (repeat (-1) (length g)) = zlen g) by (unfold zlen; rewrite repeat_length; auto).
    rewrite vat_set_in by (rewrite Lr; auto). cbn [bind].
    assert (L0 : forall j, lay (repeat (-1) (length g)) j = -1).
    { intros j. unfold lay. destruct (nth_in_or_default (Z.to_nat j) (repeat (-1) (length g)) (-1)) as [I|I]; auto.
      apply repeat_spec in I. auto. }
    destruct (layers_ok (length g) 0 (upd (Z.to_nat root) 0 (repeat (-1) (length g))) [] [root] s)
      as (layer' & s' & done & L' & -> & I); try lia; try (unfold zlen; cbn; lia).
    - assert (R0 : lay (upd (Z.to_nat root) 0 (repeat (-1) (length g))) root = 0).
      { rewrite lay_upd, Z.eqb_refl by (rewrite ?Lr; lia). auto. }
      constructor; cbn [app].
      + rewrite zlen_upd. auto.
      + constructor; [intros []|constructor].
      + intros j [<-|[]]. exact Root.
      + intros j V. rewrite lay_upd by (rewrite ?Lr; unfold vertex in *; lia).
        destruct (Z.eqb_spec root j) as [E|E].
        * split; [intros _; left; auto|lia].
        * rewrite L0. split; [congruence|]. intros [?|[]]; congruence.
      + intros j [<-|[]]. rewrite R0. split; [lia|constructor].
      + intros j [<-|[]]. auto.
      + intros j [].
      + intros i j [].
      + split; [left; auto|auto].
      + auto.
    - destruct I as [Ilen Ind Iv Iiff Iw Ir In_ Id Iroot IP].
      rewrite !app_nil_r in *.
      assert (Wk : forall d j, walk g root d j -> In j done /\ lay layer' j <= Z.of_nat d).
      { intros d j W. induction W as [|d i j W IH J].
        - destruct Iroot as [R1 ->]. split; auto. lia.
        - destruct IH as [IHi IHl]. destruct (Id i j IHi J) as [D1 D2]. split; auto. lia. }
      assert (Rc : forall j, In j done <-> reach g root j).
      { intros j. split.
        - intros J. exists (Z.to_nat (lay layer' j)). apply Iw; auto.
        - intros [d W]. apply (Wk d j W). }
      exists layer', s', done. split; auto. split; auto. split; auto. split; auto.
      split; auto. split; auto. split.
      + intros j d V. split.
        * intros E. assert (J : In j done) by (apply Iiff; auto; lia).
          destruct (Iw j J) as [_ W]. rewrite E, Nat2Z.id in W. split; auto.
          intros d' W'. apply Wk in W' as [_ W']. lia.
        * intros [W Min]. destruct (Wk d j W) as [J Le]. destruct (Iw j J) as [B W'].
          apply Min in W'. lia.
      + intros j V. rewrite <- Rc, <- (Iiff j V). destruct (Z.eq_dec (lay layer' j) (-1)); tauto.
  Qed.
End Bfs.

(** ** The two searches of a part *)

Section Parts.
  Variable g : graph.
  Hypothesis Sym : symmetric_simple g.

  Lemma in_range i j : vertex g i -> In j (adj g i) -> vertex g j.
  Proof. intros V J. destruct (Z.eq_dec i j) as [<-|N]; auto. apply (Sym i j); auto. Qed.

  Lemma back i j : vertex g i -> In j (adj g i) -> In i (adj g j).
  Proof. intros V J. destruct (Z.eq_dec i j) as [<-|N]; auto. apply (Sym i j); auto. Qed.

  Lemma reach_vertex a b : vertex g a -> reach g a b -> vertex g b.
  Proof. intros V [d W]. induction W; eauto using in_range. Qed.

  Lemma vat_adj i : vertex g i -> vat g i = Ok (adj g i).
  Proof. intros V. apply (vat_in g i []). exact V. Qed.

  Lemma pick_ok root s (done : list Z) i l :
    vertex g i -> reach g root i ->
    reach g root (snd s) -> exists s', pick_root g s i l = Ok s' /\ reach g root (snd s').
  Proof.
    intros V R Rs. destruct s as [[deg ly] r]. cbn [snd] in Rs. unfold pick_root.
    unfold graph in *. rewrite (vat_adj i V).
    destruct (ly <? l); cbn [bind].
    - destruct (l =? l); [|eexists; split; eauto]. destruct (_ <? _); eexists; split; eauto.
    - destruct (l =? ly); [|eexists; split; eauto]. cbn [bind]. destruct (_ <? _); eexists; split; eauto.
  Qed.

  Lemma insert_perm x l : Permutation (x :: l) (insert_stable x l).
  Proof.
    induction l as [|y l IH]; cbn [insert_stable]; auto.
    destruct (key_lt _ _); auto. rewrite perm_swap. constructor. auto.
  Qed.

  Lemma sort_perm l : Permutation l (stable_sort l).
  Proof.
    unfold stable_sort. enough (G : forall acc, Permutation (l ++ acc)
      (fold_left (fun acc x => insert_stable x acc) l acc)).
    { specialize (G []). rewrite app_nil_r in G. auto. }
    induction l as [|x l IH]; intros acc; cbn [fold_left app]; auto.
    rewrite <- IH. rewrite <- insert_perm. apply Permutation_middle.
  Qed.

  Lemma key_ok s layer i : vertex g i -> zlen layer = zlen g -> zlen (c_fill s) = zlen g ->
    exists k, pred_key g s layer i = Ok k.
  Proof.
    intros V Ll Lf. unfold pred_key. unfold graph in *. rewrite (vat_adj i V). cbn [bind].
    assert (F : Forall (vertex g) (adj g i)).
    { apply Forall_forall. intros j J. eapply in_range; eauto. }
    generalize (nvert g) as m. induction F as [|j a Vj F IH]; intros m; cbn [foldM].
    - cbn [bind]. eauto.
    - rewrite (vat_in layer j (-1)) by (rewrite Ll; exact Vj). cbn [bind].
      destruct (0 <=? _); [rewrite (vat_in (c_fill s) j 0) by (rewrite Lf; exact Vj)|];
        cbn [bind];
        match goal with |- context [foldM ?f ?m' a] => destruct (IH m') as [k Hk] end;
        destruct (foldM _ _ a) in Hk |- *; cbn [bind] in *; try discriminate; eauto.
  Qed.

  Lemma by_pred_ok s layer new : zlen layer = zlen g -> zlen (c_fill s) = zlen g ->
    Forall (vertex g) new ->
    exists new', by_pred g s layer new = Ok new' /\ Permutation new new'.
  Proof.
    intros Ll Lf F. unfold by_pred.
    assert (M : exists ks, mapM (fun i => do k <- pred_key g s layer i; Ok (k, i)) new = Ok ks
                           /\ map snd ks = new).
    { induction F as [|i a Vi F IH]; cbn [mapM].
      - exists []. auto.
      - destruct (key_ok s layer i Vi Ll Lf) as [k ->]. cbn [bind].
        destruct IH as (ks & -> & E). cbn [bind]. exists ((k, i) :: ks). cbn [map snd]. rewrite E. auto. }
    destruct M as (ks & -> & E). cbn [bind]. eexists. split; [reflexivity|].
    rewrite <- E at 1. apply Permutation_map, sort_perm.
  Qed.

  (** State of the numbering between two parts. *)
  Record between (s : cmk) : Prop := {
    b_len : zlen (c_fill s) = zlen g;
    b_unv : forall j, In j (c_unv s) -> vertex g j;
    b_nd : NoDup (c_unv s);
    b_top : 0 <= c_top s /\ c_top s + zlen (c_unv s) = zlen g;
    b_closed : forall i j, In i (c_unv s) -> In j (adj g i) -> In j (c_unv s);
    b_num : forall j, vertex g j -> ~ In j (c_unv s) ->
      0 <= nth (Z.to_nat j) (c_fill s) 0 < c_top s;
    b_inj : forall i j, vertex g i -> vertex g j -> ~ In i (c_unv s) -> ~ In j (c_unv s) ->
      nth (Z.to_nat i) (c_fill s) 0 = nth (Z.to_nat j) (c_fill s) 0 -> i = j }.

  (** ... and during the second search. *)
  Record during (s0 : cmk) (s : cmk) (done : list Z) : Prop := {
    d_len : zlen (c_fill s) = zlen g;
    d_top : c_top s = c_top s0 + zlen done;
    d_unv : forall j, In j (c_unv s) <-> In j (c_unv s0) /\ ~ In j done;
    d_nd : NoDup (c_unv s);
    d_old : forall j, vertex g j -> ~ In j done ->
      nth (Z.to_nat j) (c_fill s) 0 = nth (Z.to_nat j) (c_fill s0) 0;
    d_new : forall k j, nth_error done k = Some j ->
      nth (Z.to_nat j) (c_fill s) 0 = c_top s0 + Z.of_nat k;
    d_nodup : NoDup done }.

  Lemma number_ok s0 s done i l : during s0 s done -> vertex g i -> ~ In i done ->
    In i (c_unv s0) -> (forall j, In j done -> vertex g j) ->
    exists s', number s i l = Ok s' /\ during s0 s' (done ++ [i]).
  Proof.
    intros [Dl Dt Du Dn Do Dw Dd] V N I Vd. unfold number.
    rewrite vat_set_in by (rewrite Dl; exact V). cbn [bind].
    replace (existsb (Z.eqb i) (c_unv s)) with true.
    2:{ symmetry. apply existsb_exists. exists i. split; [apply Du; auto|apply Z.eqb_refl]. }
    eexists. split; [reflexivity|]. constructor; cbn [c_fill c_top c_unv].
    - rewrite zlen_upd. auto.
    - rewrite Dt. unfold zlen. rewrite app_length. cbn [length]. lia.
    - intros j. rewrite filter_In, Du, in_app_iff. cbn [In].
      destruct (Z.eqb_spec i j); cbn [negb]; intuition congruence.
    - apply NoDup_filter; auto.
    - intros j Vj Nj. rewrite in_app_iff in Nj. cbn [In] in Nj. rewrite nth_upd.
      destruct (Nat.eqb_spec (Z.to_nat i) (Z.to_nat j)) as [E|E].
      + exfalso. apply Nj. right. left. unfold vertex in *. lia.
      + cbn [andb]. apply Do; auto.
    - intros k j K. rewrite nth_upd.
      destruct (Nat.lt_ge_cases k (length done)) as [H|H].
      + rewrite nth_error_app1 in K by auto.
        destruct (Nat.eqb_spec (Z.to_nat i) (Z.to_nat j)) as [E|E]; [|cbn [andb]; apply Dw; auto].
        exfalso. apply N. apply nth_error_In in K. pose proof (Vd j K) as Vj. unfold vertex in *.
        replace i with j by lia. auto.
      + rewrite nth_error_app2 in K by auto.
        destruct (k - length done)%nat as [|m] eqn:Ek; cbn in K; [|destruct m; discriminate].
        injection K as <-. rewrite Nat.eqb_refl.
        replace (Z.to_nat i <? length (c_fill s))%nat with true.
        2:{ symmetry. apply Nat.ltb_lt. unfold vertex, zlen in *. lia. }
        cbn [andb]. rewrite Dt. unfold zlen. f_equal. lia.
    - apply NoDup_app_iff. split; auto. split; [constructor; [intros []|constructor]|].
      intros x X [<-|[]]. auto.
  Qed.

  Lemma part_ok s root : between s -> In root (c_unv s) ->
    exists layer s', bfs number (by_pred g) g root s = Ok (layer, s') /\
      between s' /\ zlen (c_unv s') < zlen (c_unv s) /\
      (forall j, In j (c_unv s') <-> In j (c_unv s) /\ ~ reach g root j).
  Proof.
    intros B Ir.
    assert (Vr : vertex g root) by (apply (b_unv _ B); auto).
    assert (Ru : forall j, reach g root j -> In j (c_unv s)).
    { intros j [d W]. induction W; auto. eapply (b_closed _ B); eauto. }
    destruct (bfs_ok g root in_range Vr number (by_pred g)
      (fun st done => during s st done /\ forall j, In j done -> vertex g j))
      with (s := s) as (layer & s' & done & E & [D Vd] & Nd & Rc & Vt & _).
    - intros st done i l [D Vd] V N R.
      destruct (number_ok s st done i l D V N (Ru i R) Vd) as (st' & E & D').
      exists st'. split; auto. split; auto. intros j J. apply in_app_iff in J as [J|[<-|[]]]; auto.
    - intros st done ly new [D Vd] Ll F. apply by_pred_ok; auto. apply (d_len _ _ _ D).
    - split; [|intros j []]. constructor; auto.
      + apply (b_len _ B).
      + unfold zlen. cbn. lia.
      + cbn. tauto.
      + apply (b_nd _ B).
      + intros [|k] j K; discriminate.
      + constructor.
    - exists layer, s'. split; auto.
      destruct D as [Dl Dt Du Dn Do Dw Dd].
      assert (Pm : Permutation (c_unv s) (done ++ c_unv s')).
      { apply NoDup_Permutation; [apply (b_nd _ B)| |].
        - apply NoDup_app_iff. split; auto. split; auto. intros x X Y. apply Du in Y. tauto.
        - intros j. rewrite in_app_iff, Du. split.
          + intros J. destruct (in_dec Z.eq_dec j done); tauto.
          + intros [J|J]; [|tauto]. apply Ru, Rc; auto. }
      apply Permutation_length in Pm. rewrite app_length in Pm.
      assert (Id : In root done) by (apply Rc; exists 0%nat; constructor).
      assert (Ld : (0 < length done)%nat) by (destruct done; [destruct Id|cbn; lia]).
      pose proof (b_top _ B) as [T1 T2].
      split; [|split].
      + constructor; auto.
        * intros j J. apply (b_unv _ B). apply Du in J. tauto.
        * unfold zlen in *. lia.
        * intros i j I J. apply Du in I as [I1 I2]. apply Du.
          split; [eapply (b_closed _ B); eauto|].
          intros X. apply I2, Rc. apply Rc in X as [d W]. exists (S d).
          apply walk_step with j; auto. apply back; auto. apply (b_unv _ B); auto.
        * intros j V N. rewrite Dt. destruct (in_dec Z.eq_dec j done) as [X|X].
          -- apply In_nth_error in X as [k K]. rewrite (Dw k j K).
             assert (k < length done)%nat by (apply nth_error_Some; congruence). unfold zlen. lia.
          -- rewrite Do by auto.
             assert (Nj : ~ In j (c_unv s)) by (intros Y; apply N, Du; auto).
             pose proof (b_num _ B j V Nj). unfold zlen. lia.
        * intros i j Vi Vj Ni Nj Q.
          assert (Cs : forall x, vertex g x -> ~ In x (c_unv s') -> ~ In x done ->
             0 <= nth (Z.to_nat x) (c_fill s') 0 < c_top s /\ ~ In x (c_unv s)).
          { intros x Vx Nx Dx. assert (Nx' : ~ In x (c_unv s)) by (intros Y; apply Nx, Du; auto).
            rewrite Do by auto. split; auto. apply (b_num _ B); auto. }
          destruct (in_dec Z.eq_dec i done) as [X|X], (in_dec Z.eq_dec j done) as [Y|Y].
          -- apply In_nth_error in X as [k K]. apply In_nth_error in Y as [m M].
             rewrite (Dw k i K), (Dw m j M) in Q. assert (k = m) by lia. congruence.
          -- apply In_nth_error in X as [k K]. rewrite (Dw k i K) in Q.
             destruct (Cs j Vj Nj Y). lia.
          -- apply In_nth_error in Y as [m M]. rewrite (Dw m j M) in Q.
             destruct (Cs i Vi Ni X). lia.
          -- destruct (Cs i Vi Ni X) as [_ Ci]. destruct (Cs j Vj Nj Y) as [_ Cj].
             rewrite !Do in Q by auto. apply (b_inj _ B); auto.
      + unfold zlen. lia.
      + intros j. rewrite Du, Rc. tauto.
  Qed.

  Hypothesis Small : zlen g <= 2 ^ 31.

  Lemma to_int_vertex i : vertex g i -> to_int i = i.
  Proof. unfold vertex, to_int. intros V. rewrite Z.mod_small by lia. lia. Qed.

  Lemma parts_ok k : forall root s, between s -> zlen (c_unv s) <= Z.of_nat k ->
    (c_unv s = [] -> k = 0%nat) -> (c_unv s <> [] -> In root (c_unv s)) ->
    exists s', parts_loop g k root s = Ok s' /\ between s' /\ c_unv s' = [].
  Proof.
    induction k as [|k IH]; intros root s B Hk H0 Hr; cbn [parts_loop].
    - exists s. split; auto. split; auto. destruct (c_unv s); auto. unfold zlen in Hk. cbn in Hk. lia.
    - destruct (c_unv s) as [|u0 us] eqn:Eu; [discriminate H0; auto|]. rewrite <- Eu in *.
      assert (Ir : In root (c_unv s)) by (apply Hr; rewrite Eu; discriminate).
      assert (V : vertex g root) by (apply (b_unv _ B); auto).
      unfold graph in *. rewrite (vat_adj root V). cbn [bind]. rewrite (to_int_vertex root V).
      destruct (bfs_ok g root in_range V (pick_root g) no_sort (fun st _ => reach g root (snd st)))
        with (s := (zlen (adj g root), 0, root)) as (ly & [[x y] r] & done & E & R & _).
      + intros st done i l Ps Vi _ Ri. apply (pick_ok root st done i l); auto.
      + intros st done ly new _ _ _. exists new. split; auto.
      + exists 0%nat. constructor.
      + rewrite E. cbn [bind snd] in *.
        assert (Vr : vertex g r) by (eapply reach_vertex; eauto).
        rewrite (to_int_vertex r Vr).
        destruct (part_ok s r B) as (ly2 & s' & E2 & B' & Lt & _).
        { clear - B Ir R. destruct R as [d W]. induction W; auto. eapply (b_closed _ B); eauto. }
        rewrite E2. cbn [bind snd].
        destruct (c_unv s') as [|u us'] eqn:Eu'; [exists s'; auto|]. rewrite <- Eu' in *.
        apply IH; auto; try lia; rewrite Eu'; try discriminate. intros _. left; auto.
  Qed.

  Lemma cuthill_ok : exists fill, CuthillMcKee g 0 = Ok fill /\ zlen fill = zlen g /\
    (forall j, vertex g j -> 0 <= nth (Z.to_nat j) fill 0 < zlen g) /\
    (forall i j, vertex g i -> vertex g j ->
      nth (Z.to_nat i) fill 0 = nth (Z.to_nat j) fill 0 -> i = j).
  Proof.
    unfold CuthillMcKee.
    set (s0 := {| c_fill := repeat 0 (length g); c_top := 0; c_unv := ranks (length g) |}).
    assert (Ir : forall j, In j (ranks (length g)) <-> vertex g j).
    { intros j. unfold ranks. rewrite in_map_iff. unfold vertex, zlen. split.
      - intros (k & <- & K). apply in_seq in K. lia.
      - intros V. exists (Z.to_nat j). split; [lia|]. apply in_seq. lia. }
    destruct (parts_ok (length g) 0 s0) as (s & E & B & U).
    - constructor; cbn [c_fill c_top c_unv s0].
      + unfold zlen. rewrite repeat_length. auto.
      + intros j J. apply Ir; auto.
      + unfold ranks. apply FinFun.Injective_map_NoDup; [intros a b; lia|apply seq_NoDup].
      + unfold zlen. rewrite ranks_length. lia.
      + intros i j I J. apply Ir. eapply in_range; eauto. apply Ir; auto.
      + intros j V N. exfalso. apply N, Ir; auto.
      + intros i j V _ N. exfalso. apply N, Ir; auto.
    - cbn [c_unv s0]. unfold zlen. rewrite ranks_length. lia.
    - cbn [c_unv s0]. intros Q. rewrite <- (ranks_length (length g)), Q. auto.
    - cbn [c_unv s0]. intros Q. apply Ir. unfold vertex, zlen.
      destruct g; cbn; [exfalso; apply Q; reflexivity|lia].
    - rewrite E. cbn [bind]. exists (c_fill s). split; auto. split; [apply (b_len _ B)|].
      pose proof (b_top _ B) as [T1 T2]. rewrite U in T2. unfold zlen at 1 in T2. cbn [length] in T2.
      split.
      + intros j V. pose proof (b_num _ B j V) as Q. rewrite U in Q. specialize (Q ltac:(intros [])). lia.
      + intros i j Vi Vj Q. apply (b_inj _ B); auto; rewrite U; intros [].
  Qed.
End Parts.

(** ** The wrapper *)

Lemma bandwidth_ok g num numf :
  (forall i, vertex g i -> num i = Ok (numf i)) ->
  (forall i j, vertex g i -> In j (adj g i) -> num j = Ok (numf j)) ->
  exists b, bandwidth g num = Ok b /\ is_bandwidth g numf b.
Proof.
  intros N1 N2. unfold bandwidth.
  assert (R : forall i a, num i = Ok (numf i) -> (forall j, In j a -> num j = Ok (numf j)) -> forall b,
    exists b', foldM (fun b j => do x <- num i; do y <- num j; Ok (Z.max b (Z.abs (x - y)))) b a = Ok b' /\
      b <= b' /\ (forall j, In j a -> Z.abs (numf i - numf j) <= b') /\
      (b' = b \/ exists j, In j a /\ b' = Z.abs (numf i - numf j))).
  { intros i a Hi. rewrite Hi. cbn [bind]. induction a as [|j a IH]; intros Ha b; cbn [foldM].
    - exists b. repeat split; auto; try lia. intros j [].
    - rewrite (Ha j) by (left; auto). cbn [bind].
      destruct (IH (fun k K => Ha k (or_intror K)) (Z.max b (Z.abs (numf i - numf j))))
        as (b' & E & L & M & X). exists b'. split; auto. split; [lia|]. split.
      + intros k [<-|K]; [lia|auto].
      + destruct X as [->|(k & K & ->)]; [|right; exists k; split; [right|]; auto].
        destruct (Z.max_spec b (Z.abs (numf i - numf j))) as [[_ ->]|[_ ->]]; auto.
        right. exists j. split; [left|]; auto. }
  assert (G : forall h a b, (forall k, (k < length h)%nat ->
      num (Z.of_nat (a + k)) = Ok (numf (Z.of_nat (a + k))) /\
      forall j, In j (nth k h []) -> num j = Ok (numf j)) ->
    exists b', foldM (fun b ia => foldM (fun b j => do x <- num (fst ia); do y <- num j;
                          Ok (Z.max b (Z.abs (x - y)))) b (snd ia)) b
        (combine (map Z.of_nat (seq a (length h))) h) = Ok b' /\ b <= b' /\
      (forall k j, (k < length h)%nat -> In j (nth k h []) ->
          Z.abs (numf (Z.of_nat (a + k)) - numf j) <= b') /\
      (b' = b \/ exists k j, (k < length h)%nat /\ In j (nth k h []) /\
          b' = Z.abs (numf (Z.of_nat (a + k)) - numf j))).
  { induction h as [|x h IH]; intros a b H; cbn [length seq map combine foldM].
    - exists b. repeat split; auto; try lia.
    - cbn [fst snd]. destruct (H 0%nat ltac:(cbn; lia)) as [H1 H2]. rewrite Nat.add_0_r in H1.
      destruct (R (Z.of_nat a) x H1 H2 b) as (b1 & -> & L1 & M1 & X1). cbn [bind].
      destruct (IH (S a) b1) as (b2 & -> & L2 & M2 & X2).
      { intros k K. specialize (H (S k) ltac:(cbn; lia)). replace (S a + k)%nat with (a + S k)%nat by lia. auto. }
      exists b2. split; auto. split; [lia|]. split.
      + intros [|k] j K J.
        * rewrite Nat.add_0_r. specialize (M1 j J). lia.
        * replace (a + S k)%nat with (S a + k)%nat by lia. apply M2; [lia|auto].
      + destruct X2 as [->|(k & j & K & J & ->)].
        * destruct X1 as [->|(j & J & ->)]; auto. right. exists 0%nat, j. rewrite Nat.add_0_r.
          repeat split; auto. lia.
        * right. exists (S k), j. replace (a + S k)%nat with (S a + k)%nat by lia. repeat split; auto. lia. }
  destruct (G g 0%nat 0) as (b & E & L & M & X).
  - intros k K. assert (V : vertex g (Z.of_nat k)) by (unfold vertex, zlen; lia). split; [apply N1; auto|].
    intros j J. apply (N2 (Z.of_nat k)); auto. unfold adj. rewrite Nat2Z.id. auto.
  - exists b. split; auto. split.
    + intros i j V J. specialize (M (Z.to_nat i) j). unfold vertex, zlen in V.
      rewrite Nat.add_0_l, Z2Nat.id in M by lia. apply M; auto. lia.
    + destruct X as [->|(k & j & K & J & ->)]; auto. right. exists (Z.of_nat k), j.
      split; [unfold vertex, zlen; lia|]. split; auto. unfold adj. rewrite Nat2Z.id. auto.
Qed.

Lemma scatter_ok (l : list (Z * Z)) : forall acc : list Z,
  (forall i v, In (i, v) l -> 0 <= v < zlen acc) -> NoDup (map snd l) ->
  exists acc', foldM (fun acc iv => vset acc (snd iv) (fst iv)) acc l = Ok acc' /\
    zlen acc' = zlen acc /\
    (forall i v, In (i, v) l -> nth_error acc' (Z.to_nat v) = Some i).
Proof.
  enough (G : forall acc : list Z, (forall i v, In (i, v) l -> 0 <= v < zlen acc) -> NoDup (map snd l) ->
    exists acc', foldM (fun acc iv => vset acc (snd iv) (fst iv)) acc l = Ok acc' /\
    zlen acc' = zlen acc /\
    (forall i v, In (i, v) l -> nth_error acc' (Z.to_nat v) = Some i) /\
    (forall v, 0 <= v -> ~ In v (map snd l) -> nth_error acc' (Z.to_nat v) = nth_error acc (Z.to_nat v))).
  { intros acc R N. destruct (G acc R N) as (acc' & A & B & C & _). eauto. }
  induction l as [|[i v] l IH]; intros acc R N; cbn [foldM].
  - exists acc. repeat split; auto. intros i v [].
  - cbn [map snd fst] in *. apply NoDup_cons_iff in N as [Nv N].
    pose proof (R i v ltac:(left; auto)) as Rv. unfold vset.
    replace ((v <? 0) || (Z.of_nat (length acc) <=? v)) with false.
    2:{ symmetry. apply orb_false_iff. unfold zlen in Rv. split; [apply Z.ltb_ge|apply Z.leb_gt]; lia. }
    cbn [bind].
    destruct (IH (upd (Z.to_nat v) i acc)) as (acc' & E & L & A & B); auto.
    { intros k w K. rewrite zlen_upd. apply (R k w). right; auto. }
    rewrite zlen_upd in L. exists acc'. split; auto. split; auto. split.
    + intros k w [Q|Q].
      * injection Q as <- <-. rewrite B by (auto; lia).
        rewrite nth_error_upd_same; auto. unfold zlen in Rv. lia.
      * auto.
    + intros w Hw Nw. cbn [In] in Nw. rewrite B by tauto. apply nth_error_upd_other. intros Q.
      apply Nw. left. lia.
Qed.

Lemma forallb_range l n : (forall v, In v l -> 0 <= v < n) ->
  forallb (fun v => (v <? n) && (0 <=? v)) l = true.
Proof.
  intros H. apply forallb_forall. intros v I. apply H in I. apply andb_true_iff.
  rewrite Z.ltb_lt, Z.leb_le. lia.
Qed.

Lemma reorder_ok g : symmetric_simple g -> zlen g <= 2 ^ 31 ->
  exists n2o o2n bwOld bwNew, Reorder g = Ok ((n2o, o2n), (bwOld, bwNew)) /\
    inverse_permutations (length g) o2n n2o /\
    is_bandwidth g (fun i => i) bwOld /\
    is_bandwidth g (fun i => nth (Z.to_nat i) o2n 0) bwNew.
Proof.
  intros Sym Small. unfold Reorder.
  destruct (bandwidth_ok g (fun i => Ok i) (fun i => i)) as (b0 & -> & B0); auto.
  cbn [bind]. rewrite (proj2 (check_exact g) Sym). cbn [bind].
  destruct (cuthill_ok g Sym Small) as (fill & -> & Lf & Rf & If). cbn [bind].
  set (o2n := map (fun v => nvert g - 1 - v) fill).
  assert (Lo : length o2n = length g) by (unfold o2n; rewrite map_length; unfold zlen in Lf; lia).
  assert (No : forall i, (i < length g)%nat -> nth i o2n 0 = zlen g - 1 - nth i fill 0).
  { intros i Hi. unfold o2n. rewrite nth_indep with (d' := nvert g - 1 - 0) by (fold o2n; lia).
    rewrite (map_nth (fun v => nvert g - 1 - v)). reflexivity. }
  assert (Ro : forall i, (i < length g)%nat -> 0 <= nth i o2n 0 < zlen g).
  { intros i Hi. rewrite No by auto. specialize (Rf (Z.of_nat i)). rewrite Nat2Z.id in Rf.
    unfold vertex, zlen in *. lia. }
  assert (Rin : forall v, In v o2n -> 0 <= v < zlen g).
  { intros v I. apply In_nth with (d := 0) in I as (i & Hi & <-). apply Ro. lia. }
  assert (Nd : NoDup o2n).
  { apply (NoDup_nth o2n 0). intros i j Hi Hj Q. rewrite !No in Q by lia.
    specialize (If (Z.of_nat i) (Z.of_nat j)). rewrite !Nat2Z.id in If.
    unfold vertex, zlen in *. lia. }
  rewrite (forallb_range o2n) by (intros v I; unfold nvert, graph in *; auto). cbn [assert_ bind].
  rewrite (nodup_fixed_point Z.eq_dec Nd), Nat.eqb_refl. cbn [assert_ bind].
  assert (Cmb : map snd (combine (ranks (length g)) o2n) = o2n).
  { assert (Q : forall (l m : list Z), length l = length m -> map snd (combine l m) = m).
    { induction l as [|a l IH]; intros [|b m] H; cbn in *; try lia; auto. f_equal. apply IH. lia. }
    apply Q. rewrite ranks_length; auto. }
  destruct (scatter_ok (combine (ranks (length g)) o2n) (repeat 0 (length g))) as (n2o & -> & Ln & Sc).
  { intros i v I. apply in_combine_r in I. apply Rin in I. unfold zlen in *. rewrite repeat_length. auto. }
  { rewrite Cmb. auto. }
  cbn [bind]. assert (Ln' : length n2o = length g) by (unfold zlen in Ln; rewrite repeat_length in Ln; lia).
  assert (Fw : forall i, (i < length g)%nat -> exists k, (k < length g)%nat /\
      nth_error o2n i = Some (Z.of_nat k) /\ nth_error n2o k = Some (Z.of_nat i)).
  { intros i Hi. pose proof (Ro i Hi) as R. exists (Z.to_nat (nth i o2n 0)).
    unfold zlen in R. split; [lia|]. rewrite Z2Nat.id by lia.
    rewrite (nth_error_nth' o2n 0) by lia. split; auto.
    apply Sc. apply nth_error_In with (n := i). 
    assert (Q : forall (l m : list Z) i a b, nth_error l i = Some a -> nth_error m i = Some b ->
       nth_error (combine l m) i = Some (a, b)).
    { clear. induction l as [|a l IH]; intros [|b m] [|i] x y; cbn; try discriminate; auto. congruence. }
    apply Q; [apply ranks_nth; auto|apply nth_error_nth'; lia]. }
  assert (Bw : forall k, (k < length g)%nat -> exists i, (i < length g)%nat /\
      nth_error n2o k = Some (Z.of_nat i) /\ nth_error o2n i = Some (Z.of_nat k)).
  { intros k Hk. assert (I : In (Z.of_nat k) o2n).
    { apply (NoDup_length_incl Nd (l' := ranks (length g))).
      - rewrite ranks_length. lia.
      - intros v I. apply Rin in I. unfold zlen in I. unfold ranks. apply in_map_iff.
        exists (Z.to_nat v). split; [lia|]. apply in_seq. lia.
      - unfold ranks. apply in_map. apply in_seq. lia. }
    apply In_nth_error in I as [i I].
    assert (Hi : (i < length g)%nat) by (rewrite <- Lo; apply nth_error_Some; congruence).
    destruct (Fw i Hi) as (k' & _ & A & B). assert (k' = k) as -> by (rewrite I in A; injection A; lia).
    exists i. auto. }
  rewrite (forallb_range n2o).
  2:{ intros v I. apply In_nth_error in I as [k K].
      assert (Hk : (k < length g)%nat) by (rewrite <- Ln'; apply nth_error_Some; congruence).
      destruct (Bw k Hk) as (i & Hi & A & _). rewrite A in K. injection K as <-.
      unfold nvert, zlen. lia. }
  cbn [assert_ bind].
  assert (Vg : forall i, vertex g i -> vget o2n i = Ok (nth (Z.to_nat i) o2n 0)).
  { intros i V. unfold vertex, zlen in V. unfold vget. destruct (Z.ltb_spec i 0); [lia|].
    rewrite (nth_error_nth' o2n 0) by lia. reflexivity. }
  destruct (bandwidth_ok g (vget o2n) (fun i => nth (Z.to_nat i) o2n 0)) as (b1 & -> & B1).
  { apply Vg. }
  { intros i j V J. apply Vg. eapply in_range; eauto. }
  cbn [bind]. exists n2o, o2n, b0, b1. split; auto. split; auto. unfold inverse_permutations. auto.
Qed.

Lemma reorder_refuses g : ~ symmetric_simple g -> Reorder g = Abort.
Proof.
  intros N. unfold Reorder. destruct (bandwidth_ok g (fun i => Ok i) (fun i => i)) as (b0 & -> & _); auto.
  cbn [bind]. destruct (check_total true true g) as [E|E]; [|rewrite E; reflexivity].
  exfalso. apply N, check_exact; auto.
Qed.

(** Breadth-first search alone: the layer of a vertex is its distance. *)
Lemma bfs_distance g root : symmetric_simple g -> vertex g root ->
  exists layer order, bfs (fun s i (_ : Z) => Ok (s ++ [i])) no_sort g root [] = Ok (layer, order) /\
    NoDup order /\ (forall j, In j order <-> reach g root j) /\
    (forall j d, vertex g j -> (nth (Z.to_nat j) layer (-1) = Z.of_nat d <->
        walk g root d j /\ forall d', walk g root d' j -> (d <= d')%nat)) /\
    (forall j, vertex g j -> (nth (Z.to_nat j) layer (-1) = -1 <-> ~ reach g root j)).
Proof.
  intros Sym V.
  destruct (bfs_ok g root (in_range g Sym) V (fun s i (_ : Z) => Ok (s ++ [i])) no_sort
     (fun s done => s = done)) with (s := @nil Z)
    as (layer & s' & done & E & <- & Nd & Rc & _ & _ & D1 & D2); auto.
  - intros s done i l -> _ _ _. eauto.
  - intros s done ly new _ _ _. exists new. split; auto.
  - exists layer, s'. auto.
Qed.

(** ** Too many vertices: the roots do not fit in [int] *)

Section Huge.
  Variable n : nat.
  Hypothesis Hn : Z.of_nat n = 2 ^ 31 + 1.
  Let g : graph := repeat [] n.

  Lemma huge_len : zlen g = 2 ^ 31 + 1.
  Proof. unfold g, zlen. rewrite repeat_length. auto. Qed.

  Lemma huge_adj i : adj g i = [].
  Proof.
    unfold adj, g. destruct (nth_in_or_default (Z.to_nat i) (repeat (@nil Z) n) []) as [I|I]; auto.
    apply repeat_spec in I. auto.
  Qed.

  Lemma huge_sym : symmetric_simple g.
  Proof. intros i j V J. rewrite huge_adj in J. destruct J. Qed.

  Lemma huge_bfs {St} (fnode : St -> Z -> Z -> res St) inl r s s' : vertex g r ->
    fnode s r 0 = Ok s' -> (forall s l, inl s l [] = Ok []) ->
    exists layer, bfs fnode inl g r s = Ok (layer, s').
  Proof.
    intros V F I. unfold bfs. unfold vertex in V. rewrite huge_len in V.
    destruct (Z.leb_spec (nvert g) r) as [X|X]; [unfold nvert in X; rewrite huge_len in X; lia|].
    destruct (Z.ltb_spec r 0); [lia|]. cbn [orb].
    assert (Lr : zlen (repeat (-1) (length g)) = 2 ^ 31 + 1).
    { rewrite <- huge_len. unfold zlen. rewrite repeat_length. auto. }
    rewrite vat_set_in by (rewrite Lr; lia). cbn [bind].
    assert (Lg : exists m, length g = S m).
    { assert (Q := huge_len). unfold zlen in Q. destruct (length g); [lia|eauto]. }
    destruct Lg as [m Lg]. rewrite Lg. cbn [layers foldM]. unfold visit at 1.
    rewrite F. cbn [bind]. unfold graph in *. rewrite (vat_in g r []) by (rewrite huge_len; lia).
    change (nth (Z.to_nat r) g []) with (adj g r). rewrite huge_adj. cbn [bind foldM].
    rewrite I. cbn [bind app]. eexists. destruct m; reflexivity.
  Qed.

  Lemma huge_loop d : forall k r s, (d < k)%nat -> Z.of_nat r + Z.of_nat d = 2 ^ 31 ->
    zlen (c_fill s) = zlen g -> c_unv s = map Z.of_nat (seq r (n - r)) ->
    parts_loop g k (Z.of_nat r) s = Abort.
  Proof.
    induction d as [|d IH]; intros k r s Hk Hd Lf U.
    - destruct k; [lia|]. cbn [parts_loop]. unfold graph in *.
      rewrite (vat_in g (Z.of_nat r) []) by (rewrite huge_len; lia). cbn [bind].
      replace (to_int (Z.of_nat r)) with (- 2 ^ 31) by (replace (Z.of_nat r) with (2 ^ 31) by lia; reflexivity).
      unfold bfs. rewrite orb_true_r. reflexivity.
    - destruct k; [lia|]. cbn [parts_loop]. unfold graph in *.
      assert (V : vertex g (Z.of_nat r)) by (unfold vertex; rewrite huge_len; lia).
      rewrite (vat_in g (Z.of_nat r) []) by exact V. cbn [bind].
      change (nth (Z.to_nat (Z.of_nat r)) g []) with (adj g (Z.of_nat r)). rewrite huge_adj.
      replace (to_int (Z.of_nat r)) with (Z.of_nat r).
      2:{ unfold to_int. rewrite Z.mod_small by lia. lia. }
      destruct (huge_bfs (pick_root g) no_sort (Z.of_nat r) (zlen (@nil Z), 0, Z.of_nat r)
                  (0, 0, Z.of_nat r) V) as [layer E].
      { unfold pick_root. cbn [Z.ltb Z.compare bind Z.eqb].
        rewrite (vat_in g (Z.of_nat r) []) by exact V.
        change (nth (Z.to_nat (Z.of_nat r)) g []) with (adj g (Z.of_nat r)). rewrite huge_adj. reflexivity. }
      { reflexivity. }
      unfold graph in *. rewrite E. cbn [bind].
      replace (to_int (Z.of_nat r)) with (Z.of_nat r).
      2:{ unfold to_int. rewrite Z.mod_small by lia. lia. }
      assert (Us : c_unv s = Z.of_nat r :: map Z.of_nat (seq (S r) (n - S r))).
      { rewrite U. replace (n - r)%nat with (S (n - S r)) by lia. reflexivity. }
      assert (Fl : filter (fun j => negb (Z.of_nat r =? j)) (c_unv s) = map Z.of_nat (seq (S r) (n - S r))).
      { rewrite Us. cbn [filter]. rewrite Z.eqb_refl. cbn [negb].
        assert (Q : forall l, (forall x, In x l -> x <> Z.of_nat r) ->
            filter (fun j => negb (Z.of_nat r =? j)) l = l).
        { clear. induction l as [|x l IH]; intros H; cbn [filter]; auto.
          destruct (Z.eqb_spec (Z.of_nat r) x) as [E|E].
          - exfalso. apply (H x); [left; auto|auto].
          - cbn [negb]. rewrite IH; auto. intros y Y. apply H. right; auto. }
        apply Q. intros x X. apply in_map_iff in X as (k' & <- & K). apply in_seq in K. lia. }
      destruct (huge_bfs number (by_pred g) (Z.of_nat r) s
        {| c_fill := upd (Z.to_nat (Z.of_nat r)) (c_top s) (c_fill s); c_top := c_top s + 1;
           c_unv := map Z.of_nat (seq (S r) (n - S r)) |} V) as [layer' E'].
      { unfold number. rewrite vat_set_in by (rewrite Lf; exact V). cbn [bind].
        replace (existsb (Z.eqb (Z.of_nat r)) (c_unv s)) with true.
        2:{ rewrite Us. cbn [existsb]. rewrite Z.eqb_refl. reflexivity. }
        rewrite Fl. reflexivity. }
      { reflexivity. }
      rewrite E'. cbn [bind snd c_unv].
      replace (n - S r)%nat with (S (n - S (S r))) at 1 by lia. cbn [seq map].
      apply (IH k (S r)); cbn [c_fill c_unv]; try lia.
      + rewrite zlen_upd. auto.
      + reflexivity.
  Qed.

  Lemma huge : symmetric_simple g /\ Reorder g = Abort.
  Proof.
    split; [exact huge_sym|]. unfold Reorder.
    destruct (bandwidth_ok g (fun i => Ok i) (fun i => i)) as (b0 & -> & _); auto.
    cbn [bind]. rewrite (proj2 (check_exact g) huge_sym). cbn [bind].
    unfold CuthillMcKee.
    assert (Lg : length g = n) by (unfold g; apply repeat_length).
    destruct (Z_of_nat_complete (2 ^ 31) ltac:(lia)) as [d Hd].
    set (s0 := {| c_fill := _ |}).
    assert (E : parts_loop g (length g) (Z.of_nat 0) s0 = Abort).
    { apply (huge_loop d).
      - rewrite Lg. lia.
      - lia.
      - unfold s0. cbn [c_fill]. unfold zlen. rewrite repeat_length. reflexivity.
      - unfold s0. cbn [c_unv]. rewrite Lg, Nat.sub_0_r. reflexivity. }
    change (Z.of_nat 0) with 0 in E. rewrite E. reflexivity.
  Qed.
End Huge.

Lemma huge_graph : exists g, symmetric_simple g /\ Reorder g = Abort.
Proof.
  destruct (Z_of_nat_complete (2 ^ 31 + 1) ltac:(lia)) as [n Hn].
  exists (repeat [] n). apply huge. auto.
Qed.
