From Coq Require Import List ZArith Bool Lia Permutation.
From Verif Require Import Base.Prelude Base.PreludeFacts Solver.DirectModel Solver.DirectSpec Solver.DirectProofs
  Solver.LUModel Solver.LUSpec Solver.LUProofs Euler.ImplicitModel Euler.ImplicitSpec Euler.ImplicitProofs.
Import ListNotations.
Local Open Scope Z_scope.

Section Ranks.
  Context {T V : Type} (O : ops T V) (LW : laws O) (finc : Z -> bool -> V -> V) (invert : T -> res T).
  Hypothesis INV : inverts O invert.
  Notation value := (value O).
  Notation block := (block O).
  Notation coupling := (coupling O finc).

  Section Many.
  Variables (rs : list rank) (Ds : list (list T)) (rhss : list (list V)).
  Hypothesis SO : system_ok invert rs Ds rhss.
  Lemma RO : ranks_ok rs.
  Proof. exact (proj1 SO). Qed.

  (** from what every rank returns to the list of results *)
  Lemma assemble : forall B (f : nat -> rank -> res B) (Q : nat -> rank -> B -> Prop) A (g : A -> res B) (l : list A),
    length l = length rs -> (forall p a, nth_error l p = Some a -> exists r, nth_error rs p = Some r /\ g a = f p r) ->
    (forall p r, nth_error rs p = Some r -> exists b, f p r = Ok b /\ Q p r b) ->
    exists ys, mapM g l = Ok ys /\ length ys = length rs /\ forall p r b, nth_error rs p = Some r -> nth_error ys p = Some b -> Q p r b.
  Proof.
    intros B f Q A g l L G H.
    destruct (mapM_each _ _ g (fun p b => forall r, nth_error rs p = Some r -> Q p r b) l) as (ys & E & EL & EQ).
    { intros p a Ha. destruct (G p a Ha) as (r & Hr & Eg). destruct (H p r Hr) as (b & Hb & HQ). exists b. split; [congruence|].
      intros r' Hr'. congruence. }
    exists ys. split; [exact E|]. split; [congruence|]. intros; eapply EQ; eauto.
  Qed.

  Definition lower_rows (ys : list (list V)) : Prop :=
    everywhere rs (fun p m i => vadd O (act O (block (nth p Ds []) i) (value (nth p ys []) i))
       (coupling m (fun j => j <? i) (nth p ys []) i) = value (nth p rhss []) i).
  Definition upper_rows (ys xs : list (list V)) : Prop :=
    everywhere rs (fun p m i => vadd O (vadd O (act O (block (nth p Ds []) i) (value (nth p xs []) i))
       (coupling m (fun j => (i <? j) && (j <? ncell m)) (nth p xs []) i)) (coupling m (fun j => ncell m <=? j) (nth p ys []) i) =
       act O (block (nth p Ds []) i) (value (nth p ys []) i)).

  Lemma lusgs_ok : forall us, arrays_ok rs us -> exists ys xs, lusgs O finc invert rs Ds rhss us = Ok xs /\
    consistent O rs ys /\ consistent O rs xs /\ lower_rows ys /\ upper_rows ys xs.
  Proof.
    intros us (LU & AU). pose proof SO as (_ & LD & LR & HS). unfold lusgs.
    destruct (assemble _ (fun p r => lusgs_forward O finc invert (msh r) (nth p Ds []) (nth p rhss []) (nth p us []) true (nth p us []))
      (fun p r y => zlen y = total_of r /\ forall i, 0 <= i < ncell (msh r) ->
         vadd O (act O (block (nth p Ds []) i) (value y i)) (coupling (msh r) (fun j => j <? i) y i) = value (nth p rhss []) i)
      _ (fun p => let '(r, (D, (rhs, u))) := p in lusgs_forward O finc invert (msh r) D rhs u true u)
      (combine rs (combine Ds (combine rhss us)))) as (y1 & E1 & L1 & Q1).
    { rewrite !combine_length. lia. }
    { intros p (r, (D, (rhs, u))) Hp. apply nth_error_combine in Hp. destruct Hp as (Hr & Hp).
      apply nth_error_combine in Hp. destruct Hp as (HD & Hp). apply nth_error_combine in Hp. destruct Hp as (HR & HU).
      exists r. split; [auto|]. rewrite (nth_some _ _ _ _ HD), (nth_some _ _ _ _ HR), (nth_some _ _ _ _ HU). reflexivity. }
    { intros p r Hr. destruct (HS p r Hr) as (DO & LRr). destruct (RO p r Hr) as (MO & _).
      destruct (forward_ok O LW finc invert INV (msh r) (total_of r) (nth p Ds []) (nth p rhss []) (nth p us []) true (nth p us []))
        as (y & E & L & _ & H); auto. exists y. auto. }
    rewrite E1. cbn [bind].
    assert (A1 : arrays_ok rs y1).
    { split; [exact L1|]. intros p r Hr. apply (Q1 p r); auto. apply some_nth. rewrite L1. apply nth_error_Some. congruence. }
    destruct (pull_ok O finc rs y1 RO A1) as (ys & E2 & C2 & V2). rewrite E2. cbn [bind].
    destruct C2 as ((L2 & A2) & G2).
    destruct (assemble _ (fun p r => lusgs_backward O finc invert (msh r) (nth p Ds []) (nth p ys []) true (nth p ys []))
      (fun p r x => zlen x = total_of r /\ (forall j, ncell (msh r) <= j -> value x j = value (nth p ys []) j) /\ forall i, 0 <= i < ncell (msh r) ->
         vadd O (act O (block (nth p Ds []) i) (value x i)) (coupling (msh r) (fun j => i <? j) x i) = act O (block (nth p Ds []) i) (value (nth p ys []) i))
      _ (fun p => let '(r, (D, y)) := p in lusgs_backward O finc invert (msh r) D y true y)
      (combine rs (combine Ds ys))) as (x1 & E3 & L3 & Q3).
    { rewrite !combine_length. lia. }
    { intros p (r, (D, u)) Hp. apply nth_error_combine in Hp. destruct Hp as (Hr & Hp).
      apply nth_error_combine in Hp. destruct Hp as (HD & HU).
      exists r. split; [auto|]. rewrite (nth_some _ _ _ _ HD), (nth_some _ _ _ _ HU). reflexivity. }
    { intros p r Hr. destruct (HS p r Hr) as (DO & _). destruct (RO p r Hr) as (MO & _).
      destruct (backward_ok O LW finc invert INV (msh r) (total_of r) (nth p Ds []) (nth p ys []) true (nth p ys []))
        as (x & E & L & G & H); auto. exists x. auto. }
    rewrite E3. cbn [bind].
    assert (N3 : forall p r, nth_error rs p = Some r -> nth_error x1 p = Some (nth p x1 [])).
    { intros p r Hr. apply some_nth. rewrite L3. apply nth_error_Some. congruence. }
    assert (A3 : arrays_ok rs x1) by (split; [exact L3|intros p r Hr; apply (Q3 p r); eauto]).
    destruct (pull_ok O finc rs x1 RO A3) as (xs & E4 & C4 & V4). exists ys, xs. split; [exact E4|].
    split; [split; [split; auto|auto]|]. split; [exact C4|].
    assert (SM : forall p r i sel u u', nth_error rs p = Some r -> 0 <= i < ncell (msh r) ->
       (forall j, sel j = true -> 0 <= j -> value u j = value u' j) -> coupling (msh r) sel u i = coupling (msh r) sel u' i).
    { intros p r i sel u u' Hr Hi H. destruct (RO p r Hr) as (MO & _). apply (coupling_ext O finc _ (total_of r)); auto. intros; apply H; auto; lia. }
    split.
    - intros p r Hr i Hi. rewrite (V2 p r Hr i Hi). assert (N : nth_error y1 p = Some (nth p y1 [])).
      { apply some_nth. rewrite L1. apply nth_error_Some. congruence. }
      destruct (Q1 p r _ Hr N) as (_ & H). rewrite <- (H i Hi). f_equal. apply (SM p); auto.
      intros j Sj Hj. apply Z.ltb_lt in Sj. apply (V2 p r Hr). lia.
    - intros p r Hr i Hi. rewrite (V4 p r Hr i Hi). destruct (Q3 p r _ Hr (N3 p r Hr)) as (_ & G & H). rewrite <- (H i Hi).
      rewrite (coupling_split O LW finc (msh r) (fun j => i <? j) (fun j => j <? ncell (msh r)) _ i), (vaddA _ LW). f_equal; [f_equal|].
      + apply (SM p); auto. intros j Sj Hj. apply andb_true_iff in Sj. destruct Sj as (S1 & S2). apply Z.ltb_lt in S1, S2. apply (V4 p r Hr). lia.
      + destruct (RO p r Hr) as (MO & _). apply (coupling_ext O finc _ (total_of r)); auto.
        * intros j Hj. destruct (Z.ltb_spec i j), (Z.ltb_spec j (ncell (msh r))), (Z.leb_spec (ncell (msh r)) j); cbn; auto; lia.
        * intros j Hj Sj. apply Z.leb_le in Sj. symmetry. apply G. lia.
  Qed.

  Lemma block_unique : forall p r i x y c, nth_error rs p = Some r -> 0 <= i < ncell (msh r) ->
    vadd O (act O (block (nth p Ds []) i) x) c = vadd O (act O (block (nth p Ds []) i) y) c -> x = y.
  Proof.
    intros p r i x y c Hr Hi E. apply (v_cancel O LW) in E. pose proof SO as (_ & _ & _ & HS). destruct (HS p r Hr) as (DO & _).
    destruct (inverses O finc invert INV _ _ DO) as (Di & _ & _ & H). destruct (H i Hi) as (_ & H2).
    rewrite <- (act1 _ LW x), <- (act1 _ LW y), <- H2, !(actM _ LW), E. reflexivity.
  Qed.
  Lemma lower_unique : forall ys ys', consistent O rs ys -> consistent O rs ys' -> lower_rows ys -> lower_rows ys' -> ys = ys'.
  Proof.
    intros ys ys' C1 C2 H1 H2. apply (consistent_ext O finc rs); auto using RO. intros p r Hr.
    assert (G : forall (n : nat) i, 0 <= i < ncell (msh r) -> i < Z.of_nat n -> value (nth p ys []) i = value (nth p ys' []) i).
    { induction n as [|n IH]; intros i Hi Hn; [lia|]. apply (block_unique p r i _ _ (coupling (msh r) (fun j => j <? i) (nth p ys []) i)); auto.
      rewrite (H1 p r Hr i Hi), <- (H2 p r Hr i Hi). f_equal. destruct (RO p r Hr) as (MO & _).
      apply (coupling_ext O finc _ (total_of r)); auto. intros j Hj Sj. apply Z.ltb_lt in Sj. symmetry. apply IH; lia. }
    intros i Hi. apply (G (Z.to_nat (ncell (msh r)))); lia.
  Qed.
  Lemma upper_unique : forall ys xs xs', consistent O rs xs -> consistent O rs xs' -> upper_rows ys xs -> upper_rows ys xs' -> xs = xs'.
  Proof.
    intros ys xs xs' C1 C2 H1 H2. apply (consistent_ext O finc rs); auto using RO. intros p r Hr.
    assert (G : forall (n : nat) i, 0 <= i < ncell (msh r) -> ncell (msh r) - Z.of_nat n <= i -> value (nth p xs []) i = value (nth p xs' []) i).
    { induction n as [|n IH]; intros i Hi Hn; [lia|].
      apply (block_unique p r i _ _ (vadd O (coupling (msh r) (fun j => (i <? j) && (j <? ncell (msh r))) (nth p xs []) i) (coupling (msh r) (fun j => ncell (msh r) <=? j) (nth p ys []) i))); auto.
      rewrite !(vaddA _ LW), (H1 p r Hr i Hi), <- (H2 p r Hr i Hi). f_equal. f_equal. destruct (RO p r Hr) as (MO & _).
      apply (coupling_ext O finc _ (total_of r)); auto. intros j Hj Sj. apply andb_true_iff in Sj. destruct Sj as (S1 & S2). apply Z.ltb_lt in S1, S2.
      symmetry. apply IH; lia. }
    intros i Hi. apply (G (Z.to_nat (ncell (msh r)))); lia.
  Qed.
  Lemma lusgs_fresh : forall us us', arrays_ok rs us -> arrays_ok rs us' ->
    lusgs O finc invert rs Ds rhss us = lusgs O finc invert rs Ds rhss us'.
  Proof.
    intros us us' A A'. destruct (lusgs_ok us A) as (ys & xs & E & C1 & C2 & H1 & H2). destruct (lusgs_ok us' A') as (ys' & xs' & E' & C1' & C2' & H1' & H2').
    rewrite E, E'. f_equal. assert (ys' = ys) by (apply lower_unique; auto). subst ys'. apply (upper_unique ys); auto.
  Qed.

  (** *** sweeps *)
  Variable vabs : V -> V.
  Notation earlier := earlier.
  Definition rank_changes (forward : bool) (us' us : list (list V)) : V :=
    fold_left (vadd O) (map (fun p => changes O vabs (order (msh (fst p)) forward) (fst (snd p)) (snd (snd p))) (combine rs (combine us' us))) (v0 O).

  Lemma sgs_all_ok : forall us tmp jacobi forward, arrays_ok rs us -> arrays_ok rs tmp ->
    exists y1 us' s, sgs_all O finc invert vabs rs Ds rhss us jacobi forward tmp = Ok (us', s) /\ consistent O rs us' /\
      s = rank_changes forward y1 (if jacobi then tmp else us) /\ length y1 = length rs /\
      everywhere rs (fun p _ i => value (nth p us' []) i = value (nth p y1 []) i) /\
      (jacobi = false -> forall p r j, nth_error rs p = Some r -> ncell (msh r) <= j -> value (nth p y1 []) j = value (nth p us []) j) /\
      everywhere rs (fun p m i => vadd O (act O (block (nth p Ds []) i) (value (nth p us' []) i))
        (if jacobi then coupling m (fun j => negb (i =? j)) (nth p us []) i
         else vadd O (coupling m (fun j => negb (i =? j) && earlier m forward i j) (nth p us' []) i)
                     (coupling m (fun j => negb (i =? j) && negb (earlier m forward i j)) (nth p us []) i)) = value (nth p rhss []) i).
  Proof.
    intros us tmp jacobi forward (LU & AU) (LT & AT). pose proof SO as (_ & LD & LR & HS). unfold sgs_all.
    set (y0 := fun p => if jacobi then nth p tmp [] else nth p us []).
    destruct (assemble _ (fun p r => sgs_sweep O finc invert vabs (msh r) (nth p Ds []) (nth p rhss []) (nth p us []) (negb jacobi) forward (y0 p))
      (fun p r ys => snd ys = changes O vabs (order (msh r) forward) (fst ys) (y0 p) /\ zlen (fst ys) = total_of r /\
         (forall j, ncell (msh r) <= j -> value (fst ys) j = value (y0 p) j) /\ forall i, 0 <= i < ncell (msh r) ->
         vadd O (act O (block (nth p Ds []) i) (value (fst ys) i))
           (if negb jacobi then vadd O (coupling (msh r) (fun j => negb (i =? j) && earlier (msh r) forward i j) (fst ys) i)
                     (coupling (msh r) (fun j => negb (i =? j) && negb (earlier (msh r) forward i j)) (y0 p) i)
            else coupling (msh r) (fun j => negb (i =? j)) (nth p us []) i) = value (nth p rhss []) i)
      _ (fun p => let '(r, (D, (rhs, (u, t)))) := p in
                   sgs_sweep O finc invert vabs (msh r) D rhs u (negb jacobi) forward (if jacobi then t else u))
      (combine rs (combine Ds (combine rhss (combine us tmp))))) as (ps & E1 & L1 & Q1).
    { rewrite !combine_length. lia. }
    { intros p (r, (D, (rhs, (u, t)))) Hp. apply nth_error_combine in Hp. destruct Hp as (Hr & Hp).
      apply nth_error_combine in Hp. destruct Hp as (HD & Hp). apply nth_error_combine in Hp. destruct Hp as (HR & Hp).
      apply nth_error_combine in Hp. destruct Hp as (HU & HT).
      exists r. split; [auto|]. unfold y0. rewrite (nth_some _ _ _ _ HD), (nth_some _ _ _ _ HR), (nth_some _ _ _ _ HU), (nth_some _ _ _ _ HT). reflexivity. }
    { intros p r Hr. destruct (HS p r Hr) as (DO & LRr). destruct (RO p r Hr) as (MO & _).
      destruct (sgs_ok O LW finc invert INV vabs (msh r) (total_of r) (nth p Ds []) (nth p rhss []) (nth p us []) (negb jacobi) forward (y0 p))
        as (y & E & L & G & H); auto. { unfold y0. destruct jacobi; auto. }
      eexists. split; [exact E|]. cbn [fst snd]. auto. }
    rewrite E1. cbn [bind].
    assert (NS : forall p r, nth_error rs p = Some r -> exists s, nth_error ps p = Some (nth p (map fst ps) [], s)).
    { intros p r Hr. destruct (nth_error ps p) as [(y, s)|] eqn:Ep.
      - exists s. rewrite (nth_some _ _ _ y); [reflexivity|]. rewrite nth_error_map_, Ep. reflexivity.
      - apply nth_error_None in Ep. assert (p < length rs)%nat by (apply nth_error_Some; congruence). lia. }
    assert (A1 : arrays_ok rs (map fst ps)).
    { split; [rewrite map_length; exact L1|]. intros p r Hr. destruct (NS p r Hr) as (s & Hs). apply (Q1 p r _ Hr Hs). }
    destruct (pull_ok O finc rs (map fst ps) RO A1) as (us' & E2 & C2 & V2). rewrite E2. cbn [bind].
    exists (map fst ps), us', (fold_left (vadd O) (map snd ps) (v0 O)). split; [reflexivity|]. split; [exact C2|]. split; [|split; [apply A1|split; [exact V2|split]]].
    - unfold rank_changes. f_equal. apply (nth_ext _ _ (v0 O) (v0 O)).
      { rewrite !map_length, !combine_length, map_length. destruct jacobi; lia. }
      intros p Hp. rewrite map_length, L1 in Hp. destruct (nth_error rs p) as [r|] eqn:Hr; [|apply nth_error_None in Hr; lia].
      destruct (NS p r Hr) as (s & Hs). transitivity s; [apply nth_error_nth; rewrite nth_error_map_, Hs; reflexivity|].
      symmetry. apply nth_error_nth. rewrite nth_error_map_.
      assert (X : nth_error (combine rs (combine (map fst ps) (if jacobi then tmp else us))) p = Some (r, (nth p (map fst ps) [], y0 p))).
      { apply nth_error_combine. split; [auto|]. apply nth_error_combine. split; [apply some_nth; rewrite map_length; lia|].
        unfold y0. destruct jacobi; apply some_nth; lia. }
      rewrite X. cbn [option_map fst snd]. destruct (Q1 p r _ Hr Hs) as (Q & _). cbn [fst snd] in Q. congruence.
    - intros J p r j Hr Hj. destruct (NS p r Hr) as (s & Hs). destruct (Q1 p r _ Hr Hs) as (_ & _ & G & _). cbn [fst] in G. rewrite G by auto.
      unfold y0. rewrite J. reflexivity.
    - intros p r Hr i Hi. rewrite (V2 p r Hr i Hi). destruct (NS p r Hr) as (s & Hs). destruct (Q1 p r _ Hr Hs) as (_ & _ & _ & H). cbn [fst] in H.
      rewrite <- (H i Hi). f_equal. unfold y0. destruct jacobi; cbn [negb]; [reflexivity|]. f_equal.
      destruct (RO p r Hr) as (MO & _). apply (coupling_ext O finc _ (total_of r)); auto. intros j Hj Sj. apply andb_true_iff in Sj. destruct Sj as (_ & Sj).
      apply (V2 p r Hr). unfold earlier in Sj. rewrite !andb_true_iff, Z.leb_le, Z.ltb_lt in Sj. lia.
  Qed.

  Lemma rank_changes_zero : forall nonneg forward y1 us, absolute O vabs nonneg -> length y1 = length rs -> length us = length rs ->
    (rank_changes forward y1 us = v0 O <-> everywhere rs (fun p _ i => value (nth p y1 []) i = value (nth p us []) i)).
  Proof.
    intros nonneg forward y1 us A L1 LU. unfold rank_changes.
    set (l := combine rs (combine y1 us)). set (f := fun p : rank * (list V * list V) => changes O vabs (order (msh (fst p)) forward) (fst (snd p)) (snd (snd p))).
    assert (G : forall l s, nonneg s -> let t := fold_left (vadd O) (map f l) s in
       (t = v0 O <-> s = v0 O /\ forall p, In p l -> f p = v0 O) /\ nonneg t).
    { induction l0 as [|a l0 IH]; intros s Hs; cbn [map fold_left].
      - split; [|exact Hs]. split; [intros ->; split; [auto|intros ? []]|intros (-> & _); auto].
      - destruct (changes_zero O LW vabs nonneg (order (msh (fst a)) forward) (fst (snd a)) (snd (snd a)) A) as (_ & Fn).
        destruct (IH (vadd O s (f a))) as (I1 & I2). { apply (nonneg_add _ _ _ A); auto. }
        split; [|exact I2]. rewrite I1. split.
        + intros (E & F). destruct (nonneg_split _ _ _ A _ _ Hs Fn E) as (E1 & E2). split; [exact E1|]. intros p [<-|Hp]; auto.
        + intros (E & F). split; [|intros p Hp; apply F; right; auto]. rewrite E, (F a) by (left; auto). apply (vadd0 _ LW). }
    destruct (G l (v0 O) (nonneg_zero _ _ _ A)) as (G1 & _). rewrite G1. split.
    - intros (_ & H) p r Hr i Hi.
      assert (Lp : (p < length rs)%nat) by (apply nth_error_Some; congruence).
      assert (X : nth_error l p = Some (r, (nth p y1 [], nth p us []))).
      { apply nth_error_combine. split; [auto|]. apply nth_error_combine. split; apply some_nth; lia. }
      apply nth_error_In in X. apply H in X. unfold f in X. cbn [fst snd] in X.
      destruct (changes_zero O LW vabs nonneg (order (msh r) forward) (nth p y1 []) (nth p us []) A) as (Z0 & _).
      apply (proj1 Z0 X). apply order_In. auto.
    - intros H. split; [reflexivity|]. intros (r, (y, u)) Hp. apply In_nth_error in Hp. destruct Hp as (p & Hp).
      apply nth_error_combine in Hp. destruct Hp as (Hr & Hp). apply nth_error_combine in Hp. destruct Hp as (Hy & Hu).
      destruct (changes_zero O LW vabs nonneg (order (msh r) forward) y u A) as (Z0 & _). apply (proj2 Z0).
      intros i Hi. apply order_In in Hi. rewrite <- (nth_some _ _ _ _ Hy), <- (nth_some _ _ _ _ Hu). apply (H p r Hr i Hi).
  Qed.

  (** in place: a fixed point, a solution and no change are the same *)
  Lemma sgs_fixed : forall us tmp forward nonneg, consistent O rs us -> arrays_ok rs tmp -> absolute O vabs nonneg ->
    (forall p r, nth_error rs p = Some r -> no_self (msh r)) ->
    exists us' s, sgs_all O finc invert vabs rs Ds rhss us false forward tmp = Ok (us', s) /\ consistent O rs us' /\
      everywhere rs (fun p m i => vadd O (act O (block (nth p Ds []) i) (value (nth p us' []) i))
        (vadd O (coupling m (earlier m forward i) (nth p us' []) i)
                (coupling m (fun j => negb (earlier m forward i j)) (nth p us []) i)) = value (nth p rhss []) i) /\
      (us' = us <-> all_solved O finc rs Ds rhss us) /\ (s = v0 O <-> us' = us).
  Proof.
    intros us tmp forward nonneg C AT A NS.
    destruct (sgs_all_ok us tmp false forward) as (y1 & us' & s & E & C2 & Es & L1 & V2 & G & H); auto; [apply C|]. cbn [negb] in *.
    assert (Iff : us' = us <-> everywhere rs (fun p _ i => value (nth p us' []) i = value (nth p us []) i)).
    { split; [intros ->; intros p r Hr i Hi; reflexivity|]. intro X. apply (consistent_ext O finc rs); auto using RO. }
    exists us', s. split; [exact E|]. split; [exact C2|]. split; [|split].
    - intros p r Hr i Hi. rewrite <- (H p r Hr i Hi). destruct (RO p r Hr) as (MO & _). f_equal. f_equal;
        (unfold ImplicitSpec.coupling; f_equal; f_equal; apply filter_ext_in; intros q Hq;
         assert (N : (i =? other_cell q) = false) by (apply Z.eqb_neq; intro; apply (NS p r Hr i q Hi Hq); auto); rewrite N; reflexivity).
    - rewrite Iff. split.
      + intros X p r Hr i Hi. pose proof SO as (_ & _ & _ & HS). destruct (HS p r Hr) as (DO & _). destruct (RO p r Hr) as (MO & _).
        assert (F : solves O finc (msh r) (nth p Ds []) (nth p rhss []) (nth p us [])); [|apply F; auto].
        apply (gs_fixed O LW finc invert INV (msh r) (total_of r) (nth p Ds []) (nth p rhss []) forward (nth p us []) (nth p y1 [])); eauto.
        * intros k Hk. rewrite <- (V2 p r Hr k Hk), <- (H p r Hr k Hk). f_equal. f_equal.
          apply (coupling_ext O finc _ (total_of r)); auto. intros j Hj Sj. symmetry. apply (V2 p r Hr).
          apply andb_true_iff in Sj. destruct Sj as (_ & Sj). unfold earlier in Sj. rewrite !andb_true_iff, Z.leb_le, Z.ltb_lt in Sj. lia.
        * intros k Hk. rewrite <- (V2 p r Hr k Hk). apply (X p r Hr k Hk).
      + intros X p r Hr. pose proof SO as (_ & _ & _ & HS). destruct (HS p r Hr) as (DO & _). destruct (RO p r Hr) as (MO & _).
        intros i Hi. rewrite (V2 p r Hr i Hi). revert i Hi.
        apply (gs_fixed O LW finc invert INV (msh r) (total_of r) (nth p Ds []) (nth p rhss []) forward (nth p us []) (nth p y1 [])); eauto.
        * intros k Hk. rewrite <- (V2 p r Hr k Hk), <- (H p r Hr k Hk). f_equal. f_equal.
          apply (coupling_ext O finc _ (total_of r)); auto. intros j Hj Sj. symmetry. apply (V2 p r Hr).
          apply andb_true_iff in Sj. destruct Sj as (_ & Sj). unfold earlier in Sj. rewrite !andb_true_iff, Z.leb_le, Z.ltb_lt in Sj. lia.
        * intros k Hk. apply (X p r Hr k Hk).
    - rewrite Es, Iff. rewrite (rank_changes_zero nonneg) by (auto; apply C). split; intros X p r Hr i Hi.
      + rewrite (V2 p r Hr i Hi). apply (X p r Hr i Hi).
      + rewrite <- (V2 p r Hr i Hi). apply (X p r Hr i Hi).
  Qed.
  End Many.
End Ranks.
