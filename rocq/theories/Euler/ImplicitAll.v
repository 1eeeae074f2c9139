From Coq Require Import List ZArith Bool Lia Reals Lra.
From Verif Require Import Base.Prelude Base.PreludeFacts Solver.DirectModel Solver.DirectSpec Solver.DirectProofs
  Solver.LUModel Solver.LUSpec Solver.LUProofs Euler.ImplicitModel Euler.ImplicitSpec Euler.ImplicitProofs Euler.ImplicitRanks Euler.ImplicitLU.
Import ListNotations.
Local Open Scope Z_scope.

Section All.
  Context {T V : Type} (O : ops T V) (LW : laws O) (finc : Z -> bool -> V -> V) (invert : T -> res T).
  Hypothesis INV : inverts O invert.
  Notation value := (value O).
  Notation block := (block O).
  Notation coupling := (coupling O finc).
  Variables (rs : list rank) (Ds : list (list T)) (rhss : list (list V)).
  Hypothesis SO : system_ok invert rs Ds rhss.
  Let RO : ranks_ok rs := RO invert rs Ds rhss SO.

  Lemma nonneg_sum : forall vabs nonneg l s, absolute O vabs nonneg -> nonneg s -> (forall x, In x l -> nonneg x) ->
    (fold_left (vadd O) l s = v0 O <-> s = v0 O /\ forall x, In x l -> x = v0 O) /\ nonneg (fold_left (vadd O) l s).
  Proof.
    intros vabs nonneg l s A. revert s. induction l as [|a l IH]; intros s Hs Hl; cbn [fold_left].
    - split; [|exact Hs]. split; [intros ->; split; [auto|intros ? []]|intros (-> & _); auto].
    - assert (Ha : nonneg a) by (apply Hl; left; auto).
      destruct (IH (vadd O s a)) as (I1 & I2); [apply (nonneg_add _ _ _ A); auto|intros; apply Hl; right; auto|].
      split; [|exact I2]. rewrite I1. split.
      + intros (E & F). destruct (nonneg_split _ _ _ A _ _ Hs Ha E) as (E1 & E2). split; [exact E1|]. intros x [<-|Hx]; auto.
      + intros (E & F). split; [|intros x Hx; apply F; right; auto]. rewrite E, (F a) by (left; auto). apply (vadd0 _ LW).
  Qed.

  Lemma part_zero : forall vabs nonneg u y n, absolute O vabs nonneg -> 0 <= n <= zlen u -> n <= zlen y ->
    let s := fold_left (vadd O) (map (fun q => vabs (vsub O (fst q) (snd q))) (firstn (Z.to_nat n) (combine u y))) (v0 O) in
    (s = v0 O <-> forall i, 0 <= i < n -> value y i = value u i) /\ nonneg s.
  Proof.
    intros vabs nonneg u y n A Hn Hy. destruct (nonneg_sum vabs nonneg (map (fun q => vabs (vsub O (fst q) (snd q))) (firstn (Z.to_nat n) (combine u y))) (v0 O) A) as (I1 & I2).
    - apply (nonneg_zero _ _ _ A).
    - intros x Hx. apply in_map_iff in Hx. destruct Hx as (q & <- & _). apply (abs_nonneg _ _ _ A).
    - split; [|exact I2]. rewrite I1. clear I1 I2. unfold zlen in *.
      assert (Q : forall k, (k < Z.to_nat n)%nat -> nth_error (firstn (Z.to_nat n) (combine u y)) k = Some (nth k u (v0 O), nth k y (v0 O))).
      { intros k Hk. rewrite <- (firstn_skipn (Z.to_nat n) (combine u y)) at 1. 
        assert (L : length (firstn (Z.to_nat n) (combine u y)) = Z.to_nat n) by (rewrite firstn_length, combine_length; lia).
        transitivity (nth_error (combine u y) k).
        - rewrite <- (firstn_skipn (Z.to_nat n) (combine u y)) at 3. rewrite nth_error_app1 by lia. rewrite firstn_skipn. reflexivity.
        - apply nth_error_combine. split; apply nth_error_nth'; lia. }
      split.
      + intros (_ & H) i Hi. specialize (Q (Z.to_nat i)). unfold ImplicitSpec.value.
        assert (E : vabs (vsub O (nth (Z.to_nat i) u (v0 O)) (nth (Z.to_nat i) y (v0 O))) = v0 O).
        { apply H. apply in_map_iff. exists (nth (Z.to_nat i) u (v0 O), nth (Z.to_nat i) y (v0 O)). split; [reflexivity|]. eapply nth_error_In. apply Q. lia. }
        apply (proj1 (abs_zero _ _ _ A _)) in E. apply (proj1 (v_sub_0_iff O LW _ _)) in E. auto.
      + intros H. split; [reflexivity|]. intros x Hx. apply in_map_iff in Hx. destruct Hx as (q & <- & Hq). apply In_nth_error in Hq. destruct Hq as (k & Hk).
        assert (Lk : (k < Z.to_nat n)%nat).
        { assert (k < length (firstn (Z.to_nat n) (combine u y)))%nat by (apply nth_error_Some; congruence). rewrite firstn_length in *. lia. }
        rewrite (Q k Lk) in Hk. assert (q = (nth k u (v0 O), nth k y (v0 O))) by congruence. subst q. cbn [fst snd].
        apply (proj2 (abs_zero _ _ _ A _)). apply (proj2 (v_sub_0_iff O LW _ _)). specialize (H (Z.of_nat k)). unfold ImplicitSpec.value in H. rewrite Nat2Z.id in H.
        symmetry. apply H. lia.
  Qed.

  Lemma lu_all_ok : forall jac vabs nonneg ss Fs us tmp, (forall k sd x, act O (jac k sd) x = finc k sd x) -> (forall d, invert d <> UB) ->
    length ss = length rs -> length Fs = length rs ->
    (forall p r s F, nth_error rs p = Some r -> nth_error ss p = Some s -> nth_error Fs p = Some F ->
       no_self (msh r) /\ one_face (msh r) /\ factored O jac invert (msh r) (nth p Ds []) s F) ->
    consistent O rs us -> arrays_ok rs tmp -> absolute O vabs nonneg ->
    exists us' s, lu_all O finc vabs rs ss Fs rhss us tmp = Ok (us', s) /\ consistent O rs us' /\
      everywhere rs (fun p m i => vadd O (vadd O (act O (block (nth p Ds []) i) (value (nth p us' []) i)) (coupling m (fun j => j <? ncell m) (nth p us' []) i))
         (coupling m (fun j => ncell m <=? j) (nth p us []) i) = value (nth p rhss []) i) /\
      (us' = us <-> all_solved O finc rs Ds rhss us) /\ (s = v0 O <-> us' = us).
  Proof.
    intros jac vabs nonneg ss Fs us tmp AJ NUB LS LF HF C (LT & AT) A. destruct C as ((LU & AU) & CU).
    pose proof SO as (_ & LD & LR & HS). unfold lu_all.
    destruct (assemble rs _ (fun p r => match nth_error ss p, nth_error Fs p with Some s, Some F => lu_step O finc (msh r) s F (nth p rhss []) (nth p us []) (nth p tmp []) | _, _ => Abort end)
      (fun p r y => zlen y = total_of r /\
        (forall i, 0 <= i < ncell (msh r) -> vadd O (vadd O (act O (block (nth p Ds []) i) (value y i)) (coupling (msh r) (fun j => j <? ncell (msh r)) y i))
         (coupling (msh r) (fun j => ncell (msh r) <=? j) (nth p us []) i) = value (nth p rhss []) i) /\
        forall z, zlen z = total_of r -> (forall i, 0 <= i < ncell (msh r) -> vadd O (vadd O (act O (block (nth p Ds []) i) (value z i)) (coupling (msh r) (fun j => j <? ncell (msh r)) z i))
         (coupling (msh r) (fun j => ncell (msh r) <=? j) (nth p us []) i) = value (nth p rhss []) i) -> forall i, 0 <= i < ncell (msh r) -> value z i = value y i)
      _ (fun p => let '(r, (s, (F, (rhs, (u, t))))) := p in lu_step O finc (msh r) s F rhs u t)
      (combine rs (combine ss (combine Fs (combine rhss (combine us tmp)))))) as (ys & E1 & L1 & Q1).
    { rewrite !combine_length. lia. }
    { intros p (r, (s, (F, (rhs, (u, t))))) Hp. apply nth_error_combine in Hp. destruct Hp as (Hr & Hp). apply nth_error_combine in Hp. destruct Hp as (Hs & Hp).
      apply nth_error_combine in Hp. destruct Hp as (HFp & Hp). apply nth_error_combine in Hp. destruct Hp as (HR & Hp). apply nth_error_combine in Hp. destruct Hp as (HU & HT).
      exists r. split; [auto|]. rewrite Hs, HFp, (nth_some _ _ _ _ HR), (nth_some _ _ _ _ HU), (nth_some _ _ _ _ HT). reflexivity. }
    { intros p r Hr. assert (Lp : (p < length rs)%nat) by (apply nth_error_Some; congruence).
      destruct (nth_error ss p) as [s|] eqn:Hs; [|apply nth_error_None in Hs; lia]. destruct (nth_error Fs p) as [F|] eqn:HFp; [|apply nth_error_None in HFp; lia].
      destruct (HF p r s F Hr Hs HFp) as (NS & OF & FF). destruct (HS p r Hr) as ((LDp & _) & LRr). destruct (RO p r Hr) as (MO & _).
      destruct (lu_step_ok O LW finc jac invert AJ INV NUB (msh r) (total_of r) (nth p Ds []) (nth p rhss []) (nth p us []) (nth p tmp []) s F) as (y & E & L & _ & H & U); auto.
      exists y. auto. }
    rewrite E1. cbn [bind].
    assert (N1 : forall p r, nth_error rs p = Some r -> nth_error ys p = Some (nth p ys [])).
    { intros p r Hr. apply some_nth. rewrite L1. apply nth_error_Some. congruence. }
    assert (A1 : arrays_ok rs ys) by (split; [exact L1|intros p r Hr; apply (Q1 p r); eauto]).
    destruct (pull_ok O finc rs ys RO A1) as (us' & E2 & C2 & V2). rewrite E2. cbn [bind]. eexists us', _. split; [reflexivity|]. split; [exact C2|].
    assert (Cc : forall p r i sel u u', nth_error rs p = Some r -> 0 <= i < ncell (msh r) -> (forall j, 0 <= j -> sel j = true -> value u j = value u' j) -> coupling (msh r) sel u i = coupling (msh r) sel u' i).
    { intros p r i sel u u' Hr Hi H. destruct (RO p r Hr) as (MO & _). apply (coupling_ext O finc _ (total_of r)); auto. intros; apply H; auto; lia. }
    assert (EQ : everywhere rs (fun p m i => vadd O (vadd O (act O (block (nth p Ds []) i) (value (nth p us' []) i)) (coupling m (fun j => j <? ncell m) (nth p us' []) i))
         (coupling m (fun j => ncell m <=? j) (nth p us []) i) = value (nth p rhss []) i)).
    { intros p r Hr i Hi. destruct (Q1 p r _ Hr (N1 p r Hr)) as (_ & H & _). rewrite <- (H i Hi), (V2 p r Hr i Hi). f_equal. f_equal.
      apply (Cc p); auto. intros j Hj Sj. apply Z.ltb_lt in Sj. apply (V2 p r Hr). lia. }
    assert (Row : forall p r i u, nth_error rs p = Some r -> 0 <= i < ncell (msh r) -> row_of O finc (msh r) (nth p Ds []) u i =
       vadd O (vadd O (act O (block (nth p Ds []) i) (value u i)) (coupling (msh r) (fun j => j <? ncell (msh r)) u i)) (coupling (msh r) (fun j => ncell (msh r) <=? j) u i)).
    { intros p r i u Hr Hi. unfold row_of. rewrite (coupling_split O LW finc (msh r) (fun _ => true) (fun j => j <? ncell (msh r))), (vaddA _ LW). f_equal.
      destruct (RO p r Hr) as (MO & _). apply (coupling_ext O finc _ (total_of r)); auto. intros j Hj. cbn. destruct (Z.ltb_spec j (ncell (msh r))), (Z.leb_spec (ncell (msh r)) j); cbn; auto; lia. }
    assert (Iff : us' = us <-> everywhere rs (fun p _ i => value (nth p us' []) i = value (nth p us []) i)).
    { split; [intros ->; intros p r Hr i Hi; reflexivity|]. intro X. apply (consistent_ext O finc rs); auto. split; [split|]; auto. }
    split; [exact EQ|]. split.
    - split.
      + intros E p r Hr i Hi. rewrite (Row p r) by auto. subst us'. apply (EQ p r Hr i Hi).
      + intros X. apply Iff. intros p r Hr i Hi. rewrite (V2 p r Hr i Hi). destruct (Q1 p r _ Hr (N1 p r Hr)) as (_ & _ & U). symmetry. apply U; auto.
        intros k Hk. rewrite <- (Row p r) by auto. apply (X p r Hr k Hk).
    - rewrite Iff. set (part := fun p : rank * (list V * list V) => fold_left (vadd O) (map (fun q => vabs (vsub O (fst q) (snd q))) (firstn (Z.to_nat (ncell (msh (fst p)))) (combine (fst (snd p)) (snd (snd p))))) (v0 O)).
      assert (PZ : forall p r, nth_error rs p = Some r -> (part (r, (nth p us [], nth p ys [])) = v0 O <-> forall i, 0 <= i < ncell (msh r) -> value (nth p ys []) i = value (nth p us []) i) /\ nonneg (part (r, (nth p us [], nth p ys [])))).
      { intros p r Hr. unfold part. cbn [fst snd]. destruct (RO p r Hr) as (MO & _). pose proof (m_cells _ _ MO). destruct A1 as (_ & A1).
        apply (part_zero vabs nonneg); auto; [rewrite (AU p r Hr)|rewrite (A1 p r Hr)]; lia. }
      assert (Pin : forall x, In x (combine rs (combine us ys)) -> exists p r, nth_error rs p = Some r /\ x = (r, (nth p us [], nth p ys []))).
      { intros (r, (u, y)) Hx. apply In_nth_error in Hx. destruct Hx as (p & Hp). apply nth_error_combine in Hp. destruct Hp as (Hr & Hp). apply nth_error_combine in Hp. destruct Hp as (Hu & Hy).
        exists p, r. split; [auto|]. rewrite (nth_some _ _ _ _ Hu), (nth_some _ _ _ _ Hy). reflexivity. }
      destruct (nonneg_sum vabs nonneg (map part (combine rs (combine us ys))) (v0 O) A) as (S1 & _).
      { apply (nonneg_zero _ _ _ A). }
      { intros x Hx. apply in_map_iff in Hx. destruct Hx as (q & <- & Hq). destruct (Pin q Hq) as (p & r & Hr & ->). apply (PZ p r Hr). }
      fold part. rewrite S1. split.
      + intros (_ & H) p r Hr i Hi. rewrite (V2 p r Hr i Hi). apply (PZ p r Hr); auto. apply H. apply in_map. apply (nth_error_In _ p).
        assert (p < length rs)%nat by (apply nth_error_Some; congruence).
        apply nth_error_combine. split; [auto|]. apply nth_error_combine. split; apply some_nth; lia.
      + intros H. split; [reflexivity|]. intros x Hx. apply in_map_iff in Hx. destruct Hx as (q & <- & Hq). destruct (Pin q Hq) as (p & r & Hr & ->).
        apply (PZ p r Hr). intros i Hi. rewrite <- (V2 p r Hr i Hi). apply (H p r Hr i Hi).
  Qed.

  (** *** convergence of the sweeps *)
  Hypothesis LIN : linear O finc.
  Lemma finc_sub : forall k sd x y, finc k sd (vsub O x y) = vsub O (finc k sd x) (finc k sd y).
  Proof. intros. apply (v_cancel O LW _ _ (finc k sd y)). rewrite <- (proj2 LIN), !(v_subK O LW). reflexivity. Qed.
  Lemma coupling_sub : forall m total sel u v i e, mesh_ok m total -> 0 <= i < ncell m ->
    (forall j, 0 <= j < total -> value e j = vsub O (value u j) (value v j)) ->
    coupling m sel e i = vsub O (coupling m sel u i) (coupling m sel v i).
  Proof.
    intros m total sel u v i e MO Hi H. unfold ImplicitSpec.coupling. pose proof (fun p => m_across _ _ MO i p Hi) as RA. revert RA.
    generalize (neighbours m i) as l. induction l as [|p l IH]; intro RA; cbn [filter map fold_right].
    - symmetry. apply (v_sub_self O LW).
    - assert (Rl : forall q, In q l -> 0 <= other_cell q < total) by (intros; apply RA; right; auto). specialize (IH Rl).
      destruct (sel (other_cell p)); [|exact IH]. cbn [map fold_right]. rewrite IH, H by (apply RA; left; auto). rewrite finc_sub.
      apply (v_cancel O LW _ _ (vadd O (finc (fst (fst p)) (snd (fst p)) (value v (other_cell p))) (fold_right (vadd O) (v0 O) (map (fun p0 => finc (fst (fst p0)) (snd (fst p0)) (value v (other_cell p0))) (filter (fun p0 => sel (other_cell p0)) l))))).
      rewrite (v_subK O LW), (v_swap O LW), !(v_subK O LW). reflexivity.
  Qed.

  Variable nrm : V -> R.
  Variable q : R.
  Hypothesis Q01 : (0 <= q <= 1)%R.
  Hypothesis CT : contracts O finc nrm q rs Ds.

  Definition tab (n : Z) (f : Z -> V) : list V := map f (range n).
  Lemma tab_value : forall n f j, 0 <= j < n -> value (tab n f) j = f j.
  Proof.
    intros n f j Hj. unfold ImplicitSpec.value, tab. rewrite (nth_indep _ _ (f 0)) by (rewrite map_length, range_length; lia).
    rewrite (map_nth f). f_equal. unfold range. change 0 with (Z.of_nat 0). rewrite map_nth, seq_nth by lia. lia.
  Qed.

  Lemma cell_error : forall p r i w z zs M, nth_error rs p = Some r -> 0 <= i < ncell (msh r) -> no_self (msh r) ->
    all_solved O finc rs Ds rhss zs -> (0 <= M)%R ->
    (forall j, 0 <= j < total_of r -> (nrm (vsub O (value z j) (value (nth p zs []) j)) <= M)%R) ->
    vadd O (act O (block (nth p Ds []) i) w) (coupling (msh r) (fun j => negb (i =? j)) z i) = value (nth p rhss []) i ->
    (nrm (vsub O w (value (nth p zs []) i)) <= q * M)%R.
  Proof.
    intros p r i w z zs M Hr Hi NS AS HM Hz E. destruct (RO p r Hr) as (MO & _).
    set (e := tab (total_of r) (fun j => vsub O (value z j) (value (nth p zs []) j))).
    apply (CT p r Hr i Hi e); auto.
    - intros j Hj. unfold e. rewrite tab_value by auto. apply Hz. auto.
    - rewrite (coupling_sub (msh r) (total_of r) _ z (nth p zs []) i e MO Hi) by (intros; unfold e; rewrite tab_value by auto; reflexivity).
      rewrite (act_sub O LW). pose proof (AS p r Hr i Hi) as S1. unfold row_of in S1. rewrite <- (coupling_all O finc (msh r) (total_of r)) in S1 by auto.
      apply (v_cancel O LW _ _ (value (nth p rhss []) i)). rewrite (vadd0 _ LW). rewrite <- S1 at 1. rewrite (v_swap O LW), !(v_subK O LW). exact E.
  Qed.

  Lemma ghost_error : forall us zs M, consistent O rs us -> consistent O rs zs ->
    everywhere rs (fun p _ i => (nrm (vsub O (value (nth p us []) i) (value (nth p zs []) i)) <= M)%R) ->
    forall p r j, nth_error rs p = Some r -> 0 <= j < total_of r -> (nrm (vsub O (value (nth p us []) j) (value (nth p zs []) j)) <= M)%R.
  Proof.
    intros us zs M (_ & C1) (_ & C2) H p r j Hr Hj. destruct (Z.lt_ge_cases j (ncell (msh r))) as [L|G]; [apply (H p r Hr); lia|].
    unfold total_of, zlen in Hj. destruct (nth_error (ghosts r) (Z.to_nat (j - ncell (msh r)))) as [g|] eqn:Hg; [|apply nth_error_None in Hg; lia].
    replace j with (ncell (msh r) + Z.of_nat (Z.to_nat (j - ncell (msh r)))) by lia. rewrite (C1 _ _ _ _ Hr Hg), (C2 _ _ _ _ Hr Hg).
    destruct (RO p r Hr) as (_ & GO). destruct (GO g) as (_ & o & Ho & Hs); [eapply nth_error_In; eauto|]. apply (H _ _ Ho). auto.
  Qed.

  Lemma sgs_error : forall vabs us tmp jacobi forward zs M, consistent O rs us -> arrays_ok rs tmp ->
    (forall p r, nth_error rs p = Some r -> no_self (msh r)) ->
    consistent O rs zs -> all_solved O finc rs Ds rhss zs -> (0 <= M)%R ->
    everywhere rs (fun p _ i => (nrm (vsub O (value (nth p us []) i) (value (nth p zs []) i)) <= M)%R) ->
    exists us' s, sgs_all O finc invert vabs rs Ds rhss us jacobi forward tmp = Ok (us', s) /\ consistent O rs us' /\
      everywhere rs (fun p _ i => (nrm (vsub O (value (nth p us' []) i) (value (nth p zs []) i)) <= q * M)%R).
  Proof.
    intros vabs us tmp jacobi forward zs M C AT NS CZ AS HM HE.
    destruct (sgs_all_ok O LW finc invert INV rs Ds rhss SO vabs us tmp jacobi forward) as (y1 & us' & s & E & C2 & _ & _ & _ & _ & H); auto; [apply C|].
    exists us', s. split; [exact E|]. split; [exact C2|]. intros p r Hr. destruct (RO p r Hr) as (MO & _). pose proof (ghost_error us zs M C CZ HE p r) as GE.
    destruct jacobi.
    { intros i Hi. apply (cell_error p r i _ (nth p us [])); eauto. }
    assert (K : forall i, 0 <= i < ncell (msh r) -> (forall j, earlier (msh r) forward i j = true -> (nrm (vsub O (value (nth p us' []) j) (value (nth p zs []) j)) <= q * M)%R) ->
       (nrm (vsub O (value (nth p us' []) i) (value (nth p zs []) i)) <= q * M)%R).
    { intros i Hi Hj. set (z := tab (total_of r) (fun j => if earlier (msh r) forward i j then value (nth p us' []) j else value (nth p us []) j)).
      apply (cell_error p r i _ z zs M Hr Hi (NS p r Hr) AS HM).
      - intros j Hjr. unfold z. rewrite tab_value by auto. destruct (earlier (msh r) forward i j) eqn:Ej; [|auto].
        apply Rle_trans with (q * M)%R; [auto|]. rewrite <- (Rmult_1_l M) at 2. apply Rmult_le_compat_r; lra.
      - rewrite <- (H p r Hr i Hi). f_equal. rewrite (coupling_split O LW finc (msh r) (fun j => negb (i =? j)) (earlier (msh r) forward i) z i). f_equal;
          (apply (coupling_ext O finc _ (total_of r)); auto; intros j Hjr Sj; apply andb_true_iff in Sj; destruct Sj as (_ & Sj); unfold z; rewrite tab_value by auto).
        + rewrite Sj. reflexivity.
        + apply negb_true_iff in Sj. rewrite Sj. reflexivity. }
    assert (Q : forall (n : nat) i, 0 <= i < ncell (msh r) -> (if forward then i < Z.of_nat n else ncell (msh r) - Z.of_nat n <= i) ->
       (nrm (vsub O (value (nth p us' []) i) (value (nth p zs []) i)) <= q * M)%R).
    { induction n as [|n IH]; intros i Hi Hn; [destruct forward; lia|]. apply K; auto. intros j Ej.
      unfold earlier in Ej. rewrite !andb_true_iff, Z.leb_le, Z.ltb_lt in Ej. destruct Ej as ((J0 & J1) & J2).
      apply IH; [lia|]. destruct forward; apply Z.ltb_lt in J2; lia. }
    intros i Hi. apply (Q (Z.to_nat (ncell (msh r)))); auto. destruct forward; lia.
  Qed.

  Lemma preconditions_error : forall vabs jacobi tmps us zs M, consistent O rs us -> (forall t, In t tmps -> arrays_ok rs t) ->
    (forall p r, nth_error rs p = Some r -> no_self (msh r)) ->
    consistent O rs zs -> all_solved O finc rs Ds rhss zs -> (0 <= M)%R ->
    everywhere rs (fun p _ i => (nrm (vsub O (value (nth p us []) i) (value (nth p zs []) i)) <= M)%R) ->
    exists us', preconditions O finc invert vabs rs Ds rhss us jacobi tmps = Ok us' /\ consistent O rs us' /\
      everywhere rs (fun p _ i => (nrm (vsub O (value (nth p us' []) i) (value (nth p zs []) i)) <= q ^ (2 * length tmps) * M)%R).
  Proof.
    intros vabs jacobi tmps. induction tmps as [|t tmps IH]; intros us zs M C AT NS CZ AS HM HE; cbn [preconditions].
    - exists us. split; [reflexivity|]. split; [exact C|]. intros p r Hr i Hi. cbn. rewrite Rmult_1_l. apply (HE p r Hr i Hi).
    - unfold precondition. destruct (sgs_error vabs us t jacobi true zs M) as (u1 & s1 & E1 & C1 & H1); auto; [apply AT; left; auto|].
      rewrite E1. cbn [bind fst]. assert (HM1 : (0 <= q * M)%R) by (apply Rmult_le_pos; lra).
      destruct (sgs_error vabs u1 u1 jacobi false zs (q * M)%R) as (u2 & s2 & E2 & C2 & H2); auto; [apply C1|]. rewrite E2. cbn [bind fst].
      assert (HM2 : (0 <= q * (q * M))%R) by (apply Rmult_le_pos; lra).
      destruct (IH u2 zs (q * (q * M))%R) as (us' & E & C3 & H); auto; [intros; apply AT; right; auto|].
      exists us'. split; [exact E|]. split; [exact C3|]. intros p r Hr i Hi. apply Rle_trans with (1 := H p r Hr i Hi).
      apply Req_le. cbn [length]. replace (2 * S (length tmps))%nat with (S (S (2 * length tmps))) by lia. cbn [pow]. ring.
  Qed.
End All.
