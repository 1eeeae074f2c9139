From Coq Require Import List ZArith Bool Lia Permutation.
From Verif Require Import Base.Prelude Base.PreludeFacts Solver.DirectModel Solver.DirectSpec Solver.DirectProofs Solver.DirectMore
  Solver.LUModel Solver.LUSpec Solver.LUProofs Solver.LUSolve Solver.LUFinal Euler.ImplicitModel Euler.ImplicitSpec Euler.ImplicitProofs Euler.ImplicitRanks.
Import ListNotations.
Local Open Scope Z_scope.

Lemma find_last_ok : forall l j, In j l -> exists p, find_last l j = Some p /\ nth_error l p = Some j.
Proof.
  intros l j H. unfold find_last.
  assert (G : forall c acc, (forall p, acc = Some p -> nth_error l p = Some j) -> (forall p x, In (p, x) c -> nth_error l p = Some x) ->
     (acc <> None \/ exists p, In (p, j) c) ->
     exists p, fold_left (fun (r : option nat) (p : nat * Z) => if snd p =? j then Some (fst p) else r) c acc = Some p /\ nth_error l p = Some j).
  { induction c as [|(p, x) c IH]; intros acc Ha Hc He; cbn [fold_left fst snd].
    - destruct acc as [p|]; [exists p; auto|]. destruct He as [He|(p & [])]. contradiction.
    - apply IH; [|intros; apply Hc; right; auto|].
      + destruct (Z.eqb_spec x j); [|auto]. intros q Eq. injection Eq as <-. subst x. apply Hc. left; auto.
      + destruct (Z.eqb_spec x j); [left; discriminate|]. destruct He as [He|(q & [Eq|Hq])]; [left; auto|injection Eq as -> ->; lia|right; eauto]. }
  apply G.
  - discriminate.
  - intros p x Hp. apply In_nth_error in Hp. destruct Hp as (q & Hq). apply nth_error_combine in Hq. destruct Hq as (H1 & H2).
    rewrite nth_error_seq in H1. destruct (Nat.ltb q (length l)); [|discriminate]. injection H1 as <-. auto.
  - right. apply In_nth_error in H. destruct H as (p & Hp). exists p. apply (nth_error_In _ p). apply nth_error_combine. split; [|auto].
    rewrite nth_error_seq. assert (L : (p < length l)%nat) by (apply nth_error_Some; congruence). apply Nat.ltb_lt in L. rewrite L. reflexivity.
Qed.

Lemma nth_skip : forall A (d : A) a y q, nth q (skipn a y) d = nth (a + q) y d.
Proof. induction a as [|a IH]; intros [|w y] q; cbn; auto. destruct q; reflexivity. Qed.

Section LU.
  Context {T V : Type} (O : ops T V) (LW : laws O) (finc : Z -> bool -> V -> V) (jac : Z -> bool -> T) (invert : T -> res T).
  Notation value := (value O).
  Notation block := (block O).
  Notation coupling := (coupling O finc).
  Hypothesis AJ : forall k sd x, act O (jac k sd) x = finc k sd x.

  Lemma act0l : forall x, act O (t0 O) x = v0 O.
  Proof. intro. apply (v_cancel O LW _ _ (act O (t0 O) x)). rewrite <- (actDl _ LW), (tadd0 _ LW), (vadd0 _ LW). reflexivity. Qed.
  Lemma t0r : forall a, tadd O a (t0 O) = a.
  Proof. intro. rewrite (taddC _ LW). apply (tadd0 _ LW). Qed.

  Lemma act_sum : forall l x, act O (fold_right (tadd O) (t0 O) l) x = fold_right (vadd O) (v0 O) (map (fun a => act O a x) l).
  Proof. induction l as [|a l IH]; intros x; cbn; [apply act0l|]. rewrite (actDl _ LW), IH. reflexivity. Qed.

  Lemma product_entry : forall m total D x i, mesh_ok m total -> 0 <= i < ncell m ->
    product O (ncell m) (entry O jac m D) x i =
    vadd O (act O (block D i) (value x i)) (coupling m (fun j => negb (i =? j) && (j <? ncell m)) x i).
  Proof.
    intros m total D x i MO Hi. unfold product, ImplicitSpec.coupling.
    pose proof (fun p => m_across _ _ MO i p Hi) as RA. revert RA. unfold entry. generalize (neighbours m i) as l.
    induction l as [|p l IH]; intro RA.
    - cbn [filter map fold_right]. rewrite v_0r by auto.
      transitivity (fold_right (vadd O) (v0 O) (map (fun j => act O (if i =? j then block D i else t0 O) (nth (Z.to_nat j) x (v0 O))) [i])).
      + apply (sum_support _ (v0 O) (vadd O) (vaddC _ LW) (vaddA _ LW) (vadd0 _ LW)).
        * constructor; [intros []|constructor].
        * apply range_NoDup.
        * intros k [<-|[]]. apply range_In. auto.
        * intros k _ Nk. destruct (Z.eqb_spec i k); [exfalso; apply Nk; left; auto|]. apply act0l.
      + cbn. rewrite Z.eqb_refl. apply v_0r. exact LW.
    - assert (RAl : forall q, In q l -> 0 <= other_cell q < total) by (intros; apply RA; right; auto).
      specialize (IH RAl). assert (Rp : 0 <= other_cell p < total) by (apply RA; left; auto).
      set (fp := fun j => if negb (i =? j) && (other_cell p =? j) then finc (fst (fst p)) (snd (fst p)) (value x j) else v0 O).
      set (old := fun j => act O (if i =? j then block D i else fold_right (tadd O) (t0 O) (map (fun p0 => jac (fst (fst p0)) (snd (fst p0))) (filter (fun p0 => other_cell p0 =? j) l))) (nth (Z.to_nat j) x (v0 O))) in IH.
      transitivity (vadd O (fold_right (vadd O) (v0 O) (map fp (range (ncell m)))) (fold_right (vadd O) (v0 O) (map old (range (ncell m))))).
      { etransitivity; [|apply (sum_add _ (v0 O) (vadd O) (vaddC _ LW) (vaddA _ LW) (vadd0 _ LW))]. apply (sum_ext _ (v0 O) (vadd O)). intros j _. unfold fp, old. cbn [filter].
        destruct (Z.eqb_spec i j); cbn [negb andb]; [rewrite (vadd0 _ LW); reflexivity|].
        destruct (Z.eqb_spec (other_cell p) j) as [E|E]; [|rewrite (vadd0 _ LW); reflexivity].
        cbn [map fold_right]. rewrite (actDl _ LW), AJ. reflexivity. }
      rewrite IH. clear IH old. cbn [filter].
      assert (Sp : fold_right (vadd O) (v0 O) (map fp (range (ncell m))) =
        if negb (i =? other_cell p) && (other_cell p <? ncell m) then finc (fst (fst p)) (snd (fst p)) (value x (other_cell p)) else v0 O).
      { destruct (Z.ltb_spec (other_cell p) (ncell m)) as [Lt|Ge].
        - transitivity (fold_right (vadd O) (v0 O) (map fp [other_cell p])).
          + apply (sum_support _ (v0 O) (vadd O) (vaddC _ LW) (vaddA _ LW) (vadd0 _ LW)).
            * constructor; [intros []|constructor].
            * apply range_NoDup.
            * intros k [<-|[]]. apply range_In. lia.
            * intros k _ Nk. unfold fp. destruct (Z.eqb_spec (other_cell p) k); [exfalso; apply Nk; left; auto|]. rewrite andb_false_r. reflexivity.
          + cbn. rewrite v_0r by auto. unfold fp. rewrite Z.eqb_refl. reflexivity.
        - rewrite andb_false_r. apply (sum_zero _ (v0 O) (vadd O) (vadd0 _ LW)). intros k Hk. apply range_In in Hk. unfold fp.
          destruct (Z.eqb_spec (other_cell p) k); [lia|]. rewrite andb_false_r. reflexivity. }
      rewrite Sp. destruct (negb (i =? other_cell p) && (other_cell p <? ncell m)).
      + cbn [map fold_right]. rewrite !(vaddA _ LW). f_equal. apply (vaddC _ LW).
      + rewrite (vadd0 _ LW). reflexivity.
  Qed.

  (** *** the assembly *)
  Section Assembly.
  Variables (m : mesh) (total : Z) (adj : list (list Z)) (o2n n2o : list Z) (iluCode : Z) (s : symlu) (D : list T).
  Hypothesis MO : mesh_ok m total.
  Hypothesis HG : graph_ok (ncell m) adj.
  Hypothesis HO : ordering_ok (ncell m) o2n n2o.
  Hypothesis HS : symbolic (ncell m) adj o2n n2o iluCode = Ok s.
  Hypothesis HC : covers m adj.
  Hypothesis H1 : one_face m.
  Hypothesis HD : zlen D = ncell m.
  Let n := ncell m.
  Definition slots (i : Z) : list Z := i :: row (lowOld s) i ++ row (uppOld s) i.

  Lemma slots_nd : forall i, 0 <= i < n -> NoDup (slots i).
  Proof.
    intros i Hi. pose proof (symbolic_shape _ _ _ _ _ _ HG HO HS) as Sh.
    destruct (o_new _ _ _ HO i Hi) as (R & E). set (k := place o2n i) in *.
    assert (X : slots i = map (place n2o) (k :: row (lowNew s) k ++ row (uppNew s) k)).
    { unfold slots. cbn [map]. rewrite map_app, <- (h_lowOld _ _ _ Sh k R), <- (h_uppOld _ _ _ Sh k R), E. reflexivity. }
    rewrite X. pose proof (h_lowlt _ _ _ Sh k) as LL. pose proof (h_upplt _ _ _ Sh k) as UL.
    assert (In_r : forall a, In a (k :: row (lowNew s) k ++ row (uppNew s) k) -> 0 <= a < ncell m).
    { intros a [<-|Ha]; [auto|]. apply in_app_iff in Ha. destruct Ha as [Ha|Ha]; [apply LL in Ha|apply UL in Ha]; auto; lia. }
    apply NoDup_map_in.
    - intros a b Ha Hb Eab. apply In_r in Ha, Hb. destruct (o_old _ _ _ HO a Ha) as (_ & Ea). destruct (o_old _ _ _ HO b Hb) as (_ & Eb). congruence.
    - constructor.
      + intro I. apply in_app_iff in I. destruct I as [I|I]; [apply LL in I|apply UL in I]; auto; lia.
      + apply NoDup_app_; [apply sasc_NoDup, (h_low _ _ _ Sh k R)|apply sasc_NoDup, (h_upp _ _ _ Sh k R)|].
        intros x I1 I2. apply LL in I1; auto. apply UL in I2; auto. lia.
  Qed.

  Definition rep0 : list (list T) -> (Z -> Z -> T) -> Prop := rep n (fun i => i) slots.
  Definition put_face (i : Z) (N : Z -> Z -> T) (p : Z * bool * Z) : Z -> Z -> T :=
    if negb (other_cell p =? i) && (other_cell p <? ncell m) then updN N i (other_cell p) (jac (fst (fst p)) (snd (fst p))) else N.

  Lemma position : forall i j, 0 <= i < n -> In j (row adj i) -> j <> i ->
    exists p pos q, find_last (row adj i) j = Some p /\ vget (rowPos s) i = Ok pos /\ vget pos (Z.of_nat p) = Ok q /\ at_ (slots i) q j.
  Proof.
    intros i j Hi Hj Nj. destruct (find_last_ok _ _ Hj) as (p & Ep & Hp).
    pose proof (structure _ _ _ _ _ _ HG HO HS) as St. pose proof (s_pos _ _ _ _ _ _ St i Hi) as SP.
    destruct (Forall2_nth_l _ _ _ _ _ SP Hp) as (q & Hq & Rq). destruct (Z.eq_dec j i); [contradiction|].
    exists p, (row (rowPos s) i), q. split; [exact Ep|]. split.
    - apply vget_row. pose proof (s_len _ _ _ _ _ _ St) as (_ & _ & _ & _ & _ & _ & L). fold n in L. lia.
    - split; [|apply Rq]. apply vget_Ok. split; [lia|]. rewrite Nat2Z.id. exact Hq.
  Qed.

  Lemma to_lu_faces_ok : forall i fs A N, 0 <= i < n -> rep0 A N -> incl fs (nth (Z.to_nat i) (c2f m) []) ->
    exists A', foldM (to_lu_face jac m s adj i) A fs = Ok A' /\
      rep0 A' (fold_left (put_face i) (flat_map (fun k => match nth_error (faces m) (Z.to_nat k) with
          | Some f => match across f i with (Some j, sd) => [(fid f, sd, j)] | (None, _) => [] end | None => [] end) fs) N).
  Proof.
    intros i fs. induction fs as [|k fs IH]; intros A N Hi R I.
    - exists A. split; [reflexivity|exact R].
    - cbn [foldM flat_map]. assert (Ik : In k (nth (Z.to_nat i) (c2f m) [])) by (apply I; left; auto).
      assert (Rk := m_faces _ _ MO i k Hi Ik). destruct (nth_error (faces m) (Z.to_nat k)) as [f|] eqn:Ef.
      2:{ apply nth_error_None in Ef. unfold zlen in Rk. lia. }
      assert (Vk : vget (faces m) k = Ok f) by (apply vget_Ok; split; [lia|auto]). unfold to_lu_face at 1. rewrite Vk. cbn [bind].
      destruct (across f i) as ([j|], sd) eqn:Ea.
      2:{ cbn [bind app]. apply IH; auto. intros x Hx. apply I. right; auto. }
      assert (Ip : In (fid f, sd, j) (neighbours m i)).
      { unfold neighbours. apply in_flat_map. exists k. split; [auto|]. rewrite Ef, Ea. left; auto. }
      cbn [app fold_left]. unfold put_face at 2. cbn [other_cell fst snd].
      destruct (negb (j =? i) && (j <? ncell m)) eqn:C.
      + apply andb_true_iff in C. destruct C as (C1 & C2). apply negb_true_iff in C1. apply Z.eqb_neq in C1. apply Z.ltb_lt in C2.
        assert (Ij : In j (row adj i)) by (apply (HC i (fid f, sd, j)); auto).
        destruct (position i j Hi Ij C1) as (p & pos & q & E1 & E2 & E3 & Aq).
        rewrite vget_row by (rewrite (g_size _ _ HG); auto). cbn [bind]. rewrite E1, E2. cbn [bind]. rewrite E3. cbn [bind].
        destruct (rep_put n (fun i => i) slots (fun i H => H) (fun i j _ _ E => E) slots_nd A N i q j (jac (fid f) sd) R Hi Aq) as (A' & EA & RA').
        rewrite EA. cbn [bind]. apply IH; auto. intros x Hx. apply I. right; auto.
      + cbn [bind]. apply IH; auto. intros x Hx. apply I. right; auto.
  Qed.

  Lemma put_faces : forall i l N, NoDup (map other_cell (filter (fun p => other_cell p <? ncell m) l)) ->
    (forall a b, a <> i \/ b = i \/ n <= b -> fold_left (put_face i) l N a b = N a b) /\
    (forall j, j < n -> j <> i -> fold_left (put_face i) l N i j =
       match filter (fun p => other_cell p =? j) l with [] => N i j | p :: _ => jac (fst (fst p)) (snd (fst p)) end).
  Proof.
    intros i l. induction l as [|p l IH]; intros N ND; [split; auto|]. cbn [fold_left].
    assert (NDl : NoDup (map other_cell (filter (fun p => other_cell p <? ncell m) l))).
    { cbn [filter] in ND. destruct (other_cell p <? ncell m); [|auto]. cbn in ND. inversion ND; auto. }
    destruct (IH (put_face i N p) NDl) as (I1 & I2). split.
    - intros a b H. rewrite I1 by auto. unfold put_face. destruct (Z.eqb_spec (other_cell p) i), (Z.ltb_spec (other_cell p) (ncell m)); cbn; auto.
      apply updN_other. unfold n in H. destruct H as [H|[H|H]]; [left; auto|right; lia|right; lia].
    - intros j Hj Nj. rewrite I2 by auto. cbn [filter]. destruct (Z.eqb_spec (other_cell p) j) as [E|E].
      + assert (F0 : filter (fun q => other_cell q =? j) l = []).
        { destruct (filter (fun q => other_cell q =? j) l) as [|q r] eqn:F; [auto|]. exfalso.
          assert (Iq : In q (filter (fun q => other_cell q =? j) l)) by (rewrite F; left; auto). apply filter_In in Iq. destruct Iq as (Iq & Eq). apply Z.eqb_eq in Eq.
          cbn [filter] in ND. assert (Lp : (other_cell p <? ncell m) = true) by (apply Z.ltb_lt; unfold n in Hj; lia). rewrite Lp in ND. cbn in ND. inversion ND as [|? ? N0 _]; subst.
          apply N0. apply in_map_iff. exists q. split; [lia|]. apply filter_In. split; [auto|]. rewrite Eq. exact Lp. }
        rewrite F0. unfold put_face. rewrite E. destruct (Z.eqb_spec j i); [contradiction|]. assert (Lj : (j <? ncell m) = true) by (apply Z.ltb_lt; exact Hj).
        rewrite Lj. cbn. apply updN_same.
      + destruct (filter (fun q => other_cell q =? j) l); [|reflexivity]. unfold put_face.
        destruct (negb (other_cell p =? i) && (other_cell p <? ncell m)); [|reflexivity]. apply updN_other. right; auto.
  Qed.

  Lemma entry_one : forall i j, 0 <= i < n -> j < n -> j <> i -> entry O jac m D i j =
    match filter (fun p => other_cell p =? j) (neighbours m i) with [] => t0 O | p :: _ => jac (fst (fst p)) (snd (fst p)) end.
  Proof.
    intros i j Hi Hj Nj. unfold entry. destruct (Z.eqb_spec i j); [lia|]. pose proof (H1 i Hi) as ND. revert ND.
    generalize (neighbours m i) as l. induction l as [|p l IH]; intro ND; [reflexivity|].
    assert (NDl : NoDup (map other_cell (filter (fun p => other_cell p <? ncell m) l))).
    { cbn [filter] in ND. destruct (other_cell p <? ncell m); [|auto]. cbn in ND. inversion ND; auto. }
    cbn [filter]. destruct (Z.eqb_spec (other_cell p) j) as [E|E]; [|apply IH; auto]. cbn [map fold_right].
    assert (F0 : filter (fun q => other_cell q =? j) l = []).
    { destruct (filter (fun q => other_cell q =? j) l) as [|q r] eqn:F; [auto|]. exfalso.
      assert (Iq : In q (filter (fun q => other_cell q =? j) l)) by (rewrite F; left; auto). apply filter_In in Iq. destruct Iq as (Iq & Eq). apply Z.eqb_eq in Eq.
      cbn [filter] in ND. assert (Lp : (other_cell p <? ncell m) = true) by (apply Z.ltb_lt; unfold n in Hj; lia). rewrite Lp in ND. cbn in ND. inversion ND as [|? ? N0 _]; subst.
      apply N0. apply in_map_iff. exists q. split; [lia|]. apply filter_In. split; [auto|]. rewrite Eq. exact Lp. }
    rewrite F0. cbn. apply t0r.
  Qed.

  Lemma slots_lt : forall i j, 0 <= i < n -> In j (slots i) -> 0 <= j < n.
  Proof.
    intros i j Hi [<-|Hj]; [auto|]. pose proof (symbolic_shape _ _ _ _ _ _ HG HO HS) as Sh.
    destruct (o_new _ _ _ HO i Hi) as (R & E). set (k := place o2n i) in *. rewrite <- E in Hj.
    rewrite (h_lowOld _ _ _ Sh k R), (h_uppOld _ _ _ Sh k R), <- map_app in Hj. apply in_map_iff in Hj. destruct Hj as (a & <- & Ha).
    apply (o_old _ _ _ HO). apply in_app_iff in Ha. fold n. destruct Ha as [Ha|Ha]; [apply (h_lowlt _ _ _ Sh k) in Ha|apply (h_upplt _ _ _ Sh k) in Ha]; auto; unfold n; lia.
  Qed.

  Lemma to_lu_ok : exists A, to_lu O jac m s adj D = Ok A /\ stored O s A (entry O jac m D) /\ vanishes O s (entry O jac m D).
  Proof.
    pose proof (structure _ _ _ _ _ _ HG HO HS) as St. pose proof (s_num _ _ _ _ _ _ St) as Sn.
    pose proof (s_len _ _ _ _ _ _ St) as (_ & _ & L3 & L4 & _). pose proof (m_cells _ _ MO) as MC.
    assert (Z0 : exists A, zero_rows O s = Ok A /\ rep0 A (fun _ _ => t0 O)).
    { exists (map (fun i => map (fun _ => t0 O) (slots i)) (range n)). split.
      - unfold zero_rows. rewrite Sn. apply mapM_map. intros i Hi. apply range_In in Hi. rewrite !vget_row by lia. cbn [bind].
        assert (RP : forall l : list Z, repeat (t0 O) (length l) = map (fun _ => t0 O) l) by (induction l as [|? l IHl]; cbn; [|rewrite IHl]; reflexivity).
        rewrite <- RP. f_equal. f_equal. unfold slots. cbn [length]. rewrite app_length. reflexivity.
      - split; [rewrite zlen_map, zlen_range; lia|]. intros i Hi.
        rewrite (nth_indep _ _ (map (fun _ => t0 O) (slots 0))) by (rewrite map_length, range_length; unfold n in *; lia).
        rewrite (map_nth (fun i => map (fun _ => t0 O) (slots i))). f_equal. f_equal.
        unfold range. change 0 with (Z.of_nat 0). rewrite map_nth, seq_nth by (unfold n in *; lia). lia. }
    destruct Z0 as (A0 & E0 & R0). unfold to_lu. rewrite E0. cbn [bind].
    destruct (foldM_range (fun i A => rep0 A (fun a b => if a <? i then entry O jac m D a b else t0 O)) (to_lu_cell jac m s adj D) (ncell m) A0) as (A & EA & RA).
    - lia.
    - apply (rep_ext n _ slots A0 (fun _ _ => t0 O)); auto. intros i j Hi _. destruct (Z.ltb_spec i 0); [lia|reflexivity].
    - intros i A Hi R. unfold to_lu_cell. rewrite (vget_nth _ _ _ []) by (rewrite (m_rows _ _ MO); lia). cbn [bind].
      destruct (to_lu_faces_ok i (nth (Z.to_nat i) (c2f m) []) A _ Hi R (fun x H => H)) as (A1 & E1 & R1). rewrite E1. cbn [bind].
      rewrite (vget_nth _ D i (t0 O)) by lia. cbn [bind].
      destruct (rep_put n (fun i => i) slots (fun i H => H) (fun i j _ _ E => E) slots_nd A1 _ i 0 i (block D i) R1 Hi) as (A2 & E2 & R2); [split; [lia|reflexivity]|].
      exists A2. split; [exact E2|]. apply (rep_ext n _ slots A2) with (1 := R2). intros a b Ha Hb. pose proof (slots_lt a b Ha Hb) as Rb.
      fold (neighbours m i). destruct (put_faces i (neighbours m i) (fun a b => if a <? i then entry O jac m D a b else t0 O) (H1 i Hi)) as (P1 & P2).
      destruct (Z.eq_dec a i) as [->|Na].
      + destruct (Z.ltb_spec i (i + 1)); [|lia]. destruct (Z.eq_dec b i) as [->|Nb].
        * rewrite updN_same. unfold entry. rewrite Z.eqb_refl. reflexivity.
        * rewrite updN_other by auto. rewrite P2 by (auto; lia). rewrite entry_one by (auto; lia). destruct (Z.ltb_spec i i); [lia|reflexivity].
      + rewrite updN_other by auto. rewrite P1 by auto. destruct (Z.ltb_spec a i), (Z.ltb_spec a (i + 1)); auto; lia.
    - exists A. split; [exact EA|]. destruct RA as (LA & RA). split.
      + split; [rewrite Sn; exact LA|]. intros i Hi. rewrite Sn in Hi. rewrite RA by auto. fold (slots i). apply map_ext_in.
        intros j _. destruct (Z.ltb_spec i (ncell m)); [reflexivity|lia].
      + intros i j Hi Hj Nj. rewrite Sn in Hi, Hj. assert (j <> i) by (intros ->; apply Nj; left; auto). rewrite entry_one by (auto; unfold n; lia).
        destruct (filter (fun p => other_cell p =? j) (neighbours m i)) as [|p l] eqn:F; [reflexivity|]. exfalso. apply Nj.
        assert (Ip : In p (filter (fun p => other_cell p =? j) (neighbours m i))) by (rewrite F; left; auto). apply filter_In in Ip. destruct Ip as (Ip & Ep). apply Z.eqb_eq in Ep.
        apply (adjacency_kept _ _ _ _ _ _ HG HO HS); auto. rewrite <- Ep. apply HC; auto; lia.
  Qed.
  End Assembly.

  Hypothesis INV : inverts O invert.
  Hypothesis NUB : forall d, invert d <> UB.

  Lemma lu_step_ok : forall m total D rhs u y s F, mesh_ok m total -> no_self m -> one_face m -> zlen D = ncell m ->
    factored O jac invert m D s F -> ncell m <= zlen rhs -> zlen u = total -> zlen y = total ->
    exists y', lu_step O finc m s F rhs u y = Ok y' /\ zlen y' = total /\ (forall j, ncell m <= j -> value y' j = value y j) /\
      (forall i, 0 <= i < ncell m -> vadd O (vadd O (act O (block D i) (value y' i)) (coupling m (fun j => j <? ncell m) y' i))
         (coupling m (fun j => ncell m <=? j) u i) = value rhs i) /\
      forall z, zlen z = total -> (forall i, 0 <= i < ncell m -> vadd O (vadd O (act O (block D i) (value z i)) (coupling m (fun j => j <? ncell m) z i))
         (coupling m (fun j => ncell m <=? j) u i) = value rhs i) -> forall i, 0 <= i < ncell m -> value z i = value y' i.
  Proof.
    intros m total D rhs u y s F MO NS H1 HD (adj & o2n & n2o & ilu & A & HG & HO & Hilu & HC & HS & EA & EF) LR LU LY.
    pose proof (m_cells _ _ MO) as MC. destruct (to_lu_ok m total adj o2n n2o ilu s D MO HG HO HS HC H1 HD) as (A' & EA' & ST & VA).
    assert (A' = A) by congruence. subst A'.
    set (b := map (fun i => vsub O (value rhs i) (coupling m (fun j => negb (i =? j) && (ncell m <=? j)) u i)) (range (ncell m))).
    assert (Eb : lu_rhs O finc m rhs u = Ok b).
    { apply mapM_map. intros i Hi. apply range_In in Hi. rewrite (vget_nth _ rhs i (v0 O)) by lia. cbn [bind]. apply (face_loop_ok O LW finc m total); auto. }
    assert (Lb : zlen b = ncell m) by (unfold b; rewrite zlen_map, zlen_range; lia).
    assert (Nb : forall i, 0 <= i < ncell m -> nth (Z.to_nat i) b (v0 O) = vsub O (value rhs i) (coupling m (fun j => ncell m <=? j) u i)).
    { intros i Hi. unfold b. rewrite (nth_indep _ _ (vsub O (value rhs 0) (coupling m (fun j => negb (0 =? j) && (ncell m <=? j)) u 0))) by (rewrite map_length, range_length; lia).
      rewrite (map_nth (fun i => vsub O (value rhs i) (coupling m (fun j => negb (i =? j) && (ncell m <=? j)) u i))).
      assert (Ei : nth (Z.to_nat i) (range (ncell m)) 0 = i).
      { unfold range. change 0 with (Z.of_nat 0). rewrite map_nth, seq_nth by lia. lia. }
      rewrite Ei. f_equal. apply (coupling_ext O finc m total); auto. intros j Hj. destruct (Z.eqb_spec i j), (Z.leb_spec (ncell m) j); cbn; auto; lia. }
    assert (Lf : zlen (firstn (Z.to_nat (ncell m)) y) = ncell m) by (unfold zlen in *; rewrite firstn_length; lia).
    destruct (complete_solves O invert (ncell m) adj o2n n2o ilu s A (entry O jac m D) F LW INV NUB HG HO Hilu HS ST VA EF b (firstn (Z.to_nat (ncell m)) y) Lb Lf)
      as (x & Ex & Lx & Sx & Ux).
    unfold lu_step. rewrite Eb. cbn [bind]. rewrite Ex. cbn [bind]. eexists. split; [reflexivity|].
    set (y' := x ++ skipn (Z.to_nat (ncell m)) y).
    assert (Vx : forall i, 0 <= i < ncell m -> value y' i = nth (Z.to_nat i) x (v0 O)).
    { intros i Hi. unfold ImplicitSpec.value, y'. apply app_nth1. unfold zlen in Lx. lia. }
    assert (Own : forall z i, 0 <= i < ncell m -> coupling m (fun j => negb (i =? j) && (j <? ncell m)) z i = coupling m (fun j => j <? ncell m) z i).
    { intros z i Hi. unfold ImplicitSpec.coupling. f_equal. f_equal. apply filter_ext_in. intros p Hp.
      assert (N : (i =? other_cell p) = false) by (apply Z.eqb_neq; intro; apply (NS i p Hi Hp); auto). rewrite N. reflexivity. }
    assert (Pz : forall z z' i, 0 <= i < ncell m -> (forall j, 0 <= j < ncell m -> value z' j = nth (Z.to_nat j) z (v0 O)) ->
       product O (ncell m) (entry O jac m D) z i = vadd O (act O (block D i) (value z' i)) (coupling m (fun j => j <? ncell m) z' i)).
    { intros z z' i Hi Hz. rewrite (product_entry m total) by auto. rewrite Own by auto. f_equal; [unfold ImplicitSpec.value at 1; rewrite <- Hz by auto; reflexivity|].
      apply (coupling_ext O finc m total); auto. intros j Hj Sj. apply Z.ltb_lt in Sj. symmetry. apply Hz. lia. }
    split; [|split; [|split]].
    - unfold y'. unfold zlen in *. rewrite app_length, skipn_length. lia.
    - intros j Hj. unfold y', ImplicitSpec.value. rewrite app_nth2 by (unfold zlen in *; lia). unfold zlen in Lx.
      rewrite nth_skip. f_equal. lia.
    - intros i Hi. rewrite <- (Pz x y' i Hi Vx), (Sx i Hi), (Nb i Hi). apply v_subK. exact LW.
    - intros z Lz Hz i Hi. rewrite Vx by auto. rewrite <- (Ux (firstn (Z.to_nat (ncell m)) z)).
      + unfold ImplicitSpec.value. symmetry. apply nth_first. lia.
      + unfold zlen in *. rewrite firstn_length. lia.
      + intros k Hk. rewrite (Pz _ z k Hk).
        * rewrite Nb by auto. apply v_sub_eq; auto.
        * intros j Hj. unfold ImplicitSpec.value. symmetry. apply nth_first. lia.
  Qed.
End LU.
