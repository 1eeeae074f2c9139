(** Refinement of the array model to lists of rows (C08, C09, C10). *)
From Coq Require Import List ZArith Lia Bool Arith.
From Verif Require Import Base.Prelude Base.PreludeFacts Base.MPIModel Base.MPIFacts
  DNDS.DefinesModel DNDS.DefinesProofs DNDS.IndexMappingProofs DNDS.GhostPullProofs
  DNDS.ArrayModel DNDS.ArraySpec.
Import ListNotations.
Local Open Scope Z_scope.

(** *** lists *)
Lemma fit_length : forall A (x : A) n l, length (fit x n l) = n.
Proof. intros. unfold fit. rewrite app_length, firstn_length, repeat_length. lia. Qed.

Lemma fit_nil : forall A (x : A) n, fit x n [] = repeat x n.
Proof. intros. unfold fit. rewrite firstn_nil, Nat.sub_0_r. reflexivity. Qed.

Lemma fit_plus : forall A (x : A) n m l, fit x (n + m) l = fit x n l ++ fit x m (skipn n l).
Proof.
  induction n; intros m l; [reflexivity|]. destruct l as [|y l].
  - rewrite skipn_nil, !fit_nil. apply repeat_app.
  - cbn [skipn plus]. change (fit x (S (n + m)) (y :: l)) with (y :: fit x (n + m) l).
    change (fit x (S n) (y :: l)) with (y :: fit x n l). rewrite IHn. reflexivity.
Qed.

Lemma vresize_fit : forall A (x : A) n l, vresize x (Z.of_nat n) l = Ok (fit x n l).
Proof.
  intros. unfold vresize. destruct (Z.ltb_spec (Z.of_nat n) 0); [lia|]. rewrite Nat2Z.id. reflexivity.
Qed.

Lemma regroup_lengths : forall T (d : T) sizes src, map (@length T) (regroup d sizes src) = sizes.
Proof. induction sizes; simpl; intros; auto. rewrite fit_length, IHsizes. reflexivity. Qed.

Lemma regroup_length : forall T (d : T) sizes src, length (regroup d sizes src) = length sizes.
Proof. intros. rewrite <- (map_length (@length T)), regroup_lengths. reflexivity. Qed.

Lemma regroup_concat : forall T (d : T) sizes src,
  concat (regroup d sizes src) = fit d (list_sum sizes) src.
Proof.
  induction sizes; intros; [simpl; reflexivity|]. cbn [regroup concat]. rewrite IHsizes.
  change (list_sum (a :: sizes)) with (a + list_sum sizes)%nat. rewrite fit_plus. reflexivity.
Qed.

Lemma regroup_zlens : forall T (d : T) sizes src, zlensl (regroup d sizes src) = map Z.of_nat sizes.
Proof.
  intros. rewrite <- (regroup_lengths T d sizes src) at 2. rewrite map_map. reflexivity.
Qed.

Lemma list_sum_repeat : forall n k, list_sum (repeat k n) = (n * k)%nat.
Proof. induction n; simpl; intros; auto. Qed.

Lemma zsum_of_nat : forall l, zsum (map Z.of_nat l) = Z.of_nat (list_sum l).
Proof. induction l; auto. unfold zsum in *. cbn [map fold_right]. rewrite IHl. simpl list_sum.
  change (list_sum (a :: l)) with (a + list_sum l)%nat. lia. Qed.

Lemma map_repeat_ : forall A B (f : A -> B) x n, map f (repeat x n) = repeat (f x) n.
Proof. induction n; simpl; auto. f_equal; auto. Qed.

Lemma regroup_widths : forall T (d : T) w n src,
  Forall (fun r => length r = w) (regroup d (repeat w n) src).
Proof.
  intros T d w n. induction n; simpl; intros; constructor; auto. apply fit_length.
Qed.

Lemma concat_widths : forall T w (c : list (list T)), Forall (fun r => length r = w) c ->
  forall k, (k <= length c)%nat -> length (concat (firstn k c)) = (k * w)%nat.
Proof.
  induction 1; intros [|k] Hk; simpl in *; auto; try lia. rewrite app_length, IHForall by lia. lia.
Qed.

Lemma upd_app_r : forall A (l l' : list A) n x, upd (length l + n) x (l ++ l') = l ++ upd n x l'.
Proof. induction l; simpl; intros; auto. rewrite IHl. reflexivity. Qed.

Lemma upd_app_l : forall A (l l' : list A) n x, (n < length l)%nat -> upd n x (l ++ l') = upd n x l ++ l'.
Proof. induction l; simpl; intros; try lia. destruct n; simpl; auto. rewrite IHl by lia. reflexivity. Qed.

Lemma upd_concat : forall A (c : list (list A)) k row l x,
  nth_error c k = Some row -> (l < length row)%nat ->
  upd (length (concat (firstn k c)) + l) x (concat c) = concat (upd k (upd l x row) c).
Proof.
  induction c as [|r c IH]; intros [|k] row l x Hk Hl; try discriminate.
  - simpl in Hk. injection Hk as ->. simpl. apply upd_app_l; auto.
  - cbn [firstn concat upd]. rewrite app_length, <- Nat.add_assoc, upd_app_r. f_equal.
    apply IH; auto.
Qed.

Lemma upd_Forall : forall A (P : A -> Prop) l n x, Forall P l -> P x -> Forall P (upd n x l).
Proof. induction l; intros n x H Hx; destruct n; simpl; auto; inversion H; subst; constructor; auto. Qed.

Lemma upd_self : forall A l n (x : A), nth_error l n = Some x -> upd n x l = l.
Proof. induction l; destruct n; simpl; intros; try discriminate; [congruence|]. f_equal; auto. Qed.

Lemma in_range_cases : forall z n,
  (exists k, z = Z.of_nat k /\ (k < n)%nat /\ in_range z n = Some k /\
     (z <? Z.of_nat n) && (0 <=? z) = true) \/
  (in_range z n = None /\ (z <? Z.of_nat n) && (0 <=? z) = false).
Proof.
  intros. unfold in_range. rewrite (andb_comm (0 <=? z)).
  destruct ((z <? Z.of_nat n) && (0 <=? z)) eqn:E; [left|right; auto].
  apply andb_true_iff in E. destruct E as [E1 E2]. apply Z.ltb_lt in E1. apply Z.leb_le in E2.
  exists (Z.to_nat z). repeat split; auto; lia.
Qed.

Lemma in_range_nat : forall k n, (k < n)%nat -> in_range (Z.of_nat k) n = Some k.
Proof.
  intros. destruct (in_range_cases (Z.of_nat k) n) as [[k' [E [_ [R _]]]]|[_ E]].
  - rewrite R. f_equal. lia.
  - apply andb_false_iff in E. destruct E as [E|E]; [apply Z.ltb_ge in E|apply Z.leb_gt in E]; lia.
Qed.

Lemma foldM_write_rows : forall A (c : list (list A)) d0, length d0 = length (concat c) ->
  foldM (fun d i => do r <- vget c i; do s <- vat (psums 0 (zlensl c)) i; write_at d s r)
    d0 (ranks (length c)) = Ok (concat c).
Proof.
  intros A c d0 Hd.
  assert (G : forall n k d, (k + n)%nat = length c ->
    (exists rest, d = concat (firstn k c) ++ rest /\ length d = length (concat c)) ->
    foldM (fun d i => do r <- vget c i; do s <- vat (psums 0 (zlensl c)) i; write_at d s r)
      d (map Z.of_nat (seq k n)) = Ok (concat c)).
  { induction n; intros k d Hk [rest [E Hl]].
    - simpl. rewrite firstn_all2 in E by lia. subst d. rewrite app_length in Hl.
      destruct rest; [|simpl in Hl; lia]. rewrite app_nil_r. reflexivity.
    - cbn [seq map foldM]. destruct (nth_error_lt_Some _ c k ltac:(lia)) as [row Hrow].
      rewrite (vget_of_nat _ _ _ _ Hrow). cbn [bind].
      rewrite (vat_of_nat _ _ _ _ (zlensl_psums_nth _ c k ltac:(lia))). cbn [bind].
      assert (length row <= length rest)%nat.
      { subst d. rewrite app_length, (concat_split _ _ _ _ Hrow), !app_length in Hl. lia. }
      subst d. rewrite write_at_next by auto. cbn [bind]. apply IHn; [lia|].
      exists (skipn (length row) rest). split.
      + f_equal. symmetry. apply concat_firstn_S; auto.
      + rewrite !app_length, skipn_length. rewrite app_length in Hl. lia. }
  unfold ranks. apply G; [lia|]. exists d0. split; auto.
Qed.

(** *** representation *)
Section Refine.
Variable T : Type.
Variable dflt : T.
Notation arr := (arr T).
Notation sarr := (sarr T).

Definition flat_mode (s : sarr) : bool := negb (is_csr (slay s)) || comp s.

Record rep (h : heap) (a : arr) (s : sarr) : Prop := {
  r_lay : lay a = slay s;
  r_size : size a = zlen (cells s);
  r_dat : dat a = if flat_mode s then concat (cells s) else [];
  r_unc : unc a = if flat_mode s then [] else cells s;
  r_start : if is_csr (slay s) && comp s
            then exists k, pStart a = Some k /\ nth_error h k = Some (psums 0 (zlensl (cells s)))
            else pStart a = None;
  r_small : is_csr (slay s) = true -> Forall (fun r => small (length r)) (cells s);
  r_width : is_csr (slay s) = false ->
            stride a = Z.of_nat (width s) /\ Forall (fun r => length r = width s) (cells s) /\
            comp s = false;
  r_static : match slay s with
             | StaticFixed w | StaticMax w => width s = w
             | CSR => width s = 0%nat
             | _ => True end;
  r_sizes : if is_max (slay s)
            then length (used s) = length (cells s) /\ Forall (fun k => (k <= width s)%nat) (used s) /\
                 match pSizes a with
                 | None => cells s = []
                 | Some k => nth_error h k = Some (map Z.of_nat (used s))
                 end
            else pSizes a = None /\ used s = []
}.

Lemma rep_rowsize : forall h a s k, rep h a s -> (k < length (cells s))%nat ->
  exists r row, srow s k = Some r /\ RowSize h a (Z.of_nat k) = Ok (zlen r) /\
    nth_error (cells s) k = Some row /\ (length r <= length row)%nat /\
    r = firstn (length r) row.
Proof.
  intros h a s k R Hk. destruct (nth_error_lt_Some _ _ _ Hk) as [row Hrow].
  unfold srow. rewrite Hrow. unfold RowSize. rewrite (r_lay _ _ _ R), (r_size _ _ _ R).
  assert (Hr : (Z.of_nat k <? zlen (cells s)) && (0 <=? Z.of_nat k) = true).
  { unfold zlen. apply andb_true_iff. split; [apply Z.ltb_lt; lia|apply Z.leb_le; lia]. }
  rewrite Hr. cbn [assert_ bind].
  pose proof (r_width _ _ _ R) as Hw. pose proof (r_sizes _ _ _ R) as Hs.
  pose proof (r_static _ _ _ R) as Hst. pose proof (r_start _ _ _ R) as Hp.
  pose proof (r_small _ _ _ R) as Hsm. pose proof (r_unc _ _ _ R) as Hu.
  unfold flat_mode in Hu.
  assert (Hin : In row (cells s)) by (eapply nth_error_In; eauto).
  destruct (slay s) eqn:El; cbn [is_max is_csr negb orb andb] in *.
  - destruct (Hw eq_refl) as [H1 [H2 _]]. rewrite Forall_forall in H2. specialize (H2 _ Hin).
    exists row, row. repeat split; auto; [|rewrite firstn_all; auto]. f_equal. unfold zlen. lia.
  - destruct (Hw eq_refl) as [H1 [H2 _]]. rewrite Forall_forall in H2. specialize (H2 _ Hin).
    exists row, row. repeat split; auto; [|rewrite firstn_all; auto]. f_equal.
    unfold stride in H1. rewrite (r_lay _ _ _ R), El in H1. unfold zlen. lia.
  - destruct (Hw eq_refl) as [H1 [H2 _]]. rewrite Forall_forall in H2. specialize (H2 _ Hin).
    destruct Hs as [Hl [Hle Hp']]. destruct (nth_error_lt_Some _ (used s) k ltac:(lia)) as [m Hm].
    rewrite Hm. cbn [option_map]. exists (firstn m row), row. split; auto.
    assert (m <= width s)%nat by (rewrite Forall_forall in Hle; apply Hle; eapply nth_error_In; eauto).
    assert (length (firstn m row) = m) by (rewrite firstn_length; lia).
    split; [|repeat split; auto; [lia|rewrite H0; auto]].
    destruct (pSizes a) as [p|]; [|rewrite Hp' in Hk; simpl in Hk; lia].
    cbn [assert_ bind deref]. rewrite Hp'. cbn [bind].
    unfold zlen. rewrite H0. apply vat_of_nat. rewrite nth_error_map_, Hm. reflexivity.
  - destruct (Hw eq_refl) as [H1 [H2 _]]. rewrite Forall_forall in H2. specialize (H2 _ Hin).
    destruct Hs as [Hl [Hle Hp']]. destruct (nth_error_lt_Some _ (used s) k ltac:(lia)) as [m Hm].
    rewrite Hm. cbn [option_map]. exists (firstn m row), row. split; auto.
    assert (m <= width s)%nat by (rewrite Forall_forall in Hle; apply Hle; eapply nth_error_In; eauto).
    assert (length (firstn m row) = m) by (rewrite firstn_length; lia).
    split; [|repeat split; auto; [lia|rewrite H0; auto]].
    destruct (pSizes a) as [p|]; [|rewrite Hp' in Hk; simpl in Hk; lia].
    cbn [assert_ bind deref]. rewrite Hp'. cbn [bind].
    unfold zlen. rewrite H0. apply vat_of_nat. rewrite nth_error_map_, Hm. reflexivity.
  - exists row, row. split; auto. split; [|repeat split; auto; rewrite firstn_all; auto].
    unfold IfCompressed. rewrite (r_lay _ _ _ R), El, (r_size _ _ _ R).
    assert (H0 : 0 <? zlen (cells s) = true) by (unfold zlen; apply Z.ltb_lt; lia). rewrite H0.
    cbn [bind andb]. destruct (comp s).
    + destruct Hp as [p [Hp1 Hp2]]. rewrite Hp1. cbn [deref]. rewrite Hp2. cbn [bind].
      replace (Z.of_nat k + 1) with (Z.of_nat (S k)) by lia.
      rewrite (vat_of_nat _ _ _ _ (zlensl_psums_nth _ (cells s) (S k) ltac:(lia))). cbn [bind].
      rewrite (vat_of_nat _ _ _ _ (zlensl_psums_nth _ (cells s) k ltac:(lia))). cbn [bind].
      rewrite (concat_firstn_S _ _ _ _ Hrow).
      replace (zlen (concat (firstn k (cells s)) ++ row) - zlen (concat (firstn k (cells s))))
        with (zlen row) by (unfold zlen; rewrite app_length; lia).
      specialize (Hsm eq_refl). rewrite Forall_forall in Hsm. specialize (Hsm _ Hin). unfold small in Hsm.
      destruct (Z.ltb_spec (zlen row) int32_max); [reflexivity|unfold zlen in *; lia].
    + rewrite Hp. cbn [bind]. rewrite Hu, (vat_of_nat _ _ _ _ Hrow). reflexivity.
Qed.

Definition spot (s : sarr) k l : place :=
  if flat_mode s then InData (Z.of_nat (length (concat (firstn k (cells s))) + l))
  else InRow (Z.of_nat k) (Z.of_nat l).

Lemma rep_locate : forall h a s i j, rep h a s ->
  locate h a i j =
  match in_range i (length (cells s)) with
  | None => Abort
  | Some k => match srow s k with
              | None => Abort
              | Some r => match in_range j (length r) with
                          | None => Abort
                          | Some l => Ok (spot s k l)
                          end
              end
  end.
Proof.
  intros h a s i j R. unfold locate. rewrite (r_size _ _ _ R). unfold zlen at 1.
  destruct (in_range_cases i (length (cells s))) as [[k [-> [Hk [-> ->]]]]|[-> ->]]; [|reflexivity].
  cbn [assert_ bind].
  destruct (rep_rowsize _ _ _ _ R Hk) as [r [row [-> [-> [Hrow [Hle Hr]]]]]].
  cbn [bind]. unfold zlen at 1.
  destruct (in_range_cases j (length r)) as [[l [-> [Hl [-> ->]]]]|[-> ->]]; [|reflexivity].
  cbn [assert_ bind]. unfold spot, flat_mode. rewrite (r_lay _ _ _ R).
  pose proof (r_width _ _ _ R) as Hw. pose proof (r_start _ _ _ R) as Hp.
  destruct (slay s) eqn:El; cbn [is_csr negb orb andb] in *;
    try (destruct (Hw eq_refl) as [H1 [H2 _]]; rewrite H1, (concat_widths _ _ _ H2) by lia; do 2 f_equal; lia).
  unfold IfCompressed. rewrite (r_lay _ _ _ R), El, (r_size _ _ _ R).
  assert (H0 : 0 <? zlen (cells s) = true) by (unfold zlen; apply Z.ltb_lt; lia). rewrite H0.
  cbn [bind andb]. destruct (comp s).
  - destruct Hp as [p [Hp1 Hp2]]. rewrite Hp1. cbn [deref]. rewrite Hp2. cbn [bind].
    rewrite (vat_of_nat _ _ _ _ (zlensl_psums_nth _ (cells s) k ltac:(lia))). cbn [bind].
    unfold zlen. do 2 f_equal. lia.
  - rewrite Hp. reflexivity.
Qed.

Lemma rep_looks : forall h a s, rep h a s -> looks_like h a s.
Proof.
  intros h a s R. split; [apply (r_size _ _ _ R)|]. split.
  - intro i. destruct (in_range_cases i (length (cells s))) as [[k [-> [Hk [-> _]]]]|[-> _]]; auto.
    destruct (rep_rowsize _ _ _ _ R Hk) as [r [row [H1 [H2 _]]]]. eauto.
  - intros i j. unfold at_. rewrite (rep_locate _ _ _ _ _ R).
    destruct (in_range_cases i (length (cells s))) as [[k [-> [Hk [-> _]]]]|[-> _]]; auto.
    destruct (rep_rowsize _ _ _ _ R Hk) as [r [row [-> [_ [Hrow [Hle Hr]]]]]].
    destruct (in_range_cases j (length r)) as [[l [-> [Hl [-> _]]]]|[-> _]]; auto.
    cbn [bind]. unfold spot. pose proof (r_dat _ _ _ R) as Hd. pose proof (r_unc _ _ _ R) as Hu.
    assert (E : nth_error r l = nth_error row l).
    { rewrite Hr, nth_error_firstn. destruct (Nat.ltb_spec l (length r)); [auto|lia]. }
    destruct (nth_error_lt_Some _ r l Hl) as [x Hx]. rewrite Hx.
    destruct (flat_mode s).
    + rewrite Hd. apply vat_of_nat. rewrite (nth_error_concat _ _ _ _ _ Hrow) by lia. congruence.
    + rewrite Hu, (vat_of_nat _ _ _ _ Hrow). cbn [bind]. apply vat_of_nat. congruence.
Qed.

(** *** single-array steps *)

Lemma rep_set : forall h a s i j x, rep h a s ->
  match set_ h a i j x with
  | Ok a' => exists s', In s' (allowed1 dflt s (CSet i j x)) /\ rep h a' s' /\
               pSizes a' = pSizes a /\ pStart a' = pStart a
  | Abort => allowed1 dflt s (CSet i j x) = []
  | UB => False
  end.
Proof.
  intros h a s i j x R. unfold set_. rewrite (rep_locate _ _ _ _ _ R). cbn [allowed1].
  destruct (in_range_cases i (length (cells s))) as [[k [-> [Hk [-> _]]]]|[-> _]]; [|reflexivity].
  destruct (rep_rowsize _ _ _ _ R Hk) as [r [row [Hsr [_ [Hrow [Hle Hr]]]]]]. rewrite Hsr.
  destruct (in_range_cases j (length r)) as [[l [-> [Hl [-> _]]]]|[-> _]]; [|reflexivity].
  cbn [bind]. unfold spot.
  assert (Hlr : (l < length row)%nat) by lia.
  rewrite (nth_error_nth _ _ [] Hrow).
  set (s' := with_cells s (upd k (upd l x row) (cells s))).
  assert (Hz : zlensl (upd k (upd l x row) (cells s)) = zlensl (cells s)).
  { unfold zlensl. apply nth_error_ext. intro m. rewrite !nth_error_map_, nth_error_upd.
    destruct (Nat.eqb_spec k m); auto. subst m. destruct (Nat.ltb_spec k (length (cells s))); [|lia].
    rewrite Hrow. simpl. unfold zlen. rewrite upd_length. reflexivity. }
  assert (Hfor : forall P : nat -> Prop, Forall (fun r => P (length r)) (cells s) ->
     Forall (fun r => P (length r)) (upd k (upd l x row) (cells s))).
  { intros P HP. apply upd_Forall; auto. rewrite upd_length. rewrite Forall_forall in HP.
    apply HP. eapply nth_error_In; eauto. }
  destruct (flat_mode s) eqn:Ef.
  - pose proof (r_dat _ _ _ R) as Hd. rewrite Ef in Hd.
    set (pos := (length (concat (firstn k (cells s))) + l)%nat).
    assert (Hpos : nth_error (dat a) pos = nth_error row l).
    { rewrite Hd. apply nth_error_concat; auto. }
    destruct (nth_error_lt_Some _ row l Hlr) as [y Hy]. rewrite Hy in Hpos.
    rewrite (vat_of_nat _ _ _ _ Hpos). cbn [bind]. unfold vset.
    pose proof (nth_error_Some_lt _ _ _ _ Hpos) as Hpl.
    destruct (Z.ltb_spec (Z.of_nat pos) 0); [lia|].
    destruct (Z.leb_spec (Z.of_nat (length (dat a))) (Z.of_nat pos)); [lia|]. cbn [orb bind].
    rewrite Nat2Z.id, Hd. unfold pos. rewrite (upd_concat _ _ _ _ _ _ Hrow Hlr).
    exists s'. split; [left; reflexivity|]. split; [|split; reflexivity].
    destruct R. unfold s'. constructor; unfold flat_mode, with_cells, with_dat, with_unc in *;
      cbn [slay comp width cells used lay pStart pSizes dat unc size rsd] in *.
    + auto.
    + rewrite r_size0. unfold zlen. rewrite upd_length. auto.
    + rewrite Ef in *. auto.
    + rewrite Ef in *. auto.
    + rewrite Hz. auto.
    + intro Hc. apply (Hfor (fun n => small n)); auto.
    + intro Hc. destruct (r_width0 Hc) as [A1 [A2 A3]]. repeat split; auto.
      apply (Hfor (fun n => n = width s)); auto.
    + auto.
    + destruct (is_max (slay s)); auto. rewrite upd_length. destruct r_sizes0 as [A1 [A2 A3]].
      repeat split; auto. destruct (pSizes a); auto. rewrite A3 in Hk. simpl in Hk. lia.
  - pose proof (r_unc _ _ _ R) as Hu. rewrite Ef in Hu.
    rewrite Hu, (vat_of_nat _ _ _ _ Hrow). cbn [bind].
    destruct (nth_error_lt_Some _ row l Hlr) as [y Hy]. rewrite (vat_of_nat _ _ _ _ Hy). cbn [bind].
    unfold vset.
    destruct (Z.ltb_spec (Z.of_nat l) 0); [lia|].
    destruct (Z.leb_spec (Z.of_nat (length row)) (Z.of_nat l)); [lia|]. cbn [orb bind].
    destruct (Z.ltb_spec (Z.of_nat k) 0); [lia|].
    destruct (Z.leb_spec (Z.of_nat (length (cells s))) (Z.of_nat k)); [lia|]. cbn [orb bind].
    rewrite !Nat2Z.id.
    exists s'. split; [left; reflexivity|]. split; [|split; reflexivity].
    destruct R. unfold s'. constructor; unfold flat_mode, with_cells, with_dat, with_unc in *;
      cbn [slay comp width cells used lay pStart pSizes dat unc size rsd] in *.
    + auto.
    + rewrite r_size0. unfold zlen. rewrite upd_length. auto.
    + rewrite Ef in *. auto.
    + rewrite Ef in *. auto.
    + rewrite Hz. auto.
    + intro Hc. apply (Hfor (fun n => small n)); auto.
    + intro Hc. destruct (r_width0 Hc) as [A1 [A2 A3]]. repeat split; auto.
      apply (Hfor (fun n => n = width s)); auto.
    + auto.
    + destruct (is_max (slay s)); auto. rewrite upd_length. destruct r_sizes0 as [A1 [A2 A3]].
      repeat split; auto. destruct (pSizes a); auto. rewrite A3 in Hk. simpl in Hk. lia.
Qed.

(** *** building and taking apart representations *)
Lemma rep_csr : forall h a c cl,
  rep h a {| slay := CSR; comp := c; width := 0; cells := cl; used := [] |} <->
  (lay a = CSR /\ size a = zlen cl /\ pSizes a = None /\
   Forall (fun r => small (length r)) cl /\
   dat a = (if c then concat cl else []) /\ unc a = (if c then [] else cl) /\
   if c then exists k, pStart a = Some k /\ nth_error h k = Some (psums 0 (zlensl cl))
   else pStart a = None).
Proof.
  intros h a c cl. split.
  - intros []. unfold flat_mode in *.
    cbn [slay comp width cells used is_csr is_max negb orb andb] in *. intuition auto.
  - intros (H1 & H2 & H3 & H4 & H5 & H6 & H7). constructor; unfold flat_mode;
    cbn [slay comp width cells used is_csr is_max negb orb andb] in *; auto; discriminate.
Qed.

Lemma rep_csr_shape : forall h a s, rep h a s -> slay s = CSR ->
  s = {| slay := CSR; comp := comp s; width := 0; cells := cells s; used := [] |}.
Proof.
  intros h a [sl c w cl us] [] E. cbn in E. subst sl. cbn in *. destruct r_sizes0 as [_ ->].
  subst w. reflexivity.
Qed.

Lemma rep_table : forall h a sl w cl us, is_csr sl = false ->
  rep h a {| slay := sl; comp := false; width := w; cells := cl; used := us |} <->
  (lay a = sl /\ size a = zlen cl /\ pStart a = None /\ stride a = Z.of_nat w /\
   Forall (fun r => length r = w) cl /\ dat a = concat cl /\ unc a = [] /\
   match sl with StaticFixed v | StaticMax v => w = v | _ => True end /\
   (if is_max sl
    then length us = length cl /\ Forall (fun k => (k <= w)%nat) us /\
         match pSizes a with
         | None => cl = []
         | Some k => nth_error h k = Some (map Z.of_nat us)
         end
    else pSizes a = None /\ us = [])).
Proof.
  intros h a sl w cl us Hc. split.
  - intros []. unfold flat_mode in *.
    cbn [slay comp width cells used] in *. rewrite Hc in *. cbn [negb orb andb] in *.
    destruct (r_width0 eq_refl) as [? [? _]]. repeat split; auto.
    destruct sl; auto.
  - intros (H1 & H2 & H3 & H4 & H5 & H6 & H7 & H8 & H9). constructor; unfold flat_mode;
    cbn [slay comp width cells used] in *; rewrite ?Hc in *; cbn [negb orb andb] in *; auto;
    try discriminate. destruct sl; auto; discriminate.
Qed.

Lemma rep_table_shape : forall h a s, rep h a s -> is_csr (slay s) = false ->
  s = {| slay := slay s; comp := false; width := width s; cells := cells s; used := used s |}.
Proof.
  intros h a [sl c w cl us] [] E. cbn in *. destruct (r_width0 E) as [_ [_ ->]]. reflexivity.
Qed.

(** A variable-row array: compressed and not empty, or not. *)
Lemma rep_csr_mode : forall h a c cl,
  rep h a {| slay := CSR; comp := c; width := 0; cells := cl; used := [] |} ->
  let s := {| slay := CSR; comp := c; width := 0; cells := cl; used := [] |} in
  IfCompressed a = Ok (locked s) /\
  (locked s = true -> c = true /\ cl <> [] /\ dat a = concat cl /\ unc a = [] /\
     exists k, pStart a = Some k /\ nth_error h k = Some (psums 0 (zlensl cl))) /\
  (locked s = false -> dat a = [] /\ unc a = cl /\ (c = true -> cl = [])).
Proof.
  intros h a c cl R s. apply rep_csr in R. destruct R as (H1 & H2 & H3 & H4 & H5 & H6 & H7).
  unfold IfCompressed, locked, s. rewrite H1, H2. cbn [comp cells].
  destruct c, cl as [|r cl]; cbn [andb].
  - split; [reflexivity|]. split; intro; [discriminate|auto].
  - destruct H7 as [k [E1 E2]]. rewrite E1. split; [reflexivity|]. split; intro; [|discriminate].
    repeat split; auto; [discriminate|]. exists k. auto.
  - split; [reflexivity|]. split; intro; [discriminate|auto].
  - rewrite H7, andb_false_r. split; [reflexivity|]. split; intro; [discriminate|].
    repeat split; auto; discriminate.
Qed.

(** What a call on one array may do to the heap and to the descriptors. *)
Definition frame (h : heap) (u : nat) (a : arr) (h' : heap) (a' : arr) : Prop :=
  (exists e, h' = h ++ e /\
     (pStart a' = None \/ pStart a' = pStart a \/ pStart a' = Some (length h)) /\
     (pSizes a' = None \/ pSizes a' = pSizes a \/ pSizes a' = Some (length h)))
  \/ (u = 1%nat /\ exists k v, pSizes a = Some k /\ h' = upd k v h /\
      pStart a' = pStart a /\ pSizes a' = pSizes a).

Definition good1 (h : heap) (u : nat) (a : arr) (s : sarr) (c : call T) (r : res (heap * arr)) : Prop :=
  match r with
  | Ok (h', a') => exists s', In s' (allowed1 dflt s c) /\ rep h' a' s' /\ frame h u a h' a'
  | Abort => allowed1 dflt s c = []
  | UB => False
  end.

Lemma frame_same : forall h u a a', pStart a' = None \/ pStart a' = pStart a ->
  pSizes a' = None \/ pSizes a' = pSizes a -> frame h u a h a'.
Proof. intros. left. exists []. rewrite app_nil_r. intuition auto. Qed.

Lemma lens_rows : forall (cl : list (list T)),
  mapM (fun i => do r <- vat cl i; Ok (zlen r)) (ranks (length cl)) = Ok (zlensl cl).
Proof.
  intros. apply mapM_intro.
  - unfold zlensl. rewrite map_length, ranks_length. reflexivity.
  - intros i x y Hx Hy. pose proof (nth_error_Some_lt _ _ _ _ Hx) as L. rewrite ranks_length in L.
    rewrite ranks_nth in Hx by auto. injection Hx as <-. unfold zlensl in Hy.
    rewrite nth_error_map_ in Hy. destruct (nth_error cl i) as [r|] eqn:E; [|discriminate].
    cbn in Hy. injection Hy as <-. rewrite (vat_of_nat _ _ _ _ E). reflexivity.
Qed.

Lemma good_compress : forall h u a s, rep h a s -> good1 h u a s CCompress (Compress dflt h a).
Proof.
  intros h u a s R. unfold Compress. rewrite (r_lay _ _ _ R). destruct (slay s) eqn:El.
  1,2,3,4: exists s; split; [left; cbn [allowed1]; rewrite El; reflexivity|split; auto; apply frame_same; auto].
  rewrite (rep_csr_shape _ _ _ R El) in R |- *. generalize (comp s) (cells s) R. clear. intros c cl R.
  pose proof (rep_csr_mode _ _ _ _ R) as [E [Hl Hn]]. cbn zeta in *. rewrite E. cbn [bind].
  destruct (locked _).
  - destruct (Hl eq_refl) as [-> _]. eexists. split; [left; reflexivity|]. split; [exact R|].
    apply frame_same; auto.
  - destruct (Hn eq_refl) as [Hd [Hu _]]. pose proof (r_size _ _ _ R) as Hs. cbn in Hs.
    unfold zlen in Hs. rewrite Hu, Hs, Nat2Z.id, lens_rows. cbn [bind].
    rewrite last_psums, Z.add_0_l, zsum_zlensl, Hd. unfold zlen at 1. rewrite vresize_fit. cbn [bind].
    rewrite foldM_write_rows by (apply fit_length). cbn [bind alloc good1].
    eexists. split; [left; reflexivity|]. split.
    + cbn [is_csr slay with_comp]. apply rep_csr. apply rep_csr in R. cbn.
      destruct R as (H1 & H2 & H3 & H4 & H5 & H6 & H7). repeat split; auto.
      exists (length h). split; auto. rewrite nth_error_app2, Nat.sub_diag by lia. reflexivity.
    + left. eexists. split; [reflexivity|]. cbn. auto.
Qed.

Lemma good_decompress : forall h u a s, rep h a s ->
  good1 h u a s CDecompress (do a' <- Decompress h a; Ok (h, a')).
Proof.
  intros h u a s R. unfold Decompress. rewrite (r_lay _ _ _ R). destruct (slay s) eqn:El.
  1,2,3,4: exists s; split; [left; cbn [allowed1]; rewrite El; reflexivity|split; auto; apply frame_same; auto].
  rewrite (rep_csr_shape _ _ _ R El) in R |- *. generalize (comp s) (cells s) R. clear. intros c cl R.
  pose proof (rep_csr_mode _ _ _ _ R) as [E [Hl Hn]]. cbn zeta in *. rewrite E. cbn [bind].
  unfold good1. cbn [allowed1 is_csr slay]. destruct (locked _).
  - destruct (Hl eq_refl) as [-> [Hne [Hd [Hu [k [Hk1 Hk2]]]]]].
    rewrite Hk1. cbn [deref]. rewrite Hk2. cbn [bind].
    pose proof (r_size _ _ _ R) as Hs. cbn in Hs. rewrite Hs. unfold zlen at 1. rewrite Nat2Z.id.
    rewrite (mapM_intro _ _ _ _ cl).
    + cbn [bind]. eexists. split; [left; reflexivity|]. split.
      * cbn [with_comp slay comp width cells used]. apply rep_csr. apply rep_csr in R.
        destruct R as (H1 & H2 & H3 & H4 & H5 & H6 & H7). cbn. repeat split; auto.
      * apply frame_same; auto.
    + rewrite ranks_length. reflexivity.
    + intros i x y Hx Hy. pose proof (nth_error_Some_lt _ _ _ _ Hy) as L.
      rewrite ranks_nth in Hx by auto. injection Hx as <-.
      rewrite (vat_of_nat _ _ _ _ (zlensl_psums_nth _ cl i ltac:(lia))). cbn [bind].
      replace (Z.of_nat i + 1) with (Z.of_nat (S i)) by lia.
      rewrite (vat_of_nat _ _ _ _ (zlensl_psums_nth _ cl (S i) ltac:(lia))). cbn [bind].
      rewrite (concat_firstn_S _ _ _ _ Hy), Hd.
      replace (zlen (concat (firstn i cl) ++ y) - zlen (concat (firstn i cl)))
        with (zlen y) by (unfold zlen; rewrite app_length; lia).
      apply slice_concat; auto.
  - cbn [bind]. eexists. split; [left; reflexivity|]. split; [|apply frame_same; auto].
    cbn [with_comp slay comp width cells used negb]. rewrite andb_true_r. exact R.
Qed.

Lemma Forall_fit : forall A (P : A -> Prop) x n l, P x -> Forall P (firstn n l) -> Forall P (fit x n l).
Proof.
  intros. unfold fit. apply Forall_app. split; auto. apply Forall_forall. intros y Hy.
  apply repeat_spec in Hy. subst; auto.
Qed.

Lemma Forall_firstn : forall A (P : A -> Prop) n l, Forall P l -> Forall P (firstn n l).
Proof. induction n; destruct l; simpl; intros H; auto. inversion H; subst. constructor; auto. Qed.

Lemma zlen_fit : forall A (x : A) n l, zlen (fit x n l) = Z.of_nat n.
Proof. intros. unfold zlen. rewrite fit_length. reflexivity. Qed.

Lemma csr_resize : forall h u a c cl n,
  rep h a {| slay := CSR; comp := c; width := 0; cells := cl; used := [] |} ->
  ~ (c = true /\ cl = [] /\ n <> 0%nat) ->
  let s := {| slay := CSR; comp := c; width := 0; cells := cl; used := [] |} in
  forall rd, match Resize2 dflt h u a (Z.of_nat n) rd with
  | Ok (h', a') => exists s', In s' (if locked s then [] else [with_cells s (fit [] n (cells s))]) /\
                   rep h' a' s' /\ frame h u a h' a'
  | Abort => (if locked s then [] else [with_cells s (fit [] n (cells s))]) = []
  | UB => False
  end.
Proof.
  intros h u a c cl n R Hc s rd. pose proof (rep_csr_mode _ _ _ _ R) as [E [Hl Hn]].
  cbn zeta in *. fold s in E, Hl, Hn. unfold Resize2. pose proof (r_lay _ _ _ R) as Ha. cbn in Ha.
  rewrite Ha, E. cbn [bind]. destruct (locked s); [reflexivity|]. cbn [negb assert_ bind].
  destruct (Hn eq_refl) as [Hd [Hu Hcl]]. rewrite vresize_fit. cbn [bind].
  eexists. split; [left; reflexivity|]. split; [|apply frame_same; auto].
  apply rep_csr in R. destruct R as (H1 & H2 & H3 & H4 & H5 & H6 & H7).
  unfold with_cells, s. cbn. apply rep_csr. cbn. rewrite Hu.
  split; auto. split; [rewrite zlen_fit; reflexivity|]. split; auto.
  split; [apply Forall_fit; [cbv; reflexivity|apply Forall_firstn; auto]|].
  destruct c.
  - rewrite (Hcl eq_refl) in *. assert (n = 0)%nat by (destruct n; auto; exfalso; apply Hc; auto).
    subst n. cbn. auto.
  - auto.
Qed.

Lemma sizes_step : forall h u a n us w,
  (match pSizes a with None => True | Some k => nth_error h k = Some (map Z.of_nat us) end) ->
  (pSizes a = None -> u = 0%nat) ->
  Forall (fun k => (k <= w)%nat) (firstn n us) ->
  exists h' p us', resize_sizes h u (pSizes a) (Z.of_nat n) = Ok (h', p) /\
    (us' = repeat 0%nat n \/ us' = fit 0%nat n us) /\
    length us' = n /\ Forall (fun k => (k <= w)%nat) us' /\
    (exists k, p = Some k /\ nth_error h' k = Some (map Z.of_nat us')) /\
    forall a', pStart a' = pStart a -> pSizes a' = p -> frame h u a h' a'.
Proof.
  intros h u a n us w Hp Hu Hle. unfold resize_sizes. destruct (Nat.eqb_spec u 1).
  - destruct (pSizes a) as [k|] eqn:Ek; [|specialize (Hu eq_refl); lia].
    cbn [deref]. rewrite Hp. cbn [bind]. rewrite vresize_fit. cbn [bind store].
    pose proof (nth_error_Some_lt _ _ _ _ Hp) as L. destruct (Nat.ltb_spec k (length h)); [|lia].
    cbn [bind]. do 2 eexists. exists (fit 0%nat n us). split; [reflexivity|]. split; auto.
    split; [apply fit_length|]. split; [apply Forall_fit; auto; lia|]. split.
    + exists k. split; auto. rewrite nth_error_upd_same by auto. f_equal. unfold fit.
      rewrite map_app, firstn_map, map_repeat_, map_length. reflexivity.
    + intros a' H1 H2. right. split; auto. exists k. eexists. rewrite Ek. repeat split; auto.
  - destruct (Z.ltb_spec (Z.of_nat n) 0); [lia|]. rewrite Nat2Z.id. unfold alloc.
    do 2 eexists. exists (repeat 0%nat n). split; [reflexivity|]. split; auto.
    split; [apply repeat_length|]. split; [apply Forall_forall; intros y Hy; apply repeat_spec in Hy; lia|].
    split.
    + exists (length h). split; auto. rewrite nth_error_app2, Nat.sub_diag by lia. simpl.
      rewrite map_repeat_. reflexivity.
    + intros a' H1 H2. left. eexists. split; [reflexivity|]. auto.
Qed.

Lemma table_len : forall (src : list T) n w, zlen (regroup dflt (repeat w n) src) = Z.of_nat n.
Proof. intros. unfold zlen. rewrite regroup_length, repeat_length. reflexivity. Qed.

Lemma table_dat : forall (src : list T) n w,
  vresize dflt (Z.of_nat n * Z.of_nat w) src = Ok (concat (regroup dflt (repeat w n) src)).
Proof.
  intros. rewrite <- Nat2Z.inj_mul, vresize_fit, regroup_concat, list_sum_repeat. reflexivity.
Qed.

(** [wd]: the resulting width *)
Lemma tbl_resize : forall h u a s n wd,
  rep h a s -> is_csr (slay s) = false -> (pSizes a = None -> u = 0%nat) ->
  match slay s with StaticFixed w | StaticMax w => wd = w | _ => True end ->
  (slay s = Max -> Forall (fun k => (k <= wd)%nat) (firstn n (used s))) ->
  match Resize2 dflt h u a (Z.of_nat n) (Z.of_nat wd) with
  | Ok (h', a') => exists s', In s' (table_resize dflt s n wd) /\ rep h' a' s' /\ frame h u a h' a'
  | _ => False
  end.
Proof.
  intros h u a s n wd R Hc Hu Hst Hmx.
  rewrite (rep_table_shape _ _ _ R Hc) in R |- *. generalize (width s) (cells s) (used s) R Hmx.
  generalize (slay s) Hc Hst. clear R Hmx Hst Hc. intros sl Hc Hst w cl us R Hmx.
  apply rep_table in R; auto. destruct R as (H1 & H2 & H3 & H4 & H5 & H6 & H7 & H8 & H9).
  unfold Resize2, table_resize. rewrite H1, H6. cbn [cells slay comp used].
  pose proof (regroup_widths _ dflt wd n (concat cl)) as Hw.
  pose proof (table_len (concat cl) n wd) as Hlen.
  destruct sl; try discriminate; cbn [is_max] in *.
  - subst wd. rewrite table_dat. cbn [bind]. rewrite Z.eqb_refl. cbn [assert_ bind].
    eexists. split; [left; reflexivity|]. split; [|apply frame_same; auto].
    apply rep_table; auto. cbn. repeat split; auto; apply H9.
  - rewrite table_dat. cbn [bind].
    eexists. split; [left; reflexivity|]. split; [|apply frame_same; auto].
    apply rep_table; auto. cbn. repeat split; auto; apply H9.
  - rewrite table_dat. cbn [bind]. destruct H9 as [A1 [A2 A3]].
    destruct (sizes_step h u a n us wd) as (h' & p & us' & E & Hus & Hl & Hle & [k [Hk1 Hk2]] & Hf);
      [destruct (pSizes a); auto|auto|auto|].
    rewrite E. cbn [bind fst snd].
    exists {| slay := Max; comp := false; width := wd;
              cells := regroup dflt (repeat wd n) (concat cl); used := us' |}.
    split; [destruct Hus; subst us'; [left|right; left]; reflexivity|]. split; [|apply Hf; auto].
    apply rep_table; auto. cbn [lay size pStart stride rsd dat unc is_max pSizes].
    rewrite Hk1, regroup_length, repeat_length. repeat split; auto.
  - subst wd. rewrite table_dat. cbn [bind]. rewrite Z.eqb_refl. cbn [assert_ bind].
    destruct H9 as [A1 [A2 A3]].
    destruct (sizes_step h u a n us rm) as (h' & p & us' & E & Hus & Hl & Hle & [k [Hk1 Hk2]] & Hf);
      [destruct (pSizes a); auto|auto|apply Forall_firstn; subst w; auto|].
    rewrite E. cbn [bind fst snd].
    exists {| slay := StaticMax rm; comp := false; width := rm;
              cells := regroup dflt (repeat rm n) (concat cl); used := us' |}.
    split; [destruct Hus; subst us'; [left|right; left]; reflexivity|]. split; [|apply Hf; auto].
    apply rep_table; auto. cbn [lay size pStart stride rsd dat unc is_max pSizes].
    rewrite Hk1, regroup_length, repeat_length. repeat split; auto.
Qed.

Lemma good_resize2 : forall h u a s n rd, rep h a s -> (pSizes a = None -> u = 0%nat) ->
  ~ (slay s = CSR /\ comp s = true /\ cells s = [] /\ n <> 0%nat) ->
  (slay s = Max -> Forall (fun k => (k <= rd)%nat) (firstn n (used s))) ->
  good1 h u a s (CResize2 n rd) (Resize2 dflt h u a (Z.of_nat n) (Z.of_nat rd)).
Proof.
  intros h u a s n rd R Hu Hc Hm. unfold good1. cbn [allowed1]. destruct (slay s) eqn:El.
  - destruct (Nat.eqb_spec rd rs).
    + subst rd. pose proof (tbl_resize h u a s n rs R) as H. rewrite El in H.
      specialize (H eq_refl Hu eq_refl ltac:(discriminate)).
      destruct (Resize2 _ _ _ _ _ _) as [[h' a']| |]; auto; contradiction.
    + unfold Resize2. rewrite (r_lay _ _ _ R), El, table_dat. cbn [bind].
      destruct (Z.eqb_spec (Z.of_nat rd) (Z.of_nat rs)); [lia|]. reflexivity.
  - pose proof (tbl_resize h u a s n rd R) as H. rewrite El in H.
    specialize (H eq_refl Hu I ltac:(discriminate)).
    destruct (Resize2 _ _ _ _ _ _) as [[h' a']| |]; auto; contradiction.
  - pose proof (tbl_resize h u a s n rd R) as H. rewrite El in H.
    specialize (H eq_refl Hu I Hm).
    destruct (Resize2 _ _ _ _ _ _) as [[h' a']| |]; auto; contradiction.
  - destruct (Nat.eqb_spec rd rm).
    + subst rd. pose proof (tbl_resize h u a s n rm R) as H. rewrite El in H.
      specialize (H eq_refl Hu eq_refl ltac:(discriminate)).
      destruct (Resize2 _ _ _ _ _ _) as [[h' a']| |]; auto; contradiction.
    + unfold Resize2. rewrite (r_lay _ _ _ R), El, table_dat. cbn [bind].
      destruct (Z.eqb_spec (Z.of_nat rd) (Z.of_nat rm)); [lia|]. reflexivity.
  - pose proof (rep_csr_shape _ _ _ R El) as E. rewrite E in R.
    pose proof (csr_resize h u a (comp s) (cells s) n R) as H. cbn zeta in H. rewrite <- E in H.
    apply H. intros (A & B & C). apply Hc. auto.
Qed.

Lemma good_resize1 : forall h u a s n, rep h a s -> (pSizes a = None -> u = 0%nat) ->
  ~ (slay s = CSR /\ comp s = true /\ cells s = [] /\ n <> 0%nat) ->
  good1 h u a s (CResize n) (Resize1 dflt h u a (Z.of_nat n)).
Proof.
  intros h u a s n R Hu Hc. unfold Resize1. rewrite (r_lay _ _ _ R).
  destruct (slay s) eqn:El; try (unfold good1; cbn [allowed1]; rewrite El; reflexivity).
  - pose proof (good_resize2 h u a s n rs R Hu) as H. unfold good1 in *. cbn [allowed1] in *.
    rewrite El in *. rewrite Nat.eqb_refl in H. apply H; auto. discriminate.
  - pose proof (good_resize2 h u a s n rm R Hu) as H. unfold good1 in *. cbn [allowed1] in *.
    rewrite El in *. rewrite Nat.eqb_refl in H. apply H; auto. discriminate.
  - pose proof (good_resize2 h u a s n 0 R Hu) as H. unfold good1 in *. cbn [allowed1] in *.
    rewrite El in *. apply H; auto. discriminate.
Qed.

Lemma good_resizeF : forall h u a s sizes, rep h a s -> Forall small sizes ->
  good1 h u a s (CResizeF sizes) (ResizeF dflt h a (map Z.of_nat sizes)).
Proof.
  intros h u a s sizes R Hs. unfold ResizeF. rewrite (r_lay _ _ _ R).
  destruct (slay s) eqn:El; try (unfold good1; cbn [allowed1]; rewrite El; reflexivity).
  rewrite (rep_csr_shape _ _ _ R El) in R |- *. generalize (comp s) (cells s) R. clear - Hs. intros c cl R.
  apply rep_csr in R. destruct R as (H1 & H2 & H3 & H4 & H5 & H6 & H7).
  rewrite last_psums, Z.add_0_l, zsum_of_nat, vresize_fit. cbn [bind alloc good1 allowed1 slay comp cells].
  eexists. split; [left; reflexivity|]. split.
  - cbn [width used]. apply rep_csr. cbn. rewrite <- H5, regroup_concat, regroup_zlens.
    repeat split; auto.
    + unfold zlen. rewrite map_length, regroup_length. reflexivity.
    + rewrite Forall_forall in *. intros r Hr. apply Hs.
      rewrite <- (regroup_lengths _ dflt sizes (dat a)). apply in_map. auto.
    + exists (length h). split; auto. rewrite nth_error_app2, Nat.sub_diag by lia. reflexivity.
  - left. eexists. split; [reflexivity|]. cbn. auto.
Qed.

Lemma max_row : forall h u a s i n wd, rep h a s -> is_max (slay s) = true ->
  (u = 0%nat -> pSizes a = None) -> wd = width s -> RowSizeMax a = Ok (Z.of_nat wd) ->
  good1 h u a s (CResizeRow i n) (ResizeRow dflt h u a i (Z.of_nat n)).
Proof.
  intros h u a s i n wd R Hm Hu -> Hrm. unfold good1, ResizeRow. cbn [allowed1].
  assert (Hc : is_csr (slay s) = false) by (destruct (slay s); auto; discriminate).
  pose proof (rep_table_shape _ _ _ R Hc) as Es. rewrite Es in R. apply rep_table in R; auto.
  destruct R as (H1 & H2 & H3 & H4 & H5 & H6 & H7 & H8 & H9). rewrite Hm in H9.
  destruct H9 as [A1 [A2 A3]]. rewrite H1.
  assert (G : match
     (do m <- RowSizeMax a;
      do _ <- assert_ (Z.of_nat n <=? m);
      do _ <- assert_ ((i <? size a) && (0 <=? i));
      do _ <- assert_ (match pSizes a with Some _ => true | None => false end);
      do v <- deref h (pSizes a);
      do _ <- vat v i; do v' <- vset v i (Z.of_nat n);
      if (1 <? u)%nat then
        let (h', p) := alloc h v' in
        Ok (h', {| lay := lay a; pStart := pStart a; pSizes := p; dat := dat a; unc := unc a;
                   size := size a; rsd := rsd a |})
      else do h' <- store h (pSizes a) v'; Ok (h', a))
     with
     | Ok (h', a') => exists s', In s' (match in_range i (length (cells s)) with
         | None => []
         | Some k => if Nat.leb n (width s)
              then [ {| slay := slay s; comp := comp s; width := width s; cells := cells s;
                        used := upd k n (used s) |} ]
              else [] end) /\ rep h' a' s' /\ frame h u a h' a'
     | Abort => (match in_range i (length (cells s)) with
         | None => []
         | Some k => if Nat.leb n (width s)
              then [ {| slay := slay s; comp := comp s; width := width s; cells := cells s;
                        used := upd k n (used s) |} ]
              else [] end) = []
     | UB => False end).
  { rewrite Hrm. cbn [bind]. rewrite H2. unfold zlen.
    destruct (Nat.leb_spec n (width s)), (Z.leb_spec (Z.of_nat n) (Z.of_nat (width s))); try lia;
      cbn [assert_ bind]; [|destruct (in_range _ _); reflexivity].
    destruct (in_range_cases i (length (cells s))) as [[k [-> [Hk [-> ->]]]]|[-> ->]]; [|reflexivity].
    cbn [assert_ bind].
    destruct (pSizes a) as [p|] eqn:Ep; [|rewrite A3 in Hk; simpl in Hk; lia].
    cbn [bind deref]. rewrite A3. cbn [bind].
    destruct (nth_error_lt_Some _ (used s) k ltac:(lia)) as [m Hm'].
    assert (Hv : nth_error (map Z.of_nat (used s)) k = Some (Z.of_nat m)) by (rewrite nth_error_map_, Hm'; auto).
    rewrite (vat_of_nat _ _ _ _ Hv). cbn [bind]. unfold vset.
    destruct (Z.ltb_spec (Z.of_nat k) 0); [lia|].
    destruct (Z.leb_spec (Z.of_nat (length (map Z.of_nat (used s)))) (Z.of_nat k)); [rewrite map_length in *; lia|].
    cbn [orb bind]. rewrite Nat2Z.id.
    assert (Eu : upd k (Z.of_nat n) (map Z.of_nat (used s)) = map Z.of_nat (upd k n (used s))).
    { apply nth_error_ext. intro q. rewrite nth_error_upd, !nth_error_map_, nth_error_upd, map_length.
      destruct (Nat.eqb k q); auto. destruct (k <? length (used s))%nat; reflexivity. }
    rewrite Eu.
    destruct (Nat.ltb_spec 1 u).
    - cbn [alloc]. eexists. split; [left; reflexivity|]. split.
      + rewrite Es. cbn [slay comp width cells used]. apply rep_table; auto. cbn. rewrite Hm, upd_length.
        repeat split; auto. apply upd_Forall; auto. rewrite nth_error_app2, Nat.sub_diag by lia. reflexivity.
      + left. eexists. split; [reflexivity|]. cbn. auto.
    - cbn [store]. pose proof (nth_error_Some_lt _ _ _ _ A3) as L.
      destruct (Nat.ltb_spec p (length h)); [|lia]. cbn [bind].
      eexists. split; [left; reflexivity|]. split.
      + rewrite Es. cbn [slay comp width cells used]. apply rep_table; auto. rewrite Hm, upd_length, Ep.
        repeat split; auto. apply upd_Forall; auto. apply nth_error_upd_same; auto.
      + right. split.
        * destruct u as [|[|u]]; auto; [|lia]. specialize (Hu eq_refl). congruence.
        * exists p. eexists. rewrite Ep. repeat split; auto. }
  rewrite H1 in G. destruct (slay s); try discriminate; exact G.
Qed.

Lemma good_resizerow : forall h u a s i n, rep h a s -> (u = 0%nat -> pSizes a = None) -> small n ->
  good1 h u a s (CResizeRow i n) (ResizeRow dflt h u a i (Z.of_nat n)).
Proof.
  intros h u a s i n R Hu Hn. destruct (slay s) eqn:El.
  - unfold good1, ResizeRow. rewrite (r_lay _ _ _ R), El. cbn [allowed1]. rewrite El.
    destruct (in_range _ _); reflexivity.
  - unfold good1, ResizeRow. rewrite (r_lay _ _ _ R), El. cbn [allowed1]. rewrite El.
    destruct (in_range _ _); reflexivity.
  - apply max_row with (wd := width s); auto; [rewrite El; reflexivity|].
    unfold RowSizeMax. rewrite (r_lay _ _ _ R), El.
    destruct (r_width _ _ _ R) as [E _]; [rewrite El; auto|]. unfold stride in E.
    rewrite (r_lay _ _ _ R), El in E. rewrite E. reflexivity.
  - apply max_row with (wd := width s); auto; [rewrite El; reflexivity|].
    unfold RowSizeMax. rewrite (r_lay _ _ _ R), El. pose proof (r_static _ _ _ R) as E.
    rewrite El in E. rewrite E. reflexivity.
  - rewrite (rep_csr_shape _ _ _ R El) in R |- *. generalize (comp s) (cells s) R. clear - Hn. intros c cl R.
    pose proof (rep_csr_mode _ _ _ _ R) as [E [Hl Hu]]. cbn zeta in *.
    unfold good1, ResizeRow. cbn [allowed1 slay cells]. pose proof (r_lay _ _ _ R) as Ha. cbn in Ha.
    rewrite Ha, E. cbn [bind]. destruct (locked _); cbn [negb assert_ bind].
    { destruct (in_range _ _); reflexivity. }
    destruct (Hu eq_refl) as [Hd [Huu Hcl]].
    apply rep_csr in R. destruct R as (H1 & H2 & H3 & H4 & H5 & H6 & H7).
    rewrite H2. unfold zlen.
    destruct (in_range_cases i (length cl)) as [[k [-> [Hk [-> ->]]]]|[-> ->]]; [|reflexivity].
    cbn [assert_ bind]. destruct (nth_error_lt_Some _ cl k Hk) as [row Hrow].
    rewrite Huu, (vat_of_nat _ _ _ _ Hrow). cbn [bind]. rewrite vresize_fit. cbn [bind]. unfold vset.
    destruct (Z.ltb_spec (Z.of_nat k) 0); [lia|].
    destruct (Z.leb_spec (Z.of_nat (length cl)) (Z.of_nat k)); [lia|]. cbn [orb bind].
    rewrite Nat2Z.id. rewrite (nth_error_nth _ _ [] Hrow).
    eexists. split; [left; reflexivity|]. split; [|apply frame_same; auto].
    assert (c = false) by (destruct c; auto; rewrite (Hcl eq_refl) in Hk; simpl in Hk; lia).
    subst c. cbn [with_cells slay comp width cells used]. apply rep_csr. cbn. rewrite H1.
    split; auto. split; [rewrite H2; unfold zlen; rewrite upd_length; reflexivity|].
    split; auto. split; [apply upd_Forall; auto; rewrite fit_length; auto|]. auto.
Qed.

(** *** several arrays *)
Definition wrep (w : world T) (ss : list sarr) : Prop :=
  length (arrs w) = length ss /\
  (forall id a s, nth_error (arrs w) id = Some a -> nth_error ss id = Some s -> rep (hp w) a s) /\
  (forall i j a b k, nth_error (arrs w) i = Some a -> nth_error (arrs w) j = Some b ->
     pStart a = Some k -> pSizes b = Some k -> False).

Lemma rep_ptr : forall h a s, rep h a s -> pStart a = None \/ pSizes a = None.
Proof.
  intros h a s R. pose proof (r_start _ _ _ R) as H1. pose proof (r_sizes _ _ _ R) as H2.
  destruct (slay s); cbn in *; try (left; exact H1). right. apply H2.
Qed.

Lemma rep_ptr_lt : forall h a s, rep h a s ->
  (forall k, pStart a = Some k -> (k < length h)%nat) /\ (forall k, pSizes a = Some k -> (k < length h)%nat).
Proof.
  intros h a s R. pose proof (r_start _ _ _ R) as H1. pose proof (r_sizes _ _ _ R) as H2. split; intros k Hk.
  - destruct (is_csr (slay s) && comp s); [|congruence]. destruct H1 as [k' [E1 E2]].
    replace k with k' by congruence. eapply nth_error_Some_lt; eauto.
  - destruct (is_max (slay s)); [|destruct H2; congruence]. destruct H2 as [_ [_ H2]]. rewrite Hk in H2.
    eapply nth_error_Some_lt; eauto.
Qed.

Lemma rep_heap : forall h h' a s, rep h a s ->
  (forall k, pStart a = Some k -> nth_error h' k = nth_error h k) ->
  (forall k, pSizes a = Some k -> nth_error h' k = nth_error h k) -> rep h' a s.
Proof.
  intros h h' a s [] H1 H2. constructor; auto.
  - destruct (is_csr (slay s) && comp s); auto. destruct r_start0 as [k [E1 E2]]. exists k. split; auto.
    rewrite H1; auto.
  - destruct (is_max (slay s)); auto. destruct r_sizes0 as [A1 [A2 A3]]. repeat split; auto.
    destruct (pSizes a); auto. rewrite H2; auto.
Qed.

Lemma filter_one : forall A (f : A -> bool) l i j x y, length (filter f l) = 1%nat ->
  nth_error l i = Some x -> nth_error l j = Some y -> f x = true -> f y = true -> i = j.
Proof.
  induction l as [|z l IH]; intros [|i] [|j] x y H Hi Hj Hx Hy; simpl in *; try discriminate; auto.
  - injection Hi as ->. rewrite Hx in H. simpl in H. exfalso.
    assert (In y (filter f l)) by (apply filter_In; split; auto; eapply nth_error_In; eauto).
    destruct (filter f l); simpl in *; [auto|lia].
  - injection Hj as ->. rewrite Hy in H. simpl in H. exfalso.
    assert (In x (filter f l)) by (apply filter_In; split; auto; eapply nth_error_In; eauto).
    destruct (filter f l); simpl in *; [auto|lia].
  - f_equal. destruct (f z) eqn:Ez; simpl in H; [|eapply IH; eauto]. exfalso.
    assert (In x (filter f l)) by (apply filter_In; split; auto; eapply nth_error_In; eauto).
    destruct (filter f l); simpl in *; [auto|lia].
Qed.

Lemma uses_zero : forall w id (a : arr), nth_error (arrs w) id = Some a ->
  uses w (pSizes a) = 0%nat -> pSizes a = None.
Proof.
  intros w id a Ha H. destruct (pSizes a) as [k|] eqn:E; auto. simpl in H. exfalso.
  assert (In a (filter (fun a0 => match pSizes a0 with Some k' => Nat.eqb k k' | None => false end) (arrs w))).
  { apply filter_In. split; [eapply nth_error_In; eauto|]. rewrite E. apply Nat.eqb_refl. }
  destruct (filter _ _); simpl in *; [auto|lia].
Qed.

Lemma wrep_step : forall w ss id a s h' a' s',
  wrep w ss -> nth_error (arrs w) id = Some a -> nth_error ss id = Some s ->
  rep h' a' s' -> frame (hp w) (uses w (pSizes a)) a h' a' ->
  wrep {| hp := h'; arrs := upd id a' (arrs w) |} (upd id s' ss).
Proof.
  intros w ss id a s h' a' s' [Hl [Hr Hd]] Ha Hs R F.
  pose proof (nth_error_Some_lt _ _ _ _ Ha) as L. pose proof (nth_error_Some_lt _ _ _ _ Hs) as L'.
  pose proof (Hr _ _ _ Ha Hs) as Ra.
  assert (Hall : forall i b, nth_error (arrs w) i = Some b -> exists t, rep (hp w) b t).
  { intros i b Hb. destruct (nth_error_lt_Some _ ss i) as [t Ht];
      [pose proof (nth_error_Some_lt _ _ _ _ Hb); lia|]. exists t. eapply Hr; eauto. }
  split; [|split]; cbn [hp arrs].
  - rewrite !upd_length. auto.
  - intros i b t Hb Ht. rewrite nth_error_upd in Hb, Ht. destruct (Nat.eqb_spec id i).
    + destruct (Nat.ltb_spec id (length (arrs w))), (Nat.ltb_spec id (length ss)); try discriminate. congruence.
    + pose proof (Hr _ _ _ Hb Ht) as Rb. destruct F as [[ex [-> [F1 F2]]]|[Hu [k [v [Hk [-> [F1 F2]]]]]]].
      * destruct (rep_ptr_lt _ _ _ Rb) as [P1 P2].
        apply (rep_heap _ _ _ _ Rb); intros k Hk; rewrite nth_error_app1; auto.
      * apply (rep_heap _ _ _ _ Rb); intros q Hq; apply nth_error_upd_other; intro; subst q.
        -- apply (Hd _ _ _ _ _ Hb Ha Hq Hk).
        -- apply n. rewrite Hk in Hu. simpl in Hu.
           eapply filter_one; [exact Hu|exact Ha|exact Hb| |]; cbn; [rewrite Hk|rewrite Hq]; apply Nat.eqb_refl.
  - intros i j b c k Hb Hc Hbk Hck. rewrite nth_error_upd in Hb, Hc.
    assert (Li : (id <? length (arrs w))%nat = true) by (apply Nat.ltb_lt; auto). rewrite Li in Hb, Hc.
    assert (P : forall i b k, nth_error (arrs w) i = Some b -> pSizes b = Some k \/ pStart b = Some k -> (k < length (hp w))%nat).
    { intros i0 b0 k0 Hb0 E. destruct (Hall _ _ Hb0) as [t Rt]. destruct (rep_ptr_lt _ _ _ Rt). destruct E; auto. }
    destruct (Nat.eqb_spec id i), (Nat.eqb_spec id j).
    + destruct (rep_ptr _ _ _ R); congruence.
    + injection Hb as <-. destruct F as [[ex [-> [F1 F2]]]|[Hu [k' [v [Hk' [-> [F1 F2]]]]]]].
      * destruct F1 as [F1|[F1|F1]]; [congruence| |].
        -- rewrite F1 in Hbk. eapply Hd; [exact Ha|exact Hc| |]; eauto.
        -- assert (k < length (hp w))%nat by eauto. rewrite F1 in Hbk. injection Hbk as <-. lia.
      * rewrite F1 in Hbk. eapply Hd; [exact Ha|exact Hc| |]; eauto.
    + injection Hc as <-. destruct F as [[ex [-> [F1 F2]]]|[Hu [k' [v [Hk' [-> [F1 F2]]]]]]].
      * destruct F2 as [F2|[F2|F2]]; [congruence| |].
        -- rewrite F2 in Hck. eapply Hd; [exact Hb|exact Ha| |]; eauto.
        -- assert (k < length (hp w))%nat by eauto. rewrite F2 in Hck. injection Hck as <-. lia.
      * rewrite F2 in Hck. eapply Hd; [exact Hb|exact Ha| |]; eauto.
    + eapply Hd; [exact Hb|exact Hc| |]; eauto.
Qed.

Definition good (ss : list sarr) (id : nat) (c : call T) (r : res (world T)) : Prop :=
  match r with
  | Ok w' => exists ss', In ss' (allowed dflt ss id c) /\ wrep w' ss'
  | Abort => allowed dflt ss id c = []
  | UB => False
  end.

Lemma good1_good : forall w ss id a s c r,
  wrep w ss -> nth_error (arrs w) id = Some a -> nth_error ss id = Some s ->
  (match c with CCopyFrom _ | CSwapWith _ => False | _ => True end) ->
  good1 (hp w) (uses w (pSizes a)) a s c r -> good ss id c (put w id r).
Proof.
  intros w ss id a s c r W Ha Hs Hc G. unfold good, put.
  assert (E : allowed dflt ss id c = map (fun s' => upd id s' ss) (allowed1 dflt s c)).
  { unfold allowed. rewrite Hs. destruct c; auto; contradiction. }
  rewrite E. destruct r as [[h' a']| |]; cbn [bind fst snd good1] in *; auto.
  - destruct G as [s' [Hin [R F]]]. exists (upd id s' ss). split.
    + apply in_map_iff. exists s'. auto.
    + eapply wrep_step; eauto.
  - rewrite G. reflexivity.
Qed.

Lemma swap_rep : forall h a b s t, rep h a s -> rep h b t ->
  slay t = slay s -> comp t = comp s -> width t = width s -> used t = used s ->
  match SwapData a b with
  | Ok (a', b') =>
      Nat.eqb (length (cells s)) (length (cells t)) &&
        (if comp s then Nat.eqb (length (concat (cells s))) (length (concat (cells t))) else true) = true /\
      rep h a' t /\ rep h b' s /\
      (pStart a' = pStart a \/ pStart a' = pStart b) /\ (pSizes a' = pSizes a \/ pSizes a' = pSizes b) /\
      (pStart b' = pStart a \/ pStart b' = pStart b) /\ (pSizes b' = pSizes a \/ pSizes b' = pSizes b)
  | Abort =>
      Nat.eqb (length (cells s)) (length (cells t)) &&
        (if comp s then Nat.eqb (length (concat (cells s))) (length (concat (cells t))) else true) = false
  | UB => False
  end.
Proof.
  intros h a b s t Ra Rb E1 E2 E3 E4. unfold SwapData.
  pose proof (r_size _ _ _ Ra) as Sa. pose proof (r_size _ _ _ Rb) as Sb.
  pose proof (r_lay _ _ _ Ra) as La.
  rewrite Sa, Sb. unfold zlen.
  destruct (Nat.eqb_spec (length (cells s)) (length (cells t))), (Z.eqb_spec (Z.of_nat (length (cells t))) (Z.of_nat (length (cells s)))); try lia;
    cbn [andb assert_ bind]; auto.
  rewrite La. destruct (is_csr (slay s)) eqn:Ec.
  - assert (El : slay s = CSR) by (destruct (slay s); auto; discriminate). rewrite El.
    pose proof (rep_csr_shape _ _ _ Ra El) as Es. assert (Elt : slay t = CSR) by congruence.
    pose proof (rep_csr_shape _ _ _ Rb Elt) as Et. rewrite E2 in Et.
    rewrite Es in Ra |- *. rewrite Et in Rb |- *. cbn [comp cells].
    assert (Hn : length (cells s) = length (cells t)) by auto.
    generalize (comp s) (cells s) (cells t) Ra Rb Hn. clear. intros c cs ct Ra Rb Hn.
    pose proof (rep_csr_mode _ _ _ _ Ra) as [E [Hl Hu]]. cbn zeta in *.
    pose proof Ra as Ra'. pose proof Rb as Rb'. apply rep_csr in Ra'. apply rep_csr in Rb'.
    destruct Ra' as (A1 & A2 & A3 & A4 & A5 & A6 & A7). destruct Rb' as (B1 & B2 & B3 & B4 & B5 & B6 & B7).
    rewrite A5, B5. destruct c.
    + destruct (Nat.eqb_spec (length (concat cs)) (length (concat ct))), (Z.eqb_spec (Z.of_nat (length (concat ct))) (Z.of_nat (length (concat cs)))); try lia;
      cbn [andb assert_ bind]; auto. rewrite E. cbn [bind]. unfold locked. cbn [comp cells andb].
      destruct cs as [|r cs].
      * destruct ct; [|discriminate]. split; [reflexivity|].
        split; [|split; [|auto 10]]; apply rep_csr; cbn; repeat split; auto; congruence.
      * split; [reflexivity|].
        split; [|split; [|auto 10]]; apply rep_csr; cbn [lay size pSizes pStart dat unc]; repeat split; auto; try congruence; unfold zlen in *; lia.
    + cbn [length]. rewrite Z.eqb_refl. cbn [assert_ bind]. rewrite E. cbn [bind]. unfold locked. cbn [comp cells andb].
      split; [reflexivity|].
      split; [|split; [|auto 10]]; apply rep_csr; cbn [lay size pSizes pStart dat unc]; repeat split; auto; try congruence; unfold zlen in *; lia.
  - assert (Ect : is_csr (slay t) = false) by congruence.
    pose proof (rep_table_shape _ _ _ Ra Ec) as Es. pose proof (rep_table_shape _ _ _ Rb Ect) as Et.
    rewrite E1, E3, E4 in Et. rewrite Es in Ra. rewrite Et in Rb.
    assert (Hn : length (cells s) = length (cells t)) by auto.
    apply rep_table in Ra; auto. apply rep_table in Rb; auto.
    destruct Ra as (A1 & A2 & A3 & A4 & A5 & A6 & A7 & A8 & A9).
    destruct Rb as (B1 & B2 & B3 & B4 & B5 & B6 & B7 & B8 & B9).
    pose proof (concat_widths _ _ _ A5 (length (cells s)) ltac:(lia)) as Wa. rewrite firstn_all in Wa.
    pose proof (concat_widths _ _ _ B5 (length (cells t)) ltac:(lia)) as Wb. rewrite firstn_all in Wb.
    rewrite A6, B6, Wa, Wb, Hn, Z.eqb_refl. cbn [assert_ bind].
    assert (Er1 : rep h (with_dat a (concat (cells t))) t).
    { rewrite Et. apply rep_table; auto. cbn [with_dat lay size pStart dat unc pSizes].
      split; [auto|]. split; [unfold zlen in *; lia|]. split; [auto|].
      split; [exact A4|]. repeat split; auto. destruct (is_max (slay s)); auto.
      destruct A9 as [C1 [C2 C3]]. repeat split; auto; [lia|]. destruct (pSizes a); auto.
      rewrite C3 in Hn. destruct (cells t); auto; discriminate. }
    assert (Er2 : rep h (with_dat b (concat (cells s))) s).
    { rewrite Es. apply rep_table; auto. cbn [with_dat lay size pStart dat unc pSizes].
      split; [auto|]. split; [unfold zlen in *; lia|]. split; [auto|].
      split; [exact B4|]. repeat split; auto. destruct (is_max (slay s)); auto.
      destruct B9 as [C1 [C2 C3]]. repeat split; auto; [lia|]. destruct (pSizes b); auto.
      rewrite C3 in Hn. destruct (cells s); auto; discriminate. }
    assert (comp s = false) by (rewrite Es; reflexivity).
    destruct (slay s); try discriminate;
      (split; [rewrite H; reflexivity|]; split; [exact Er1|split; [exact Er2|cbn; auto 10]]).
Qed.

Theorem step_refines : forall w ss id c, wrep w ss -> covered ss id c ->
  good ss id c (do_call dflt w id c).
Proof.
  intros w ss id c W [s [Hs Hc]]. pose proof W as [Hl [Hr Hd]].
  destruct (nth_error_lt_Some _ (arrs w) id) as [a Ha];
    [pose proof (nth_error_Some_lt _ _ _ _ Hs); lia|].
  pose proof (Hr _ _ _ Ha Hs) as R. unfold do_call. rewrite Ha. cbn zeta.
  assert (U0 : pSizes a = None -> uses w (pSizes a) = 0%nat) by (intros ->; reflexivity).
  destruct c; try (eapply good1_good; [exact W|exact Ha|exact Hs|exact I|]).
  - apply good_resize1; auto.
  - destruct Hc. apply good_resize2; auto.
  - apply good_resizeF; auto.
  - apply good_resizerow; auto. eapply uses_zero; eauto.
  - pose proof (rep_set _ _ _ i j x R) as G.
    destruct (set_ (hp w) a i j x) as [a'| |]; cbn [bind good1]; auto.
    destruct G as [s' [G1 [G2 [G3 G4]]]]. exists s'. split; [auto|]. split; [auto|]. apply frame_same; auto.
  - apply good_compress; auto.
  - apply good_decompress; auto.
  - destruct Hc as [t [Ht El]]. destruct (nth_error_lt_Some _ (arrs w) other) as [b Hb];
    [pose proof (nth_error_Some_lt _ _ _ _ Ht); lia|]. rewrite Hb.
    unfold good, put, allowed. cbn [bind fst snd]. rewrite Hs, Ht. eexists. split; [left; reflexivity|].
    pose proof (nth_error_Some_lt _ _ _ _ Ha) as L. pose proof (nth_error_Some_lt _ _ _ _ Hs) as L'.
    assert (Q : forall i x, nth_error (upd id b (arrs w)) i = Some x -> exists i', nth_error (arrs w) i' = Some x).
    { intros i x Hx. rewrite nth_error_upd in Hx. destruct (Nat.eqb id i); eauto.
      destruct (id <? length (arrs w))%nat; [|discriminate]. injection Hx as <-. eauto. }
    split; [|split]; cbn [hp arrs].
    + rewrite !upd_length. auto.
    + intros i x y Hx Hy. rewrite nth_error_upd in Hx, Hy. destruct (Nat.eqb id i); eauto.
      destruct (id <? length (arrs w))%nat; [|discriminate]. destruct (id <? length ss)%nat; [|discriminate].
      injection Hx as <-. injection Hy as <-. eauto.
    + intros i j x y k Hx Hy Hk1 Hk2. destruct (Q _ _ Hx) as [i' Hi'], (Q _ _ Hy) as [j' Hj'].
      exact (Hd i' j' x y k Hi' Hj' Hk1 Hk2).
  - destruct Hc as [t [Ht [El [Ec [Ew Eu]]]]]. destruct (nth_error_lt_Some _ (arrs w) other) as [b Hb];
    [pose proof (nth_error_Some_lt _ _ _ _ Ht); lia|]. rewrite Hb.
    pose proof (swap_rep _ _ _ _ _ R (Hr _ _ _ Hb Ht) El Ec Ew Eu) as G.
    unfold good, allowed. rewrite Hs, Ht. destruct (SwapData a b) as [[a' b']| |]; cbn [bind fst snd]; auto.
    2: { rewrite G. reflexivity. }
    destruct G as [-> [Ra [Rb [P1 [P2 [P3 P4]]]]]]. eexists. split; [left; reflexivity|].
    pose proof (nth_error_Some_lt _ _ _ _ Ha) as L. pose proof (nth_error_Some_lt _ _ _ _ Hs) as L'.
    pose proof (nth_error_Some_lt _ _ _ _ Hb) as Lo. pose proof (nth_error_Some_lt _ _ _ _ Ht) as Lo'.
    apply Nat.ltb_lt in L, L', Lo, Lo'.
    assert (Q : forall i x, nth_error (upd other b' (upd id a' (arrs w))) i = Some x ->
      (exists i' y, nth_error (arrs w) i' = Some y /\ pStart x = pStart y) /\
      (exists i' y, nth_error (arrs w) i' = Some y /\ pSizes x = pSizes y)).
    { intros i x Hx. rewrite !nth_error_upd, upd_length, Lo, L in Hx.
      destruct (Nat.eqb other i); [|destruct (Nat.eqb id i)]; try (injection Hx as <-).
      - split; [destruct P3 as [E|E]|destruct P4 as [E|E]]; rewrite E; eauto.
      - split; [destruct P1 as [E|E]|destruct P2 as [E|E]]; rewrite E; eauto.
      - split; eauto. }
    split; [|split]; cbn [hp arrs].
    + rewrite !upd_length. auto.
    + intros i x y Hx Hy. rewrite !nth_error_upd, upd_length, ?Lo, ?L in Hx.
      rewrite !nth_error_upd, upd_length, ?Lo', ?L' in Hy.
      destruct (Nat.eqb other i); [|destruct (Nat.eqb id i)]; eauto; congruence.
    + intros i j x y k Hx Hy Hk1 Hk2. destruct (Q _ _ Hx) as [[i1 [x1 [Hx1 Ex]]] _].
      destruct (Q _ _ Hy) as [_ [j1 [y1 [Hy1 Ey]]]]. apply (Hd i1 j1 x1 y1 k); auto; congruence.
Qed.

Lemma run_refines : forall cs w ss, wrep w ss -> covered_history dflt ss cs ->
  match run dflt w cs with
  | Ok w' => exists ss', history dflt ss cs ss' /\ wrep w' ss'
  | Abort => rejected dflt ss cs
  | UB => False
  end.
Proof.
  induction cs as [|[id c] cs IH]; intros w ss W H.
  - simpl. exists ss. split; auto. constructor.
  - inversion H as [|? ? ? ? Hc Hn]; subst. cbn [run]. pose proof (step_refines _ _ _ _ W Hc) as G.
    destruct (do_call dflt w id c) as [w'| |]; cbn [bind good] in *; auto.
    + destruct G as [ss' [Hin W']]. specialize (IH w' ss' W' (Hn _ Hin)).
      destruct (run dflt w' cs); auto.
      * destruct IH as [ss'' [Hh W'']]. exists ss''. split; auto. econstructor; eauto.
      * destruct IH as (cs1 & id' & c' & cs2 & ss1 & E & Hh & Ha).
        exists ((id, c) :: cs1), id', c', cs2, ss1. repeat split; auto; [rewrite E; reflexivity|].
        econstructor; eauto.
    + exists [], id, c, cs, ss. repeat split; auto. constructor.
Qed.

Lemma rep_new : forall h l, rep h (new_arr l) (snew l).
Proof.
  intros h l. constructor; destruct l; cbn; auto; try discriminate; repeat split; auto.
Qed.

Lemma wrep_new : forall h ls, wrep {| hp := h; arrs := map new_arr ls |} (map snew ls).
Proof.
  intros. split; [|split]; cbn [hp arrs].
  - rewrite !map_length. auto.
  - intros id a s Ha Hs. rewrite nth_error_map_ in Ha, Hs. destruct (nth_error ls id); [|discriminate].
    cbn in *. injection Ha as <-. injection Hs as <-. apply rep_new.
  - intros i j a b k Ha _ Hk. rewrite nth_error_map_ in Ha. destruct (nth_error ls i); [|discriminate].
    cbn in Ha. injection Ha as <-. discriminate.
Qed.

Lemma wrep_looks : forall w ss, wrep w ss -> world_looks_like w ss.
Proof. intros w ss [Hl [Hr _]]. split; auto. intros. apply rep_looks. eauto. Qed.

Theorem arrays_refine : forall ls cs,
  covered_history dflt (map snew ls) cs ->
  match run dflt {| hp := []; arrs := map new_arr ls |} cs with
  | Ok w => exists ss, history dflt (map snew ls) cs ss /\ world_looks_like w ss
  | Abort => rejected dflt (map snew ls) cs
  | UB => False
  end.
Proof.
  intros ls cs H. pose proof (run_refines cs _ _ (wrep_new [] ls) H) as G.
  destruct (run _ _ _); auto. destruct G as [ss [G1 G2]]. exists ss. split; auto. apply wrep_looks; auto.
Qed.

Lemma covered_app : forall cs1 cs2 ss, covered_history dflt ss (cs1 ++ cs2) ->
  covered_history dflt ss cs1 /\ forall ss', history dflt ss cs1 ss' -> covered_history dflt ss' cs2.
Proof.
  induction cs1 as [|[id c] cs1 IH]; intros cs2 ss H; cbn [app] in H.
  - split; [constructor|]. intros ss' Hh. inversion Hh; subst. auto.
  - inversion H as [|? ? ? ? Hc Hn]; subst. split.
    + constructor; auto. intros ss' Hin. apply (IH cs2 ss'); auto.
    + intros ss' Hh. inversion Hh as [|? ? ? ? s1 ? Hin Hh']; subst.
      destruct (IH cs2 _ (Hn _ Hin)) as [_ G]. auto.
Qed.

(** The world before the last call of a covered history. *)
Lemma before_last : forall ls cs id c w,
  covered_history dflt (map snew ls) (cs ++ [(id, c)]) ->
  run dflt {| hp := []; arrs := map new_arr ls |} cs = Ok w ->
  exists ss, wrep w ss /\ covered ss id c.
Proof.
  intros ls cs id c w H Hrun. destruct (covered_app _ _ _ H) as [H1 H2].
  pose proof (run_refines cs _ _ (wrep_new [] ls) H1) as G. rewrite Hrun in G.
  destruct G as [ss [Hh W]]. exists ss. split; auto.
  specialize (H2 _ Hh). inversion H2; subst. auto.
Qed.

Lemma looks_same : forall h a h' a' (s : sarr), looks_like h a s -> looks_like h' a' s -> same_reads h a h' a'.
Proof.
  intros h a h' a' s [A1 [A2 A3]] [B1 [B2 B3]]. split; [congruence|]. split.
  - intros i Hi. specialize (A2 i). specialize (B2 i).
    destruct (in_range_cases i (length (cells s))) as [[k [E [Hk [Er _]]]]|[_ E]].
    + rewrite Er in *. destruct A2 as [r [? ->]], B2 as [r' [? ->]]. congruence.
    + rewrite A1 in Hi. unfold zlen in Hi.
      apply andb_false_iff in E. destruct E as [E|E]; [apply Z.ltb_ge in E|apply Z.leb_gt in E]; lia.
  - intros i j. rewrite A3, B3. reflexivity.
Qed.

Lemma looks_same_cells : forall h a h' a' (s s' : sarr), looks_like h a s -> looks_like h' a' s' ->
  cells s' = cells s -> used s' = used s -> slay s' = slay s -> same_reads h a h' a'.
Proof.
  intros h a h' a' s s' H H' E1 E2 E3. apply looks_same with (s := s); auto.
  unfold looks_like, srow in *. rewrite E1, E2, E3 in H'. exact H'.
Qed.

Lemma isolation : forall ls cs id c w w' o a a',
  covered_history dflt (map snew ls) (cs ++ [(id, c)]) ->
  run dflt {| hp := []; arrs := map new_arr ls |} cs = Ok w ->
  do_call dflt w id c = Ok w' ->
  o <> id -> (forall q, c = CSwapWith q -> o <> q) ->
  nth_error (arrs w) o = Some a -> nth_error (arrs w') o = Some a' ->
  same_reads (hp w) a (hp w') a'.
Proof.
  intros ls cs id c w w' o a a' H Hrun Hcall Ho Hq Ha Ha'.
  destruct (before_last _ _ _ _ _ H Hrun) as [ss [W C]].
  pose proof (step_refines _ _ _ _ W C) as G. rewrite Hcall in G. destruct G as [ss' [Hin W']].
  destruct W as [Wl [Wr _]]. destruct W' as [Wl' [Wr' _]].
  destruct (nth_error_lt_Some _ ss o) as [s Hs]; [pose proof (nth_error_Some_lt _ _ _ _ Ha); lia|].
  assert (Hs' : nth_error ss' o = Some s).
  { unfold allowed in Hin. destruct (nth_error ss id) as [si|]; [|contradiction].
    destruct c as [?|? ?|?|? ?|? ? ?| | |q|q];
      try (apply in_map_iff in Hin; destruct Hin as [y [<- _]]; rewrite nth_error_upd_other; auto; fail).
    - destruct (nth_error ss q); [|contradiction]. destruct Hin as [<-|[]]. rewrite nth_error_upd_other; auto.
    - destruct (nth_error ss q); [|contradiction]. destruct (_ && _); [|contradiction].
      destruct Hin as [<-|[]]. rewrite !nth_error_upd_other; auto. intro. subst. apply (Hq o eq_refl). auto. }
  eapply looks_same; apply rep_looks; eauto.
Qed.

Lemma compress_invisible : forall ls cs id c w o a,
  c = CCompress \/ c = CDecompress ->
  covered_history dflt (map snew ls) cs -> (id < length ls)%nat ->
  run dflt {| hp := []; arrs := map new_arr ls |} cs = Ok w ->
  nth_error (arrs w) o = Some a ->
  exists w' a', do_call dflt w id c = Ok w' /\ nth_error (arrs w') o = Some a' /\
    same_reads (hp w) a (hp w') a'.
Proof.
  intros ls cs id c w o a Hc H Hid Hrun Ha.
  pose proof (run_refines cs _ _ (wrep_new [] ls) H) as G. rewrite Hrun in G.
  destruct G as [ss [Hh W]].
  assert (Hlen : forall cs ss1 ss2, history dflt ss1 cs ss2 -> length ss2 = length ss1).
  { clear. induction 1; auto. rewrite IHhistory. clear - H. unfold allowed in H.
    destruct (nth_error ss id) as [si|]; [|contradiction].
    destruct c as [?|? ?|?|? ?|? ? ?| | |q|q]; 
      try (apply in_map_iff in H; destruct H as [y [<- _]]; rewrite upd_length; auto; fail).
    - destruct (nth_error ss q); [|contradiction]. destruct H as [<-|[]]. rewrite upd_length; auto.
    - destruct (nth_error ss q); [|contradiction]. destruct (_ && _); [|contradiction].
      destruct H as [<-|[]]. rewrite !upd_length; auto. }
  specialize (Hlen _ _ _ Hh). rewrite map_length in Hlen.
  destruct (nth_error_lt_Some _ ss id ltac:(lia)) as [si Hsi].
  assert (C : covered ss id c) by (exists si; split; auto; destruct Hc; subst c; exact I).
  pose proof (step_refines _ _ _ _ W C) as G.
  assert (Hal : exists s', allowed dflt ss id c = [upd id s' ss] /\ cells s' = cells si /\ used s' = used si /\ slay s' = slay si).
  { unfold allowed. rewrite Hsi. destruct Hc; subst c; cbn [allowed1 map];
      (eexists; split; [reflexivity|]); destruct (is_csr (slay si)); auto. }
  destruct Hal as [s' [Hal [E1 [E2 E3]]]].
  destruct (do_call dflt w id c) as [w'| |]; cbn [good] in G; [|rewrite Hal in G; discriminate|contradiction].
  destruct G as [ss' [Hin W']]. rewrite Hal in Hin. destruct Hin as [<-|[]].
  destruct W as [Wl [Wr _]]. destruct W' as [Wl' [Wr' _]]. rewrite upd_length in Wl'.
  pose proof (nth_error_Some_lt _ _ _ _ Ha) as L.
  destruct (nth_error_lt_Some _ (arrs w') o ltac:(lia)) as [a' Ha'].
  exists w', a'. split; auto. split; auto.
  destruct (nth_error_lt_Some _ ss o ltac:(lia)) as [s Hs].
  destruct (Nat.eq_dec id o).
  - subst o. replace s with si in * by congruence.
    apply (looks_same_cells _ _ _ _ si s'); auto; apply rep_looks; eauto.
    apply (Wr' id); auto. apply nth_error_upd_same. lia.
  - apply (looks_same _ _ _ _ s); apply rep_looks; eauto. apply (Wr' o); auto.
    rewrite nth_error_upd_other; auto.
Qed.

(** Where elements are kept: tables. *)
Lemma table_storage : forall ls cs w id a i j,
  covered_history dflt (map snew ls) cs ->
  run dflt {| hp := []; arrs := map new_arr ls |} cs = Ok w ->
  nth_error (arrs w) id = Some a -> is_csr (lay a) = false ->
  forall n, 0 <= i < size a -> RowSize (hp w) a i = Ok n -> 0 <= j < n ->
  n <= stride a /\
  locate (hp w) a i j = Ok (InData (i * stride a + j)) /\ 0 <= i * stride a + j < zlen (dat a) /\
  row_ (hp w) a i = Ok (PData (i * stride a)).
Proof.
  intros ls cs w id a i j H Hrun Ha Hc n Hi Hn Hj.
  pose proof (run_refines cs _ _ (wrep_new [] ls) H) as G. rewrite Hrun in G.
  destruct G as [ss [_ [Wl [Wr _]]]].
  destruct (nth_error_lt_Some _ ss id) as [s Hs]; [pose proof (nth_error_Some_lt _ _ _ _ Ha); lia|].
  pose proof (Wr _ _ _ Ha Hs) as R. pose proof (r_size _ _ _ R) as Hsz. unfold zlen in Hsz.
  assert (Hk : exists k, i = Z.of_nat k /\ (k < length (cells s))%nat) by (exists (Z.to_nat i); lia).
  destruct Hk as [k [-> Hk]].
  destruct (rep_rowsize _ _ _ _ R Hk) as [r [row [Hr [Hrs [Hrow [Hle _]]]]]].
  rewrite Hrs in Hn. injection Hn as <-.
  rewrite (r_lay _ _ _ R) in Hc. destruct (r_width _ _ _ R Hc) as [W1 [W2 _]].
  assert (length row = width s) by (rewrite Forall_forall in W2; apply W2; eapply nth_error_In; eauto).
  assert (E : exists l, j = Z.of_nat l /\ (l < length r)%nat) by (exists (Z.to_nat j); unfold zlen in *; lia).
  destruct E as [l [-> Hl]].
  split; [unfold zlen; lia|]. split.
  - rewrite (rep_locate _ _ _ _ _ R), in_range_nat, Hr, in_range_nat by auto. unfold spot, flat_mode.
    rewrite Hc. cbn [negb orb]. rewrite (concat_widths _ _ _ W2) by lia. rewrite W1. do 2 f_equal. lia.
  - pose proof (r_dat _ _ _ R) as Hd. unfold flat_mode in Hd. rewrite Hc in Hd. cbn [negb orb] in Hd.
    pose proof (concat_widths _ _ _ W2 (length (cells s)) ltac:(lia)) as L. rewrite firstn_all in L.
    split.
    + rewrite Hd. unfold zlen. rewrite L, W1. nia.
    + unfold row_. rewrite (r_lay _ _ _ R), Hsz.
      destruct (Z.leb_spec (Z.of_nat k) (Z.of_nat (length (cells s)))); [|lia].
      destruct (Z.leb_spec 0 (Z.of_nat k)); [|lia]. cbn [andb assert_ bind].
      destruct (slay s); try discriminate; reflexivity.
Qed.

(** Where elements are kept: variable rows.  [row_] is the row's address. *)
Lemma csr_storage : forall ls cs w id a i n,
  covered_history dflt (map snew ls) cs ->
  run dflt {| hp := []; arrs := map new_arr ls |} cs = Ok w ->
  nth_error (arrs w) id = Some a -> lay a = CSR ->
  0 <= i < size a -> RowSize (hp w) a i = Ok n ->
  exists p, row_ (hp w) a i = Ok p /\
  match p with
  | PData off =>
      0 <= off /\ off + n <= zlen (dat a) /\
      (forall j, 0 <= j < n -> at_ (hp w) a i j = vat (dat a) (off + j)) /\
      row_ (hp w) a (i + 1) = Ok (PData (off + n))
  | PRow i' => i' = i /\ exists r, vat (unc a) i = Ok r /\ zlen r = n /\
      (forall j, 0 <= j < n -> at_ (hp w) a i j = vat r j)
  | PNull => False
  end.
Proof.
  intros ls cs w id a i n H Hrun Ha Hc Hi Hn.
  pose proof (run_refines cs _ _ (wrep_new [] ls) H) as G. rewrite Hrun in G.
  destruct G as [ss [_ [Wl [Wr _]]]].
  destruct (nth_error_lt_Some _ ss id) as [s Hs]; [pose proof (nth_error_Some_lt _ _ _ _ Ha); lia|].
  pose proof (Wr _ _ _ Ha Hs) as R. generalize (hp w), R, Hn. clear - Hc Hi. intros h R Hn.
  pose proof (r_size _ _ _ R) as Hsz. unfold zlen in Hsz.
  assert (Hk : exists k, i = Z.of_nat k /\ (k < length (cells s))%nat) by (exists (Z.to_nat i); lia).
  destruct Hk as [k [-> Hk]].
  destruct (rep_rowsize _ _ _ _ R Hk) as [r [row [Hr [Hrs [Hrow _]]]]].
  rewrite Hrs in Hn. injection Hn as <-.
  assert (El : slay s = CSR) by (rewrite <- (r_lay _ _ _ R); auto).
  assert (row = r) by (unfold srow in Hr; rewrite Hrow, El in Hr; cbn in Hr; congruence). subst row.
  pose proof R as R0. pose proof (rep_csr_shape _ _ _ R El) as Es. rewrite Es in R0.
  pose proof (rep_csr_mode _ _ _ _ R0) as [E [Hlk Hnl]]. cbn zeta in *. rewrite <- Es in E, Hlk, Hnl.
  assert (Hat : forall j, 0 <= j < zlen r -> at_ h a (Z.of_nat k) j =
     if flat_mode s then vat (dat a) (zlen (concat (firstn k (cells s))) + j) else vat r j).
  { intros j Hj. assert (Ej : exists l, j = Z.of_nat l /\ (l < length r)%nat) by (exists (Z.to_nat j); unfold zlen in *; lia).
    destruct Ej as [l [-> Hl]]. unfold at_. rewrite (rep_locate _ _ _ _ _ R), in_range_nat, Hr, in_range_nat by auto.
    cbn [bind]. unfold spot. pose proof (r_unc _ _ _ R) as Hu. destruct (flat_mode s).
    - f_equal. unfold zlen. lia.
    - rewrite Hu, (vat_of_nat _ _ _ _ Hrow). reflexivity. }
  unfold row_. rewrite Hc, Hsz.
  destruct (Z.leb_spec (Z.of_nat k) (Z.of_nat (length (cells s)))); [|lia].
  destruct (Z.leb_spec 0 (Z.of_nat k)); [|lia].
  destruct (Z.leb_spec (Z.of_nat k + 1) (Z.of_nat (length (cells s)))); [|lia].
  destruct (Z.leb_spec 0 (Z.of_nat k + 1)); [|lia]. cbn [andb assert_ bind]. rewrite E. cbn [bind].
  unfold flat_mode in Hat. rewrite El in Hat. cbn [is_csr negb orb] in Hat.
  destruct (locked s).
  - destruct (Hlk eq_refl) as [C1 [C2 [C3 [C4 [p [C5 C6]]]]]]. rewrite C5. cbn [deref]. rewrite C6. cbn [bind].
    rewrite C1 in Hat.
    rewrite (vat_of_nat _ _ _ _ (zlensl_psums_nth _ (cells s) k ltac:(lia))). cbn [bind].
    eexists. split; [reflexivity|]. cbv beta iota.
    replace (Z.of_nat k + 1) with (Z.of_nat (S k)) by lia.
    rewrite (vat_of_nat _ _ _ _ (zlensl_psums_nth _ (cells s) (S k) ltac:(lia))). cbn [bind].
    rewrite C3, (concat_firstn_S _ _ _ _ Hrow).
    split; [unfold zlen; lia|]. split; [|split].
    + rewrite (concat_split _ _ _ _ Hrow). unfold zlen. rewrite !app_length. lia.
    + rewrite <- C3. exact Hat.
    + unfold zlen. rewrite app_length. do 2 f_equal. lia.
  - destruct (Hnl eq_refl) as [C1 [C2 C3]].
    assert (Hcf : comp s = false) by (destruct (comp s); auto; rewrite (C3 eq_refl) in Hk; simpl in Hk; lia).
    rewrite Hcf in Hat.
    destruct (Z.eqb_spec (Z.of_nat (length (cells s))) 0); [lia|].
    destruct (Z.ltb_spec (Z.of_nat k) (Z.of_nat (length (cells s)))); [|lia]. cbn [assert_ bind].
    rewrite C2, (vat_of_nat _ _ _ _ Hrow). cbn [bind]. eexists. split; [reflexivity|]. cbv beta iota.
    split; auto. exists r. split; auto.
Qed.

End Refine.

Lemma layout_choice : forall rs rm l, GetDataLayout rs rm = Some l <-> declares rs rm l.
Proof.
  intros rs rm l. unfold GetDataLayout, DynamicSize, NonUniformSize, declares.
  destruct (Z.eqb_spec rs (-1)), (Z.eqb_spec rs (-2)), (Z.leb_spec 0 rs), (Z.eqb_spec rm (-2)), (Z.eqb_spec rm (-1)), (Z.leb_spec 0 rm);
    cbn [negb andb]; try lia; (split; [intros X; first [discriminate X | injection X as <-; lia]|]); destruct l; intros X; first [lia | f_equal; f_equal; lia | reflexivity].
Qed.
