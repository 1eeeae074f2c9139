(** The product with the symmetric storage, and the results of the block LDLT. *)
From Coq Require Import List ZArith Lia Bool Permutation.
From Verif Require Import Base.Prelude Base.PreludeFacts
  Solver.DirectModel Solver.DirectSpec Solver.DirectProofs Solver.DirectMore Solver.LUModel Solver.LUSpec Solver.LUProofs Solver.LUElim Solver.LUSolve Solver.LUMain Solver.LUFinal Solver.LDLTProofs.
Import ListNotations.
Local Open Scope Z_scope.

Section Mul.
Context {T V : Type} (O : ops T V) (LW : laws O) (tr : T -> T).
Context (n : Z) (o2n n2o : list Z) (s : symlu) (HO : ordering_ok n o2n n2o) (HS : shape n n2o s).
Notation ord := (ord n2o).
Notation rh := (rep n ord (half s)).
Notation rv := (repv O n n2o).
Notation lo := (lo s). Notation up := (up s).

Lemma smul_row A N x X y Y i : rh A N -> rv x X -> rv y Y -> 0 <= i < n ->
  exists y', ldlt_mul_row T V (act O) (vadd O) s A x y (ord i) = Ok y' /\ rv y' (updV Y i (vsum O (fun j => act O (N i j) (X j)) (half s i))).
Proof.
  intros R RX RY Hi. unfold ldlt_mul_row. rewrite (geth n o2n n2o s HO A N i 0 i R Hi (at_diagh s i)). cbn [bind].
  rewrite (repv_get O n o2n n2o HO x X i RX Hi). cbn [bind].
  destruct (repv_set O n o2n n2o HO y Y i (act O (N i i) (X i)) RY Hi) as (y1 & -> & R1). cbn [bind].
  rewrite (vget_lowOld n o2n n2o s HO HS) by auto. cbn [bind]. rewrite zlen_map.
  match goal with |- context [foldM ?f y1 _] => destruct (add_loop O LW n o2n n2o HO f y1 _ x X i (N i) (lo i) R1 RX Hi) as (y2 & E2 & R2) end.
  { intros j Ij. apply (lo_lt n n2o s HS) in Ij; auto. lia. }
  { intros y0 p j Ej. rewrite (geth n o2n n2o s HO A N i _ j R Hi (at_half s i p j Ej)). cbn [bind].
    assert (Ev : vget (map ord (lo i)) (Z.of_nat p) = Ok (ord j)) by (apply vget_of_nat; now rewrite nth_error_map, Ej).
    rewrite Ev. reflexivity. }
  exists y2. split; auto. apply (repv_ext O n n2o _ _ _ R2). intros a Ha. destruct (Z.eq_dec a i) as [->|]; [|now rewrite !updV_other].
  now rewrite !updV_same.
Qed.
(** what row [i] adds to the component [j] *)
Definition contrib (N : Z -> Z -> T) (X : Z -> V) i j : V := if member j (lo i) then act O (tr (N i j)) (X i) else v0 O.
Lemma smul_col A N x X y Y i : rh A N -> rv x X -> rv y Y -> 0 <= i < n ->
  exists y', ldlt_mul_col T V tr (act O) (vadd O) s A x y (ord i) = Ok y' /\ rv y' (fun j => vadd O (Y j) (contrib N X i j)).
Proof.
  intros R RX RY Hi. unfold ldlt_mul_col. rewrite (vget_lowOld n o2n n2o s HO HS) by auto. cbn [bind]. rewrite zlen_map.
  match goal with |- context [foldM ?f y _] => destruct (foldM_range (fun m y' => rv y' (fun j => vadd O (Y j) (if member j (firstn (Z.to_nat m) (lo i)) then act O (tr (N i j)) (X i) else v0 O))) f (zlen (lo i)) y) as (y' & E & R') end.
  - unfold zlen. lia.
  - apply (repv_ext O n n2o _ _ _ RY). intros j _. symmetry. apply (v_add0r O LW).
  - clear y RY. intros m y Hm RY. destruct (nth_error_lt_Some _ (lo i) (Z.to_nat m)) as (j & Ej); [unfold zlen in Hm; lia|].
    pose proof (lo_lt n n2o s HS i j Hi (nth_error_In _ _ Ej)) as Hj. pose proof (lo_sasc n n2o s HS i Hi) as Si.
    assert (Hp : at_ (half s i) (1 + m) j) by (replace m with (Z.of_nat (Z.to_nat m)) by lia; now apply at_half).
    rewrite (geth n o2n n2o s HO A N i _ j R Hi Hp). cbn [bind].
    assert (Ev : vget (map ord (lo i)) m = Ok (ord j)) by (apply vget_Ok; split; [lia|now rewrite nth_error_map, Ej]).
    rewrite Ev. cbn [bind]. unfold acc. rewrite (repv_get O n o2n n2o HO y _ j RY ltac:(lia)), (repv_get O n o2n n2o HO x X i RX Hi). cbn [bind].
    assert (Nj : ~ In j (firstn (Z.to_nat m) (lo i))).
    { intro I. apply (sasc_firstn _ _ _ _ Si Ej) in I; [lia|]. now apply nth_error_In in Ej. }
    assert (Mj : member j (firstn (Z.to_nat m) (lo i)) = false) by (destruct (member _ _) eqn:E; auto; apply member_In in E; tauto).
    rewrite Mj, (v_add0r O LW).
    destruct (repv_set O n o2n n2o HO y _ j (vadd O (Y j) (act O (tr (N i j)) (X i))) RY ltac:(lia)) as (y' & E & R').
    exists y'. split; auto. apply (repv_ext O n n2o _ _ _ R'). intros a Ha. replace (Z.to_nat (m + 1)) with (S (Z.to_nat m)) by lia. rewrite (firstn_snoc _ _ _ Ej).
    destruct (Z.eq_dec a j) as [->|Na].
    + rewrite updV_same. replace (member j (firstn (Z.to_nat m) (lo i) ++ [j])) with true; auto. symmetry. apply member_In, in_app_iff. right. now left.
    + rewrite updV_other by auto. f_equal.
      replace (member a (firstn (Z.to_nat m) (lo i) ++ [j])) with (member a (firstn (Z.to_nat m) (lo i))); auto.
      unfold member. rewrite existsb_app. cbn. destruct (Z.eqb_spec a j); [lia|]. now rewrite !orb_false_r.
  - exists y'. split; auto. unfold zlen in R'. rewrite Nat2Z.id, firstn_all in R'. exact R'.
Qed.
Lemma smul_ok A M x y : stored_sym O tr s A M -> vanishes O s M -> zlen x = n -> zlen y = n ->
  exists y', ldlt_mul T V tr (act O) (vadd O) s {| ldu := A; isDecomposed := false |} x y = Ok y' /\ zlen y' = n /\
    forall i, 0 <= i < n -> nth (Z.to_nat i) y' (v0 O) = product O n M x i.
Proof.
  intros HA HV Lx Ly. unfold ldlt_mul. cbn [isDecomposed negb assert_ bind ldu]. pose proof (stored_sym_rep O tr n o2n n2o s HO HS A M HA) as R.
  unfold vanishes in HV. rewrite (h_num _ _ _ HS) in *. destruct HA as (_ & _ & HM). rewrite (h_num _ _ _ HS) in HM.
  pose proof (n_nonneg n n2o s HS) as Hn. pose proof (repv_refl O n n2o x Lx) as RX. set (X := fun i => nth (Z.to_nat (ord i)) x (v0 O)) in *.
  set (N := fun i j => M (ord i) (ord j)) in *.
  destruct (foldM_range (fun m y' => exists Y, rv y' Y /\ forall i, 0 <= i < n -> ord i < m -> Y i = vsum O (fun j => act O (N i j) (X j)) (half s i))
    (ldlt_mul_row T V (act O) (vadd O) s A x) n y) as (y1 & E1 & Y1 & R1 & H1); auto.
  { eexists. split; [now apply repv_refl|]. intros i Hi Hm. pose proof (ord_rng n o2n n2o HO i Hi). lia. }
  { clear y Ly. intros i y Hi (Y & RY & Hy). destruct (old_new n o2n n2o HO i Hi) as (a & Ha & <-).
    destruct (smul_row A N x X y Y a R RX RY Ha) as (y' & E & R'). exists y'. split; auto. eexists. split; [exact R'|].
    intros c Hc Hm. destruct (Z.eq_dec c a) as [->|Nc]; [now rewrite updV_same|]. rewrite updV_other by auto. apply Hy; auto.
    assert (ord c <> ord a) by (intro E'; apply Nc; now apply (ord_inj n o2n n2o HO)). lia. }
  rewrite E1. cbn [bind]. clear E1 y Ly.
  destruct (foldM_range (fun m y' => rv y' (fun j => vadd O (Y1 j) (vsum O (fun i' => contrib N X (place o2n i') j) (range m))))
    (ldlt_mul_col T V tr (act O) (vadd O) s A x) n y1) as (y2 & E2 & R2); auto.
  { apply (repv_ext O n n2o _ _ _ R1). intros a _. symmetry. apply (v_add0r O LW). }
  { clear R1. intros i y Hi RY. destruct (old_new n o2n n2o HO i Hi) as (a & Ha & <-).
    destruct (smul_col A N x X y _ a R RX RY Ha) as (y' & E & R'). exists y'. split; auto. apply (repv_ext O n n2o _ _ _ R'). intros c Hc.
    rewrite range_succ by lia. rewrite (vsum_snoc O LW). rewrite (vaddA O LW). f_equal. f_equal. symmetry. apply (o_old _ _ _ HO). auto. }
  exists y2. split; auto. destruct R2 as (L2 & R2). split; auto. intros i Hi. destruct (old_new n o2n n2o HO i Hi) as (a & Ha & <-).
  rewrite R2 by auto. rewrite H1 by (auto; pose proof (ord_rng n o2n n2o HO a Ha); lia).
  assert (E3 : vsum O (fun i' => contrib N X (place o2n i') a) (range n) = vsum O (fun j => act O (N a j) (X j)) (up a)).
  { unfold vsum. rewrite (sum_perm V (v0 O) (vadd O)) with (m := map ord (range n)); [|apply LW|apply LW|symmetry; apply (ord_perm n o2n n2o HO)].
    rewrite sum_map. etransitivity; [apply (vsum_support O LW _ (up a))|].
    - now apply sasc_NoDup, (up_sasc n n2o s HS).
    - intros k Ik. apply (up_lt n n2o s HS) in Ik; auto. lia.
    - intros k Hk Nk. replace (place o2n (ord k)) with k by (symmetry; apply (o_old _ _ _ HO); auto). unfold contrib.
      destruct (member a (lo k)) eqn:Em; auto. exfalso. apply Nk. apply member_In in Em. now apply (lo_up n n2o s HS) in Em.
    - apply sum_ext. intros k Ik. pose proof (up_lt n n2o s HS a k Ha Ik). replace (place o2n (ord k)) with k by (symmetry; apply (o_old _ _ _ HO); lia). unfold contrib.
      assert (Il : In a (lo k)) by (apply (lo_up n n2o s HS); auto; lia). apply member_In in Il. rewrite Il. f_equal. unfold N. symmetry. apply HM; apply (ord_rng n o2n n2o HO); lia. }
  rewrite E3. rewrite (product_new O LW n o2n n2o HO M x X a RX). symmetry.
  rewrite (vsum_support O LW _ (slots s a)).
  - unfold slots, half, vsum. rewrite !sum_cons, sum_app by apply LW. apply LW.
  - now apply (slots_nd n n2o s HS).
  - intros k Ik. now apply (slots_rng n n2o s HS a).
  - intros k Hk Nk. rewrite HV; [apply (act0 O LW)| | |]; [now apply (ord_rng n o2n n2o HO)|now apply (ord_rng n o2n n2o HO)|].
    change (~ In (ord k) (old_slots s (ord a))). now rewrite (in_old_slots n o2n n2o s HO HS).
Qed.
End Mul.

Lemma sym_incomplete_solves {T V} (O : ops T V) invert tr junk n adj o2n n2o iluCode s A M F :
  laws O -> transposes O tr -> inverts O invert -> (forall d, invert d <> UB) ->
  graph_ok n adj -> ordering_ok n o2n n2o -> symbolic n adj o2n n2o iluCode = Ok s ->
  stored_sym O tr s A M ->
  ldlt_decompose T (tsub O) (tmul O) tr invert junk s {| ldu := A; isDecomposed := false |} = Ok F ->
  exists P : Z -> Z -> T,
    (forall i j, 0 <= i < n -> In j (i :: row (lowOld s) i ++ row (uppOld s) i) -> P i j = M i j) /\
    forall b y, zlen b = n -> zlen y = n ->
    exists x, ldlt_solve T V tr (act O) (vsub O) s F b y = Ok x /\ zlen x = n /\
      (forall i, 0 <= i < n -> product O n P x i = nth (Z.to_nat i) b (v0 O)) /\
      (forall z, zlen z = n -> (forall i, 0 <= i < n -> product O n P z i = nth (Z.to_nat i) b (v0 O)) -> z = x).
Proof.
  intros LW HT HI HU HG HO HS HA HD. pose proof (symbolic_shape _ _ _ _ _ _ HG HO HS) as Sh.
  destruct (ssolve_ok O LW invert HI tr HT n o2n n2o s HO Sh junk A M F HU HA HD) as (P & P1 & _ & P3). exists P. auto.
Qed.
Lemma sym_complete_solves {T V} (O : ops T V) invert tr junk n adj o2n n2o iluCode s A M F :
  laws O -> transposes O tr -> inverts O invert -> (forall d, invert d <> UB) ->
  graph_ok n adj -> ordering_ok n o2n n2o -> iluCode < 0 -> symbolic n adj o2n n2o iluCode = Ok s ->
  stored_sym O tr s A M -> vanishes O s M ->
  ldlt_decompose T (tsub O) (tmul O) tr invert junk s {| ldu := A; isDecomposed := false |} = Ok F ->
  forall b y, zlen b = n -> zlen y = n ->
  exists x, ldlt_solve T V tr (act O) (vsub O) s F b y = Ok x /\ zlen x = n /\
    (forall i, 0 <= i < n -> product O n M x i = nth (Z.to_nat i) b (v0 O)) /\
    (forall z, zlen z = n -> (forall i, 0 <= i < n -> product O n M z i = nth (Z.to_nat i) b (v0 O)) -> z = x).
Proof.
  intros LW HT HI HU HG HO HL HS HA HV HD b y Lb Ly. pose proof (symbolic_shape _ _ _ _ _ _ HG HO HS) as Sh.
  destruct (ssolve_ok O LW invert HI tr HT n o2n n2o s HO Sh junk A M F HU HA HD) as (P & _ & P2 & P3).
  assert (E : forall i j, 0 <= i < n -> 0 <= j < n -> P i j = M i j).
  { apply P2; auto. intros k i j. apply (complete_closed _ _ _ _ _ _ HG HO HL HS). }
  destruct (P3 b y Lb Ly) as (x & E1 & Lx & H1 & H2). exists x. split; auto. split; auto. split.
  - intros i Hi. rewrite <- H1 by auto. symmetry. apply product_ext; auto.
  - intros z Lz Hz. apply H2; auto. intros i Hi. rewrite <- Hz by auto. apply product_ext; auto.
Qed.
Lemma sym_fails_only_at_pivots {T V} (O : ops T V) invert tr junk n adj o2n n2o iluCode s A M :
  laws O -> transposes O tr -> inverts O invert -> (forall d, invert d <> UB) ->
  graph_ok n adj -> ordering_ok n o2n n2o -> symbolic n adj o2n n2o iluCode = Ok s -> stored_sym O tr s A M ->
  match ldlt_decompose T (tsub O) (tmul O) tr invert junk s {| ldu := A; isDecomposed := false |} with
  | Ok F => isDecomposed F = true
  | Abort => exists d, invert d = Abort
  | UB => False
  end.
Proof.
  intros LW HT HI HU HG HO HS HA. pose proof (symbolic_shape _ _ _ _ _ _ HG HO HS) as Sh.
  pose proof (sdecompose_ok O LW invert tr n o2n n2o s HO Sh junk A _ (stored_sym_rep O tr n o2n n2o s HO Sh A M HA) HU) as H.
  destruct (ldlt_decompose _ _ _ _ _ _ _ _); cbn [outcome] in H; auto. apply H.
Qed.
Lemma sym_product_computed {T V} (O : ops T V) tr n adj o2n n2o iluCode s A M x y :
  laws O -> graph_ok n adj -> ordering_ok n o2n n2o -> symbolic n adj o2n n2o iluCode = Ok s ->
  stored_sym O tr s A M -> vanishes O s M -> zlen x = n -> zlen y = n ->
  exists y', ldlt_mul T V tr (act O) (vadd O) s {| ldu := A; isDecomposed := false |} x y = Ok y' /\ zlen y' = n /\
    forall i, 0 <= i < n -> nth (Z.to_nat i) y' (v0 O) = product O n M x i.
Proof.
  intros LW HG HO HS. pose proof (symbolic_shape _ _ _ _ _ _ HG HO HS) as Sh. apply (smul_ok O LW tr n o2n n2o s HO Sh).
Qed.

Lemma ldlt_phase {T V} (O : ops T V) tr s (F : mat T) b y :
  (isDecomposed F = false -> ldlt_solve T V tr (act O) (vsub O) s F b y = Abort) /\
  (isDecomposed F = true -> ldlt_mul T V tr (act O) (vadd O) s F b y = Abort).
Proof. unfold ldlt_solve, ldlt_mul. split; intros ->; reflexivity. Qed.
