(** From the symbolic factorization to the results of the block LU. *)
From Coq Require Import List ZArith Lia.
From Verif Require Import Base.Prelude Base.PreludeFacts
  Solver.DirectModel Solver.DirectSpec Solver.DirectProofs Solver.DirectMore Solver.LUModel Solver.LUSpec Solver.LUProofs Solver.LUElim Solver.LUSolve Solver.LUMain.
Import ListNotations.
Local Open Scope Z_scope.

Lemma product_ext {T V} (O : ops T V) n (P M : Z -> Z -> T) x i : 0 <= i < n -> (forall j, 0 <= j < n -> P i j = M i j) -> product O n P x i = product O n M x i.
Proof. intros Hi H. unfold product. f_equal. apply map_ext_in. intros j Hj. apply range_In in Hj. now rewrite H. Qed.
Lemma incomplete_solves {T V} (O : ops T V) invert n adj o2n n2o iluCode s A M F :
  laws O -> inverts O invert -> (forall d, invert d <> UB) ->
  graph_ok n adj -> ordering_ok n o2n n2o -> symbolic n adj o2n n2o iluCode = Ok s ->
  stored O s A M ->
  lu_decompose T (tsub O) (tmul O) invert s {| ldu := A; isDecomposed := false |} = Ok F ->
  exists P : Z -> Z -> T,
    (forall i j, 0 <= i < n -> In j (i :: row (lowOld s) i ++ row (uppOld s) i) -> P i j = M i j) /\
    forall b y, zlen b = n -> zlen y = n ->
    exists x, lu_solve T V (act O) (vsub O) s F b y = Ok x /\ zlen x = n /\
      (forall i, 0 <= i < n -> product O n P x i = nth (Z.to_nat i) b (v0 O)) /\
      (forall z, zlen z = n -> (forall i, 0 <= i < n -> product O n P z i = nth (Z.to_nat i) b (v0 O)) -> z = x).
Proof.
  intros LW HI HU HG HO HS HA HD. pose proof (symbolic_shape _ _ _ _ _ _ HG HO HS) as Sh.
  destruct (solve_ok O LW n o2n n2o s HO Sh invert A M F HI HU HA HD) as (P & P1 & _ & P3). exists P. auto.
Qed.
Lemma complete_solves {T V} (O : ops T V) invert n adj o2n n2o iluCode s A M F :
  laws O -> inverts O invert -> (forall d, invert d <> UB) ->
  graph_ok n adj -> ordering_ok n o2n n2o -> iluCode < 0 -> symbolic n adj o2n n2o iluCode = Ok s ->
  stored O s A M -> vanishes O s M ->
  lu_decompose T (tsub O) (tmul O) invert s {| ldu := A; isDecomposed := false |} = Ok F ->
  forall b y, zlen b = n -> zlen y = n ->
  exists x, lu_solve T V (act O) (vsub O) s F b y = Ok x /\ zlen x = n /\
    (forall i, 0 <= i < n -> product O n M x i = nth (Z.to_nat i) b (v0 O)) /\
    (forall z, zlen z = n -> (forall i, 0 <= i < n -> product O n M z i = nth (Z.to_nat i) b (v0 O)) -> z = x).
Proof.
  intros LW HI HU HG HO HL HS HA HV HD b y Lb Ly. pose proof (symbolic_shape _ _ _ _ _ _ HG HO HS) as Sh.
  destruct (solve_ok O LW n o2n n2o s HO Sh invert A M F HI HU HA HD) as (P & _ & P2 & P3).
  assert (E : forall i j, 0 <= i < n -> 0 <= j < n -> P i j = M i j).
  { apply P2; auto. intros k i j. apply (complete_closed _ _ _ _ _ _ HG HO HL HS). }
  destruct (P3 b y Lb Ly) as (x & E1 & Lx & H1 & H2). exists x. split; auto. split; auto. split.
  - intros i Hi. rewrite <- H1 by auto. symmetry. apply product_ext; auto.
  - intros z Lz Hz. apply H2; auto. intros i Hi. rewrite <- Hz by auto. apply product_ext; auto.
Qed.
Lemma fails_only_at_pivots {T V} (O : ops T V) invert n adj o2n n2o iluCode s A M :
  laws O -> (forall d, invert d <> UB) ->
  graph_ok n adj -> ordering_ok n o2n n2o -> symbolic n adj o2n n2o iluCode = Ok s -> stored O s A M ->
  match lu_decompose T (tsub O) (tmul O) invert s {| ldu := A; isDecomposed := false |} with
  | Ok F => isDecomposed F = true
  | Abort => exists d, invert d = Abort
  | UB => False
  end.
Proof.
  intros LW HU HG HO HS HA. pose proof (symbolic_shape _ _ _ _ _ _ HG HO HS) as Sh.
  pose proof (decompose_ok O LW invert n o2n n2o s HO Sh A _ (stored_rep O n o2n n2o s HO Sh A M HA) HU) as H.
  destruct (lu_decompose _ _ _ _ _ _); cbn [outcome] in H; auto. apply H.
Qed.
Lemma product_computed {T V} (O : ops T V) n adj o2n n2o iluCode s A M x y :
  laws O -> graph_ok n adj -> ordering_ok n o2n n2o -> symbolic n adj o2n n2o iluCode = Ok s ->
  stored O s A M -> vanishes O s M -> zlen x = n -> zlen y = n ->
  exists y', lu_mul T V (act O) (vadd O) s {| ldu := A; isDecomposed := false |} x y = Ok y' /\ zlen y' = n /\
    forall i, 0 <= i < n -> nth (Z.to_nat i) y' (v0 O) = product O n M x i.
Proof.
  intros LW HG HO HS. pose proof (symbolic_shape _ _ _ _ _ _ HG HO HS) as Sh. apply (mul_ok O LW n o2n n2o s HO Sh).
Qed.

Lemma lu_phase {T V} (O : ops T V) s (F : mat T) b y :
  (isDecomposed F = false -> lu_solve T V (act O) (vsub O) s F b y = Abort) /\
  (isDecomposed F = true -> lu_mul T V (act O) (vadd O) s F b y = Abort).
Proof. unfold lu_solve, lu_mul. split; intros ->; reflexivity. Qed.
