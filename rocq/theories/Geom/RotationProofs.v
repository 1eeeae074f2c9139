(** Proofs about rotations, local bases and face normals. *)
From Coq Require Import Reals List Arith Lra Lia FunctionalExtensionality.
From Verif Require Import Base.Prelude Euler.GasModel Euler.CompressModel Geom.RotationModel Geom.RotationSpec.
Local Open Scope R_scope.

Lemma dot3 : forall u v, dot 3 u v = u 0%nat * v 0%nat + u 1%nat * v 1%nat + u 2%nat * v 2%nat.
Proof. intros. unfold dot. cbn. ring. Qed.
Lemma dot2 : forall u v, dot 2 u v = u 0%nat * v 0%nat + u 1%nat * v 1%nat.
Proof. intros. unfold dot. cbn. ring. Qed.
Lemma mv3 : forall M v i, mat_vec 3 M v i = M i 0%nat * v 0%nat + M i 1%nat * v 1%nat + M i 2%nat * v 2%nat.
Proof. intros. unfold mat_vec. cbn. ring. Qed.
Lemma cs : forall t, sin t * sin t = 1 - cos t * cos t.
Proof. intros. pose proof (sin2_cos2 t). unfold Rsqr in *. lra. Qed.
Lemma sqn3 : forall u, sqnorm 3 u = u 0%nat * u 0%nat + u 1%nat * u 1%nat + u 2%nat * u 2%nat.
Proof. intros. apply dot3. Qed.

Ltac three i H := destruct i as [|[|[|i]]]; [| | |lia]; clear H.

(** *** any matrix of the form c + (1-c) n n^T + s [n] *)
Definition rodrigues (n : vec) (c s : R) (u : vec) : vec := fun i => c * u i + (1 - c) * dot 3 n u * n i + s * cross n u i.
Lemma rodrigues_dot : forall n c s u v, dot 3 n n = 1 -> s * s = 1 - c * c ->
  dot 3 (rodrigues n c s u) (rodrigues n c s v) = dot 3 u v.
Proof.
  intros n c s u v N S.
  assert (E : dot 3 (rodrigues n c s u) (rodrigues n c s v) =
    c * c * dot 3 u v + (2 * c * (1 - c) + (1 - c) * (1 - c) * dot 3 n n) * (dot 3 n u * dot 3 n v)
    + s * s * (dot 3 n n * dot 3 u v - dot 3 n u * dot 3 n v)).
  { unfold rodrigues. rewrite !dot3. unfold cross, v3. ring. }
  rewrite E, N, S. ring.
Qed.
Lemma rodrigues_cross : forall n c s u v, dot 3 n n = 1 -> s * s = 1 - c * c ->
  same_vec 3 (rodrigues n c s (cross u v)) (cross (rodrigues n c s u) (rodrigues n c s v)).
Proof.
  intros n c s u v N S i Hi. rewrite dot3 in N.
  assert (E : cross (rodrigues n c s u) (rodrigues n c s v) i =
    c * c * cross u v i + c * (1 - c) * (dot 3 n u * cross n v i - dot 3 n v * cross n u i)
    + c * s * (cross u (cross n v) i + cross (cross n u) v i)
    + (1 - c) * s * (dot 3 n u * cross n (cross n v) i - dot 3 n v * cross n (cross n u) i)
    + s * s * (dot 3 n (cross u v) * n i)).
  { unfold rodrigues. rewrite !dot3. three i Hi; unfold cross, v3; ring. }
  rewrite E, S. clear E.
  assert (E1 : dot 3 n u * cross n v i - dot 3 n v * cross n u i = dot 3 n n * cross u v i - dot 3 n (cross u v) * n i).
  { rewrite !dot3. three i Hi; unfold cross, v3; ring. }
  assert (E2 : cross u (cross n v) i + cross (cross n u) v i = cross n (cross u v) i).
  { three i Hi; unfold cross, v3; ring. }
  assert (E3 : dot 3 n u * cross n (cross n v) i - dot 3 n v * cross n (cross n u) i = dot 3 n n * cross n (cross u v) i).
  { rewrite !dot3. three i Hi; unfold cross, v3; ring. }
  rewrite E1, E2, E3, dot3, N. unfold rodrigues. ring.
Qed.
Lemma rodrigues_rotation : forall M n c s, dot 3 n n = 1 -> s * s = 1 - c * c ->
  (forall u, same_vec 3 (mat_vec 3 M u) (rodrigues n c s u)) -> is_rotation M.
Proof.
  intros M n c s N S H. 
  assert (D : forall u v, dot 3 (mat_vec 3 M u) (mat_vec 3 M v) = dot 3 (rodrigues n c s u) (rodrigues n c s v)).
  { intros. rewrite !dot3, !(H u), !(H v) by lia. reflexivity. }
  split; intros u v.
  - rewrite D. apply rodrigues_dot; auto.
  - intros i Hi. rewrite (H (cross u v)) by auto. rewrite (rodrigues_cross n c s u v N S i Hi).
    three i Hi; unfold cross, v3; rewrite !(H u), !(H v) by lia; reflexivity.
Qed.

(** *** about the axes *)
Lemma RotX_rod : forall t u, same_vec 3 (mat_vec 3 (RotX t) u) (rodrigues axis_x (cos (rad t)) (sin (rad t)) u).
Proof. intros t u i Hi. rewrite mv3. unfold rodrigues. rewrite dot3. three i Hi; cbn; ring. Qed.
Lemma RotY_rod : forall t u, same_vec 3 (mat_vec 3 (RotY t) u) (rodrigues axis_y (cos (rad t)) (sin (rad t)) u).
Proof. intros t u i Hi. rewrite mv3. unfold rodrigues. rewrite dot3. three i Hi; cbn; ring. Qed.
Lemma RotZ_rod : forall t u, same_vec 3 (mat_vec 3 (RotZ t) u) (rodrigues axis_z (cos (rad t)) (sin (rad t)) u).
Proof. intros t u i Hi. rewrite mv3. unfold rodrigues. rewrite dot3. three i Hi; cbn; ring. Qed.
Lemma axes_unit : dot 3 axis_x axis_x = 1 /\ dot 3 axis_y axis_y = 1 /\ dot 3 axis_z axis_z = 1.
Proof. rewrite !dot3. cbn. lra. Qed.

Lemma rot_axes : forall t, is_rotation (RotX t) /\ is_rotation (RotY t) /\ is_rotation (RotZ t).
Proof.
  intros. destruct axes_unit as (X & Y & Z). repeat split.
  all: first [ apply (rodrigues_rotation _ axis_x (cos (rad t)) (sin (rad t)) X (cs _) (RotX_rod t))
             | apply (rodrigues_rotation _ axis_y (cos (rad t)) (sin (rad t)) Y (cs _) (RotY_rod t))
             | apply (rodrigues_rotation _ axis_z (cos (rad t)) (sin (rad t)) Z (cs _) (RotZ_rod t)) ].
Qed.
Lemma rad_add : forall s t, rad (s + t) = rad s + rad t.
Proof. intros. unfold rad. ring. Qed.
Lemma rot_add : forall s t u,
  same_vec 3 (mat_vec 3 (RotX s) (mat_vec 3 (RotX t) u)) (mat_vec 3 (RotX (s + t)) u) /\
  same_vec 3 (mat_vec 3 (RotY s) (mat_vec 3 (RotY t) u)) (mat_vec 3 (RotY (s + t)) u) /\
  same_vec 3 (mat_vec 3 (RotZ s) (mat_vec 3 (RotZ t) u)) (mat_vec 3 (RotZ (s + t)) u).
Proof.
  intros. repeat split; intros i Hi; rewrite !mv3; unfold RotX, RotY, RotZ; rewrite rad_add, cos_plus, sin_plus; three i Hi; cbn; ring.
Qed.
Lemma rot_zero : forall u, same_vec 3 (mat_vec 3 (RotX 0) u) u /\ same_vec 3 (mat_vec 3 (RotY 0) u) u /\ same_vec 3 (mat_vec 3 (RotZ 0) u) u.
Proof.
  intros. assert (R0 : rad 0 = 0) by (unfold rad; ring).
  repeat split; intros i Hi; rewrite !mv3; unfold RotX, RotY, RotZ; rewrite R0, cos_0, sin_0; three i Hi; cbn; ring.
Qed.
Lemma rad90 : rad 90 = PI / 2.
Proof. unfold rad. field. Qed.
Lemma rot_quarter :
  same_vec 3 (mat_vec 3 (RotX 90) axis_y) axis_z /\ same_vec 3 (mat_vec 3 (RotX 90) axis_x) axis_x /\
  same_vec 3 (mat_vec 3 (RotY 90) axis_z) axis_x /\ same_vec 3 (mat_vec 3 (RotY 90) axis_y) axis_y /\
  same_vec 3 (mat_vec 3 (RotZ 90) axis_x) axis_y /\ same_vec 3 (mat_vec 3 (RotZ 90) axis_z) axis_z.
Proof.
  repeat split; intros i Hi; rewrite !mv3; unfold RotX, RotY, RotZ; rewrite rad90, cos_PI2, sin_PI2; three i Hi; cbn; ring.
Qed.

(** *** about an arbitrary axis *)
Lemma norm_pos : forall u, 0 <= norm 3 u.
Proof. intros. apply sqrt_pos. Qed.
Lemma norm_sq : forall u, norm 3 u * norm 3 u = dot 3 u u.
Proof. intros. unfold norm. apply sqrt_sqrt. unfold sqnorm. rewrite dot3. nra. Qed.
Lemma smallR_pos : 0 < smallR.
Proof. unfold smallR. try apply Rinv_0_lt_compat; try apply pow_lt; lra. Qed.

Lemma RotateAxis_rod : forall a u, smallR <= norm 3 a ->
  same_vec 3 (mat_vec 3 (RotateAxis a) u) (rodrigues (fun i => a i / norm 3 a) (cos (norm 3 a)) (sin (norm 3 a)) u).
Proof.
  intros a u H i Hi. rewrite mv3. unfold RotateAxis. destruct (Rlt_dec _ _); [lra|].
  pose proof smallR_pos. pose proof (norm_sq a) as N. rewrite dot3 in N. set (th := norm 3 a) in *.
  assert (Nt : th <> 0) by lra.
  assert (U : a 0%nat / th * (a 0%nat / th) + a 1%nat / th * (a 1%nat / th) + a 2%nat / th * (a 2%nat / th) = 1).
  { replace (a 0%nat / th * (a 0%nat / th) + a 1%nat / th * (a 1%nat / th) + a 2%nat / th * (a 2%nat / th)) with
      ((a 0%nat * a 0%nat + a 1%nat * a 1%nat + a 2%nat * a 2%nat) / (th * th)) by (field; auto).
    rewrite <- N. field. auto. }
  unfold rodrigues. rewrite dot3. set (x := a 0%nat / th) in *. set (y := a 1%nat / th) in *. set (z := a 2%nat / th) in *.
  three i Hi; cbn; fold x y z.
  - replace (cos th * u 0%nat) with ((x * x + y * y + z * z) * cos th * u 0%nat) by (rewrite U; ring). ring.
  - replace (cos th * u 1%nat) with ((x * x + y * y + z * z) * cos th * u 1%nat) by (rewrite U; ring). ring.
  - replace (cos th * u 2%nat) with ((x * x + y * y + z * z) * cos th * u 2%nat) by (rewrite U; ring). ring.
Qed.
Lemma unit_axis : forall a, smallR <= norm 3 a -> dot 3 (fun i => a i / norm 3 a) (fun i => a i / norm 3 a) = 1.
Proof.
  intros a H. pose proof smallR_pos. pose proof (norm_sq a) as N. rewrite !dot3 in *. set (th := norm 3 a) in *.
  assert (Nt : th <> 0) by lra.
  replace (a 0%nat / th * (a 0%nat / th) + a 1%nat / th * (a 1%nat / th) + a 2%nat / th * (a 2%nat / th)) with
      ((a 0%nat * a 0%nat + a 1%nat * a 1%nat + a 2%nat * a 2%nat) / (th * th)) by (field; auto).
    rewrite <- N. field. auto.
Qed.
Lemma RotateAxis_small : forall a u, norm 3 a < smallR -> same_vec 3 (mat_vec 3 (RotateAxis a) u) u.
Proof. intros a u H i Hi. rewrite mv3. unfold RotateAxis. destruct (Rlt_dec _ _); [|lra]. three i Hi; cbn; ring. Qed.

Lemma RotateAxis_rotation : forall a, is_rotation (RotateAxis a).
Proof.
  intros a. destruct (Rlt_dec (norm 3 a) smallR) as [L|L].
  - split; intros u v.
    + rewrite !dot3, !(RotateAxis_small a) by (auto; lia). reflexivity.
    + intros i Hi. rewrite RotateAxis_small by auto. three i Hi; unfold cross, v3; rewrite !(RotateAxis_small a) by (auto; lia); reflexivity.
  - apply (rodrigues_rotation _ (fun i => a i / norm 3 a) (cos (norm 3 a)) (sin (norm 3 a))).
    + apply unit_axis. lra.
    + apply cs.
    + intros. apply RotateAxis_rod. lra.
Qed.
Lemma RotateAxis_axis : forall a, same_vec 3 (mat_vec 3 (RotateAxis a) a) a.
Proof.
  intros a. destruct (Rlt_dec (norm 3 a) smallR) as [L|L]; [apply RotateAxis_small; auto|].
  intros i Hi. rewrite RotateAxis_rod by (auto; lra). unfold rodrigues.
  pose proof smallR_pos. pose proof (norm_sq a) as N. rewrite !dot3 in *. set (th := norm 3 a) in *.
  assert (Nt : th <> 0) by lra.
  assert (D : a 0%nat / th * a 0%nat + a 1%nat / th * a 1%nat + a 2%nat / th * a 2%nat = th).
  { replace (a 0%nat / th * a 0%nat + a 1%nat / th * a 1%nat + a 2%nat / th * a 2%nat) with
     ((a 0%nat * a 0%nat + a 1%nat * a 1%nat + a 2%nat * a 2%nat) / th) by (field; auto). rewrite <- N. field. auto. }
  rewrite D. three i Hi; cbn; field; auto.
Qed.
Lemma norm_scale : forall t n, dot 3 n n = 1 -> norm 3 (fun i => t * n i) = Rabs t.
Proof.
  intros t n N. unfold norm, sqnorm. replace (dot 3 (fun i => t * n i) (fun i => t * n i)) with (t * t * dot 3 n n) by (rewrite !dot3; ring).
  rewrite N, Rmult_1_r. apply sqrt_Rsqr_abs.
Qed.
(** turning by [t] about the unit vector [n]: the right-handed turn *)
Lemma RotateAxis_turn : forall t n u, dot 3 n n = 1 -> smallR <= Rabs t ->
  same_vec 3 (mat_vec 3 (RotateAxis (fun i => t * n i)) u) (rodrigues n (cos t) (sin t) u).
Proof.
  intros t n u N H i Hi. rewrite RotateAxis_rod by (auto; rewrite norm_scale; auto). rewrite norm_scale by auto.
  unfold rodrigues. pose proof smallR_pos.
  destruct (Rle_dec 0 t) as [P|P].
  - rewrite Rabs_right in * by lra. rewrite !dot3. three i Hi; cbn; field; lra.
  - rewrite Rabs_left in * by lra. rewrite cos_neg, sin_neg, !dot3. three i Hi; cbn; field; lra.
Qed.
Lemma rodrigues_add : forall n c s c' s' u, dot 3 n n = 1 ->
  same_vec 3 (rodrigues n c s (rodrigues n c' s' u)) (rodrigues n (c * c' - s * s') (s * c' + c * s') u).
Proof.
  intros n c s c' s' u N i Hi. unfold rodrigues.
  assert (D : dot 3 n (fun i => c' * u i + (1 - c') * dot 3 n u * n i + s' * cross n u i) = c' * dot 3 n u + (1 - c') * dot 3 n u * dot 3 n n).
  { rewrite !dot3. unfold cross, v3. ring. }
  assert (C : cross n (fun i => c' * u i + (1 - c') * dot 3 n u * n i + s' * cross n u i) i =
    c' * cross n u i + s' * (dot 3 n u * n i - dot 3 n n * u i)).
  { rewrite !dot3. three i Hi; unfold cross, v3; ring. }
  rewrite D, C, N. ring.
Qed.
Lemma RotateAxis_add : forall s t n u, dot 3 n n = 1 -> smallR <= Rabs s -> smallR <= Rabs t -> smallR <= Rabs (s + t) ->
  same_vec 3 (mat_vec 3 (RotateAxis (fun i => s * n i)) (mat_vec 3 (RotateAxis (fun i => t * n i)) u))
             (mat_vec 3 (RotateAxis (fun i => (s + t) * n i)) u).
Proof.
  intros s t n u N Hs Ht Hst i Hi.
  rewrite (RotateAxis_turn s), (RotateAxis_turn (s + t)) by auto.
  assert (E : rodrigues n (cos s) (sin s) (mat_vec 3 (RotateAxis (fun i => t * n i)) u) i =
              rodrigues n (cos s) (sin s) (rodrigues n (cos t) (sin t) u) i).
  { unfold rodrigues at 1 2. rewrite !dot3. unfold cross, v3. rewrite !(RotateAxis_turn t) by (auto; lia). reflexivity. }
  rewrite E, rodrigues_add by auto. rewrite cos_plus, sin_plus. reflexivity.
Qed.
Lemma RotateAxis_back : forall a u, same_vec 3 (mat_vec 3 (RotateAxis (fun i => - a i)) (mat_vec 3 (RotateAxis a) u)) u.
Proof.
  intros a u. assert (NE : norm 3 (fun i => - a i) = norm 3 a).
  { unfold norm, sqnorm. f_equal. rewrite !dot3. ring. }
  destruct (Rlt_dec (norm 3 a) smallR) as [L|L].
  - intros i Hi. rewrite (RotateAxis_small (fun i => - a i)) by (auto; lra). apply RotateAxis_small; auto.
  - intros i Hi. rewrite RotateAxis_rod by (auto; lra). rewrite NE.
    assert (E : rodrigues (fun i => - a i / norm 3 a) (cos (norm 3 a)) (sin (norm 3 a)) (mat_vec 3 (RotateAxis a) u) i =
      rodrigues (fun i => a i / norm 3 a) (cos (norm 3 a)) (- sin (norm 3 a))
        (rodrigues (fun i => a i / norm 3 a) (cos (norm 3 a)) (sin (norm 3 a)) u) i).
    { unfold rodrigues at 1 2. rewrite !dot3. unfold cross, v3. rewrite !(RotateAxis_rod a) by (auto; lra || lia).
      three i Hi; unfold Rdiv; ring. }
    rewrite E, rodrigues_add by (auto; apply unit_axis; lra). unfold rodrigues.
    replace (cos (norm 3 a) * cos (norm 3 a) - - sin (norm 3 a) * sin (norm 3 a)) with 1.
    2:{ pose proof (cs (norm 3 a)). lra. }
    ring.
Qed.
Lemma RotateAxis_Z : forall t u, smallR <= Rabs (rad t) ->
  same_vec 3 (mat_vec 3 (RotateAxis (v3 0 0 (rad t))) u) (mat_vec 3 (RotZ t) u).
Proof.
  intros t u H i Hi. rewrite RotZ_rod by auto. destruct axes_unit as (_ & _ & Z).
  assert (E : v3 0 0 (rad t) = fun i => rad t * axis_z i).
  { apply functional_extensionality. intros [|[|[|j]]]; cbn; ring. }
  rewrite E. apply RotateAxis_turn; auto.
Qed.

(** *** cross product matrices *)
Lemma cross_mat : forall a u, same_vec 3 (mat_vec 3 (CrossVecToMat a) u) (cross a u).
Proof. intros a u i Hi. rewrite mv3. three i Hi; cbn; ring. Qed.
Lemma cross_back : forall a, same_vec 3 (CrossMatToVec (CrossVecToMat a)) a.
Proof. intros a i Hi. three i Hi; reflexivity. Qed.
Lemma cross_forth : forall M i j, (i < 3)%nat -> (j < 3)%nat -> (forall k l, M k l = - M l k) -> CrossVecToMat (CrossMatToVec M) i j = M i j.
Proof.
  intros M i j Hi Hj A. assert (D : forall k, M k k = 0) by (intros k; specialize (A k k); lra).
  three i Hi; three j Hj; cbn; rewrite ?D; try reflexivity; rewrite A; ring.
Qed.

(** *** local bases *)
Lemma normalized_unit : forall u, dot 3 u u <> 0 -> dot 3 (normalized 3 u) (normalized 3 u) = 1.
Proof.
  intros u H. unfold normalized, sqnorm. assert (P : 0 <= dot 3 u u) by (rewrite dot3; nra).
  destruct (Rlt_dec 0 _); [|lra]. pose proof (norm_sq u) as N. pose proof (norm_pos u).
  assert (Nt : norm 3 u <> 0) by (intros E; rewrite E in N; lra).
  replace (dot 3 (fun i => u i / norm 3 u) (fun i => u i / norm 3 u)) with (dot 3 u u / (norm 3 u * norm 3 u)) by (rewrite !dot3; field; auto).
  rewrite N. field. auto.
Qed.
Lemma normalized_scale : forall u, exists k, dot 3 u u <> 0 -> 0 < k /\ forall i, normalized 3 u i = k * u i.
Proof.
  intros u. exists (/ norm 3 u). intros H. unfold normalized, sqnorm. assert (P : 0 <= dot 3 u u) by (rewrite dot3; nra).
  destruct (Rlt_dec 0 _); [|lra]. split; [|intros; unfold Rdiv; ring].
  apply Rinv_0_lt_compat. apply sqrt_lt_R0. auto.
Qed.
Definition ref_dir (n : vec) : vec := if Rlt_dec (Rabs (n 2%nat)) (9/10) then v3 0 0 1 else v3 0 1 0.
Lemma ref_cross : forall n, dot 3 n n = 1 -> dot 3 (cross n (ref_dir n)) (cross n (ref_dir n)) <> 0.
Proof.
  intros n N. rewrite dot3 in *. unfold ref_dir, cross.
  destruct (Rlt_dec _ _) as [L|L]; cbn.
  - assert (n 2%nat * n 2%nat < 1).
    { pose proof (Rabs_pos (n 2%nat)). rewrite <- (Rabs_Rabsolu (n 2%nat)) in L.
      replace (n 2%nat * n 2%nat) with (Rabs (n 2%nat) * Rabs (n 2%nat)) by (rewrite <- Rabs_mult; apply Rabs_right; nra). rewrite Rabs_Rabsolu in L. nra. }
    nra.
  - assert (81/100 <= n 2%nat * n 2%nat).
    { pose proof (Rabs_pos (n 2%nat)). replace (n 2%nat * n 2%nat) with (Rabs (n 2%nat) * Rabs (n 2%nat)) by (rewrite <- Rabs_mult; apply Rabs_right; nra). nra. }
    nra.
Qed.
Lemma base3_ok : forall n, dot 3 n n = 1 -> orthonormal 3 (local_base3 n) /\ local_base3 n 0%nat = n /\
  same_vec 3 (cross (local_base3 n 0%nat) (local_base3 n 1%nat)) (local_base3 n 2%nat).
Proof.
  intros n N. set (t1 := fun i => - normalized 3 (cross n (ref_dir n)) i).
  assert (B1 : local_base3 n 1%nat = t1) by reflexivity.
  assert (B2 : local_base3 n 2%nat = normalized 3 (cross n t1)) by reflexivity.
  pose proof (ref_cross n N) as RC. pose proof (normalized_unit _ RC) as U1.
  destruct (normalized_scale (cross n (ref_dir n))) as [k K]. destruct (K RC) as (K0 & K1).
  assert (T11 : dot 3 t1 t1 = 1) by (rewrite <- U1; unfold t1; rewrite !dot3; ring).
  assert (NT : dot 3 n t1 = 0).
  { unfold t1. rewrite dot3, !K1. set (r := ref_dir n). unfold cross, v3. ring. }
  assert (CC : dot 3 (cross n t1) (cross n t1) = 1).
  { replace (dot 3 (cross n t1) (cross n t1)) with (dot 3 n n * dot 3 t1 t1 - dot 3 n t1 * dot 3 n t1) by (rewrite !dot3; unfold cross, v3; ring).
    rewrite N, T11, NT. ring. }
  assert (EQ : normalized 3 (cross n t1) = cross n t1).
  { unfold normalized, norm, sqnorm. rewrite CC, sqrt_1. destruct (Rlt_dec 0 1); [|lra].
    apply functional_extensionality. intros i. field. }
  split; [|split; [reflexivity|]].
  2:{ intros i Hi. rewrite B1, B2, EQ. reflexivity. }
  intros i j Hi Hj. three i Hi; three j Hj; cbn [Nat.eqb]; rewrite ?B1, ?B2, ?EQ; change (local_base3 n 0%nat) with n; auto.
  - rewrite dot3. unfold cross, v3. ring.
  - rewrite <- NT, !dot3. ring.
  - rewrite dot3. unfold cross, v3. ring.
  - rewrite dot3. unfold cross, v3. ring.
  - rewrite dot3. unfold cross, v3. ring.
Qed.
Lemma base2_ok : forall n, dot 2 n n = 1 -> orthonormal 2 (local_base2 n) /\ local_base2 n 0%nat = n /\
  local_base2 n 0%nat 0%nat * local_base2 n 1%nat 1%nat - local_base2 n 0%nat 1%nat * local_base2 n 1%nat 0%nat = 1.
Proof.
  intros n N. rewrite dot2 in N. split; [|split; [reflexivity|cbn; lra]].
  intros i j Hi Hj. destruct i as [|[|]]; [| |lia]; (destruct j as [|[|]]; [| |lia]); rewrite dot2; cbn; lra.
Qed.
(** without normalization the base fails *)

(** *** face normals *)
Lemma zero_col_iff : forall u, zero_col u = true <-> same_vec 3 u (fun _ => 0).
Proof.
  intros u. unfold zero_col. destruct (Req_EM_T _ 0) as [E|E].
  - split; auto. intros _ i Hi. pose proof (norm_sq u) as N. rewrite E, dot3 in N. three i Hi; nra.
  - split; [discriminate|]. intros H. exfalso. apply E. unfold norm, sqnorm. rewrite dot3, !H by lia.
    replace (0 * 0 + 0 * 0 + 0 * 0) with 0 by ring. apply sqrt_0.
Qed.
Lemma normal3_ok : forall J n, face_normal3 J = Ok n ->
  dot 3 n (J 0%nat) = 0 /\ dot 3 n (J 1%nat) = 0 /\
  sqnorm 3 n = sqnorm 3 (J 0%nat) * sqnorm 3 (J 1%nat) - dot 3 (J 0%nat) (J 1%nat) * dot 3 (J 0%nat) (J 1%nat) /\
  dot 3 n (cross (J 0%nat) (J 1%nat)) = sqnorm 3 n.
Proof.
  intros J n H. unfold face_normal3 in H. destruct (zero_col _); [|discriminate].
  assert (E : n = cross (J 0%nat) (J 1%nat)) by congruence. subst n. unfold sqnorm. rewrite !dot3. unfold cross, v3. repeat split; ring.
Qed.
Lemma normal3_iff : forall J, (exists n, face_normal3 J = Ok n) <-> same_vec 3 (J 2%nat) (fun _ => 0).
Proof.
  intros J. rewrite <- zero_col_iff. unfold face_normal3. destruct (zero_col _); split; eauto; try discriminate. intros (n & H). discriminate.
Qed.
Lemma normal2_ok : forall J n, face_normal2 J = Ok n ->
  n 2%nat = 0 /\ dot 3 n (J 0%nat) = 0 /\ sqnorm 3 n = sqnorm 3 (J 0%nat) /\ J 0%nat 0%nat * n 1%nat - J 0%nat 1%nat * n 0%nat = - sqnorm 3 n.
Proof.
  intros J n H. unfold face_normal2 in H. destruct (Req_EM_T _ 0) as [Z|]; [|discriminate]. destruct (_ && _)%bool; [|discriminate].
  assert (E : n = v3 (J 0%nat 1%nat) (- J 0%nat 0%nat) 0) by congruence. subst n. unfold sqnorm. rewrite !dot3. cbn. rewrite Z. repeat split; ring.
Qed.
Lemma normal2_iff : forall J, (exists n, face_normal2 J = Ok n) <->
  J 0%nat 2%nat = 0 /\ same_vec 3 (J 1%nat) (fun _ => 0) /\ same_vec 3 (J 2%nat) (fun _ => 0).
Proof.
  intros J. rewrite <- !zero_col_iff. unfold face_normal2. destruct (Req_EM_T _ 0) as [Z|Z].
  2:{ split; [intros (n & H); discriminate|intros (H & _); contradiction]. }
  destruct (zero_col (J 1%nat)), (zero_col (J 2%nat)); cbn; split; eauto; try (intros (n & H); discriminate); intros (_ & A & B); discriminate.
Qed.

(** *** two half steps below the threshold *)
Lemma small_lost : exists s t n u, dot 3 n n = 1 /\ 0 < s /\ 0 < t /\
  ~ same_vec 3 (mat_vec 3 (RotateAxis (fun i => s * n i)) (mat_vec 3 (RotateAxis (fun i => t * n i)) u))
               (mat_vec 3 (RotateAxis (fun i => (s + t) * n i)) u).
Proof.
  pose proof smallR_pos as P. assert (L : smallR < 1).
  { unfold smallR. rewrite <- Rinv_1. apply Rinv_lt_contravar; [|apply Rlt_pow_R1; [lra|lia]]. rewrite Rmult_1_l. apply pow_lt. lra. }
  exists (3/4 * smallR), (3/4 * smallR), axis_z, axis_x. destruct axes_unit as (_ & _ & Z).
  split; [exact Z|]. split; [lra|]. split; [lra|]. intros H. specialize (H 1%nat ltac:(lia)).
  assert (SM : norm 3 (fun i => 3/4 * smallR * axis_z i) < smallR) by (rewrite norm_scale by auto; rewrite Rabs_right by lra; lra).
  rewrite RotateAxis_small, RotateAxis_small in H by (auto; lia).
  rewrite RotateAxis_turn in H by (auto; rewrite Rabs_right by lra; lra).
  unfold rodrigues in H. rewrite dot3 in H. cbn in H.
  assert (0 < sin (3/4 * smallR + 3/4 * smallR)).
  { apply sin_gt_0; [lra|]. pose proof PI_RGT_0. pose proof PI2_3_2. unfold PI2 in *. lra. }
  lra.
Qed.
Lemma RotateAxis_angle : forall t n u i, dot 3 n n = 1 -> smallR <= Rabs t -> (i < 3)%nat -> dot 3 n u = 0 ->
  mat_vec 3 (RotateAxis (fun k => t * n k)) u i = cos t * u i + sin t * cross n u i.
Proof. intros t n u i N H Hi D. rewrite RotateAxis_turn by auto. unfold rodrigues. rewrite D. ring. Qed.
Lemma small_one : smallR < 1.
Proof. unfold smallR. rewrite <- Rinv_1. apply Rinv_lt_contravar; [|apply Rlt_pow_R1; [lra|lia]]. rewrite Rmult_1_l. apply pow_lt. lra. Qed.
Lemma met_unit : dot 3 (v3 (2/3) (1/3) (2/3)) (v3 (2/3) (1/3) (2/3)) = 1 /\ dot 2 (v3 (3/5) (4/5) 0) (v3 (3/5) (4/5) 0) = 1.
Proof. rewrite dot3, dot2. cbn. split; field. Qed.
Lemma met_angle : smallR <= Rabs 1 /\ dot 3 axis_z axis_x = 0 /\ smallR <= Rabs (rad 90).
Proof.
  pose proof small_one. rewrite rad90, dot3, !Rabs_right; cbn; pose proof PI2_3_2; unfold PI2 in *; repeat split; lra.
Qed.
Lemma met_normal : face_normal3 (fun j => match j with 0%nat => v3 1 2 0 | 1%nat => v3 0 1 3 | _ => v3 0 0 0 end) = Ok (v3 (2 * 3 - 0 * 1) (0 * 0 - 1 * 3) (1 * 1 - 2 * 0)) /\
  face_normal2 (fun j => match j with 0%nat => v3 1 2 0 | _ => v3 0 0 0 end) = Ok (v3 2 (-1) 0).
Proof.
  assert (Z : zero_col (v3 0 0 0) = true) by (apply zero_col_iff; intros [|[|[|i]]] Hi; reflexivity).
  unfold face_normal3, face_normal2. cbn [v3]. destruct (Req_EM_T 0 0); [|lra]. rewrite Z. split; reflexivity.
Qed.
