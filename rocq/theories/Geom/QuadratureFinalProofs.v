(** The accuracy of the rules (C52). *)
From Coq Require Import List ZArith QArith Qreals Reals Lia Lra Arith Bool.
From Verif Require Import Base.Prelude Base.PreludeFacts Geom.ElemModel Geom.QuadratureModel Geom.QuadratureSpec
  Geom.QuadratureProofs Geom.QuadratureSumProofs.
Import ListNotations.
Local Open Scope R_scope.

(** *** exact values as fractions *)
Fixpoint zfact (n : nat) : Z := match n with O => 1 | S m => Z.of_nat n * zfact m end%Z.
Lemma zfact_ok : forall n, INR (fact n) = IZR (zfact n).
Proof. induction n as [|n IH]; auto. rewrite fact_simpl, mult_INR, IH, INR_IZR_INZ, <- mult_IZR. auto. Qed.
Lemma zfact_pos : forall n, (0 < zfact n)%Z.
Proof. induction n as [|n IH]; cbn [zfact]; lia. Qed.

Definition sn (a : nat) : Z := if Nat.even a then 2 else 0.
Definition z0 (b : nat) : Z := match b with O => 1 | _ => 0 end%Z.
Lemma sym_ok : forall a, sym a = IZR (sn a) / IZR (Z.of_nat (S a)).
Proof.
  intros a. unfold sym, sn. rewrite pow1, INR_IZR_INZ. f_equal. cbn [pow].
  destruct (Nat.even a) eqn:E.
  - apply Nat.even_spec in E. destruct E as [m ->]. rewrite pow_1_even. lra.
  - assert (O : Nat.odd a = true) by (rewrite <- Nat.negb_even, E; auto). apply Nat.odd_spec in O. destruct O as [m ->].
    rewrite Nat.add_1_r, pow_1_odd. lra.
Qed.
Lemma z0_ok : forall b, 0 ^ b = IZR (z0 b).
Proof. destruct b; cbn [pow z0]; lra. Qed.
Lemma beta_ok : forall a n, beta a n = IZR (zfact a * zfact n) / IZR (zfact (a + n + 1)).
Proof. intros. unfold beta. rewrite !zfact_ok, mult_IZR. auto. Qed.

(** *** rules whose sums are computed: powers are built up one factor at a time *)
Definition pw (k : nat) : Z := nth k
  [1; 6000000000000000000; 36000000000000000000000000000000000000; 216000000000000000000000000000000000000000000000000000000; 1296000000000000000000000000000000000000000000000000000000000000000000000000; 7776000000000000000000000000000000000000000000000000000000000000000000000000000000000000000000; 46656000000000000000000000000000000000000000000000000000000000000000000000000000000000000000000000000000000000000; 279936000000000000000000000000000000000000000000000000000000000000000000000000000000000000000000000000000000000000000000000000000000]%Z 0%Z.
Lemma pw_ok : forall k, (k <= 7)%nat -> pw k = zpow D k.
Proof. intros k H. do 8 (destruct k as [|k]; [vm_compute; reflexivity|]). lia. Qed.
Definition close (N : Z) (k : nat) (n d : Z) : bool :=
  (let P := pw k in Z.abs (N * d - n * P) * 200000000000000 <=? d * P)%Z.
Definition bounded (n d : Z) : bool := (Z.abs n <=? 2 * d)%Z.
Local Opaque D dok num.
Definition tiny : R := 5 / 1000000000000000.
Lemma close_ok : forall N k n d, (k <= 7)%nat -> (0 < d)%Z -> close N k n d = true ->
  Rabs (IZR N / IZR D ^ k - IZR n / IZR d) <= tiny.
Proof.
  intros N k n d Hk Hd H. unfold close in H. cbv zeta in H. rewrite (pw_ok k Hk) in H. apply Z.leb_le in H. apply IZR_le in H. rewrite !mult_IZR, abs_IZR, minus_IZR, !mult_IZR, zpow_R in H.
  pose proof (Dpow_nz k) as Dn. assert (Dp : 0 < IZR D ^ k) by (apply pow_lt, D_pos). assert (dp : 0 < IZR d) by (apply (IZR_lt 0); auto).
  replace (IZR N / IZR D ^ k - IZR n / IZR d) with ((IZR N * IZR d - IZR n * IZR D ^ k) / (IZR d * IZR D ^ k)) by (field; split; lra).
  unfold Rdiv at 1. rewrite Rabs_mult. set (m := IZR d * IZR D ^ k) in *. assert (mp : 0 < m) by (apply Rmult_lt_0_compat; auto).
  rewrite (Rabs_right (/ m)) by (left; apply Rinv_0_lt_compat; auto).
  apply (Rmult_le_reg_r m); auto. rewrite Rmult_assoc, Rinv_l, Rmult_1_r by lra. unfold tiny. lra.
Qed.
Lemma bounded_ok : forall n d, (0 < d)%Z -> bounded n d = true -> Rabs (IZR n / IZR d) <= 2.
Proof.
  intros n d Hd H. unfold bounded in H. apply Z.leb_le in H. apply IZR_le in H. rewrite mult_IZR, abs_IZR in H.
  assert (dp : 0 < IZR d) by (apply (IZR_lt 0); auto). unfold Rdiv. rewrite Rabs_mult, (Rabs_right (/ IZR d)) by (left; apply Rinv_0_lt_compat; auto).
  apply (Rmult_le_reg_r (IZR d)); auto. rewrite Rmult_assoc, Rinv_l, Rmult_1_r by lra. auto.
Qed.

Section Sweep.
Variable T : nat -> nat -> nat -> Z -> bool.
Variables X Y Z' W : list Z.
Definition times (v x : list Z) : list Z := map (fun '(a, b) => b * a)%Z (combine v x).
Definition total (v : list Z) : Z := fold_right Z.add 0%Z v.
Fixpoint sweepz (v : list Z) (a b c n : nat) : bool :=
  T a b c (total v) && match n with O => true | S m => sweepz (times v Z') a b (S c) m end.
Fixpoint sweepy (v : list Z) (a b n : nat) : bool :=
  sweepz v a b 0 n && match n with O => true | S m => sweepy (times v Y) a (S b) m end.
Fixpoint sweepx (v : list Z) (a n : nat) : bool :=
  sweepy v a 0 n && match n with O => true | S m => sweepx (times v X) (S a) m end.
Fixpoint many (v x : list Z) (n : nat) : list Z := match n with O => v | S m => many (times v x) x m end.
Lemma sweepz_ok : forall n v a b c, sweepz v a b c n = true -> forall k, (k <= n)%nat -> T a b (c + k) (total (many v Z' k)) = true.
Proof.
  induction n as [|n IH]; intros v a b c H k Hk; cbn [sweepz] in H; apply andb_true_iff in H; destruct H as [H1 H2].
  - replace k with 0%nat by lia. rewrite Nat.add_0_r. auto.
  - destruct k as [|k]; [rewrite Nat.add_0_r; auto|]. rewrite <- Nat.add_succ_comm. cbn [many]. apply (IH _ _ _ _ H2). lia.
Qed.
Lemma sweepy_ok : forall n v a b, sweepy v a b n = true -> forall j k, (j + k <= n)%nat ->
  T a (b + j) k (total (many (many v Y j) Z' k)) = true.
Proof.
  induction n as [|n IH]; intros v a b H j k Hk; cbn [sweepy] in H; apply andb_true_iff in H; destruct H as [H1 H2].
  - replace j with 0%nat by lia. rewrite Nat.add_0_r. apply (sweepz_ok _ _ _ _ _ H1 k). lia.
  - destruct j as [|j]; [rewrite Nat.add_0_r; apply (sweepz_ok _ _ _ _ _ H1 k); lia|].
    rewrite <- Nat.add_succ_comm. cbn [many]. apply (IH _ _ _ H2). lia.
Qed.
Lemma sweepx_ok : forall n v a, sweepx v a n = true -> forall i j k, (i + j + k <= n)%nat ->
  T (a + i) j k (total (many (many (many v X i) Y j) Z' k)) = true.
Proof.
  induction n as [|n IH]; intros v a H i j k Hk; cbn [sweepx] in H; apply andb_true_iff in H; destruct H as [H1 H2].
  - replace i with 0%nat by lia. rewrite Nat.add_0_r. apply (sweepy_ok _ _ _ _ H1 j k). lia.
  - destruct i as [|i]; [rewrite Nat.add_0_r; apply (sweepy_ok _ _ _ _ H1 j k); lia|].
    rewrite <- Nat.add_succ_comm. cbn [many]. apply (IH _ _ H2). lia.
Qed.
End Sweep.

Lemma many_map : forall A (f x : A -> Z) l n, many (map f l) (map x l) n = map (fun p => f p * zpow (x p) n)%Z l.
Proof.
  intros A f x l n. revert f. induction n as [|n IH]; intros f; cbn [many].
  - apply map_ext. intros p. cbn [zpow]. lia.
  - assert (E : times (map f l) (map x l) = map (fun p => f p * x p)%Z l).
    { clear. unfold times. induction l as [|p l IHl]; auto. cbn [map combine]. f_equal; [lia|auto]. }
    rewrite E, IH. apply map_ext. intros p. cbn [zpow]. lia.
Qed.
Lemma total_map : forall A (f : A -> Z) l, total (map f l) = zsum f l.
Proof. induction l as [|a l IH]; auto. cbn [map total zsum fold_right]. fold (total (map f l)) (zsum f l). rewrite IH. auto. Qed.
Lemma zsum_ext : forall A (f g : A -> Z) l, (forall a, f a = g a) -> zsum f l = zsum g l.
Proof. intros A f g l H. induction l as [|a l IH]; auto. cbn [zsum fold_right]. fold (zsum f l) (zsum g l). rewrite H, IH. auto. Qed.

(** *** the four kinds of sums *)
Definition beta_num (a n : nat) : Z := (zfact a * zfact n)%Z.
Definition tri_num (a b : nat) : Z := (zfact a * zfact (S b))%Z.
Definition tri_den (a b : nat) : Z := (zfact (a + S b + 1) * Z.of_nat (S b))%Z.
Definition tet_num (a b c : nat) : Z := (zfact b * zfact (S c) * (zfact a * zfact (b + c + 2)))%Z.
Definition tet_den (a b c : nat) : Z := (zfact (b + S c + 1) * Z.of_nat (S c) * zfact (a + (b + c + 2) + 1))%Z.
Definition jac_num (c n : nat) : Z := (zfact c * zfact (n + 2))%Z.
Definition jac_den (c n : nat) : Z := zfact (c + (n + 2) + 1).

Definition good (N : Z) (k : nat) (n d : Z) : bool := (k <=? 7)%nat && close N k n d && bounded n d.
Definition T1 (a b c : nat) (N : Z) : bool :=
  match b, c with O, O => good N (S a) (sn a) (Z.of_nat (S a)) | _, _ => true end.
Definition T2 (a b c : nat) (N : Z) : bool :=
  match c with O => good N (a + b + 1) (tri_num a b) (tri_den a b) | _ => true end.
Definition T3 (a b c : nat) (N : Z) : bool := good N (a + b + c + 1) (tet_num a b c) (tet_den a b c).
Definition TJ (a b c : nat) (N : Z) : bool :=
  match c with O => good N (a + b + 1) (jac_num a b) (jac_den a b) | _ => true end.

Definition check1 (g : list (Q * Q)) (n : nat) : bool :=
  forallb (fun '(x, w) => dok x && dok w) g &&
  sweepx T1 (map (fun p => num (fst p)) g) [] [] (map (fun p => num (snd p)) g) 0 n.
Definition check2 (g : list (Q * Q * Q)) (n : nat) : bool :=
  forallb (fun '(x, y, w) => dok x && dok y && dok w) g &&
  sweepx T2 (map (fun p => num (fst (fst p))) g) (map (fun p => num (snd (fst p))) g) [] (map (fun p => num (snd p)) g) 0 n.
Definition check3 (g : list (Q * Q * Q * Q)) (n : nat) : bool :=
  forallb (fun '(x, y, z, w) => dok x && dok y && dok z && dok w) g &&
  sweepx T3 (map (fun p => num (fst (fst (fst p)))) g) (map (fun p => num (snd (fst (fst p)))) g) (map (fun p => num (snd (fst p))) g)
    (map (fun p => num (snd p)) g) 0 n.
Definition checkJ (g : list (Q * Q)) (n : nat) : bool :=
  forallb (fun '(x, w) => dok x && dok w) g &&
  sweepx TJ (map (fun p => num (fst p)) g) (map (fun p => D - num (fst p))%Z g) [] (map (fun p => num (snd p)) g) 0 n.

Definition near (r e : R) : Prop := Rabs (r - e) <= tiny /\ Rabs e <= 2.
Lemma good_ok : forall N k n d, (0 < d)%Z -> good N k n d = true -> near (IZR N / IZR D ^ k) (IZR n / IZR d).
Proof. intros N k n d Hd H. unfold good in H. rewrite !andb_true_iff, Nat.leb_le in H. destruct H as [[? ?] ?]. split; [apply close_ok|apply bounded_ok]; auto. Qed.

Lemma check1_ok : forall g n, check1 g n = true -> forall a, (a <= n)%nat -> near (R1 g a) (sym a).
Proof.
  intros g n H a Ha. apply andb_true_iff in H. destruct H as [H1 H2]. rewrite mom1_ok, sym_ok by auto. apply good_ok; [lia|].
  pose proof (sweepx_ok _ _ _ _ _ _ _ H2 a 0 0 ltac:(lia)) as K. cbn [many] in K. unfold T1 in K. rewrite Nat.add_0_l in K.
  rewrite many_map, total_map in K. rewrite <- K. unfold mom1. f_equal. apply zsum_ext. intros [x w]. auto.
Qed.
Lemma check2_ok : forall g n, check2 g n = true -> forall a b, (a + b <= n)%nat ->
  near (R2 g a b) (beta a (S b) / INR (S b)).
Proof.
  intros g n H a b Ha. apply andb_true_iff in H. destruct H as [H1 H2]. rewrite mom2_ok by auto.
  assert (P : IZR (Z.of_nat (S b)) <> 0) by (apply not_0_IZR; lia).
  assert (Q : IZR (zfact (a + S b + 1)) <> 0) by (apply not_0_IZR; pose proof (zfact_pos (a + S b + 1)); lia).
  replace (beta a (S b) / INR (S b)) with (IZR (tri_num a b) / IZR (tri_den a b)).
  2: { rewrite beta_ok, INR_IZR_INZ. unfold tri_num, tri_den. rewrite !mult_IZR. field. auto. }
  apply good_ok; [unfold tri_den; pose proof (zfact_pos (a + S b + 1)); lia|].
  pose proof (sweepx_ok _ _ _ _ _ _ _ H2 a b 0 ltac:(lia)) as K. unfold T2 in K. rewrite Nat.add_0_l in K.
  rewrite !many_map in K. cbn [many] in K. rewrite total_map in K. rewrite <- K. unfold mom2. f_equal. apply zsum_ext. intros [[x y] w]. cbn [fst snd]. lia.
Qed.
Lemma check3_ok : forall g n, check3 g n = true -> forall a b c, (a + b + c <= n)%nat ->
  near (R3 g a b c) (exact TetSpace a b c).
Proof.
  intros g n H a b c Ha. apply andb_true_iff in H. destruct H as [H1 H2]. rewrite mom3_ok by auto.
  assert (P : forall n, IZR (Z.of_nat (S n)) <> 0) by (intros; apply not_0_IZR; lia).
  assert (Q : forall n, IZR (zfact n) <> 0) by (intros m; apply not_0_IZR; pose proof (zfact_pos m); lia).
  replace (exact TetSpace a b c) with (IZR (tet_num a b c) / IZR (tet_den a b c)).
  2: { cbn [exact]. rewrite !beta_ok, INR_IZR_INZ. unfold tet_num, tet_den. rewrite !mult_IZR. field. auto. }
  apply good_ok; [unfold tet_den; repeat apply Z.mul_pos_pos; try apply zfact_pos; lia|].
  pose proof (sweepx_ok _ _ _ _ _ _ _ H2 a b c ltac:(lia)) as K. unfold T3 in K. rewrite Nat.add_0_l in K.
  rewrite !many_map, total_map in K. rewrite <- K. unfold mom3. f_equal. apply zsum_ext. intros [[[x y] z] w]. cbn [fst snd]. lia.
Qed.
Lemma checkJ_ok : forall g n, checkJ g n = true -> forall c m, (c + m <= n)%nat -> near (RJ g c m) (beta c (m + 2)).
Proof.
  intros g n H c m Ha. apply andb_true_iff in H. destruct H as [H1 H2]. rewrite momj_ok, beta_ok by auto.
  apply good_ok; [apply zfact_pos|].
  pose proof (sweepx_ok _ _ _ _ _ _ _ H2 c m 0 ltac:(lia)) as K. unfold TJ in K. rewrite Nat.add_0_l in K.
  rewrite !many_map in K. cbn [many] in K. rewrite total_map in K. rewrite <- K. unfold momj, jac_num, jac_den. f_equal. apply zsum_ext. intros [x w]. cbn [fst snd]. lia.
Qed.

(** the orders that share a rule: the highest is checked *)
Lemma ok_gl_of_1 : check1 (gl_of 1) 1 = true.
Proof. vm_compute. reflexivity. Qed.
Lemma ok_gl_of_3 : check1 (gl_of 3) 3 = true.
Proof. vm_compute. reflexivity. Qed.
Lemma ok_gl_of_5 : check1 (gl_of 5) 5 = true.
Proof. vm_compute. reflexivity. Qed.
Lemma ok_gl_of_6 : check1 (gl_of 6) 6 = true.
Proof. vm_compute. reflexivity. Qed.
Lemma ok_glp_of_1 : check1 (glp_of 1) 1 = true.
Proof. vm_compute. reflexivity. Qed.
Lemma ok_glp_of_2 : check1 (glp_of 2) 2 = true.
Proof. vm_compute. reflexivity. Qed.
Lemma ok_glp_of_5 : check1 (glp_of 5) 5 = true.
Proof. vm_compute. reflexivity. Qed.
Lemma ok_glp_of_6 : check1 (glp_of 6) 6 = true.
Proof. vm_compute. reflexivity. Qed.
Lemma ok_tri_of_1 : check2 (tri_of 1) 1 = true.
Proof. vm_compute. reflexivity. Qed.
Lemma ok_tri_of_2 : check2 (tri_of 2) 2 = true.
Proof. vm_compute. reflexivity. Qed.
Lemma ok_tri_of_4 : check2 (tri_of 4) 4 = true.
Proof. vm_compute. reflexivity. Qed.
Lemma ok_tri_of_5 : check2 (tri_of 5) 5 = true.
Proof. vm_compute. reflexivity. Qed.
Lemma ok_tri_of_6 : check2 (tri_of 6) 6 = true.
Proof. vm_compute. reflexivity. Qed.
Lemma ok_tet_of_1 : check3 (tet_of 1) 1 = true.
Proof. vm_compute. reflexivity. Qed.
Lemma ok_tet_of_2 : check3 (tet_of 2) 2 = true.
Proof. vm_compute. reflexivity. Qed.
Lemma ok_tet_of_3 : check3 (tet_of 3) 3 = true.
Proof. vm_compute. reflexivity. Qed.
Lemma ok_tet_of_5 : check3 (tet_of 5) 5 = true.
Proof. vm_compute. reflexivity. Qed.
Lemma ok_tet_of_6 : check3 (tet_of 6) 6 = true.
Proof. vm_compute. reflexivity. Qed.
Lemma ok_gj_of_1 : checkJ (gj_of 1) 1 = true.
Proof. vm_compute. reflexivity. Qed.
Lemma ok_gj_of_3 : checkJ (gj_of 3) 3 = true.
Proof. vm_compute. reflexivity. Qed.
Lemma ok_gj_of_5 : checkJ (gj_of 5) 5 = true.
Proof. vm_compute. reflexivity. Qed.
Lemma ok_gj_of_6 : checkJ (gj_of 6) 6 = true.
Proof. vm_compute. reflexivity. Qed.

Lemma gl_near : forall o a, (o <= 6)%nat -> (a <= o)%nat -> near (R1 (gl_of o) a) (sym a).
Proof.
  intros o a Ho Ha. destruct o as [|[|[|[|[|[|[|o]]]]]]]; [..|lia].
  - apply (check1_ok (gl_of 1) 1 ok_gl_of_1); lia.
  - apply (check1_ok (gl_of 1) 1 ok_gl_of_1); lia.
  - apply (check1_ok (gl_of 3) 3 ok_gl_of_3); lia.
  - apply (check1_ok (gl_of 3) 3 ok_gl_of_3); lia.
  - apply (check1_ok (gl_of 5) 5 ok_gl_of_5); lia.
  - apply (check1_ok (gl_of 5) 5 ok_gl_of_5); lia.
  - apply (check1_ok (gl_of 6) 6 ok_gl_of_6); lia.
Qed.
Lemma glp_near : forall o a, (o <= 6)%nat -> (a <= o)%nat -> near (R1 (glp_of o) a) (sym a).
Proof.
  intros o a Ho Ha. destruct o as [|[|[|[|[|[|[|o]]]]]]]; [..|lia].
  - apply (check1_ok (glp_of 1) 1 ok_glp_of_1); lia.
  - apply (check1_ok (glp_of 1) 1 ok_glp_of_1); lia.
  - apply (check1_ok (glp_of 2) 2 ok_glp_of_2); lia.
  - apply (check1_ok (glp_of 5) 5 ok_glp_of_5); lia.
  - apply (check1_ok (glp_of 5) 5 ok_glp_of_5); lia.
  - apply (check1_ok (glp_of 5) 5 ok_glp_of_5); lia.
  - apply (check1_ok (glp_of 6) 6 ok_glp_of_6); lia.
Qed.
Lemma tri_near : forall o a b, (o <= 6)%nat -> (a + b <= o)%nat -> near (R2 (tri_of o) a b) (beta a (S b) / INR (S b)).
Proof.
  intros o a b Ho Ha. destruct o as [|[|[|[|[|[|[|o]]]]]]]; [..|lia].
  - apply (check2_ok (tri_of 1) 1 ok_tri_of_1); lia.
  - apply (check2_ok (tri_of 1) 1 ok_tri_of_1); lia.
  - apply (check2_ok (tri_of 2) 2 ok_tri_of_2); lia.
  - apply (check2_ok (tri_of 4) 4 ok_tri_of_4); lia.
  - apply (check2_ok (tri_of 4) 4 ok_tri_of_4); lia.
  - apply (check2_ok (tri_of 5) 5 ok_tri_of_5); lia.
  - apply (check2_ok (tri_of 6) 6 ok_tri_of_6); lia.
Qed.
Lemma tet_near : forall o a b c, (o <= 6)%nat -> (a + b + c <= o)%nat -> near (R3 (tet_of o) a b c) (exact TetSpace a b c).
Proof.
  intros o a b c Ho Ha. destruct o as [|[|[|[|[|[|[|o]]]]]]]; [..|lia].
  - apply (check3_ok (tet_of 1) 1 ok_tet_of_1); lia.
  - apply (check3_ok (tet_of 1) 1 ok_tet_of_1); lia.
  - apply (check3_ok (tet_of 2) 2 ok_tet_of_2); lia.
  - apply (check3_ok (tet_of 3) 3 ok_tet_of_3); lia.
  - apply (check3_ok (tet_of 5) 5 ok_tet_of_5); lia.
  - apply (check3_ok (tet_of 5) 5 ok_tet_of_5); lia.
  - apply (check3_ok (tet_of 6) 6 ok_tet_of_6); lia.
Qed.
Lemma gj_near : forall o c n, (o <= 6)%nat -> (c + n <= o)%nat -> near (RJ (gj_of o) c n) (beta c (n + 2)).
Proof.
  intros o c n Ho Ha. destruct o as [|[|[|[|[|[|[|o]]]]]]]; [..|lia].
  - apply (checkJ_ok (gj_of 1) 1 ok_gj_of_1); lia.
  - apply (checkJ_ok (gj_of 1) 1 ok_gj_of_1); lia.
  - apply (checkJ_ok (gj_of 3) 3 ok_gj_of_3); lia.
  - apply (checkJ_ok (gj_of 3) 3 ok_gj_of_3); lia.
  - apply (checkJ_ok (gj_of 5) 5 ok_gj_of_5); lia.
  - apply (checkJ_ok (gj_of 5) 5 ok_gj_of_5); lia.
  - apply (checkJ_ok (gj_of 6) 6 ok_gj_of_6); lia.
Qed.

(** products of accurate sums *)
Lemma prod_near : forall a b x y d e p q, Rabs (a - x) <= d -> Rabs x <= p -> Rabs (b - y) <= e -> Rabs y <= q ->
  Rabs (a * b - x * y) <= d * q + p * e + d * e /\ Rabs (x * y) <= p * q.
Proof.
  intros a b x y d e p q Ha Hx Hb Hy. pose proof (Rabs_pos (a - x)). pose proof (Rabs_pos (b - y)). pose proof (Rabs_pos x). pose proof (Rabs_pos y).
  split; [|rewrite Rabs_mult; apply Rmult_le_compat; auto].
  replace (a * b - x * y) with ((a - x) * y + x * (b - y) + (a - x) * (b - y)) by ring.
  eapply Rle_trans; [apply Rabs_triang|]. apply Rplus_le_compat; [eapply Rle_trans; [apply Rabs_triang|]; apply Rplus_le_compat|];
    rewrite Rabs_mult; apply Rmult_le_compat; auto.
Qed.
Lemma zero_near : forall n, Rabs (0 ^ n - 0 ^ n) <= 0 /\ Rabs (0 ^ n) <= 1.
Proof.
  intros n. split; [rewrite Rminus_diag_eq, Rabs_R0 by auto; lra|].
  destruct n; cbn [pow]; [rewrite Rabs_R1; lra|rewrite Rmult_0_l, Rabs_R0; lra].
Qed.

Lemma monomial_accuracy : forall ps o a b c, ps <> UnknownPSpace -> (o <= 6)%nat -> (a + b + c <= o)%nat ->
  Rabs (rule_sum ps o a b c - exact ps a b c) <= 1 / 10000000000000.
Proof.
  intros ps o a b c H Ho Hd. unfold rule_sum.
  destruct ps; try congruence; cbn [points_of].
  - rewrite line_sum. cbn [exact]. destruct (gl_near o a Ho ltac:(lia)) as [A A']. destruct (zero_near b) as [B B'], (zero_near c) as [C C'].
    destruct (prod_near _ _ _ _ _ _ _ _ A A' B B') as [E E']. destruct (prod_near _ _ _ _ _ _ _ _ E E' C C') as [F _].
    eapply Rle_trans; [exact F|]. unfold tiny. lra.
  - rewrite tri_sum. cbn [exact]. destruct (tri_near o a b Ho ltac:(lia)) as [A A']. destruct (zero_near c) as [C C'].
    destruct (prod_near _ _ _ _ _ _ _ _ A A' C C') as [F _].
    eapply Rle_trans; [exact F|]. unfold tiny. lra.
  - rewrite quad_sum. cbn [exact]. destruct (gl_near o a Ho ltac:(lia)) as [A A'], (gl_near o b Ho ltac:(lia)) as [B B']. destruct (zero_near c) as [C C'].
    destruct (prod_near _ _ _ _ _ _ _ _ A A' B B') as [E E']. destruct (prod_near _ _ _ _ _ _ _ _ E E' C C') as [F _].
    eapply Rle_trans; [exact F|]. unfold tiny. lra.
  - rewrite tet_sum. destruct (tet_near o a b c Ho Hd) as [A _]. eapply Rle_trans; [exact A|]. unfold tiny. lra.
  - rewrite hex_sum. cbn [exact].
    destruct (gl_near o a Ho ltac:(lia)) as [A A'], (gl_near o b Ho ltac:(lia)) as [B B'], (gl_near o c Ho ltac:(lia)) as [C C'].
    destruct (prod_near _ _ _ _ _ _ _ _ A A' B B') as [E E']. destruct (prod_near _ _ _ _ _ _ _ _ E E' C C') as [F _].
    eapply Rle_trans; [exact F|]. unfold tiny. lra.
  - rewrite prism_sum. cbn [exact]. destruct (tri_near o a b Ho ltac:(lia)) as [A A'], (glp_near o c Ho ltac:(lia)) as [C C'].
    destruct (prod_near _ _ _ _ _ _ _ _ A A' C C') as [F _].
    eapply Rle_trans; [exact F|]. unfold tiny. lra.
  - rewrite pyramid_sum. cbn [exact].
    destruct (gl_near o a Ho ltac:(lia)) as [A A'], (gl_near o b Ho ltac:(lia)) as [B B'], (gj_near o c (a + b) Ho ltac:(lia)) as [C C'].
    destruct (prod_near _ _ _ _ _ _ _ _ A A' B B') as [E E']. destruct (prod_near _ _ _ _ _ _ _ _ E E' C C') as [F _].
    eapply Rle_trans; [exact F|]. unfold tiny. lra.
Qed.

Lemma sum_poly : forall l (p : poly),
  rsum (term (eval p)) l = fold_right (fun '(q, (a, b, c)) s => q * rsum (term (mono a b c)) l + s) 0 p.
Proof.
  intros l p. induction p as [|[q [[a b] c]] p IH]; cbn [fold_right].
  - induction l as [|[[[x y] z] w] l IH]; cbn [rsum fold_right]; auto. fold (rsum (term (eval [])) l). rewrite IH. cbn. ring.
  - rewrite <- IH, <- rsum_scal. clear IH. induction l as [|[[[x y] z] w] l IH]; [unfold rsum; cbn; ring|].
    cbn [rsum fold_right]. fold (rsum (term (eval ((q, (a, b, c)) :: p))) l) (rsum (fun a0 => q * term (mono a b c) a0) l) (rsum (term (eval p)) l).
    rewrite IH. unfold term, mono. cbn [eval fold_right]. fold (eval p (Q2R x) (Q2R y) (Q2R z)). ring.
Qed.

Lemma quadrature_accuracy : forall ps o p buf, ps <> UnknownPSpace -> (o <= 6)%nat -> degree_at_most p o ->
  exists s v, Integration ps (Z.of_nat o) (eval p) buf = Ok (Some s) /\ integral_over ps (eval p) v /\
    Rabs (s - (buf + v)) <= 1 / 10000000000000 * weight p.
Proof.
  intros ps o p buf H Ho Hp. eexists. exists (exact_poly ps p). split; [apply Integration_sum; auto|].
  split; [apply exact_poly_ok; auto|]. rewrite sum_poly.
  match goal with |- Rabs (buf + ?s - (buf + ?v)) <= _ => replace (buf + s - (buf + v)) with (s - v) by ring end.
  induction p as [|[q [[a b] c]] p IH]; cbn [fold_right exact_poly weight].
  - rewrite Rminus_0_r, Rabs_R0. lra.
  - inversion Hp as [|? ? Hq Hp']; subst. specialize (IH Hp').
    fold (exact_poly ps p). fold (weight p).
    set (S := fold_right (fun '(q, (a, b, c)) s => q * rsum (term (mono a b c)) (points_of ps o) + s) 0 p) in *.
    pose proof (monomial_accuracy ps o a b c H Ho Hq) as M. unfold rule_sum in M.
    set (r := rsum (term (mono a b c)) (points_of ps o)) in *.
    replace (q * r + S - (q * exact ps a b c + exact_poly ps p)) with (q * (r - exact ps a b c) + (S - exact_poly ps p)) by ring.
    eapply Rle_trans; [apply Rabs_triang|]. rewrite Rabs_mult. pose proof (Rabs_pos q).
    assert (Rabs q * Rabs (r - exact ps a b c) <= Rabs q * (1 / 10000000000000)) by (apply Rmult_le_compat_l; auto). lra.
Qed.

(** *** points and weights *)
Local Open Scope Q_scope.
Definition Qltb (a b : Q) : bool := negb (Qle_bool b a).
Lemma Qltb_ok : forall a b, Qltb a b = true -> a < b.
Proof. intros a b H. apply Qnot_le_lt. intros L. apply Qle_bool_iff in L. unfold Qltb in H. rewrite L in H. discriminate. Qed.
Definition insideb (ps : ParamSpace) (x y z : Q) : bool :=
  match ps with
  | LineSpace => Qltb (-1) x && Qltb x 1 && Qeq_bool y 0 && Qeq_bool z 0
  | QuadSpace => Qltb (-1) x && Qltb x 1 && (Qltb (-1) y && Qltb y 1) && Qeq_bool z 0
  | TriSpace => Qltb 0 x && Qltb 0 y && Qltb (x + y) 1 && Qeq_bool z 0
  | HexSpace => Qltb (-1) x && Qltb x 1 && (Qltb (-1) y && Qltb y 1) && (Qltb (-1) z && Qltb z 1)
  | TetSpace => Qltb 0 x && Qltb 0 y && Qltb 0 z && Qltb (x + y + z) 1
  | PrismSpace => Qltb 0 x && Qltb 0 y && Qltb (x + y) 1 && (Qltb (-1) z && Qltb z 1)
  | PyramidSpace => Qltb 0 z && Qltb z 1 && (Qltb (- (1 - z)) x && Qltb x (1 - z)) && (Qltb (- (1 - z)) y && Qltb y (1 - z))
  | UnknownPSpace => false
  end.
Lemma insideb_ok : forall ps x y z, insideb ps x y z = true -> inside ps x y z.
Proof.
  intros ps x y z H. destruct ps; cbn [insideb inside] in *; try discriminate; rewrite !andb_true_iff in H;
    repeat match goal with H : _ /\ _ |- _ => destruct H end;
    repeat match goal with H : Qltb _ _ = true |- _ => apply Qltb_ok in H | H : Qeq_bool _ _ = true |- _ => apply Qeq_bool_iff in H end; tauto.
Qed.
Lemma all_inside : forallb (fun ps => forallb (fun o => forallb (fun '((x, y, z), w) => insideb ps x y z && Qltb 0 w) (points_of ps o)) (seq 0 7))
  [LineSpace; TriSpace; QuadSpace; TetSpace; HexSpace; PrismSpace; PyramidSpace] = true.
Proof. vm_compute. reflexivity. Qed.

Lemma points_inside : forall ps o, ps <> UnknownPSpace -> (o <= 6)%nat ->
  exists pts, quadrature_points ps (Z.of_nat o) = Ok (map Some pts) /\ zlen pts = GetQuadratureScheme ps (Z.of_nat o) /\
    Forall (fun '((x, y, z), w) => inside ps x y z /\ 0 < w) pts.
Proof.
  intros ps o H Ho. exists (points_of ps o). split; [apply points_ok; auto|]. split.
  { do 7 (destruct o as [|o]; [destruct ps; try congruence; vm_compute; reflexivity|]). lia. }
  pose proof all_inside as K. rewrite forallb_forall in K.
  specialize (K ps ltac:(destruct ps; cbn; auto 10; congruence)). rewrite forallb_forall in K.
  specialize (K o ltac:(apply in_seq; lia)). rewrite forallb_forall in K.
  apply Forall_forall. intros [[[x y] z] w] Hi. specialize (K _ Hi). cbn beta iota in K. apply andb_true_iff in K. destruct K as [A B].
  split; [apply insideb_ok; auto|apply Qltb_ok; auto].
Qed.

Lemma no_rule : forall ps o f buf, (o < 0 \/ 6 < o)%Z -> Integration ps o f buf = Ok (Some buf).
Proof.
  intros ps o f buf H. assert (E : GetQuadratureScheme ps o = 0%Z).
  { assert (B : forall a b c d e g, by_order o a b c d e g = 0%Z).
    { intros. unfold by_order. destruct (Z.eqb_spec o 0), (Z.eqb_spec o 1), (Z.eqb_spec o 2), (Z.eqb_spec o 3), (Z.eqb_spec o 4), (Z.eqb_spec o 5), (Z.eqb_spec o 6);
        try lia; reflexivity. }
    destruct ps; cbn [GetQuadratureScheme]; auto. }
  unfold Integration, quadrature_points. rewrite E. reflexivity.
Qed.
