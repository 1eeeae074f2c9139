(** The Hermite midpoints of a smooth boundary. *)
From Coq Require Import Reals List ZArith Bool Lia Lra Arith FunctionalExtensionality.
From Verif Require Import Base.Prelude Geom.PeriodicModel Geom.PeriodicSpec Geom.ElevModel Geom.ElevSpec.
Import ListNotations.
Local Open Scope R_scope.

Definition vneg (u : vec) : vec := fun i => - u i.

Lemma vcross_neg u v : vcross (vneg u) v = vneg (vcross u v).
Proof. apply functional_extensionality. intros [|[|i]]; unfold vcross, vneg; ring. Qed.
Lemma vnorm_neg u : vnorm (vneg u) = vnorm u.
Proof. unfold vnorm, vneg. f_equal. cbn. ring. Qed.
Lemma vunit_neg u : vunit (vneg u) = vneg (vunit u).
Proof. unfold vunit. rewrite vnorm_neg. destruct (Rlt_dec 0 (vnorm u)); auto. apply functional_extensionality. intro i. unfold vneg. field. lra. Qed.
Lemma tangent_neg c n : tangent (vneg c) n = vneg (tangent c n).
Proof.
  unfold tangent. rewrite vunit_neg, !vcross_neg, vnorm_neg.
  change (fun i => - vneg (vcross (vcross (vunit c) n) n) i) with (vneg (vneg (vcross (vcross (vunit c) n) n))).
  change (fun i => - vcross (vcross (vunit c) n) n i) with (vneg (vcross (vcross (vunit c) n) n)).
  rewrite vunit_neg. apply functional_extensionality. intro i. unfold vneg. ring.
Qed.
(** the two faces at an edge find the same point *)
Lemma line_swap c0 c1 n0 n1 i : line_mid c0 c1 n0 n1 i = line_mid c1 c0 n1 n0 i.
Proof.
  unfold line_mid. replace (fun i => c0 i - c1 i) with (vneg (fun i => c1 i - c0 i)) by (apply functional_extensionality; intro; unfold vneg; ring).
  rewrite !tangent_neg. destruct (Req_EM_T (vnorm n0) 0), (Req_EM_T (vnorm n1) 0); unfold vneg; lra.
Qed.
Lemma quad_rot c0 c1 c2 c3 n0 n1 n2 n3 i : quad_mid c0 c1 c2 c3 n0 n1 n2 n3 i = quad_mid c1 c2 c3 c0 n1 n2 n3 n0 i.
Proof. unfold quad_mid. lra. Qed.
Lemma quad_rev c0 c1 c2 c3 n0 n1 n2 n3 i : quad_mid c0 c1 c2 c3 n0 n1 n2 n3 i = quad_mid c3 c2 c1 c0 n3 n2 n1 n0 i.
Proof. unfold quad_mid. rewrite (line_swap c3 c2), (line_swap c2 c1), (line_swap c1 c0), (line_swap c0 c3). lra. Qed.

(** lengths *)
Lemma sq_nonneg u : 0 <= sumn 3 (fun i => u i * u i).
Proof. cbn. nra. Qed.
Lemma vnorm_sq u : vnorm u * vnorm u = vdot u u.
Proof. apply sqrt_sqrt. apply sq_nonneg. Qed.
Lemma vnorm_nonneg u : 0 <= vnorm u.
Proof. apply sqrt_pos. Qed.
Lemma vnorm_scale a u : vnorm (fun i => u i * a) = vnorm u * Rabs a.
Proof.
  unfold vnorm. replace (sumn 3 (fun i => u i * a * (u i * a))) with (sumn 3 (fun i => u i * u i) * (a * a)) by (cbn; ring).
  rewrite sqrt_mult by (try apply sq_nonneg; nra). f_equal. now rewrite <- (sqrt_Rsqr_abs a).
Qed.
Lemma vnorm_unit u : 0 < vnorm u -> vnorm (vunit u) = 1.
Proof.
  intro H. unfold vunit. destruct (Rlt_dec 0 (vnorm u)); [|lra]. replace (fun i => u i / vnorm u) with (fun i => u i * / vnorm u) by reflexivity.
  rewrite vnorm_scale, Rabs_inv, (Rabs_right (vnorm u)) by lra. field. lra.
Qed.
Lemma vnorm_ext u v : same_vec 3 u v -> vnorm u = vnorm v.
Proof. intro E. unfold vnorm. cbn. now rewrite !E by lia. Qed.
Lemma vunit_norm u i : vunit u i * vnorm u = u i \/ vnorm u = 0.
Proof. unfold vunit. destruct (Rlt_dec 0 (vnorm u)); [left; field; lra|right]. pose proof (vnorm_nonneg u). lra. Qed.
Lemma vnorm_zero u i : vnorm u = 0 -> (i < 3)%nat -> u i = 0.
Proof.
  intros H L. pose proof (vnorm_sq u) as E. rewrite H in E. unfold vdot in E. cbn in E. destruct i as [|[|[|i]]]; [nra..|lia].
Qed.
Lemma triple u n i : (i < 3)%nat -> - vcross (vcross u n) n i = u i * vdot n n - n i * vdot u n.
Proof. intro L. unfold vdot. cbn. destruct i as [|[|[|i]]]; [| | |lia]; unfold vcross; cbn; ring. Qed.

(** a tangent is perpendicular to the normal and as long as the edge *)
Lemma tangent_perp c n : vdot (tangent c n) n = 0.
Proof.
  unfold tangent. set (t := fun i => - vcross (vcross (vunit c) n) n i).
  assert (D : vdot t n = 0). { unfold vdot, t. cbn. unfold vcross. ring. }
  assert (E : vdot (fun i => vunit t i * vnorm c) n = vdot (vunit t) n * vnorm c) by (unfold vdot; cbn; ring). rewrite E.
  unfold vunit. destruct (Rlt_dec 0 (vnorm t)); [|rewrite D; ring].
  replace (vdot (fun i => t i / vnorm t) n) with (vdot t n / vnorm t) by (unfold vdot; cbn; field; lra). rewrite D. field. lra.
Qed.
Lemma tangent_length c n : vnorm (tangent c n) <= vnorm c.
Proof.
  unfold tangent. set (t := fun i => - vcross (vcross (vunit c) n) n i). rewrite vnorm_scale, (Rabs_right (vnorm c)) by (pose proof (vnorm_nonneg c); lra).
  pose proof (vnorm_nonneg c). destruct (Rlt_dec 0 (vnorm t)) as [L|L]; [rewrite vnorm_unit by auto; lra|].
  unfold vunit. destruct (Rlt_dec 0 (vnorm t)); [lra|]. pose proof (vnorm_nonneg t). assert (vnorm t = 0) by lra. rewrite H1. lra.
Qed.
Lemma tangent_straight c n i : (i < 3)%nat -> vdot c n = 0 -> vnorm n <> 0 -> tangent c n i = c i.
Proof.
  intros L D N. pose proof (vnorm_nonneg c) as P. pose proof (vnorm_nonneg n) as Pn. unfold tangent.
  destruct (Req_dec (vnorm c) 0) as [Z|NZ]; [rewrite Z, (vnorm_zero c i Z L); ring|].
  set (t := fun i => - vcross (vcross (vunit c) n) n i). set (nn := vdot n n).
  assert (NN : 0 < nn) by (unfold nn; rewrite <- vnorm_sq; nra).
  assert (U : vdot (vunit c) n = 0).
  { unfold vunit. destruct (Rlt_dec 0 (vnorm c)); auto. replace (vdot (fun i => c i / vnorm c) n) with (vdot c n / vnorm c) by (unfold vdot; cbn; field; lra). rewrite D. field. lra. }
  assert (T : same_vec 3 t (fun i => vunit c i * nn)). { intros j J. unfold t. rewrite triple, U by auto. unfold nn. ring. }
  assert (NT : vnorm t = nn). { rewrite (vnorm_ext _ _ T), vnorm_scale, vnorm_unit, Rabs_right by lra. ring. }
  unfold vunit at 1. destruct (Rlt_dec 0 (vnorm t)) as [Q|Q]; [|lra]. rewrite NT, T by auto.
  destruct (vunit_norm c i) as [V|V]; [|lra]. transitivity (vunit c i * vnorm c); [field; lra|exact V].
Qed.
Lemma line_straight c0 c1 n0 n1 i : (i < 3)%nat -> straight c0 c1 n0 -> straight c0 c1 n1 -> line_mid c0 c1 n0 n1 i = 1 / 2 * (c0 i + c1 i).
Proof.
  intros L S0 S1. unfold straight in *. unfold line_mid. destruct (Req_EM_T (vnorm n0) 0) as [Z0|Z0], (Req_EM_T (vnorm n1) 0) as [Z1|Z1]; auto.
  - rewrite (tangent_straight _ n1) by auto. lra.
  - rewrite (tangent_straight _ n0) by auto. lra.
  - rewrite (tangent_straight _ n0), (tangent_straight _ n1) by auto. lra.
Qed.
Lemma quad_flat c0 c1 c2 c3 n0 n1 n2 n3 i : (i < 3)%nat ->
  straight c0 c1 n0 -> straight c0 c1 n1 -> straight c1 c2 n1 -> straight c1 c2 n2 -> straight c2 c3 n2 -> straight c2 c3 n3 -> straight c3 c0 n3 -> straight c3 c0 n0 ->
  quad_mid c0 c1 c2 c3 n0 n1 n2 n3 i = (c0 i + c1 i + c2 i + c3 i) / 4.
Proof. intros. unfold quad_mid. rewrite !line_straight by auto. field. Qed.

(** the point leaves the middle of the edge by at most a half of its length *)
Lemma vdot_cs u v : vdot u v <= vnorm u * vnorm v.
Proof.
  pose proof (vnorm_nonneg u). pose proof (vnorm_nonneg v). destruct (Rle_dec (vdot u v) 0); [nra|]. apply Rsqr_incr_0_var; [|nra]. unfold Rsqr.
  replace (vnorm u * vnorm v * (vnorm u * vnorm v)) with ((vnorm u * vnorm u) * (vnorm v * vnorm v)) by ring. rewrite !vnorm_sq. unfold vdot. cbn.
  pose proof (Rle_0_sqr (u 0%nat * v 1%nat - u 1%nat * v 0%nat)). pose proof (Rle_0_sqr (u 0%nat * v 2%nat - u 2%nat * v 0%nat)). pose proof (Rle_0_sqr (u 1%nat * v 2%nat - u 2%nat * v 1%nat)). unfold Rsqr in *. nra.
Qed.
Lemma dist_bound u v r : vnorm u <= r -> vnorm v <= r -> vdot (fun i => u i - v i) (fun i => u i - v i) <= 4 * (r * r).
Proof.
  intros A B. replace (vdot _ _) with (vdot u u + vdot v v - 2 * vdot u v) by (unfold vdot; cbn; ring).
  pose proof (vdot_cs u (vneg v)) as C. replace (vdot u (vneg v)) with (- vdot u v) in C by (unfold vdot, vneg; cbn; ring). rewrite vnorm_neg in C.
  rewrite <- !vnorm_sq. pose proof (vnorm_nonneg u). pose proof (vnorm_nonneg v). nra.
Qed.
Lemma line_close c0 c1 n0 n1 : dist2 (line_mid c0 c1 n0 n1) (fun i => 1 / 2 * (c0 i + c1 i)) <= / 4 * dist2 c0 c1.
Proof.
  set (c := fun i => c1 i - c0 i). assert (E : dist2 c0 c1 = vnorm c * vnorm c) by (rewrite vnorm_sq; unfold dist2, vdot, c; cbn; ring). rewrite E.
  pose proof (tangent_length c n0) as T0. pose proof (tangent_length c n1) as T1. unfold line_mid. fold c. pose proof (Rle_refl (vnorm c)) as R. pose proof (Rle_0_sqr (vnorm c)) as SQ. unfold Rsqr in SQ.
  destruct (Req_EM_T (vnorm n0) 0), (Req_EM_T (vnorm n1) 0).
  - unfold dist2. cbn. nra.
  - pose proof (dist_bound c (tangent c n1) _ R T1) as D. replace (dist2 _ _) with (/ 16 * vdot (fun i => c i - tangent c n1 i) (fun i => c i - tangent c n1 i)); [lra|].
    unfold dist2, vdot, c. cbn. field.
  - pose proof (dist_bound c (tangent c n0) _ R T0) as D. replace (dist2 _ _) with (/ 16 * vdot (fun i => c i - tangent c n0 i) (fun i => c i - tangent c n0 i)); [lra|].
    unfold dist2, vdot, c. cbn. field.
  - pose proof (dist_bound (tangent c n0) (tangent c n1) _ T0 T1) as D. replace (dist2 _ _) with (/ 64 * vdot (fun i => tangent c n0 i - tangent c n1 i) (fun i => tangent c n0 i - tangent c n1 i)); [lra|].
    unfold dist2, vdot. cbn. field.
Qed.
