(** The rules against the exact integrals (C52). *)
From Coq Require Import List ZArith QArith Qreals Reals Lia Lra Arith Bool.
From Verif Require Import Base.Prelude Base.PreludeFacts Geom.ElemModel Geom.QuadratureModel Geom.QuadratureSpec Geom.QuadratureProofs.
Import ListNotations.
Local Open Scope R_scope.

(** *** rules as lists *)
Definition rule1 (t : list (list Q)) : list (Q * Q) := combine (nth 0 t []) (nth 1 t []).
Definition rule2 (t : list (list Q)) : list (Q * Q * Q) := combine (combine (nth 0 t []) (nth 1 t [])) (nth 2 t []).
Definition rule3 (t : list (list Q)) : list (Q * Q * Q * Q) :=
  combine (combine (combine (nth 0 t []) (nth 1 t [])) (nth 2 t [])) (nth 3 t []).

Definition line_points (g : list (Q * Q)) : list (point * Q) := map (fun '(x, w) => ((x, 0%Q, 0%Q), w)) g.
Definition tri_points (h : list (Q * Q * Q)) : list (point * Q) := map (fun '(x, y, w) => ((x, y, 0%Q), w)) h.
Definition quad_points (g : list (Q * Q)) : list (point * Q) :=
  flat_map (fun '(y, wy) => map (fun '(x, wx) => ((x, y, 0%Q), (wx * wy)%Q)) g) g.
Definition hex_points (g : list (Q * Q)) : list (point * Q) :=
  flat_map (fun '(z, wz) => flat_map (fun '(y, wy) => map (fun '(x, wx) => ((x, y, z), (wx * wy * wz)%Q)) g) g) g.
Definition pyramid_points (g j : list (Q * Q)) : list (point * Q) :=
  flat_map (fun '(z, wz) => flat_map (fun '(y, wy) =>
    map (fun '(x, wx) => (((x * (1 - z))%Q, (y * (1 - z))%Q, z), (wx * wy * wz)%Q)) g) g) j.
Definition prism_points (g : list (Q * Q)) (h : list (Q * Q * Q)) : list (point * Q) :=
  flat_map (fun '(x, y, wt) => map (fun '(z, wz) => ((x, y, z), (wz * wt)%Q)) g) h.

Definition gl (n : Z) := rule1 (GaussLegendre n).
Definition gj (n : Z) := rule1 (GaussJacobi n).
Definition by_nat {A} (o : nat) (l : list A) (d : A) : A := nth o l d.
Definition gl_of (o : nat) : list (Q * Q) := gl (nth o [1; 1; 2; 2; 3; 3; 4] 0)%Z.
Definition gj_of (o : nat) : list (Q * Q) := gj (nth o [1; 1; 2; 2; 3; 3; 4] 0)%Z.
Definition tri_of (o : nat) := rule2 (nth o [HammerTri_1; HammerTri_1; HammerTri_3; HammerTri_6; HammerTri_6; HammerTri_7; HammerTri_12] []).
Definition tet_of (o : nat) := rule3 (nth o [HammerTet_1; HammerTet_1; HammerTet_4; HammerTet_8; HammerTet_14; HammerTet_14; HammerTet_24] []).
(** the line rule of a prism *)
Definition glp_of (o : nat) : list (Q * Q) := gl (nth o [1; 1; 2; 3; 3; 3; 4] 0)%Z.

Definition points_of (ps : ParamSpace) (o : nat) : list (point * Q) :=
  match ps with
  | LineSpace => line_points (gl_of o)
  | TriSpace => tri_points (tri_of o)
  | QuadSpace => quad_points (gl_of o)
  | TetSpace => tet_of o
  | HexSpace => hex_points (gl_of o)
  | PyramidSpace => pyramid_points (gl_of o) (gj_of o)
  | PrismSpace => prism_points (glp_of o) (tri_of o)
  | UnknownPSpace => []
  end.

Lemma points_ok : forall ps o, ps <> UnknownPSpace -> (o <= 6)%nat ->
  quadrature_points ps (Z.of_nat o) = Ok (map Some (points_of ps o)).
Proof.
  intros ps o H Ho. do 7 (destruct o as [|o]; [destruct ps; try congruence; vm_compute; reflexivity|]). lia.
Qed.

(** *** sums *)
Definition rsum {A} (f : A -> R) (l : list A) : R := fold_right (fun p s => f p + s) 0 l.
Lemma rsum_app : forall A (f : A -> R) l l', rsum f (l ++ l') = rsum f l + rsum f l'.
Proof. induction l as [|a l IH]; intros l'; cbn [app rsum fold_right]; [unfold rsum; cbn; ring|]. fold (rsum f (l ++ l')) (rsum f l). rewrite IH. ring. Qed.
Lemma rsum_ext : forall A (f g : A -> R) l, (forall a, In a l -> f a = g a) -> rsum f l = rsum g l.
Proof.
  induction l as [|a l IH]; intros H; auto. cbn [rsum fold_right]. fold (rsum f l) (rsum g l).
  rewrite H by (left; auto). rewrite IH; auto. intros; apply H; right; auto.
Qed.
Lemma rsum_map : forall A B (g : A -> B) (f : B -> R) l, rsum f (map g l) = rsum (fun a => f (g a)) l.
Proof. induction l as [|a l IH]; auto. cbn [map rsum fold_right]. fold (rsum f (map g l)). rewrite IH. reflexivity. Qed.
Lemma rsum_flat : forall A B (g : A -> list B) (f : B -> R) l, rsum f (flat_map g l) = rsum (fun a => rsum f (g a)) l.
Proof. induction l as [|a l IH]; auto. cbn [flat_map]. rewrite rsum_app, IH. reflexivity. Qed.
Lemma rsum_scal : forall A (f : A -> R) c l, rsum (fun a => c * f a) l = c * rsum f l.
Proof. induction l as [|a l IH]; [unfold rsum; cbn; ring|]. cbn [rsum fold_right]. fold (rsum (fun a => c * f a) l) (rsum f l). rewrite IH. ring. Qed.

(** the sum a rule gives *)
Definition term (f : R -> R -> R -> R) (p : point * Q) : R :=
  let '((x, y, z), w) := p in f (Q2R x) (Q2R y) (Q2R z) * Q2R w.

Lemma Integration_sum : forall ps o f buf, ps <> UnknownPSpace -> (o <= 6)%nat ->
  Integration ps (Z.of_nat o) f buf = Ok (Some (buf + rsum (term f) (points_of ps o))).
Proof.
  intros ps o f buf H Ho. unfold Integration. rewrite points_ok by auto. cbn [bind]. do 2 f_equal.
  generalize (points_of ps o). clear H Ho. intros l. revert buf.
  induction l as [|[[[x y] z] w] l IH]; intros buf; cbn [map fold_left]; [unfold rsum; cbn; rewrite Rplus_0_r; auto|].
  rewrite IH. cbn [rsum fold_right term]. fold (rsum (term f) l). f_equal. ring.
Qed.

(** *** moments of rules, as integers over powers of [D] *)
Definition D : Z := (6 * 10 ^ 18)%Z.
Definition num (q : Q) : Z := (Qnum q * (D / Zpos (Qden q)))%Z.
Definition dok (q : Q) : bool := (D mod Zpos (Qden q) =? 0)%Z.
Lemma D_pos : 0 < IZR D.
Proof. apply IZR_lt. reflexivity. Qed.
Local Opaque D.
Lemma D_nz : IZR D <> 0.
Proof. pose proof D_pos. lra. Qed.

Lemma num_ok : forall q, dok q = true -> Q2R q = IZR (num q) / IZR D.
Proof.
  intros q H. unfold dok in H. rewrite Z.eqb_eq in H. unfold Q2R, num. pose proof D_nz as N.
  assert (E : D = (Zpos (Qden q) * (D / Zpos (Qden q)))%Z).
  { pose proof (Z.div_mod D (Zpos (Qden q)) ltac:(discriminate)). lia. }
  assert (E' : IZR D = IZR (Zpos (Qden q)) * IZR (D / Zpos (Qden q))) by (rewrite <- mult_IZR, <- E; auto).
  rewrite mult_IZR. assert (IZR (Zpos (Qden q)) <> 0) by (apply not_0_IZR; discriminate).
  assert (IZR (D / Zpos (Qden q)) <> 0) by (intros X; rewrite X, Rmult_0_r in E'; auto).
  rewrite E'. field. auto.
Qed.

Local Opaque dok num.

Definition zsum {A} (f : A -> Z) (l : list A) : Z := fold_right (fun p s => f p + s)%Z 0%Z l.
Lemma IZR_pow_nat : forall z n, IZR (z ^ Z.of_nat n) = IZR z ^ n.
Proof. intros. symmetry. apply pow_IZR. Qed.
Lemma zsum_R : forall A (f : A -> Z) (g : A -> R) c l, c <> 0 -> (forall a, In a l -> g a = IZR (f a) / c) -> rsum g l = IZR (zsum f l) / c.
Proof.
  intros A f g c l Hc. induction l as [|a l IH]; intros H; [unfold rsum, zsum; cbn; field; auto|].
  cbn [rsum zsum fold_right]. fold (rsum g l) (zsum f l). rewrite H by (left; auto). rewrite IH by (intros; apply H; right; auto).
  rewrite plus_IZR. field. auto.
Qed.

(** powers, computed by multiplication *)
Fixpoint zpow (z : Z) (n : nat) : Z := match n with O => 1 | S m => z * zpow z m end%Z.
Lemma zpow_R : forall z n, IZR (zpow z n) = IZR z ^ n.
Proof. induction n as [|n IH]; cbn [zpow pow]; auto. rewrite mult_IZR, IH. auto. Qed.
Lemma Dpow_nz : forall n, IZR D ^ n <> 0.
Proof. intros. apply pow_nonzero, D_nz. Qed.

Definition mom1 (g : list (Q * Q)) (a : nat) : Z := zsum (fun '(x, w) => num w * zpow (num x) a)%Z g.
Definition R1 (g : list (Q * Q)) (a : nat) : R := rsum (fun '(x, w) => Q2R w * Q2R x ^ a) g.
Lemma mom1_ok : forall g a, forallb (fun '(x, w) => dok x && dok w) g = true -> R1 g a = IZR (mom1 g a) / IZR D ^ S a.
Proof.
  intros g a H. rewrite forallb_forall in H. unfold R1, mom1. apply zsum_R; [apply Dpow_nz|].
  intros [x w] Hi. specialize (H _ Hi). cbn beta iota in H. apply andb_true_iff in H. destruct H.
  rewrite !num_ok, mult_IZR, zpow_R by auto. unfold Rdiv. rewrite Rpow_mult_distr. cbn [pow].
  rewrite <- Rinv_pow by apply D_nz. field. split; [apply Dpow_nz|apply D_nz].
Qed.

Definition mom2 (h : list (Q * Q * Q)) (a b : nat) : Z := zsum (fun '(x, y, w) => num w * (zpow (num x) a * zpow (num y) b))%Z h.
Definition R2 (h : list (Q * Q * Q)) (a b : nat) : R := rsum (fun '(x, y, w) => Q2R w * (Q2R x ^ a * Q2R y ^ b)) h.
Lemma mom2_ok : forall g a b, forallb (fun '(x, y, w) => dok x && dok y && dok w) g = true -> R2 g a b = IZR (mom2 g a b) / IZR D ^ (a + b + 1).
Proof.
  intros g a b H. rewrite forallb_forall in H. unfold R2, mom2. apply zsum_R; [apply Dpow_nz|].
  intros [[x y] w] Hi. specialize (H _ Hi). cbn beta iota in H. rewrite !andb_true_iff in H. destruct H as [[? ?] ?].
  rewrite !num_ok, !mult_IZR, !zpow_R by auto. unfold Rdiv. rewrite !Rpow_mult_distr, !pow_add. cbn [pow].
  rewrite <- !Rinv_pow by apply D_nz. field. repeat split; try apply Dpow_nz; apply D_nz.
Qed.

Definition mom3 (h : list (Q * Q * Q * Q)) (a b c : nat) : Z :=
  zsum (fun '(x, y, z, w) => num w * (zpow (num x) a * (zpow (num y) b * zpow (num z) c)))%Z h.
Definition R3 (h : list (Q * Q * Q * Q)) (a b c : nat) : R :=
  rsum (fun '(x, y, z, w) => Q2R w * (Q2R x ^ a * (Q2R y ^ b * Q2R z ^ c))) h.
Lemma mom3_ok : forall g a b c, forallb (fun '(x, y, z, w) => dok x && dok y && dok z && dok w) g = true ->
  R3 g a b c = IZR (mom3 g a b c) / IZR D ^ (a + b + c + 1).
Proof.
  intros g a b c H. rewrite forallb_forall in H. unfold R3, mom3. apply zsum_R; [apply Dpow_nz|].
  intros [[[x y] z] w] Hi. specialize (H _ Hi). cbn beta iota in H. rewrite !andb_true_iff in H. destruct H as [[[? ?] ?] ?].
  rewrite !num_ok, !mult_IZR, !zpow_R by auto. unfold Rdiv. rewrite !Rpow_mult_distr, !pow_add. cbn [pow].
  rewrite <- !Rinv_pow by apply D_nz. field. repeat split; try apply Dpow_nz; apply D_nz.
Qed.

(** z^c (1 - z)^n *)
Definition momj (g : list (Q * Q)) (c n : nat) : Z := zsum (fun '(z, w) => num w * (zpow (num z) c * zpow (D - num z) n))%Z g.
Definition RJ (g : list (Q * Q)) (c n : nat) : R := rsum (fun '(z, w) => Q2R w * (Q2R z ^ c * (1 - Q2R z) ^ n)) g.
Lemma momj_ok : forall g c n, forallb (fun '(x, w) => dok x && dok w) g = true -> RJ g c n = IZR (momj g c n) / IZR D ^ (c + n + 1).
Proof.
  intros g c n H. rewrite forallb_forall in H. unfold RJ, momj. apply zsum_R; [apply Dpow_nz|].
  intros [z w] Hi. specialize (H _ Hi). cbn beta iota in H. apply andb_true_iff in H. destruct H.
  rewrite !num_ok, !mult_IZR, !zpow_R, minus_IZR by auto.
  replace (1 - IZR (num z) / IZR D) with ((IZR D - IZR (num z)) / IZR D) by (field; apply D_nz).
  unfold Rdiv. rewrite !Rpow_mult_distr, !pow_add. cbn [pow].
  rewrite <- !Rinv_pow by apply D_nz. field. repeat split; try apply Dpow_nz; apply D_nz.
Qed.

(** *** sums of monomials *)
Definition rule_sum (ps : ParamSpace) (o a b c : nat) : R := rsum (term (mono a b c)) (points_of ps o).

Lemma Q2R_0 : Q2R 0 = 0.
Proof. unfold Q2R. cbn. field. Qed.
Lemma Q2R_1 : Q2R 1 = 1.
Proof. unfold Q2R. cbn. field. Qed.

Lemma line_sum : forall g a b c, rsum (term (mono a b c)) (line_points g) = R1 g a * 0 ^ b * 0 ^ c.
Proof.
  intros. unfold line_points. rewrite rsum_map.
  rewrite (rsum_ext _ _ (fun p => (0 ^ b * 0 ^ c) * (let '(x, w) := p in Q2R w * Q2R x ^ a))).
  - rewrite rsum_scal. unfold R1. ring.
  - intros [x w] _. unfold term, mono. rewrite Q2R_0. ring.
Qed.
Lemma tri_sum : forall h a b c, rsum (term (mono a b c)) (tri_points h) = R2 h a b * 0 ^ c.
Proof.
  intros. unfold tri_points. rewrite rsum_map.
  rewrite (rsum_ext _ _ (fun p => 0 ^ c * (let '(x, y, w) := p in Q2R w * (Q2R x ^ a * Q2R y ^ b)))).
  - rewrite rsum_scal. unfold R2. ring.
  - intros [[x y] w] _. unfold term, mono. rewrite Q2R_0. ring.
Qed.
Lemma tet_sum : forall h a b c, rsum (term (mono a b c)) h = R3 h a b c.
Proof. intros. apply rsum_ext. intros [[[x y] z] w] _. unfold term, mono. ring. Qed.

Lemma quad_sum : forall g a b c, rsum (term (mono a b c)) (quad_points g) = R1 g a * R1 g b * 0 ^ c.
Proof.
  intros. unfold quad_points. rewrite rsum_flat.
  rewrite (rsum_ext _ _ (fun p => (R1 g a * 0 ^ c) * (let '(x, w) := p in Q2R w * Q2R x ^ b))).
  - rewrite rsum_scal. fold (R1 g b). ring.
  - intros [y wy] _. rewrite rsum_map.
    rewrite (rsum_ext _ _ (fun p => (0 ^ c * (Q2R wy * Q2R y ^ b)) * (let '(x, w) := p in Q2R w * Q2R x ^ a))).
    + rewrite rsum_scal. fold (R1 g a). ring.
    + intros [x wx] _. unfold term, mono. rewrite Q2R_0, Q2R_mult. ring.
Qed.
Lemma hex_sum : forall g a b c, rsum (term (mono a b c)) (hex_points g) = R1 g a * R1 g b * R1 g c.
Proof.
  intros. unfold hex_points. rewrite rsum_flat.
  rewrite (rsum_ext _ _ (fun p => (R1 g a * R1 g b) * (let '(x, w) := p in Q2R w * Q2R x ^ c))).
  - rewrite rsum_scal. fold (R1 g c). ring.
  - intros [z wz] _. rewrite rsum_flat.
    rewrite (rsum_ext _ _ (fun p => (R1 g a * (Q2R wz * Q2R z ^ c)) * (let '(x, w) := p in Q2R w * Q2R x ^ b))).
    + rewrite rsum_scal. fold (R1 g b). ring.
    + intros [y wy] _. rewrite rsum_map.
      rewrite (rsum_ext _ _ (fun p => ((Q2R wz * Q2R z ^ c) * (Q2R wy * Q2R y ^ b)) * (let '(x, w) := p in Q2R w * Q2R x ^ a))).
      * rewrite rsum_scal. fold (R1 g a). ring.
      * intros [x wx] _. unfold term, mono. rewrite !Q2R_mult. ring.
Qed.
Lemma pyramid_sum : forall g j a b c, rsum (term (mono a b c)) (pyramid_points g j) = R1 g a * R1 g b * RJ j c (a + b).
Proof.
  intros. unfold pyramid_points. rewrite rsum_flat.
  rewrite (rsum_ext _ _ (fun p => (R1 g a * R1 g b) * (let '(z, w) := p in Q2R w * (Q2R z ^ c * (1 - Q2R z) ^ (a + b))))).
  - rewrite rsum_scal. fold (RJ j c (a + b)). ring.
  - intros [z wz] _. rewrite rsum_flat.
    rewrite (rsum_ext _ _ (fun p => (R1 g a * (Q2R wz * (Q2R z ^ c * (1 - Q2R z) ^ (a + b)))) * (let '(x, w) := p in Q2R w * Q2R x ^ b))).
    + rewrite rsum_scal. fold (R1 g b). ring.
    + intros [y wy] _. rewrite rsum_map.
      rewrite (rsum_ext _ _ (fun p => ((Q2R wz * (Q2R z ^ c * (1 - Q2R z) ^ (a + b))) * (Q2R wy * Q2R y ^ b)) * (let '(x, w) := p in Q2R w * Q2R x ^ a))).
      * rewrite rsum_scal. fold (R1 g a). ring.
      * intros [x wx] _. unfold term, mono. rewrite !Q2R_mult, Q2R_minus, Q2R_1, !Rpow_mult_distr, pow_add. ring.
Qed.
Lemma prism_sum : forall g h a b c, rsum (term (mono a b c)) (prism_points g h) = R2 h a b * R1 g c.
Proof.
  intros. unfold prism_points. rewrite rsum_flat.
  rewrite (rsum_ext _ _ (fun p => R1 g c * (let '(x, y, w) := p in Q2R w * (Q2R x ^ a * Q2R y ^ b)))).
  - rewrite rsum_scal. fold (R2 h a b). ring.
  - intros [[x y] w] _. rewrite rsum_map.
    rewrite (rsum_ext _ _ (fun p => (Q2R w * (Q2R x ^ a * Q2R y ^ b)) * (let '(x, w) := p in Q2R w * Q2R x ^ c))).
    + rewrite rsum_scal. fold (R1 g c). ring.
    + intros [z wz] _. unfold term, mono. rewrite !Q2R_mult. ring.
Qed.
