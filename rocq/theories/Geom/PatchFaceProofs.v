(** Proofs for C53: the triangles of a face. *)
From Coq Require Import List ZArith QArith Qreals Reals Lra Lia Bool.
From Verif Require Import Base.Prelude Base.PreludeFacts Geom.ElemModel Geom.QuadratureModel
  Geom.PatchModel Geom.PatchSpec Geom.PatchProofs.
Import ListNotations.
Local Open Scope R_scope.

(** ** Where the corners are *)
Section Corners.
Variable A : Type.
Variables (coords qpts : list A) (up d : A).
Definition pos (k : Z) : A :=
  if (0 <? k)%Z then nth (Z.to_nat (k - 1)) coords d
  else if (k <? 0)%Z then nth (Z.to_nat (- k - 1)) qpts d else up.
Definition ranged (nN nQ k : Z) : bool :=
  if (0 <? k)%Z then (k <=? nN)%Z else if (k <? 0)%Z then (- k <=? nQ)%Z else false.
Definition pranged (nN nQ : Z) (p : patch) : bool :=
  let '(i, j, k) := p in ranged nN nQ i && ranged nN nQ j && ranged nN nQ k.
Definition tri_of (p : patch) : A * A * A := let '(i, j, k) := p in (pos i, pos j, pos k).

Lemma corner_pos : forall k, ranged (zlen coords) (zlen qpts) k = true ->
  patch_corner coords qpts up k = Ok (pos k).
Proof.
  intros k H. unfold patch_corner, pos, ranged, zlen in *.
  destruct (Z.ltb_spec 0 k).
  - apply Z.leb_le in H. unfold vget. destruct (Z.ltb_spec (k - 1) 0); [lia|].
    erewrite nth_error_nth' by lia. reflexivity.
  - destruct (Z.ltb_spec k 0); [|discriminate]. apply Z.leb_le in H. unfold vget.
    destruct (Z.ltb_spec (- k - 1) 0); [lia|]. erewrite nth_error_nth' by lia. reflexivity.
Qed.
Lemma triangles_are : forall t ps, GetQuadPatches t (zlen qpts) = Ok ps ->
  forallb (pranged (zlen coords) (zlen qpts)) ps = true ->
  face_triangles t coords qpts up = Ok (map tri_of ps).
Proof.
  intros t ps E H. unfold face_triangles. rewrite E. cbn [bind]. clear E.
  induction ps as [|[[i j] k] ps IH]; [reflexivity|]. cbn [forallb] in H. apply andb_true_iff in H.
  destruct H as [H H']. cbn [mapM]. unfold pranged in H. rewrite !andb_true_iff in H.
  destruct H as [[H1 H2] H3]. rewrite !corner_pos by assumption. cbn [bind]. rewrite IH by assumption.
  reflexivity.
Qed.
End Corners.

(** ** Counting *)
Fixpoint vsumR {A} (v : A -> R) (l : list A) : R := match l with [] => 0 | a :: l' => v a + vsumR v l' end.
Lemma count_cases : forall A (I : A -> Prop) v (l : list A),
  (forall a, In a l -> (I a /\ v a = 1) \/ (~ I a /\ v a = 0)) ->
  0 <= vsumR v l /\ (vsumR v l = 0 -> Forall (fun a => ~ I a) l) /\ (vsumR v l = 1 -> exactly_one I l).
Proof.
  intros A I v. induction l as [|a l IH]; intros H.
  - cbn. repeat split; try lra. constructor.
  - destruct IH as [P [Z O]]; [intros; apply H; right; assumption|].
    destruct (H a (or_introl eq_refl)) as [[Ha E]|[Ha E]]; cbn [vsumR]; rewrite E.
    + repeat split; try lra. intros K. exists [], a, l. split; [reflexivity|]. split; [exact Ha|].
      apply Z. lra.
    + repeat split; try lra.
      * intros K. constructor; [exact Ha|]. apply Z. lra.
      * intros K. destruct O as (l1 & b & l2 & -> & Hb & F); [lra|].
        exists (a :: l1), b, l2. split; [reflexivity|]. split; [exact Hb|]. constructor; assumption.
Qed.

(** ** The reference plane *)
Lemma interior_in : forall a b c x, 0 < orient (plane a) (plane b) (plane c) ->
  (interior (plane a) (plane b) (plane c) x <-> in_triangle (a, b, c) x).
Proof.
  intros a b c x H. unfold in_triangle. destruct (plane a) as [a1 a2], (plane b) as [b1 b2], (plane c) as [c1 c2].
  destruct x as [x1 x2]. unfold interior. cbn [fst snd]. set (O := orient (a1, a2) (b1, b2) (c1, c2)) in *.
  assert (N : O <> 0) by lra. split.
  - intros [H1 [H2 H3]].
    exists (orient (b1, b2) (c1, c2) (x1, x2) / O), (orient (c1, c2) (a1, a2) (x1, x2) / O),
      (orient (a1, a2) (b1, b2) (x1, x2) / O).
    assert (forall r, 0 < r -> 0 < r / O) as D
      by (intros r Hr; apply Rmult_lt_0_compat; [exact Hr|apply Rinv_0_lt_compat; exact H]).
    split; [auto|]. split; [auto|]. split; [auto|].
    assert (S : O = orient (b1, b2) (c1, c2) (x1, x2) + orient (c1, c2) (a1, a2) (x1, x2) +
      orient (a1, a2) (b1, b2) (x1, x2)) by (unfold O, orient; cbn; ring).
    split; [rewrite <- !Rdiv_plus_distr, <- S; field; exact N|].
    split; apply Rmult_eq_reg_l with O; try exact N.
    + transitivity (orient (b1, b2) (c1, c2) (x1, x2) * a1 + orient (c1, c2) (a1, a2) (x1, x2) * b1 +
        orient (a1, a2) (b1, b2) (x1, x2) * c1); [unfold O, orient; cbn; ring|field; exact N].
    + transitivity (orient (b1, b2) (c1, c2) (x1, x2) * a2 + orient (c1, c2) (a1, a2) (x1, x2) * b2 +
        orient (a1, a2) (b1, b2) (x1, x2) * c2); [unfold O, orient; cbn; ring|field; exact N].
  - intros (u & v & w & Hu & Hv & Hw & S & E1 & E2). assert (u = 1 - v - w) as -> by lra. subst x1 x2.
    split; [|split].
    + replace (orient _ _ _) with (w * O) by (unfold O, orient; cbn; ring). apply Rmult_lt_0_compat; assumption.
    + replace (orient _ _ _) with ((1 - v - w) * O) by (unfold O, orient; cbn; ring).
      apply Rmult_lt_0_compat; assumption.
    + replace (orient _ _ _) with (v * O) by (unfold O, orient; cbn; ring). apply Rmult_lt_0_compat; assumption.
Qed.

Definition orientQ (a b c : Q * Q * Q) : Q :=
  let '(a1, a2, _) := a in let '(b1, b2, _) := b in let '(c1, c2, _) := c in
  ((b1 - a1) * (c2 - a2) - (b2 - a2) * (c1 - a1))%Q.
Lemma orient_Q : forall a b c, orient (plane a) (plane b) (plane c) = Q2R (orientQ a b c).
Proof.
  intros [[a1 a2] a3] [[b1 b2] b3] [[c1 c2] c3]. unfold orient, plane, orientQ. cbn.
  rewrite Q2R_minus, !Q2R_mult, !Q2R_minus. reflexivity.
Qed.
Definition positive (tri : (Q * Q * Q) * (Q * Q * Q) * (Q * Q * Q)) : bool :=
  let '(a, b, c) := tri in negb (Qle_bool (orientQ a b c) 0).
Lemma positive_lt : forall a b c, positive (a, b, c) = true -> 0 < orient (plane a) (plane b) (plane c).
Proof.
  intros a b c H. rewrite orient_Q. unfold positive in H. apply negb_true_iff in H.
  replace 0 with (Q2R 0) by (unfold Q2R; cbn; lra). apply Qlt_Rlt.
  apply Qnot_le_lt. intros K. apply Qle_bool_iff in K. congruence.
Qed.
Lemma seg_on : forall a b x, seg (plane a) (plane b) x <-> on_segment a b x.
Proof. intros. reflexivity. Qed.

Section Cover.
Variables (coords qpts : list (Q * Q * Q)) (up d : Q * Q * Q).
Let P (k : Z) : R * R := plane (pos _ coords qpts up d k).
Definition tric x (tri : (Q * Q * Q) * (Q * Q * Q) * (Q * Q * Q)) : R :=
  let '(a, b, c) := tri in cr x (plane a) (plane b) + cr x (plane b) (plane c) + cr x (plane c) (plane a).
Lemma tric_sum : forall x ps,
  vsumR (tric x) (map (tri_of _ coords qpts up d) ps) = psum (fun i j => cr x (P i) (P j)) ps.
Proof.
  intros x. induction ps as [|[[i j] k] ps IH]; [reflexivity|].
  cbn [map vsumR psum tri_of tric]. rewrite IH. unfold P. lra.
Qed.
Lemma cover : forall ps bd x,
  forallb positive (map (tri_of _ coords qpts up d) ps) = true ->
  same bd (cancel (length (edges ps)) (edges ps)) = true ->
  gsum (fun i j => cr x (P i) (P j)) bd = 1 ->
  Forall (fun tri => ~ on_side tri x) (map (tri_of _ coords qpts up d) ps) ->
  exactly_one (fun tri => in_triangle tri x) (map (tri_of _ coords qpts up d) ps).
Proof.
  intros ps bd x Hp Hs Hb Hn.
  destruct (count_cases _ (fun tri => in_triangle tri x) (tric x) (map (tri_of _ coords qpts up d) ps))
    as [_ [_ O]].
  - intros [[a b] c] Hin. rewrite forallb_forall in Hp. specialize (Hp _ Hin).
    rewrite Forall_forall in Hn. specialize (Hn _ Hin). apply positive_lt in Hp.
    rewrite <- (interior_in a b c x Hp). cbn [on_side] in Hn.
    apply triangle_crossings; auto; intros K; apply Hn; rewrite <- !seg_on; auto.
  - apply O. rewrite tric_sum. rewrite (boundary_sum _ (fun a b => cr_anti x (P a) (P b)) ps bd Hs). exact Hb.
Qed.
End Cover.

(** ** Outside *)
Definition closedQ (ps : ParamSpace) (p : Q * Q * Q) : bool :=
  let '(x, y, _) := p in
  match ps with
  | TriSpace => Qle_bool 0 x && Qle_bool 0 y && Qle_bool (x + y) 1
  | QuadSpace => Qle_bool (-1) x && Qle_bool x 1 && Qle_bool (-1) y && Qle_bool y 1
  | _ => false
  end.
Definition closed3 (ps : ParamSpace) (tri : (Q * Q * Q) * (Q * Q * Q) * (Q * Q * Q)) : bool :=
  let '(a, b, c) := tri in closedQ ps a && closedQ ps b && closedQ ps c.
Definition closedR (ps : ParamSpace) (x : R * R) : Prop :=
  match ps with
  | TriSpace => 0 <= fst x /\ 0 <= snd x /\ fst x + snd x <= 1
  | QuadSpace => -1 <= fst x /\ fst x <= 1 /\ -1 <= snd x /\ snd x <= 1
  | _ => False
  end.
Lemma leR : forall a b, Qle_bool a b = true -> Q2R a <= Q2R b.
Proof. intros. apply Qle_Rle, Qle_bool_iff. assumption. Qed.
Lemma closed_QR : forall ps p, closedQ ps p = true -> closedR ps (plane p).
Proof.
  assert (E0 : Q2R 0 = 0) by (unfold Q2R; cbn; lra). assert (E1 : Q2R 1 = 1) by (unfold Q2R; cbn; lra).
  assert (E2 : Q2R (-1) = -1) by (unfold Q2R; cbn; lra).
  intros ps [[x y] z] H. destruct ps; try discriminate; cbn in *; rewrite !andb_true_iff in H.
  - destruct H as [[H1 H2] H3]. apply leR in H1, H2, H3. rewrite Q2R_plus in H3. lra.
  - destruct H as [[[H1 H2] H3] H4]. apply leR in H1, H2, H3, H4. lra.
Qed.
Lemma hull : forall lo hi a b c u v w, lo <= a <= hi -> lo <= b <= hi -> lo <= c <= hi ->
  0 < u -> 0 < v -> 0 < w -> u + v + w = 1 -> lo <= u * a + v * b + w * c <= hi.
Proof.
  intros lo hi a b c u v w Ha Hb Hc Hu Hv Hw S. assert (u = 1 - v - w) as -> by lra.
  assert ((1 - v - w) * lo <= (1 - v - w) * a <= (1 - v - w) * hi) by (split; apply Rmult_le_compat_l; lra).
  assert (v * lo <= v * b <= v * hi) by (split; apply Rmult_le_compat_l; lra).
  assert (w * lo <= w * c <= w * hi) by (split; apply Rmult_le_compat_l; lra). lra.
Qed.
Lemma outside_none : forall ps tri x, closed3 ps tri = true -> outside_face ps x -> ~ in_triangle tri x.
Proof.
  intros ps [[a b] c] x H O (u & v & w & Hu & Hv & Hw & S & E1 & E2).
  unfold closed3 in H. rewrite !andb_true_iff in H. destruct H as [[Ha Hb] Hc].
  apply closed_QR in Ha, Hb, Hc. destruct (plane a) as [a1 a2], (plane b) as [b1 b2], (plane c) as [c1 c2].
  destruct ps; cbn in *; try contradiction.
  - pose proof (hull 0 1 a1 b1 c1 u v w). pose proof (hull 0 1 a2 b2 c2 u v w).
    pose proof (hull 0 1 (a1 + a2) (b1 + b2) (c1 + c2) u v w). lra.
  - pose proof (hull (-1) 1 a1 b1 c1 u v w). pose proof (hull (-1) 1 a2 b2 c2 u v w). lra.
Qed.

(** ** The boundary of the face *)
Definition zpairs (l : list nat) : list (Z * Z) :=
  let z := map (fun n => Z.of_nat n + 1)%Z l in combine z (tl z ++ firstn 1 z).

Lemma pos_indep : forall A (coords qpts : list A) up d up' d' k,
  ranged (zlen coords) (zlen qpts) k = true -> pos A coords qpts up d k = pos A coords qpts up' d' k.
Proof.
  intros A coords qpts up d up' d' k H. unfold pos, ranged, zlen in *. destruct (Z.ltb_spec 0 k).
  - apply Z.leb_le in H. apply nth_indep. lia.
  - destruct (Z.ltb_spec k 0); [|discriminate]. apply Z.leb_le in H. apply nth_indep. lia.
Qed.
Lemma tri_indep : forall A (coords qpts : list A) up d up' d' ps,
  forallb (pranged (zlen coords) (zlen qpts)) ps = true ->
  map (tri_of A coords qpts up d) ps = map (tri_of A coords qpts up' d') ps.
Proof.
  intros A coords qpts up d up' d' ps H. apply map_ext_in. intros [[i j] k] Hin.
  rewrite forallb_forall in H. specialize (H _ Hin). unfold pranged in H. rewrite !andb_true_iff in H.
  destruct H as [[H1 H2] H3]. unfold tri_of.
  rewrite (pos_indep A coords qpts up d up' d' i), (pos_indep A coords qpts up d up' d' j),
    (pos_indep A coords qpts up d up' d' k) by assumption. reflexivity.
Qed.

Definition origin : Q * Q * Q := (0, 0, 0)%Q.
Fixpoint somes {A} (l : list (option A)) : option (list A) :=
  match l with
  | [] => Some []
  | Some a :: l' => option_map (cons a) (somes l')
  | None :: _ => None
  end.
Lemma somes_spec : forall A (l : list (option A)) m, somes l = Some m -> l = map Some m.
Proof.
  intros A. induction l as [|[a|] l IH]; intros m H; cbn in H; [inversion H; reflexivity| |discriminate].
  destruct (somes l) as [m'|]; [|discriminate]. cbn in H. inversion H; subst. cbn. rewrite (IH m' eq_refl). reflexivity.
Qed.
Definition good (t : ElemType) (o : Z) : bool :=
  let sp := ElemType_to_ParamSpace t in
  match quadrature_points sp o with
  | Ok l =>
      match somes l with
      | Some pts =>
          let q := map fst pts in
          match GetQuadPatches t (zlen q) with
          | Ok ps =>
              let tris := map (tri_of _ (GetStandardCoord t) q origin origin) ps in
              forallb (pranged (zlen (GetStandardCoord t)) (zlen q)) ps && forallb positive tris &&
              forallb (closed3 sp) tris &&
              same (zpairs (around t)) (cancel (length (edges ps)) (edges ps))
          | _ => false
          end
      | None => false
      end
  | _ => false
  end.
Lemma all_good : forall t o, face_type t -> (o <= 6)%nat -> good t (Z.of_nat o) = true.
Proof.
  intros t o [-> | [-> | [-> | ->]]] H; do 7 (destruct o as [|o]; [vm_compute; reflexivity|]); lia.
Qed.

Lemma Q2R_0 : Q2R 0 = 0. Proof. unfold Q2R. cbn. lra. Qed.
Lemma Q2R_1 : Q2R 1 = 1. Proof. unfold Q2R. cbn. lra. Qed.
Lemma Q2R_m1 : Q2R (-1) = -1. Proof. unfold Q2R. cbn. lra. Qed.
Lemma Q2R_half : Q2R (1 # 2) = 1 / 2. Proof. unfold Q2R. cbn. lra. Qed.
Ltac crossings :=
  unfold cr, orient; cbn [fst snd];
  repeat match goal with |- context [if ?d then _ else _] => destruct d; try (exfalso; lra) end; lra.

Lemma once_around : forall t q x, face_type t -> inside_face (ElemType_to_ParamSpace t) x ->
  gsum (fun i j => cr x (plane (pos _ (GetStandardCoord t) q origin origin i))
                        (plane (pos _ (GetStandardCoord t) q origin origin j))) (zpairs (around t)) = 1.
Proof.
  intros t q [x y] F H.
  assert (E : forall i j, plane (pos _ (GetStandardCoord t) q origin origin i) =
                          plane (pos _ (GetStandardCoord t) q origin origin j) -> True) by auto. clear E.
  destruct F as [-> | [-> | [-> | ->]]]; cbn in H;
  [set (c := GetStandardCoord Tri3)|set (c := GetStandardCoord Tri6)|set (c := GetStandardCoord Quad4)|
   set (c := GetStandardCoord Quad9)]; vm_compute in c; subst c;
  match goal with |- gsum _ ?z = _ => let z' := eval vm_compute in z in change z with z' end;
  cbn [gsum fst snd]; unfold pos;
  cbn [Z.ltb Z.compare Z.sub Z.add Z.opp Z.pos_sub Z.to_nat Pos.to_nat nth Pos.compare Pos.compare_cont
       Pos.iter_op Nat.add Pos.pred_double Z.pred_double Z.succ_double Z.double];
  unfold Pos.to_nat; cbn [Pos.iter_op Nat.add nth plane];
  rewrite ?Q2R_0, ?Q2R_1, ?Q2R_m1, ?Q2R_half.
  all: crossings.
Qed.

Lemma cover_once : forall t o, face_type t -> (o <= 6)%nat ->
  exists pts, quadrature_points (ElemType_to_ParamSpace t) (Z.of_nat o) = Ok (map Some pts) /\
  forall up, exists tris, face_triangles t (GetStandardCoord t) (map fst pts) up = Ok tris /\
    (forall x, inside_face (ElemType_to_ParamSpace t) x -> Forall (fun tri => ~ on_side tri x) tris ->
       exactly_one (fun tri => in_triangle tri x) tris) /\
    (forall x, outside_face (ElemType_to_ParamSpace t) x -> Forall (fun tri => ~ in_triangle tri x) tris).
Proof.
  intros t o F H. pose proof (all_good t o F H) as G. unfold good in G.
  destruct (quadrature_points _ _) as [l| |]; try discriminate.
  destruct (somes l) as [pts|] eqn:Es; [|discriminate]. apply somes_spec in Es. subst l.
  exists pts. split; [reflexivity|]. intros up.
  destruct (GetQuadPatches t (zlen (map fst pts))) as [ps| |] eqn:Ep; try discriminate.
  rewrite !andb_true_iff in G. destruct G as [[[G1 G2] G3] G4].
  exists (map (tri_of _ (GetStandardCoord t) (map fst pts) origin origin) ps). split; [|split].
  - rewrite (triangles_are _ _ _ up origin _ _ Ep G1). f_equal. apply tri_indep. exact G1.
  - intros x Hx Hn. apply (cover _ _ _ _ ps (zpairs (around t))); auto. apply once_around; assumption.
  - intros x Hx. apply Forall_forall. intros tri Hin. rewrite forallb_forall in G3.
    apply (outside_none (ElemType_to_ParamSpace t)); auto.
Qed.

(** ** Areas of curved faces *)
Section Area.
Variable f : Z -> vec.
Definition c1 (a b : vec) : R := let '(x, y, z) := a in let '(x', y', z') := b in y * z' - z * y'.
Definition c2 (a b : vec) : R := let '(x, y, z) := a in let '(x', y', z') := b in z * x' - x * z'.
Definition c3 (a b : vec) : R := let '(x, y, z) := a in let '(x', y', z') := b in x * y' - y * x'.
Lemma area_components : forall ps,
  vsum (map (fun '(i, j, k) => area2 (f i, f j, f k)) ps) =
  (psum (fun i j => c1 (f i) (f j)) ps, psum (fun i j => c2 (f i) (f j)) ps, psum (fun i j => c3 (f i) (f j)) ps).
Proof.
  induction ps as [|[[i j] k] ps IH]; [reflexivity|]. cbn [map vsum fold_right]. fold (vsum (map (fun '(i, j, k) => area2 (f i, f j, f k)) ps)).
  rewrite IH. cbn [psum]. unfold area2. destruct (f i) as [[x1 y1] z1], (f j) as [[x2 y2] z2], (f k) as [[x3 y3] z3].
  cbn. repeat apply (f_equal2 pair); ring.
Qed.
Lemma polygon_components : forall l,
  vsum (map (fun '(i, j) => cross (f i) (f j)) l) =
  (gsum (fun i j => c1 (f i) (f j)) l, gsum (fun i j => c2 (f i) (f j)) l, gsum (fun i j => c3 (f i) (f j)) l).
Proof.
  induction l as [|[i j] l IH]; [reflexivity|]. cbn [map vsum fold_right]. fold (vsum (map (fun '(i, j) => cross (f i) (f j)) l)).
  rewrite IH. cbn [gsum fst snd]. destruct (f i) as [[x1 y1] z1], (f j) as [[x2 y2] z2]. cbn. reflexivity.
Qed.
Lemma area_eq : forall ps bd, same bd (cancel (length (edges ps)) (edges ps)) = true ->
  vsum (map (fun '(i, j, k) => area2 (f i, f j, f k)) ps) = vsum (map (fun '(i, j) => cross (f i) (f j)) bd).
Proof.
  intros ps bd H. rewrite area_components, polygon_components.
  rewrite !(fun g A => boundary_sum g A ps bd H); [reflexivity| | |];
    intros a b; destruct (f a) as [[x1 y1] z1], (f b) as [[x2 y2] z2]; cbn; ring.
Qed.
End Area.

Definition good2 (t : ElemType) (n : Z) : bool :=
  match GetQuadPatches t n with
  | Ok ps => forallb (pranged (Z.of_nat (GetNumNodes t)) n) ps &&
             same (zpairs (around t)) (cancel (length (edges ps)) (edges ps)) &&
             forallb (fun i => Nat.ltb i (GetNumNodes t)) (around t)
  | _ => false
  end.
Lemma all_good2 : forall t o, face_type t -> (o <= 6)%nat ->
  good2 t (GetQuadratureScheme (ElemType_to_ParamSpace t) (Z.of_nat o)) = true.
Proof.
  intros t o [-> | [-> | [-> | ->]]] H; do 7 (destruct o as [|o]; [vm_compute; reflexivity|]); lia.
Qed.
Lemma rim_ok : forall (coords : list vec) l, forallb (fun i => Nat.ltb i (length coords)) l = true ->
  mapM (fun i => vget coords (Z.of_nat i)) l = Ok (map (fun i => nth i coords (0, 0, 0)) l).
Proof.
  intros coords. induction l as [|i l IH]; intros H; [reflexivity|]. cbn [forallb] in H. apply andb_true_iff in H.
  destruct H as [H1 H2]. apply Nat.ltb_lt in H1. cbn [mapM map].
  rewrite (vget_of_nat _ coords i _ (nth_error_nth' coords (0, 0, 0) H1)). cbn [bind]. rewrite (IH H2). reflexivity.
Qed.
Lemma combine_map2 : forall A B (f : A -> B) l m,
  combine (map f l) (map f m) = map (fun '(a, b) => (f a, f b)) (combine l m).
Proof. intros A B f. induction l as [|a l IH]; intros [|b m]; cbn; [reflexivity..|]. rewrite IH. reflexivity. Qed.
Lemma face_area : forall t o coords qpts up, face_type t -> (o <= 6)%nat ->
  length coords = GetNumNodes t -> zlen qpts = GetQuadratureScheme (ElemType_to_ParamSpace t) (Z.of_nat o) ->
  exists tris rim, face_triangles t coords qpts up = Ok tris /\
    mapM (fun i => vget coords (Z.of_nat i)) (around t) = Ok rim /\
    vsum (map area2 tris) = polygon_area2 rim.
Proof.
  intros t o coords qpts up F H Hc Hq. pose proof (all_good2 t o F H) as G. rewrite <- Hq in G. unfold good2 in G.
  destruct (GetQuadPatches t (zlen qpts)) as [ps| |] eqn:Ep; try discriminate.
  rewrite !andb_true_iff in G. destruct G as [[G1 G2] G3]. rewrite <- Hc in G1, G3.
  exists (map (tri_of _ coords qpts up (0, 0, 0)) ps), (map (fun i => nth i coords (0, 0, 0)) (around t)).
  split; [apply triangles_are; assumption|]. split; [apply rim_ok; assumption|].
  set (f := pos _ coords qpts up (0, 0, 0)).
  transitivity (vsum (map (fun '(i, j, k) => area2 (f i, f j, f k)) ps)).
  { rewrite map_map. f_equal. apply map_ext. intros [[i j] k]. reflexivity. }
  rewrite (area_eq f ps _ G2). unfold polygon_area2, zpairs.
  assert (E : map (fun i => nth i coords (0, 0, 0)) (around t) =
              map f (map (fun n => Z.of_nat n + 1)%Z (around t))).
  { rewrite map_map. apply map_ext. intros i. unfold f, pos.
    destruct (Z.ltb_spec 0 (Z.of_nat i + 1)); [|lia].
    replace (Z.to_nat (Z.of_nat i + 1 - 1)) with i by lia. reflexivity. }
  rewrite E. set (z := map (fun n => Z.of_nat n + 1)%Z (around t)).
  replace (tl (map f z) ++ firstn 1 (map f z)) with (map f (tl z ++ firstn 1 z)).
  - rewrite combine_map2, map_map. f_equal. apply map_ext. intros [i j]. reflexivity.
  - destruct z as [|a z']; [reflexivity|]. cbn. rewrite map_app. reflexivity.
Qed.

(** ** Lines *)
Lemma upto_S : forall n, (0 <= n)%Z -> upto (n + 1) = upto n ++ [n].
Proof.
  intros n H. unfold upto. replace (Z.to_nat (n + 1)) with (S (Z.to_nat n)) by lia.
  rewrite seq_S, map_app. cbn. rewrite Z2Nat.id by lia. reflexivity.
Qed.
Lemma mapM_app_ok : forall A B (f : A -> res B) l m x y, mapM f l = Ok x -> mapM f m = Ok y ->
  mapM f (l ++ m) = Ok (x ++ y).
Proof.
  intros A B f. induction l as [|a l IH]; intros m x y H K; cbn [mapM app] in *.
  - inversion H; subst. exact K.
  - destruct (f a) as [b| |]; cbn [bind] in *; try discriminate.
    destruct (mapM f l) as [x'| |] eqn:E; cbn [bind] in H; try discriminate. inversion H; subst.
    rewrite (IH m x' y eq_refl K). reflexivity.
Qed.
Lemma line_triangles : forall A t (p1 p2 : A) rest qpts up, t = Line2 \/ t = Line3 -> qpts <> [] ->
  face_triangles t (p1 :: p2 :: rest) qpts up =
  Ok (map (fun '(a, b) => (a, b, up)) (combine (p1 :: qpts) (qpts ++ [p2]))).
Proof.
  intros A t p1 p2 rest qpts up Ht Hq.
  set (F := fun '(i, j, k) =>
    do a <- patch_corner (p1 :: p2 :: rest) qpts up i;
    do b <- patch_corner (p1 :: p2 :: rest) qpts up j;
    do c <- patch_corner (p1 :: p2 :: rest) qpts up k; Ok (a, b, c)).
  assert (E : face_triangles t (p1 :: p2 :: rest) qpts up = mapM F (line_patches (zlen qpts)))
    by (destruct Ht; subst t; reflexivity).
  rewrite E. unfold line_patches. destruct qpts as [|q0 qs]; [contradiction|]. clear Hq E.
  set (Q := q0 :: qs) in *.
  assert (N : forall i : nat, (i < length Q)%nat ->
    patch_corner (p1 :: p2 :: rest) Q up (- (Z.of_nat i + 1)) = Ok (nth i Q up)).
  { intros i Hi. unfold patch_corner. destruct (Z.ltb_spec 0 (- (Z.of_nat i + 1))); [lia|].
    destruct (Z.ltb_spec (- (Z.of_nat i + 1)) 0); [|lia].
    replace (- - (Z.of_nat i + 1) - 1)%Z with (Z.of_nat i) by lia. unfold vget. destruct (Z.ltb_spec (Z.of_nat i) 0); [lia|]. rewrite Nat2Z.id.
    rewrite (nth_error_nth' Q up Hi). reflexivity. }
  assert (M : mapM F (map (fun i => (- (i + 1), -1 - (i + 1), 0)%Z) (upto (zlen Q - 1))) =
    Ok (map (fun '(a, b) => (a, b, up)) (combine Q qs))).
  { replace (zlen Q - 1)%Z with (Z.of_nat (length qs)) by (unfold zlen, Q; cbn [length]; lia).
    assert (G : forall n, (n <= length qs)%nat ->
      mapM F (map (fun i => (- (i + 1), -1 - (i + 1), 0)%Z) (upto (Z.of_nat n))) =
      Ok (map (fun i => (nth i Q up, nth i qs up, up)) (seq 0 n))).
    { induction n as [|n IH]; intros Hn; [reflexivity|].
      replace (Z.of_nat (S n)) with (Z.of_nat n + 1)%Z by lia. rewrite upto_S by lia.
      rewrite seq_S, !map_app. apply mapM_app_ok; [apply IH; lia|]. cbn [map mapM F].
      rewrite N by (unfold Q; cbn; lia).
      replace (-1 - (Z.of_nat n + 1))%Z with (- (Z.of_nat (S n) + 1))%Z by lia.
      rewrite N by (unfold Q; cbn; lia). reflexivity. }
    rewrite (G _ (le_n _)). f_equal. clear G N F. unfold Q. clear Q. clear Ht. revert q0.
    induction qs as [|q1 qs IH]; intros q0; [reflexivity|].
    cbn [length seq map combine nth]. f_equal. rewrite <- seq_shift, map_map.
    exact (IH q1). }
  assert (L : F (- zlen Q, 2, 0)%Z = Ok (nth (length qs) Q up, p2, up)).
  { cbn [F]. replace (- zlen Q)%Z with (- (Z.of_nat (length qs) + 1))%Z by (unfold zlen, Q; cbn [length]; lia).
    rewrite N by (unfold Q; cbn; lia). reflexivity. }
  assert (S1 : F (1, -1, 0)%Z = Ok (p1, q0, up)).
  { cbn [F]. pose proof (N 0%nat) as N0. cbn [Z.of_nat Z.add Z.opp] in N0. rewrite N0 by (unfold Q; cbn; lia).
    reflexivity. }
  rewrite (mapM_app_ok _ _ F _ _ [(p1, q0, up)] (map (fun '(a, b) => (a, b, up)) (combine Q qs) ++
    [(nth (length qs) Q up, p2, up)])).
  - f_equal. cbn [combine app map Q]. f_equal. unfold Q. clear. revert q0.
    induction qs as [|q1 qs IH]; intros q0; [reflexivity|]. cbn [combine app map length nth].
    f_equal. apply IH.
  - cbn [mapM]. rewrite S1. reflexivity.
  - apply mapM_app_ok; [exact M|]. cbn [mapM]. rewrite L. reflexivity.
Qed.

Definition xq (p : Q * Q * Q) : Q := fst (fst p).
Lemma plane_x : forall p, fst (plane p) = Q2R (xq p).
Proof. intros [[x y] z]. reflexivity. Qed.
Fixpoint rising (a : Q) (l : list (Q * Q * Q)) (b : Q) : bool :=
  match l with
  | [] => negb (Qle_bool b a)
  | p :: l' => negb (Qle_bool (xq p) a) && rising (xq p) l' b
  end.
Lemma ltR : forall a b, negb (Qle_bool b a) = true -> Q2R a < Q2R b.
Proof.
  intros a b H. apply negb_true_iff in H. apply Qlt_Rlt, Qnot_le_lt. intros K. apply Qle_bool_iff in K. congruence.
Qed.
Lemma rising_lt : forall l a b, rising a l b = true -> Q2R a < Q2R b.
Proof.
  induction l as [|p l IH]; intros a b H; cbn in H; [apply ltR; exact H|]. apply andb_true_iff in H.
  destruct H as [H1 H2]. apply ltR in H1. apply IH in H2. lra.
Qed.
Lemma pieces_above : forall l a b up x, rising (xq a) l (xq b) = true -> x <= Q2R (xq a) ->
  Forall (fun tri => ~ in_piece tri x) (map (fun '(a, b) => (a, b, up)) (combine (a :: l) (l ++ [b]))).
Proof.
  induction l as [|p l IH]; intros a b up x H Hx.
  - cbn. constructor; [|constructor]. unfold in_piece. rewrite !plane_x. lra.
  - cbn in H. apply andb_true_iff in H. destruct H as [H1 H2]. apply ltR in H1.
    cbn [app combine map]. constructor; [unfold in_piece; rewrite !plane_x; lra|]. apply IH; [exact H2|lra].
Qed.
Lemma pieces : forall l a b up x, rising (xq a) l (xq b) = true -> Q2R (xq a) < x < Q2R (xq b) ->
  (forall p, In p l -> x <> fst (plane p)) ->
  exactly_one (fun tri => in_piece tri x) (map (fun '(a, b) => (a, b, up)) (combine (a :: l) (l ++ [b]))).
Proof.
  induction l as [|p l IH]; intros a b up x H Hx N.
  - exists [], (a, b, up), []. split; [reflexivity|]. split; [unfold in_piece; rewrite !plane_x; lra|constructor].
  - cbn in H. apply andb_true_iff in H. destruct H as [H1 H2]. apply ltR in H1. cbn [app combine map].
    assert (Np : x <> Q2R (xq p)) by (rewrite <- plane_x; apply N; left; reflexivity).
    destruct (Rlt_or_le x (Q2R (xq p))) as [L|L].
    + eexists [], _, _. split; [reflexivity|]. split; [unfold in_piece; rewrite !plane_x; lra|].
      apply pieces_above; [exact H2|lra].
    + destruct (IH p b up x H2) as (l1 & t & l2 & E & P & Fa); [lra|intros; apply N; right; assumption|].
      exists ((a, p, up) :: l1), t, l2. cbn [app combine map] in E. rewrite E. split; [reflexivity|]. split; [exact P|].
      constructor; [unfold in_piece; rewrite !plane_x; lra|exact Fa].
Qed.
Definition good_line (o : Z) : bool :=
  match quadrature_points LineSpace o with
  | Ok l => match somes l with
            | Some (p :: pts) => rising (-1) (map fst (p :: pts)) 1
            | _ => false
            end
  | _ => false
  end.
Lemma all_good_line : forall o, (o <= 6)%nat -> good_line (Z.of_nat o) = true.
Proof. intros o H. do 7 (destruct o as [|o]; [vm_compute; reflexivity|]). lia. Qed.
Lemma line_cover : forall t o, t = Line2 \/ t = Line3 -> (o <= 6)%nat ->
  exists pts, quadrature_points LineSpace (Z.of_nat o) = Ok (map Some pts) /\
  forall up, exists tris, face_triangles t (GetStandardCoord t) (map fst pts) up = Ok tris /\
    forall x, -1 < x < 1 -> (forall p, In p (map fst pts) -> x <> fst (plane p)) ->
      exactly_one (fun tri => in_piece tri x) tris.
Proof.
  intros t o Ht H. pose proof (all_good_line o H) as G. unfold good_line in G.
  destruct (quadrature_points _ _) as [l| |]; try discriminate.
  destruct (somes l) as [[|p pts]|] eqn:Es; try discriminate. apply somes_spec in Es. subst l.
  exists (p :: pts). split; [reflexivity|]. intros up.
  assert (C : exists rest, GetStandardCoord t = (-1, 0, 0)%Q :: (1, 0, 0)%Q :: rest)
    by (destruct Ht; subst t; eexists; reflexivity).
  destruct C as [rest ->]. eexists. split; [apply line_triangles; [exact Ht|discriminate]|].
  intros x Hx N. apply pieces; [exact G| |exact N]. cbn [xq fst]. rewrite Q2R_m1, Q2R_1. exact Hx.
Qed.
Lemma no_points : forall up : Q * Q * Q,
  face_triangles Line2 (GetStandardCoord Line2) [] up = UB /\
  face_triangles Quad4 (GetStandardCoord Quad4) [] up = UB /\
  face_triangles Tri3 (GetStandardCoord Tri3) [] up = Abort.
Proof. intros up. repeat split; vm_compute; reflexivity. Qed.
