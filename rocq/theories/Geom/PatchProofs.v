(** Proofs for C53. *)
From Coq Require Import List ZArith QArith Qreals Reals Lra Lia Psatz Bool.
From Verif Require Import Base.Prelude Base.PreludeFacts Geom.ElemModel Geom.QuadratureModel
  Geom.PatchModel Geom.PatchSpec.
Import ListNotations.
Local Open Scope R_scope.

(** ** Edges cancel *)
Definition edges (ps : list patch) : list (Z * Z) :=
  flat_map (fun '(i, j, k) => [(i, j); (j, k); (k, i)]) ps.
Definition eqe (e f : Z * Z) : bool := (fst e =? fst f)%Z && (snd e =? snd f)%Z.
(** [l] without its first [e]. *)
Fixpoint take (e : Z * Z) (l : list (Z * Z)) : option (list (Z * Z)) :=
  match l with
  | [] => None
  | f :: l' => if eqe e f then Some l' else option_map (cons f) (take e l')
  end.
Fixpoint cancel (n : nat) (l : list (Z * Z)) : list (Z * Z) :=
  match n, l with
  | S n', e :: l' =>
      match take (snd e, fst e) l' with
      | Some l'' => cancel n' l''
      | None => e :: cancel n' l'
      end
  | _, _ => l
  end.
Fixpoint same (l m : list (Z * Z)) : bool :=
  match l with
  | [] => match m with [] => true | _ => false end
  | e :: l' => match take e m with Some m' => same l' m' | None => false end
  end.

Section Sum.
Variable g : Z -> Z -> R.
Hypothesis anti : forall a b, g b a = - g a b.
Fixpoint gsum (l : list (Z * Z)) : R :=
  match l with [] => 0 | e :: l' => g (fst e) (snd e) + gsum l' end.

Lemma eqe_eq : forall e f, eqe e f = true -> e = f.
Proof.
  intros [a b] [c d] H. unfold eqe in H. cbn in H. apply andb_true_iff in H. destruct H as [H1 H2].
  apply Z.eqb_eq in H1, H2. congruence.
Qed.
Lemma take_sum : forall e l l', take e l = Some l' -> gsum l = g (fst e) (snd e) + gsum l'.
Proof.
  intros e. induction l as [|f l IH]; intros l' H; cbn in H; [discriminate|].
  destruct (eqe e f) eqn:E.
  - inversion H; subst. apply eqe_eq in E. subst. reflexivity.
  - destruct (take e l) as [m|]; cbn in H; [|discriminate]. inversion H; subst. cbn.
    rewrite (IH m eq_refl). lra.
Qed.
Lemma cancel_sum : forall n l, gsum (cancel n l) = gsum l.
Proof.
  induction n as [|n IH]; intros [|e l]; cbn; auto.
  destruct (take (snd e, fst e) l) as [m|] eqn:E.
  - rewrite IH. apply take_sum in E. rewrite E. cbn. rewrite (anti (fst e) (snd e)). lra.
  - cbn. rewrite IH. lra.
Qed.
Lemma same_sum : forall l m, same l m = true -> gsum l = gsum m.
Proof.
  induction l as [|e l IH]; intros m H; cbn in H.
  - destruct m; [reflexivity|discriminate].
  - destruct (take e m) as [m'|] eqn:E; [|discriminate]. rewrite (take_sum _ _ _ E). cbn.
    rewrite (IH _ H). reflexivity.
Qed.
Fixpoint psum (ps : list patch) : R :=
  match ps with [] => 0 | (i, j, k) :: ps' => g i j + g j k + g k i + psum ps' end.
Lemma psum_edges : forall ps, psum ps = gsum (edges ps).
Proof.
  induction ps as [|[[i j] k] ps IH]; [reflexivity|]. cbn [psum edges flat_map app gsum fst snd].
  fold (edges ps). rewrite IH. lra.
Qed.
Lemma boundary_sum : forall ps bd, same bd (cancel (length (edges ps)) (edges ps)) = true ->
  psum ps = gsum bd.
Proof. intros ps bd H. rewrite psum_edges, (same_sum _ _ H), cancel_sum. reflexivity. Qed.
End Sum.

(** ** Crossings *)
Definition orient (a b x : R * R) : R :=
  (fst b - fst a) * (snd x - snd a) - (snd b - snd a) * (fst x - fst a).
(** The signed crossings of [a b] by the ray going down from [x]. *)
Definition cr (x a b : R * R) : R :=
  if Rle_dec (fst a) (fst x) then
    if Rlt_dec (fst x) (fst b) then if Rlt_dec 0 (orient a b x) then 1 else 0 else 0
  else
    if Rle_dec (fst b) (fst x) then if Rlt_dec (orient a b x) 0 then -1 else 0 else 0.
Lemma cr_anti : forall x a b, cr x b a = - cr x a b.
Proof.
  intros [x1 x2] [a1 a2] [b1 b2]. unfold cr, orient. cbn.
  repeat match goal with |- context [if ?d then _ else _] => destruct d end; lra.
Qed.

Definition seg (a b x : R * R) : Prop :=
  exists s, 0 <= s <= 1 /\ fst x = (1 - s) * fst a + s * fst b /\ snd x = (1 - s) * snd a + s * snd b.
Definition interior (a b c x : R * R) : Prop := 0 < orient a b x /\ 0 < orient b c x /\ 0 < orient c a x.

Lemma seg_of : forall a b x O p q, 0 < O -> 0 <= p -> 0 <= q -> p + q = O ->
  O * fst x = p * fst a + q * fst b -> O * snd x = p * snd a + q * snd b -> seg a b x.
Proof.
  intros [a1 a2] [b1 b2] [x1 x2] O p q HO Hp Hq Hs H1 H2. cbn in *. exists (q / O). cbn.
  assert (E : p = O - q) by lra. subst p.
  split; [split|split].
  - apply Rmult_le_pos; [lra|]. left. apply Rinv_0_lt_compat. lra.
  - apply Rmult_le_reg_r with O; [lra|]. field_simplify; lra.
  - apply Rmult_eq_reg_l with O; [|lra]. rewrite H1. field. lra.
  - apply Rmult_eq_reg_l with O; [|lra]. rewrite H2. field. lra.
Qed.

(** The crossings of a triangle, from the barycentric coordinates of the point and the
    abscissae of the corners. *)
Definition crd (d e o : R) : R :=
  if Rle_dec d 0 then if Rlt_dec 0 e then if Rlt_dec 0 o then 1 else 0 else 0
  else if Rle_dec e 0 then if Rlt_dec o 0 then -1 else 0 else 0.
Lemma cr_crd : forall x a b, cr x a b = crd (fst a - fst x) (fst b - fst x) (orient a b x).
Proof.
  intros. unfold cr, crd.
  destruct (Rle_dec (fst a) (fst x)), (Rle_dec (fst a - fst x) 0); try (exfalso; lra);
  [destruct (Rlt_dec (fst x) (fst b)), (Rlt_dec 0 (fst b - fst x)); try (exfalso; lra); reflexivity|].
  destruct (Rle_dec (fst b) (fst x)), (Rle_dec (fst b - fst x) 0); try (exfalso; lra); reflexivity.
Qed.

Definition core_at (da db dc oa ob oc : R) : Prop :=
  0 < oa + ob + oc -> oa * da + ob * db + oc * dc = 0 ->
  (da = 0 -> db = 0 -> dc = 0 -> False) ->
  (oc = 0 -> 0 <= oa -> 0 <= ob -> False) -> (oa = 0 -> 0 <= ob -> 0 <= oc -> False) ->
  (ob = 0 -> 0 <= oc -> 0 <= oa -> False) ->
  (0 < oa /\ 0 < ob /\ 0 < oc /\ crd da db oc + crd db dc oa + crd dc da ob = 1) \/
  (~ (0 < oa /\ 0 < ob /\ 0 < oc) /\ crd da db oc + crd db dc oa + crd dc da ob = 0).
Lemma core_turn : forall da db dc oa ob oc, core_at db dc da ob oc oa -> core_at da db dc oa ob oc.
Proof.
  intros da db dc oa ob oc H HO X V Zc Za Zb. destruct H as [H|H]; try assumption; try lra.
Qed.
Lemma crd_le_le : forall d e o, d <= 0 -> e <= 0 -> crd d e o = 0.
Proof. intros. unfold crd. destruct (Rle_dec d 0); [|lra]. destruct (Rlt_dec 0 e); lra. Qed.
Lemma crd_gt_gt : forall d e o, 0 < d -> 0 < e -> crd d e o = 0.
Proof. intros. unfold crd. destruct (Rle_dec d 0); [lra|]. destruct (Rle_dec e 0); lra. Qed.
Lemma crd_le_gt : forall d e o, d <= 0 -> 0 < e -> (0 < o /\ crd d e o = 1) \/ (o <= 0 /\ crd d e o = 0).
Proof.
  intros. unfold crd. destruct (Rle_dec d 0); [|lra]. destruct (Rlt_dec 0 e); [|lra].
  destruct (Rlt_dec 0 o); [left|right]; lra.
Qed.
Lemma crd_gt_le : forall d e o, 0 < d -> e <= 0 -> (o < 0 /\ crd d e o = -1) \/ (0 <= o /\ crd d e o = 0).
Proof.
  intros. unfold crd. destruct (Rle_dec d 0); [lra|]. destruct (Rle_dec e 0); [|lra].
  destruct (Rlt_dec o 0); [left|right]; lra.
Qed.
Lemma core_000 : forall da db dc oa ob oc, da <= 0 -> db <= 0 -> dc <= 0 -> core_at da db dc oa ob oc.
Proof.
  intros da db dc oa ob oc Ha Hb Hc HO X V _ _ _. right. rewrite !crd_le_le by assumption.
  split; [|lra]. intros [Pa [Pb Pc]]. apply V; nra.
Qed.
Lemma core_111 : forall da db dc oa ob oc, 0 < da -> 0 < db -> 0 < dc -> core_at da db dc oa ob oc.
Proof.
  intros da db dc oa ob oc Ha Hb Hc HO X V _ _ _. right. rewrite !crd_gt_gt by assumption.
  split; [|lra]. intros [Pa [Pb Pc]]. nra.
Qed.
Lemma core_011 : forall da db dc oa ob oc, da <= 0 -> 0 < db -> 0 < dc -> core_at da db dc oa ob oc.
Proof.
  intros da db dc oa ob oc Ha Hb Hc HO X V Zc Za Zb. rewrite (crd_gt_gt db dc) by assumption.
  destruct (crd_le_gt da db oc Ha Hb) as [[P ->]|[P ->]], (crd_gt_le dc da ob Hc Ha) as [[Q ->]|[Q ->]].
  - right. split; [lra|lra].
  - destruct Q as [Q|Q].
    + left. assert (0 < oa) by nra. repeat split; lra.
    + exfalso. assert (0 <= oa) by nra. apply Zb; lra.
  - exfalso. assert (oa <= 0 \/ 0 < oa) as [K|K] by lra; [lra|]. nra.
  - right. split; [lra|lra].
Qed.
Lemma core_100 : forall da db dc oa ob oc, 0 < da -> db <= 0 -> dc <= 0 -> core_at da db dc oa ob oc.
Proof.
  intros da db dc oa ob oc Ha Hb Hc HO X V Zc Za Zb. rewrite (crd_le_le db dc) by assumption.
  destruct (crd_gt_le da db oc Ha Hb) as [[P ->]|[P ->]], (crd_le_gt dc da ob Hc Ha) as [[Q ->]|[Q ->]].
  - right. split; [lra|lra].
  - exfalso. assert (oa <= 0 \/ 0 < oa) as [K|K] by lra; [lra|]. nra.
  - destruct P as [P|P].
    + assert (0 <= oa) as [K|K] by nra.
      * left. repeat split; lra.
      * exfalso. apply Za; lra.
    + exfalso. assert (0 <= oa) by nra. apply Zc; lra.
  - right. split; [lra|lra].
Qed.
Lemma core : forall da db dc oa ob oc, core_at da db dc oa ob oc.
Proof.
  intros. destruct (Rle_or_lt da 0), (Rle_or_lt db 0), (Rle_or_lt dc 0).
  - apply core_000; assumption.
  - apply core_turn, core_turn, core_100; assumption.
  - apply core_turn, core_100; assumption.
  - apply core_011; assumption.
  - apply core_100; assumption.
  - apply core_turn, core_011; assumption.
  - apply core_turn, core_turn, core_011; assumption.
  - apply core_111; assumption.
Qed.

Lemma triangle_crossings : forall a b c x, 0 < orient a b c ->
  ~ seg a b x -> ~ seg b c x -> ~ seg c a x ->
  (interior a b c x /\ cr x a b + cr x b c + cr x c a = 1) \/
  (~ interior a b c x /\ cr x a b + cr x b c + cr x c a = 0).
Proof.
  intros a b c x HO Nab Nbc Nca. rewrite !cr_crd. unfold interior.
  set (oa := orient b c x). set (ob := orient c a x). set (oc := orient a b x).
  assert (S : oa + ob + oc = orient a b c) by (unfold oa, ob, oc, orient; ring).
  assert (X : oa * (fst a - fst x) + ob * (fst b - fst x) + oc * (fst c - fst x) = 0)
    by (unfold oa, ob, oc, orient; ring).
  assert (Y : oa * (snd a - snd x) + ob * (snd b - snd x) + oc * (snd c - snd x) = 0)
    by (unfold oa, ob, oc, orient; ring).
  destruct (core (fst a - fst x) (fst b - fst x) (fst c - fst x) oa ob oc) as [H|H].
  - lra.
  - exact X.
  - intros Ea Eb Ec. unfold orient in HO.
    assert (fst a = fst x) as Ka by lra. assert (fst b = fst x) as Kb by lra. assert (fst c = fst x) as Kc by lra.
    rewrite Ka, Kb, Kc in HO. lra.
  - intros E1 E2 E3. apply Nab. apply (seg_of a b x (orient a b c) oa ob); try lra; rewrite <- S, E1 in *; lra.
  - intros E1 E2 E3. apply Nbc. apply (seg_of b c x (orient a b c) ob oc); try lra; rewrite <- S, E1 in *; lra.
  - intros E1 E2 E3. apply Nca. apply (seg_of c a x (orient a b c) oc oa); try lra; rewrite <- S, E1 in *; lra.
  - left. tauto.
  - right. tauto.
Qed.
