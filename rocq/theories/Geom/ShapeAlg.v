(** * Normal forms of shape function expressions

    Laurent polynomials in [xi], [et] and [s = zt - c], for a centre [c]: the
    only denominators in the tables are powers of [zt - 1] and constants. *)
From Coq Require Import List ZArith QArith Qreals Reals Bool Lia Lra.
From Verif Require Import Geom.ShapeExpr Geom.ShapeModel Geom.ShapeSpec.
Import ListNotations.
Local Open Scope R_scope.

Definition mono : Type := (nat * nat * Z)%type.
Definition poly : Type := list (mono * Q).

Definition mono_eqb (a b : mono) : bool :=
  let '(a1, a2, a3) := a in let '(b1, b2, b3) := b in
  ((a1 =? b1) && (a2 =? b2))%nat && (a3 =? b3)%Z.
Definition mono_mul (a b : mono) : mono :=
  let '(a1, a2, a3) := a in let '(b1, b2, b3) := b in
  ((a1 + b1)%nat, (a2 + b2)%nat, (a3 + b3)%Z).

Fixpoint insert (m : mono) (c : Q) (p : poly) : poly :=
  match p with
  | [] => [(m, c)]
  | (m', c') :: r =>
      if mono_eqb m m' then (m', Qred (c + c')) :: r else (m', c') :: insert m c r
  end.
Definition padd (p q : poly) : poly :=
  fold_right (fun mc acc => insert (fst mc) (snd mc) acc) q p.
Definition pscale (m : mono) (c : Q) (p : poly) : poly :=
  map (fun mc => (mono_mul m (fst mc), Qred (c * snd mc))) p.
Definition pmul (p q : poly) : poly :=
  fold_right (fun mc acc => padd (pscale (fst mc) (snd mc) q) acc) [] p.
Definition pclean (p : poly) : poly :=
  filter (fun mc => negb (Qeq_bool (snd mc) 0)) p.
Definition pneg (p : poly) : poly := pscale (0%nat, 0%nat, 0%Z) (-1) p.
Fixpoint ppow (p : poly) (n : nat) : poly :=
  match n with O => [((0%nat, 0%nat, 0%Z), 1%Q)] | S k => pclean (pmul p (ppow p k)) end.
Definition pdiv (p q : poly) : option poly :=
  match pclean q with
  | [((0%nat, 0%nat, k), c)] => Some (pscale (0%nat, 0%nat, (- k)%Z) (/ c) p)
  | _ => None
  end.

Definition m0 : mono := (0%nat, 0%nat, 0%Z).

Section Norm.
Variable c : Z.

Fixpoint norm (e : expr) : option poly :=
  match e with
  | Xi => Some [((1%nat, 0%nat, 0%Z), 1%Q)]
  | Et => Some [((0%nat, 1%nat, 0%Z), 1%Q)]
  | Zt => Some [((0%nat, 0%nat, 1%Z), 1%Q); (m0, inject_Z c)]
  | Cst z => Some [(m0, inject_Z z)]
  | Neg a => option_map pneg (norm a)
  | Add a b => match norm a, norm b with
               | Some p, Some q => Some (pclean (padd p q)) | _, _ => None end
  | Sub a b => match norm a, norm b with
               | Some p, Some q => Some (pclean (padd p (pneg q))) | _, _ => None end
  | Mul a b => match norm a, norm b with
               | Some p, Some q => Some (pclean (pmul p q)) | _, _ => None end
  | Div a b => match norm a, norm b with
               | Some p, Some q => pdiv p q | _, _ => None end
  | Pow a n => option_map (fun p => ppow p n) (norm a)
  end.

Variable pnt : point.
Let s := p_zt pnt - IZR c.
Hypothesis Hs : s <> 0.

Definition emono (m : mono) : R :=
  let '(a, b, k) := m in p_xi pnt ^ a * p_et pnt ^ b * powerRZ s k.
Definition epoly (p : poly) : R :=
  rsum (map (fun mc => Q2R (snd mc) * emono (fst mc)) p).

Lemma epoly_cons mc p : epoly (mc :: p) = Q2R (snd mc) * emono (fst mc) + epoly p.
Proof. reflexivity. Qed.

Lemma Q2R_red q : Q2R (Qred q) = Q2R q.
Proof. apply Qeq_eqR, Qred_correct. Qed.

Lemma mono_eqb_ok a b : mono_eqb a b = true -> a = b.
Proof.
  destruct a as [[a1 a2] a3], b as [[b1 b2] b3]. unfold mono_eqb.
  rewrite !andb_true_iff, !Nat.eqb_eq, Z.eqb_eq. intros [[-> ->] ->]. reflexivity.
Qed.

Lemma emono_mul a b : emono (mono_mul a b) = emono a * emono b.
Proof.
  destruct a as [[a1 a2] a3], b as [[b1 b2] b3]. cbn.
  rewrite !pow_add, powerRZ_add by exact Hs. ring.
Qed.

Lemma insert_ok m q p : epoly (insert m q p) = Q2R q * emono m + epoly p.
Proof.
  induction p as [|[m' q'] r IH]; [unfold epoly; cbn; ring|]. cbn [insert].
  destruct (mono_eqb m m') eqn:E.
  - apply mono_eqb_ok in E. subst. rewrite !epoly_cons. cbn [fst snd].
    rewrite Q2R_red, Q2R_plus. ring.
  - rewrite !epoly_cons, IH. ring.
Qed.

Lemma padd_ok p q : epoly (padd p q) = epoly p + epoly q.
Proof.
  induction p as [|[m k] r IH]; [change (epoly (padd [] q)) with (epoly q); change (epoly []) with 0; ring|].
  cbn [padd fold_right]. fold (padd r q). rewrite insert_ok, IH, epoly_cons.
  cbn [fst snd]. ring.
Qed.

Lemma pscale_ok m k p : epoly (pscale m k p) = Q2R k * emono m * epoly p.
Proof.
  induction p as [|[m' k'] r IH]; [change (epoly (pscale m k [])) with 0; change (epoly []) with 0; ring|].
  cbn [pscale map]. fold (pscale m k r). rewrite !epoly_cons. cbn [fst snd].
  rewrite IH, emono_mul, Q2R_red, Q2R_mult. ring.
Qed.

Lemma pmul_ok p q : epoly (pmul p q) = epoly p * epoly q.
Proof.
  induction p as [|[m k] r IH]; [change (epoly (pmul [] q)) with 0; change (epoly []) with 0; ring|].
  cbn [pmul fold_right]. fold (pmul r q). rewrite padd_ok, pscale_ok, IH, epoly_cons.
  cbn [fst snd]. ring.
Qed.

Lemma Qeq_bool_0 q : Qeq_bool q 0 = true -> Q2R q = 0.
Proof. intro H. apply Qeq_bool_eq, Qeq_eqR in H. rewrite H. apply RMicromega.Q2R_0. Qed.

Lemma pclean_ok p : epoly (pclean p) = epoly p.
Proof.
  induction p as [|[m k] r IH]; [reflexivity|]. cbn [pclean filter].
  fold (pclean r). cbn [snd]. destruct (Qeq_bool k 0) eqn:E; cbn [negb].
  - rewrite epoly_cons, IH. cbn [fst snd]. rewrite Qeq_bool_0 by exact E. ring.
  - rewrite !epoly_cons, IH. reflexivity.
Qed.

Lemma emono_0 : emono m0 = 1.
Proof. cbn. ring. Qed.

Lemma Q2R_1 : Q2R 1 = 1.
Proof. apply RMicromega.Q2R_1. Qed.
Lemma Q2R_Z z : Q2R (inject_Z z) = IZR z.
Proof. unfold Q2R, inject_Z. cbn. field. Qed.

Lemma pneg_ok p : epoly (pneg p) = - epoly p.
Proof.
  unfold pneg. rewrite pscale_ok. fold m0. rewrite emono_0.
  replace (Q2R (-1)) with (-1); [ring|]. unfold Q2R. cbn. field.
Qed.

Lemma ppow_ok p n : epoly (ppow p n) = epoly p ^ n.
Proof.
  induction n as [|n IH].
  - unfold epoly. cbn. rewrite Q2R_1. ring.
  - cbn [ppow pow]. now rewrite pclean_ok, pmul_ok, IH.
Qed.

Lemma pclean_In m k p : In (m, k) (pclean p) -> ~ (k == 0)%Q.
Proof.
  intro H. apply filter_In in H. destruct H as [_ H]. apply negb_true_iff in H.
  intro E. apply Qeq_bool_iff in E. cbn in H. congruence.
Qed.

Lemma pdiv_ok p q r : pdiv p q = Some r ->
  epoly q <> 0 /\ epoly r = epoly p / epoly q.
Proof.
  unfold pdiv. intro H. pose proof (pclean_ok q) as E.
  pose proof (fun m k => pclean_In m k q) as N.
  destruct (pclean q) as [|[[[[|] [|]] k] d] [|]]; try discriminate.
  inversion H; subst. clear H.
  specialize (N _ _ (or_introl eq_refl)).
  rewrite pscale_ok, <- E. unfold epoly at 2 4. cbn [map rsum fold_right fst snd].
  unfold epoly at 1. cbn [map rsum fold_right fst snd].
  assert (D : Q2R d <> 0).
  { intro Z0. apply N. apply eqR_Qeq. now rewrite Z0, RMicromega.Q2R_0. }
  assert (S1 : powerRZ s k <> 0) by (apply powerRZ_NOR; exact Hs).
  assert (S2 : powerRZ s (- k) = / powerRZ s k).
  { apply (Rmult_eq_reg_r (powerRZ s k)); [|exact S1].
    rewrite <- powerRZ_add by exact Hs. replace (- k + k)%Z with 0%Z by lia.
    rewrite Rinv_l by exact S1. reflexivity. }
  cbn [emono pow]. rewrite S2, Q2R_inv by exact N. unfold epoly.
  split.
  - replace (Q2R d * (1 * 1 * powerRZ s k) + 0) with (Q2R d * powerRZ s k) by ring.
    now apply Rmult_integral_contrapositive_currified.
  - field. auto.
Qed.

(** No denominator vanishes at the point. *)
Fixpoint defined (e : expr) : Prop :=
  match e with
  | Xi | Et | Zt | Cst _ => True
  | Neg a | Pow a _ => defined a
  | Add a b | Sub a b | Mul a b => defined a /\ defined b
  | Div a b => defined a /\ defined b /\ eval pnt b <> 0
  end.

Lemma norm_ok e : forall p, norm e = Some p -> eval pnt e = epoly p /\ defined e.
Proof.
  induction e as [| | |z|a IHa|a IHa b IHb|a IHa b IHb|a IHa b IHb|a IHa b IHb|a IHa n];
    intros p H; cbn [norm eval defined] in *.
  - inversion H; subst. split; auto. unfold epoly. cbn. rewrite Q2R_1. ring.
  - inversion H; subst. split; auto. unfold epoly. cbn. rewrite Q2R_1. ring.
  - inversion H; subst. split; auto. unfold epoly. cbn. rewrite Q2R_1, Q2R_Z.
    change (Pos.to_nat 1) with 1%nat. unfold s. ring.
  - inversion H; subst. split; auto. unfold epoly. cbn. rewrite Q2R_Z. ring.
  - destruct (norm a) as [q|]; try discriminate. inversion H; subst.
    destruct (IHa q eq_refl) as [-> ?]. split; auto. now rewrite pneg_ok.
  - destruct (norm a) as [q|], (norm b) as [q'|]; try discriminate. inversion H; subst.
    destruct (IHa q eq_refl) as [-> ?], (IHb q' eq_refl) as [-> ?]. split; auto.
    now rewrite pclean_ok, padd_ok.
  - destruct (norm a) as [q|], (norm b) as [q'|]; try discriminate. inversion H; subst.
    destruct (IHa q eq_refl) as [-> ?], (IHb q' eq_refl) as [-> ?]. split; auto.
    rewrite pclean_ok, padd_ok, pneg_ok. ring.
  - destruct (norm a) as [q|], (norm b) as [q'|]; try discriminate. inversion H; subst.
    destruct (IHa q eq_refl) as [-> ?], (IHb q' eq_refl) as [-> ?]. split; auto.
    now rewrite pclean_ok, pmul_ok.
  - destruct (norm a) as [q|], (norm b) as [q'|]; try discriminate.
    destruct (IHa q eq_refl) as [-> ?], (IHb q' eq_refl) as [-> ?].
    apply pdiv_ok in H. destruct H as [Hq ->]. auto.
  - destruct (norm a) as [q|]; try discriminate. inversion H; subst.
    destruct (IHa q eq_refl) as [-> ?]. split; auto. now rewrite ppow_ok.
Qed.

(** Two expressions with the same normal form. *)
Definition same_norm (a b : expr) : bool :=
  match norm (Sub a b) with
  | Some p => match pclean p with [] => true | _ => false end
  | None => false
  end.

Lemma same_norm_ok a b : same_norm a b = true ->
  eval pnt a = eval pnt b /\ defined a /\ defined b.
Proof.
  unfold same_norm. intro H. destruct (norm (Sub a b)) as [p|] eqn:E; try discriminate.
  destruct (norm_ok _ _ E) as [E1 [D1 D2]]. split; auto.
  cbn [eval] in E1. destruct (pclean p) eqn:C; try discriminate.
  rewrite <- pclean_ok, C in E1. unfold epoly in E1. cbn in E1. lra.
Qed.
End Norm.

(** ** Formal derivative *)

Fixpoint D (v : var) (e : expr) : expr :=
  match e with
  | Xi => Cst (match v with VX => 1 | _ => 0 end)
  | Et => Cst (match v with VY => 1 | _ => 0 end)
  | Zt => Cst (match v with VZ => 1 | _ => 0 end)
  | Cst _ => Cst 0
  | Neg a => Neg (D v a)
  | Add a b => Add (D v a) (D v b)
  | Sub a b => Sub (D v a) (D v b)
  | Mul a b => Add (Mul (D v a) b) (Mul a (D v b))
  | Div a b => Div (Sub (Mul (D v a) b) (Mul (D v b) a)) (Mul b b)
  | Pow a O => Cst 0
  | Pow a (S n) => Mul (Mul (Cst (Z.of_nat (S n))) (Pow a n)) (D v a)
  end.

Lemma set_get v p : set_var v p (get_var v p) = p.
Proof. destruct v, p; reflexivity. Qed.

Lemma D_ok v p e : defined p e ->
  derivable_pt_lim (fun x => eval (set_var v p x) e) (get_var v p) (eval p (D v e)).
Proof.
  induction e as [| | |z|a IHa|a IHa b IHb|a IHa b IHb|a IHa b IHb|a IHa b IHb|a IHa n];
    cbn [defined D]; intro H.
  - destruct v; cbn; [apply derivable_pt_lim_id|apply derivable_pt_lim_const..].
  - destruct v; cbn; [apply derivable_pt_lim_const|apply derivable_pt_lim_id|apply derivable_pt_lim_const].
  - destruct v; cbn; [apply derivable_pt_lim_const..|apply derivable_pt_lim_id].
  - apply derivable_pt_lim_const.
  - cbn [eval]. apply derivable_pt_lim_opp. auto.
  - destruct H. cbn [eval]. apply derivable_pt_lim_plus; auto.
  - destruct H. cbn [eval]. apply derivable_pt_lim_minus; auto.
  - destruct H as [Ha Hb]. cbn [eval].
    pose proof (derivable_pt_lim_mult _ _ _ _ _ (IHa Ha) (IHb Hb)) as M.
    cbv beta in M. rewrite set_get in M. exact M.
  - destruct H as (Ha & Hb & N). cbn [eval].
    pose proof (derivable_pt_lim_div _ _ _ _ _ (IHa Ha) (IHb Hb)) as M.
    cbv beta in M. rewrite set_get in M. apply M. exact N.
  - destruct n as [|n]; cbn [eval].
    + apply derivable_pt_lim_const.
    + pose proof (derivable_pt_lim_comp (fun x => eval (set_var v p x) a)
        (fun y => y ^ S n) (get_var v p) _ _ (IHa H)
        (derivable_pt_lim_pow_pos _ (S n) (Nat.lt_0_succ n))) as M.
      cbv beta in M. rewrite set_get in M. unfold comp in M. cbn [Nat.pred] in M.
      rewrite INR_IZR_INZ in M. exact M.
Qed.
