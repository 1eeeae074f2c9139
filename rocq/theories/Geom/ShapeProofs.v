(** * Proofs about the shape functions *)
From Coq Require Import List ZArith QArith Qreals Qabs Qpower Reals Bool Lia Lra.
From Verif Require Import Geom.ElemModel Geom.ShapeExpr Geom.ShapeTable.
From Verif Require Import Geom.ShapeModel Geom.ShapeSpec Geom.ShapeAlg.
Import ListNotations.
Local Open Scope R_scope.

Lemma eps_pos : 0 < apex_eps.
Proof. unfold apex_eps. apply Rinv_0_lt_compat, pow_lt. lra. Qed.

(** ** A centre of expansion away from the point *)

Definition centres (t : ElemType) : list Z :=
  if is_pyramid t then [1%Z] else [1; 2]%Z.

Lemma used_not_one t p : is_pyramid t = true -> p_zt (used_point t p) - 1 <> 0.
Proof.
  intro H. unfold used_point. rewrite H. pose proof eps_pos as E.
  destruct (Rlt_dec (Rabs (1 - p_zt p)) apex_eps) as [L|L].
  - cbn [p_zt]. unfold signP. destruct (Rle_dec 0 (1 - p_zt p)); lra.
  - intro Z0. apply L. replace (1 - p_zt p) with 0 by lra. now rewrite Rabs_R0.
Qed.

Lemma centre_ok t p : exists c, In c (centres t) /\ p_zt (used_point t p) - IZR c <> 0.
Proof.
  unfold centres. destruct (is_pyramid t) eqn:H.
  - exists 1%Z. split; [now left|]. now apply used_not_one.
  - destruct (Req_dec (p_zt (used_point t p)) 1) as [E|E].
    + exists 2%Z. split; [right; now left|]. rewrite E. lra.
    + exists 1%Z. split; [now left|]. lra.
Qed.

Definition same_everywhere (t : ElemType) (a b : expr) : bool :=
  forallb (fun c => same_norm c a b) (centres t).

Lemma same_everywhere_ok t a b : same_everywhere t a b = true ->
  forall p, eval (used_point t p) a = eval (used_point t p) b
            /\ defined (used_point t p) a /\ defined (used_point t p) b.
Proof.
  intros H p. destruct (centre_ok t p) as (c & Hc & N).
  unfold same_everywhere in H. rewrite forallb_forall in H.
  eapply same_norm_ok; [exact N|auto].
Qed.

(** ** Sums over the nodes *)

Definition esum (l : list expr) : expr := fold_right Add (Cst 0) l.
Lemma esum_ok p l : eval p (esum l) = rsum (map (eval p) l).
Proof. induction l as [|e l IH]; [reflexivity|]. cbn [esum fold_right eval map]. fold (esum l). rewrite IH. reflexivity. Qed.

Definition qexpr (q : Q) : expr := Div (Cst (Qnum q)) (Cst (Zpos (Qden q))).
Lemma qexpr_ok p q : eval p (qexpr q) = Q2R q.
Proof. reflexivity. Qed.

Definition all_types : list ElemType :=
  [Line2; Tri3; Quad4; Tet4; Hex8; Prism6; Pyramid5;
   Line3; Tri6; Quad9; Tet10; Hex27; Prism18; Pyramid14].
Lemma all_types_ok t : t <> UnknownElem -> In t all_types.
Proof. destruct t; cbn; intuition congruence. Qed.

Lemma for_types (P : ElemType -> bool) :
  forallb P all_types = true -> forall t, t <> UnknownElem -> P t = true.
Proof. intros H t Ht. rewrite forallb_forall in H. apply H, all_types_ok, Ht. Qed.

Definition unity_check (t : ElemType) : bool :=
  same_everywhere t (esum (map (entry t 0 0) (seq 0 (GetNumNodes t)))) (Cst 1).
Lemma unity_check_ok : forallb unity_check all_types = true.
Proof. vm_cast_no_check (eq_refl true). Qed.

Lemma unity t p : t <> UnknownElem -> node_sum t (GetNj t p) = 1.
Proof.
  intro Ht. pose proof (for_types _ unity_check_ok t Ht) as C.
  destruct (same_everywhere_ok _ _ _ C p) as [E _]. rewrite esum_ok, map_map in E.
  exact E.
Qed.

(** ** Reproduction of the coordinates *)

Definition qcoord (v : var) (c : Q * Q * Q) : Q :=
  match v with VX => fst (fst c) | VY => snd (fst c) | VZ => snd c end.
Definition std (t : ElemType) (k : nat) : Q * Q * Q :=
  nth k (GetStandardCoord t) (0, 0, 0)%Q.
Definition var_expr (v : var) : expr := match v with VX => Xi | VY => Et | VZ => Zt end.

Lemma std_length t : length (GetStandardCoord t) = GetNumNodes t.
Proof. unfold GetStandardCoord. now rewrite map_length, seq_length. Qed.

Lemma node_coord t v k : (k < GetNumNodes t)%nat ->
  get_var v (node_point t k) = Q2R (qcoord v (std t k)).
Proof.
  intro H. unfold node_point, std.
  rewrite (nth_error_nth' _ (0, 0, 0)%Q) by now rewrite std_length.
  destruct (nth k _ _) as [[x y] z]. destruct v; reflexivity.
Qed.


Definition weighted (t : ElemType) (w : nat -> Q) : expr :=
  esum (map (fun j => Mul (entry t 0 0 j) (qexpr (w j))) (seq 0 (GetNumNodes t))).
Lemma weighted_ok t w p :
  eval (used_point t p) (weighted t w) = node_sum t (fun j => GetNj t p j * Q2R (w j)).
Proof. unfold weighted. rewrite esum_ok, map_map. reflexivity. Qed.

Definition linear_check (t : ElemType) (v : var) : bool :=
  same_everywhere t (weighted t (fun j => qcoord v (std t j)))
    (if in_space t v then var_expr v else Cst 0).
Lemma linear_check_ok : forallb (fun t => linear_check t VX && linear_check t VY && linear_check t VZ) all_types = true.
Proof. vm_cast_no_check (eq_refl true). Qed.

Lemma rsum_ext A (f g : A -> R) l : (forall x, In x l -> f x = g x) -> rsum (map f l) = rsum (map g l).
Proof.
  induction l as [|x l IH]; intro H; [reflexivity|]. cbn.
  rewrite H by now left. f_equal. apply IH. intros; apply H; now right.
Qed.

Lemma node_sum_ext t f g : (forall j, (j < GetNumNodes t)%nat -> f j = g j) -> node_sum t f = node_sum t g.
Proof. intro H. apply rsum_ext. intros j Hj. apply in_seq in Hj. apply H. lia. Qed.

Lemma var_expr_ok v p : eval p (var_expr v) = get_var v p.
Proof. destruct v; reflexivity. Qed.

Lemma linear t v p : t <> UnknownElem ->
  node_sum t (fun j => GetNj t p j * get_var v (node_point t j))
  = if in_space t v then get_var v (used_point t p) else 0.
Proof.
  intro Ht. pose proof (for_types _ linear_check_ok t Ht) as C. cbn beta in C.
  assert (C' : linear_check t v = true).
  { rewrite !andb_true_iff in C. destruct v; tauto. }
  destruct (same_everywhere_ok _ _ _ C' p) as [E _]. rewrite weighted_ok in E.
  rewrite (node_sum_ext t _ (fun j => GetNj t p j * Q2R (qcoord v (std t j)))).
  - rewrite E. destruct (in_space t v); [apply var_expr_ok|reflexivity].
  - intros j Hj. now rewrite node_coord.
Qed.

(** ** Quadratic fields *)

Definition quad_check (t : ElemType) (u v : var) : bool :=
  same_everywhere t (weighted t (fun j => qcoord u (std t j) * qcoord v (std t j))%Q)
    (Mul (var_expr u) (var_expr v)).
Definition quad_all (t : ElemType) : bool :=
  match GetOrder t with
  | Some 2%nat =>
      is_pyramid t ||
      forallb (fun u => forallb (fun v => negb (in_space t u && in_space t v) || quad_check t u v)
        [VX; VY; VZ]) [VX; VY; VZ]
  | _ => true
  end.
Lemma quad_check_ok : forallb quad_all all_types = true.
Proof. vm_cast_no_check (eq_refl true). Qed.

Lemma quadratic t u v p : GetOrder t = Some 2%nat -> is_pyramid t = false ->
  in_space t u = true -> in_space t v = true ->
  node_sum t (fun j => GetNj t p j * (get_var u (node_point t j) * get_var v (node_point t j)))
  = get_var u p * get_var v p.
Proof.
  intros Ho Hp Hu Hv. assert (Ht : t <> UnknownElem) by (intros ->; discriminate Ho).
  pose proof (for_types _ quad_check_ok t Ht) as C. unfold quad_all in C.
  rewrite Ho, Hp, orb_false_l, forallb_forall in C.
  assert (C' : quad_check t u v = true).
  { assert (A : forall w, In w [VX; VY; VZ]) by (intros []; cbn; auto).
    specialize (C u (A u)). rewrite forallb_forall in C. specialize (C v (A v)).
    rewrite Hu, Hv in C. exact C. }
  destruct (same_everywhere_ok _ _ _ C' p) as [E _]. rewrite weighted_ok in E.
  rewrite (node_sum_ext t _ (fun j => GetNj t p j * Q2R (qcoord u (std t j) * qcoord v (std t j)))).
  - rewrite E. cbn [eval]. rewrite !var_expr_ok. unfold used_point. now rewrite Hp.
  - intros j Hj. now rewrite !node_coord, Q2R_mult by exact Hj.
Qed.

(** ** Values at rational points *)

Fixpoint evalQ (c : Q * Q * Q) (e : expr) : option Q :=
  match e with
  | Xi => Some (fst (fst c))
  | Et => Some (snd (fst c))
  | Zt => Some (snd c)
  | Cst z => Some (inject_Z z)
  | Neg a => option_map Qopp (evalQ c a)
  | Add a b => match evalQ c a, evalQ c b with Some x, Some y => Some (Qred (x + y)) | _, _ => None end
  | Sub a b => match evalQ c a, evalQ c b with Some x, Some y => Some (Qred (x - y)) | _, _ => None end
  | Mul a b => match evalQ c a, evalQ c b with Some x, Some y => Some (Qred (x * y)) | _, _ => None end
  | Div a b => match evalQ c a, evalQ c b with
               | Some x, Some y => if Qeq_bool y 0 then None else Some (Qred (x / y))
               | _, _ => None end
  | Pow a n => option_map (fun x => Qred (Qpower x (Z.of_nat n))) (evalQ c a)
  end.

Definition qpoint (c : Q * Q * Q) : point := Pt (Q2R (fst (fst c))) (Q2R (snd (fst c))) (Q2R (snd c)).

Lemma Q2R_pow x n : Q2R (Qpower x (Z.of_nat n)) = Q2R x ^ n.
Proof.
  induction n as [|n IH]; [apply RMicromega.Q2R_1|]. cbn [pow]. rewrite <- IH, <- Q2R_mult.
  apply Qeq_eqR. rewrite Nat2Z.inj_succ, <- Z.add_1_l.
  destruct (Qeq_dec x 0) as [E|E].
  - rewrite E. rewrite Qpower_0 by lia. ring.
  - rewrite Qpower_plus by exact E. reflexivity.
Qed.

Lemma Some_inj A (x y : A) : Some x = Some y -> x = y.
Proof. congruence. Qed.

Lemma evalQ_ok c e : forall q, evalQ c e = Some q -> eval (qpoint c) e = Q2R q.
Proof.
  induction e as [| | |z|a IHa|a IHa b IHb|a IHa b IHb|a IHa b IHb|a IHa b IHb|a IHa n];
    intros q H; cbn [evalQ eval option_map] in *.
  - now apply Some_inj in H; subst q.
  - now apply Some_inj in H; subst q.
  - now apply Some_inj in H; subst q.
  - apply Some_inj in H; subst q. symmetry. apply Q2R_Z.
  - destruct (evalQ c a) as [x|]; try discriminate. apply Some_inj in H; subst q. now rewrite (IHa x eq_refl), Q2R_opp.
  - destruct (evalQ c a) as [x|], (evalQ c b) as [y|]; try discriminate. apply Some_inj in H; subst q.
    now rewrite (IHa x eq_refl), (IHb y eq_refl), Q2R_red, Q2R_plus.
  - destruct (evalQ c a) as [x|], (evalQ c b) as [y|]; try discriminate. apply Some_inj in H; subst q.
    now rewrite (IHa x eq_refl), (IHb y eq_refl), Q2R_red, Q2R_minus.
  - destruct (evalQ c a) as [x|], (evalQ c b) as [y|]; try discriminate. apply Some_inj in H; subst q.
    now rewrite (IHa x eq_refl), (IHb y eq_refl), Q2R_red, Q2R_mult.
  - destruct (evalQ c a) as [x|], (evalQ c b) as [y|]; try discriminate.
    destruct (Qeq_bool y 0) eqn:E; try discriminate. apply Some_inj in H; subst q.
    rewrite (IHa x eq_refl), (IHb y eq_refl), Q2R_red, Q2R_div; [reflexivity|].
    intro N. apply Qeq_bool_iff in N. congruence.
  - destruct (evalQ c a) as [x|]; try discriminate. apply Some_inj in H; subst q.
    now rewrite (IHa x eq_refl), Q2R_red, Q2R_pow.
Qed.

Definition deltaQ (i j : nat) : Q := if (i =? j)%nat then 1%Q else 0%Q.
Lemma deltaQ_ok i j : Q2R (deltaQ i j) = delta i j.
Proof. unfold deltaQ, delta. destruct (i =? j)%nat; [apply RMicromega.Q2R_1|apply RMicromega.Q2R_0]. Qed.

Lemma node_qpoint t k : (k < GetNumNodes t)%nat -> node_point t k = qpoint (std t k).
Proof.
  intro H. unfold node_point, std.
  rewrite (nth_error_nth' _ (0, 0, 0)%Q) by now rewrite std_length.
  destruct (nth k _ _) as [[x y] z]. reflexivity.
Qed.

Definition nodal_check (t : ElemType) (i : nat) : bool :=
  (is_pyramid t && (i =? 4)%nat)
  || (negb (is_pyramid t) || Qle_bool (snd (std t i)) (Qmake 1 2))
     && forallb (fun j => match evalQ (std t i) (entry t 0 0 j) with
                          | Some q => Qeq_bool q (deltaQ i j)
                          | None => false end) (seq 0 (GetNumNodes t)).
Lemma nodal_check_ok : forallb (fun t => forallb (nodal_check t) (seq 0 (GetNumNodes t))) all_types = true.
Proof. vm_cast_no_check (eq_refl true). Qed.

Lemma eps_small : apex_eps < 1 / 2.
Proof.
  unfold apex_eps. apply Rmult_lt_reg_l with (10 ^ 15); [apply pow_lt; lra|].
  rewrite Rinv_r by (apply pow_nonzero; lra).
  assert (1 <= 10 ^ 14) by (apply pow_R1_Rle; lra).
  replace (10 ^ 15) with (10 * 10 ^ 14) by (cbn; ring). lra.
Qed.

Lemma nodal t i j : (i < GetNumNodes t)%nat -> (j < GetNumNodes t)%nat ->
  (is_pyramid t = true -> i <> 4%nat) ->
  GetNj t (node_point t i) j = delta i j.
Proof.
  intros Hi Hj Hp. assert (Ht : t <> UnknownElem) by (intros ->; cbn in Hi; lia).
  pose proof (for_types _ nodal_check_ok t Ht) as C. cbn beta in C.
  rewrite forallb_forall in C. specialize (C i). rewrite in_seq in C.
  specialize (C ltac:(lia)). unfold nodal_check in C.
  apply orb_prop in C. destruct C as [C|C].
  { exfalso. apply andb_prop in C. destruct C as [C1 C2]. apply Nat.eqb_eq in C2. now apply Hp. }
  apply andb_prop in C. destruct C as [C1 C2].
  rewrite forallb_forall in C2. specialize (C2 j). rewrite in_seq in C2.
  specialize (C2 ltac:(lia)).
  destruct (evalQ (std t i) (entry t 0 0 j)) as [q|] eqn:E; try discriminate.
  apply evalQ_ok in E. apply Qeq_bool_eq, Qeq_eqR in C2.
  unfold GetNj, ShapeFunc. rewrite (node_qpoint t i Hi).
  replace (used_point t (qpoint (std t i))) with (qpoint (std t i)).
  - now rewrite E, C2, deltaQ_ok.
  - unfold used_point. destruct (is_pyramid t); [|reflexivity]. cbn in C1.
    apply Qle_bool_iff, Qle_Rle in C1. change (Q2R (Qmake 1 2)) with (1 * / 2) in C1.
    destruct (Rlt_dec _ _) as [L|]; [|reflexivity]. exfalso.
    cbn [qpoint p_zt] in L. pose proof eps_small.
    rewrite Rabs_pos_eq in L by lra. lra.
Qed.

(** ** The apex of the pyramids *)

Definition apexQ : Q * Q * Q := (0, 0, 1 - (Qmake 1 1000000000000000))%Q.
Definition apex_check (t : ElemType) : bool :=
  negb (is_pyramid t)
  || forallb (fun j => match evalQ apexQ (entry t 0 0 j) with
                       | Some q => Qle_bool (Qabs (q - deltaQ 4 j)) (Qmake 1 100000000000000)
                       | None => false end) (seq 0 (GetNumNodes t)).
Lemma apex_check_ok : forallb apex_check all_types = true.
Proof. vm_cast_no_check (eq_refl true). Qed.

Lemma eps_Q : apex_eps = Q2R (Qmake 1 1000000000000000).
Proof.
  unfold apex_eps, Q2R. cbn [Qnum Qden]. rewrite Rmult_1_l. f_equal.
  change 10 with (IZR 10). rewrite pow_IZR. f_equal.
Qed.

Lemma apex_used t : is_pyramid t = true -> used_point t (node_point t 4) = qpoint apexQ.
Proof.
  intro H.
  assert (E : node_point t 4 = Pt 0 0 1).
  { destruct t; try discriminate H; cbn; unfold Q2R; cbn; f_equal; lra. }
  unfold used_point. rewrite H, E. cbn [p_xi p_et p_zt].
  replace (1 - 1) with 0 by ring. rewrite Rabs_R0.
  destruct (Rlt_dec 0 apex_eps) as [_|N]; [|exfalso; apply N, eps_pos].
  unfold signP. destruct (Rle_dec 0 0) as [_|N]; [|lra].
  unfold qpoint, apexQ. cbn [fst snd]. rewrite Q2R_minus, RMicromega.Q2R_0, RMicromega.Q2R_1, <- eps_Q.
  f_equal. ring.
Qed.

Lemma apex t j : is_pyramid t = true -> (j < GetNumNodes t)%nat ->
  Rabs (GetNj t (node_point t 4) j - delta 4 j) <= / 10 ^ 14.
Proof.
  intros H Hj. assert (Ht : t <> UnknownElem) by (intros ->; discriminate H).
  pose proof (for_types _ apex_check_ok t Ht) as C. unfold apex_check in C.
  rewrite H in C. cbn [negb orb] in C. rewrite forallb_forall in C.
  specialize (C j). rewrite in_seq in C. specialize (C ltac:(lia)).
  destruct (evalQ apexQ (entry t 0 0 j)) as [q|] eqn:E; try discriminate.
  apply evalQ_ok in E. apply Qle_bool_iff in C.
  unfold GetNj, ShapeFunc. rewrite apex_used, E by exact H.
  rewrite <- deltaQ_ok, <- Q2R_minus.
  apply Qabs_Qle_condition in C. destruct C as [C1 C2].
  apply Qle_Rle in C1, C2. rewrite Q2R_opp in C1.
  replace (/ 10 ^ 14) with (Q2R (Qmake 1 100000000000000)).
  - apply Rabs_le. lra.
  - unfold Q2R. cbn [Qnum Qden]. rewrite Rmult_1_l. f_equal.
    change 10 with (IZR 10). rewrite pow_IZR. f_equal.
Qed.

Lemma apex_not_exact : GetNj Pyramid5 (node_point Pyramid5 4) 4 <> 1.
Proof.
  unfold GetNj, ShapeFunc. rewrite apex_used by reflexivity.
  change (entry Pyramid5 0 0 4) with Zt. cbn [eval qpoint p_zt apexQ snd].
  rewrite Q2R_minus, RMicromega.Q2R_1, <- eps_Q. pose proof eps_pos. lra.
Qed.

(** ** Derivatives *)

Definition midx_eqb (a b : nat * nat * nat) : bool :=
  let '(x, y, z) := a in let '(x', y', z') := b in ((x =? x') && (y =? y') && (z =? z'))%nat.
Lemma midx_eqb_refl a : midx_eqb a a = true.
Proof. destruct a as [[x y] z]. cbn. now rewrite !Nat.eqb_refl. Qed.

Definition deriv_check (t : ElemType) : bool :=
  match GetDim t with
  | Some dim =>
      let L := diffOperatorOrderList dim in
      forallb (fun rb => forallb (fun ra => forallb (fun v =>
        if midx_eqb (snd ra) (incr v (snd rb)) then forallb (fun j =>
             let '(d, i) := block_of dim (fst ra) in
             let '(d', i') := block_of dim (fst rb) in
             same_everywhere t (D v (entry t d' i' j)) (entry t d i j)
             && forallb (fun c => match norm c (entry t d' i' j) with Some _ => true | None => false end) (centres t))
           (seq 0 (GetNumNodes t)) else true)
        [VX; VY; VZ]) (combine (seq 0 (length L)) L)) (combine (seq 0 (length L)) L)
  | None => true
  end.
Lemma deriv_check_ok : forallb deriv_check all_types = true.
Proof. vm_cast_no_check (eq_refl true). Qed.

Lemma In_indexed A (L : list A) r x : nth_error L r = Some x -> In (r, x) (combine (seq 0 (length L)) L).
Proof.
  intro H. assert (G : forall s, In ((s + r)%nat, x) (combine (seq s (length L)) L)).
  { revert r H. induction L as [|y L IH]; intros [|r] H s; try discriminate H.
    - inversion H; subst. cbn. left. f_equal. lia.
    - cbn. right. replace (s + S r)%nat with (S s + r)%nat by lia. apply IH, H. }
  apply (G 0%nat).
Qed.

(** Near a regular point the code uses the point it is given. *)
Lemma used_regular t p v : regular t p ->
  exists eps, 0 < eps /\ forall h, Rabs h < eps ->
    used_point t (set_var v p (get_var v p + h)) = set_var v p (get_var v p + h).
Proof.
  intro H. unfold used_point. destruct (is_pyramid t) eqn:P.
  - exists (Rabs (1 - p_zt p) - apex_eps). specialize (H P). split; [lra|].
    intros h Hh. destruct (Rlt_dec _ _) as [L|]; [exfalso|reflexivity].
    destruct v; cbn [set_var get_var p_zt] in L; try lra.
    + revert L Hh H. unfold Rabs. repeat destruct (Rcase_abs _); lra.
  - exists 1. split; [lra|reflexivity].
Qed.

Lemma lim_local f g x l eps : 0 < eps -> (forall h, Rabs h < eps -> f (x + h) = g (x + h)) ->
  derivable_pt_lim f x l -> derivable_pt_lim g x l.
Proof.
  intros He E H e1 H1. destruct (H e1 H1) as ((d & Hd) & K). cbn in K.
  exists (mkposreal (Rmin d eps) (Rmin_pos _ _ Hd He)). intros h N Hh. cbn in Hh.
  assert (E0 : g x = f x).
  { specialize (E 0). rewrite Rabs_R0, Rplus_0_r in E. symmetry. auto. }
  rewrite E0, <- (E h).
  - apply K; [exact N|]. eapply Rlt_le_trans; [exact Hh|apply Rmin_l].
  - eapply Rlt_le_trans; [exact Hh|apply Rmin_r].
Qed.

Lemma shape_derivative t v p d i j d' i' : regular t p ->
  same_everywhere t (D v (entry t d' i' j)) (entry t d i j) = true ->
  forallb (fun c => match norm c (entry t d' i' j) with Some _ => true | None => false end) (centres t) = true ->
  partial_derivative v (fun q => ShapeFunc t d' q i' j) p (ShapeFunc t d p i j).
Proof.
  intros Hr C W. unfold partial_derivative, ShapeFunc.
  destruct (used_regular t p v Hr) as (eps & He & U).
  assert (U0 : used_point t p = p).
  { specialize (U 0). rewrite Rplus_0_r, set_get, Rabs_R0 in U. auto. }
  destruct (same_everywhere_ok _ _ _ C p) as [E _].
  destruct (centre_ok t p) as (c & Hc & N).
  rewrite forallb_forall in W. specialize (W c Hc).
  destruct (norm c (entry t d' i' j)) as [P|] eqn:EN; try discriminate.
  destruct (norm_ok c _ N _ _ EN) as [_ Df]. rewrite U0 in *.
  rewrite <- E. eapply lim_local; [exact He| |apply D_ok, Df].
  intros h Hh. cbv beta. now rewrite U.
Qed.

Lemma derivatives t dim r r' a a' v p j :
  GetDim t = Some dim -> (j < GetNumNodes t)%nat ->
  nth_error (diffOperatorOrderList dim) r = Some a ->
  nth_error (diffOperatorOrderList dim) r' = Some a' ->
  a = incr v a' -> regular t p ->
  partial_derivative v (fun q => GetDiNj t q r' j) p (GetDiNj t p r j).
Proof.
  intros Hd Hj Hr Hr' Ha Hp. assert (Ht : t <> UnknownElem) by (intros ->; discriminate Hd).
  pose proof (for_types _ deriv_check_ok t Ht) as C. unfold deriv_check in C. rewrite Hd in C.
  rewrite forallb_forall in C. specialize (C _ (In_indexed _ _ _ _ Hr')).
  rewrite forallb_forall in C. specialize (C _ (In_indexed _ _ _ _ Hr)).
  rewrite forallb_forall in C. specialize (C v ltac:(destruct v; cbn; auto)).
  cbn [fst snd] in C. subst a. rewrite midx_eqb_refl in C.
  rewrite forallb_forall in C. specialize (C j ltac:(apply in_seq; lia)).
  unfold GetDiNj. rewrite Hd.
  destruct (block_of dim r) as [d i], (block_of dim r') as [d' i'].
  apply andb_prop in C. destruct C as [C1 C2]. now apply shape_derivative.
Qed.

(** The three-row first derivatives. *)
Definition d1_check (t : ElemType) : bool :=
  forallb (fun v => forallb (fun j =>
    same_everywhere t (D v (entry t 0 0 j)) (entry t 1 (var_rank v) j)
    && forallb (fun c => match norm c (entry t 0 0 j) with Some _ => true | None => false end) (centres t))
    (seq 0 (GetNumNodes t))) [VX; VY; VZ].
Lemma d1_check_ok : forallb d1_check all_types = true.
Proof. vm_cast_no_check (eq_refl true). Qed.

Lemma first_derivatives t v p j : (j < GetNumNodes t)%nat -> regular t p ->
  partial_derivative v (fun q => GetNj t q j) p (GetD1Nj t p (var_rank v) j).
Proof.
  intros Hj Hp. assert (Ht : t <> UnknownElem) by (intros ->; cbn in Hj; lia).
  pose proof (for_types _ d1_check_ok t Ht) as C. unfold d1_check in C.
  rewrite forallb_forall in C. specialize (C v ltac:(destruct v; cbn; auto)).
  rewrite forallb_forall in C. specialize (C j ltac:(apply in_seq; lia)).
  apply andb_prop in C. destruct C as [C1 C2]. now apply shape_derivative.
Qed.

(** Every row but the first is a derivative of another one. *)
Definition decr_ok (L : list (nat * nat * nat)) (a : nat * nat * nat) : bool :=
  existsb (fun v => existsb (fun a' => midx_eqb a (incr v a')) L) [VX; VY; VZ].
Lemma midx_eqb_eq a b : midx_eqb a b = true -> a = b.
Proof.
  destruct a as [[x y] z], b as [[x' y'] z']. cbn. intro H.
  apply andb_prop in H. destruct H as [H H3]. apply andb_prop in H. destruct H as [H1 H2].
  apply Nat.eqb_eq in H1, H2, H3. now subst.
Qed.
Lemma rows_connected dim r a : nth_error (diffOperatorOrderList dim) r = Some a ->
  r = 0%nat \/ exists v r' a', nth_error (diffOperatorOrderList dim) r' = Some a' /\ a = incr v a'.
Proof.
  intro H. destruct r as [|r]; [now left|right].
  assert (C : forallb (decr_ok (diffOperatorOrderList dim)) (tl (diffOperatorOrderList dim)) = true).
  { destruct dim as [|[|[|[|dim]]]]; reflexivity. }
  rewrite forallb_forall in C. specialize (C a).
  assert (I : In a (tl (diffOperatorOrderList dim))).
  { destruct (diffOperatorOrderList dim); [destruct r; discriminate|]. eapply nth_error_In, H. }
  specialize (C I). unfold decr_ok in C. apply existsb_exists in C. destruct C as (v & _ & C).
  apply existsb_exists in C. destruct C as (a' & I' & E). apply midx_eqb_eq in E.
  apply In_nth_error in I'. destruct I' as (r' & Hr'). now exists v, r', a'.
Qed.

(** ** Coordinates at the given point *)

Lemma used_regular_0 t p : regular t p -> used_point t p = p.
Proof.
  intro H. unfold used_point. destruct (is_pyramid t) eqn:P; [|reflexivity].
  specialize (H P). destruct (Rlt_dec _ _); [lra|reflexivity].
Qed.

Lemma linear_regular t v p : t <> UnknownElem -> regular t p ->
  node_sum t (fun j => GetNj t p j * get_var v (node_point t j))
  = if in_space t v then get_var v p else 0.
Proof. intros Ht Hr. now rewrite linear, used_regular_0. Qed.

Lemma used_close t v p : Rabs (get_var v (used_point t p) - get_var v p) <= apex_eps.
Proof.
  pose proof eps_pos as E. unfold used_point.
  assert (Z : Rabs (get_var v p - get_var v p) <= apex_eps).
  { replace (_ - _) with 0 by ring. rewrite Rabs_R0. lra. }
  destruct (is_pyramid t); [|exact Z]. destruct (Rlt_dec _ _); [|exact Z].
  destruct v; cbn [get_var p_xi p_et p_zt] in *; try exact Z.
  unfold signP. destruct (Rle_dec _ _); apply Rabs_le; lra.
Qed.

Lemma linear_close t v p : t <> UnknownElem -> in_space t v = true ->
  Rabs (node_sum t (fun j => GetNj t p j * get_var v (node_point t j)) - get_var v p) <= / 10 ^ 15.
Proof. intros Ht Hv. rewrite linear, Hv by exact Ht. apply used_close. Qed.
