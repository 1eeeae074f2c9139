From Coq Require Import List ZArith Reals Lia Lra Bool FunctionalExtensionality.
From Verif Require Import Base.Prelude Base.PreludeFacts DNDS.DefinesModel DNDS.DefinesProofs
  Geom.PartProofs Solver.OdeModel Solver.OdeSpec Solver.OdePolyProofs.
Import ListNotations.
Local Open Scope R_scope.

(** ** The ring buffer *)
Record ring (st : bdf) (k : nat) (past : list (D * R)) : Prop := {
  g_k : kBDF st = Z.of_nat k;
  g_k1 : (1 <= k)%nat;
  g_lx : length (xPrevs st) = (k - 1)%nat;
  g_ld : length (dtPrevs st) = (k - 1)%nat;
  g_h : holds_history st k past }.

Lemma prev_pos st k past A (l : list A) j : ring st k past -> (2 <= k)%nat ->
  prev_at st l j = vget l ((j + prevStart st) mod (Z.of_nat k - 1)).
Proof.
  intros G K. unfold prev_at. rewrite (g_k _ _ _ G), cmod_exact by lia. reflexivity.
Qed.

Lemma vset_in A (l : list A) z x : (0 <= z < Z.of_nat (length l))%Z -> vset l z x = Ok (upd (Z.to_nat z) x l).
Proof. intro H. unfold vset. replace ((z <? 0)%Z || (Z.of_nat (length l) <=? z)%Z) with false by lia. reflexivity. Qed.

Lemma vget_upd_same A (l : list A) z x : (0 <= z < Z.of_nat (length l))%Z -> vget (upd (Z.to_nat z) x l) z = Ok x.
Proof. intro H. apply vget_Ok. split; [lia|]. apply nth_error_upd_same. lia. Qed.
Lemma vget_upd_other A (l : list A) z w x : (0 <= z)%Z -> (0 <= w)%Z -> z <> w -> vget (upd (Z.to_nat z) x l) w = vget l w.
Proof.
  intros H H' D. unfold vget. destruct (w <? 0)%Z; auto. rewrite nth_error_upd_other; auto. lia.
Qed.

Lemma mod_shift n j p : (0 <= p < n)%Z -> (0 < j < n)%Z -> ((j + p) mod n <> p)%Z.
Proof.
  intros Hp Hj. destruct (Z_lt_ge_dec (j + p) n) as [L|L].
  - rewrite Z.mod_small by lia. lia.
  - rewrite <- (Z.mod_unique_pos (j + p) n 1 (j + p - n)) by lia. lia.
Qed.

Lemma push_ring st k past x dt : ring st k past ->
  exists st', bdf_push st x dt = Ok st' /\ ring st' k ((x, dt) :: past).
Proof.
  intro G. destruct (g_h _ _ _ G) as (Hc & Hh). pose proof (g_k _ _ _ G) as Ek. pose proof (g_k1 _ _ _ G) as K1.
  pose proof (g_lx _ _ _ G) as Lx. pose proof (g_ld _ _ _ G) as Ld. unfold bdf_push.
  destruct (Z.eqb_spec (kBDF st - 1) 0) as [K|K].
  - eexists. split; [reflexivity|]. constructor; cbn [kBDF xPrevs dtPrevs]; auto.
    unfold holds_history. cbn [cnPrev]. assert (k = 1)%nat by lia. subst k. cbn [firstn Nat.sub] in *. split; auto.
  - assert (K2 : (2 <= k)%nat) by lia. rewrite cmod_exact by lia. cbn [bind].
    set (n := (kBDF st - 1)%Z). assert (En : n = (Z.of_nat k - 1)%Z) by (unfold n; lia).
    assert (Hp : (0 <= (prevStart st - 1) mod n < n)%Z) by (apply Z.mod_pos_bound; lia).
    rewrite !vset_in by lia. cbn [bind]. eexists. split; [reflexivity|].
    set (p := ((prevStart st - 1) mod n)%Z) in *. assert (Npos : (0 < n)%Z) by lia.
    assert (Hpos : forall j, (0 <= j < n)%Z -> ((j + 1 + p) mod n = (j + prevStart st) mod n)%Z).
    { intros j Hj. unfold p. rewrite Zplus_mod_idemp_r. f_equal. lia. }
    constructor; cbn [kBDF xPrevs dtPrevs]; rewrite ?upd_length; auto.
    unfold holds_history. cbn [cnPrev xPrevs dtPrevs].
    assert (LK : length (firstn (k - 1) ((x, dt) :: past)) = Nat.min (k - 1) (S (length (firstn (k - 1) past)))).
    { rewrite !firstn_length. cbn [length]. lia. }
    split.
    + rewrite Hc. unfold zlen. rewrite LK. lia.
    + intros j y d Hj. unfold prev_at. cbn [kBDF prevStart]. fold n. rewrite cmod_exact by lia. cbn [bind].
      pose proof (nth_error_Some_lt _ _ _ _ Hj) as Lj. rewrite LK in Lj.
      destruct j as [|j].
      * replace ((Z.of_nat 0 + p) mod n)%Z with p by (rewrite Z.add_0_l; symmetry; apply Z.mod_small; lia).
        rewrite !vget_upd_same by lia. destruct k as [|[|k]]; try lia. cbn in Hj. injection Hj as <- <-. auto.
      * assert (Hj' : nth_error (firstn (k - 1) past) j = Some (y, d)).
        { rewrite nth_error_firstn in Hj |- *. destruct (Nat.ltb_spec (S j) (k - 1)); [|discriminate].
          destruct (Nat.ltb_spec j (k - 1)); [exact Hj|lia]. }
        destruct (Hh j y d Hj') as (Hx & Hd). unfold prev_at in Hx, Hd. fold n in Hx, Hd. rewrite cmod_exact in Hx, Hd by lia.
        cbn [bind] in Hx, Hd.
        assert (Ep : ((Z.of_nat (S j) + p) mod n = (Z.of_nat j + prevStart st) mod n)%Z).
        { rewrite <- Hpos by lia. f_equal. lia. }
        clear Hpos. clearbody p.
        assert (Dp : ((Z.of_nat (S j) + p) mod n <> p)%Z).
        { apply mod_shift; [exact Hp|lia]. }
        assert (Np : (0 <= (Z.of_nat (S j) + p) mod n)%Z) by (apply Z.mod_pos_bound; exact Npos).
        revert Dp Np Ep. generalize ((Z.of_nat (S j) + p) mod n)%Z. intros q Dp Np Ep.
        rewrite !vget_upd_other by (auto; lia). rewrite Ep. auto.
Qed.

(** ** The residual *)
Lemma combine_app_ A B (a a' : list A) (b b' : list B) : length a = length b ->
  combine (a ++ a') (b ++ b') = combine a b ++ combine a' b'.
Proof.
  revert b. induction a as [|x a IH]; intros [|y b] L; try discriminate; auto. cbn [app combine]. rewrite IH; auto.
Qed.
Lemma In_firstn A n (l : list A) x : In x (firstn n l) -> In x l.
Proof. intro H. rewrite <- (firstn_skipn n l). apply in_or_app. now left. Qed.

Definition row_is (row : list (option R)) (c : formula) (n : nat) : Prop :=
  coef row 0 = Ok (c_rhs c) /\ length (c_old c) = S n /\
  forall j c', nth_error (c_old c) j = Some c' -> coef row (1 + Z.of_nat j) = Ok c'.

Lemma Rsum_app a b : Rsum (a ++ b) = Rsum a + Rsum b.
Proof. induction a as [|x a IH]; cbn [app Rsum]; [ring|]. rewrite IH. ring. Qed.

Lemma old_fold st k past row c xL dt m : ring st k past -> (2 <= k)%nat -> row_is row c (length (firstn (k - 1) past)) ->
  (m <= length (firstn (k - 1) past))%nat ->
  foldM (fun rhs iPrev => do xp <- prev_at st (xPrevs st) iPrev; do c <- coef row (2 + iPrev); Ok (addTo rhs xp (c / dt)))
    xL (map Z.of_nat (seq 0 m))
  = Ok (fun i => xL i + Rsum (map (fun co => fst co * snd co i / dt)
          (combine (firstn m (tl (c_old c))) (map fst (firstn m (firstn (k - 1) past)))))).
Proof.
  intros G K (_ & Lc & Hc) Hm. induction m as [|m IH].
  - cbn. f_equal. apply functional_extensionality. intro i. ring.
  - rewrite seq_S, map_app. cbn [map Nat.add]. rewrite foldM_snoc, IH by lia. cbn [bind].
    destruct (nth_error_lt_Some _ (firstn (k - 1) past) m) as ((y, d) & Hy); [lia|].
    destruct (nth_error_lt_Some _ (c_old c) (S m)) as (cm & Hcm); [lia|].
    destruct (proj2 (g_h _ _ _ G) m y d Hy) as (Px & _). rewrite Px. cbn [bind].
    replace (2 + Z.of_nat m)%Z with (1 + Z.of_nat (S m))%Z by lia. rewrite (Hc _ _ Hcm). cbn [bind]. f_equal.
    apply functional_extensionality. intro i. unfold addTo.
    assert (Ht : nth_error (tl (c_old c)) m = Some cm) by (destruct (c_old c); [discriminate|exact Hcm]).
    rewrite (firstn_snoc _ (tl (c_old c)) m cm Ht), (firstn_snoc _ (firstn (k - 1) past) m (y, d) Hy).
    rewrite map_app. cbn [map fst].
    rewrite combine_app_.
    2: { rewrite map_length, !firstn_length. destruct (c_old c); cbn [tl length] in *; [discriminate|]. rewrite firstn_length in *. lia. }
    rewrite map_app, Rsum_app. cbn [combine map Rsum fst snd]. rewrite Rplus_assoc. f_equal. f_equal. unfold Rdiv. ring.
Qed.

Lemma old_part_spec st k past row c xL dt : ring st k past -> row_is row c (length (firstn (k - 1) past)) ->
  old_part st row xL dt = Ok (old_sum c (xL :: map fst (firstn (k - 1) past)) dt).
Proof.
  intros G Hr. pose proof Hr as (_ & Lc & Hc). unfold old_part.
  destruct (c_old c) as [|c1 cs] eqn:Ec; [discriminate|].
  rewrite (Hc 0%nat c1 eq_refl : coef row 1 = Ok c1). cbn [bind].
  pose proof (g_k _ _ _ G) as Ek. pose proof (g_k1 _ _ _ G) as K1.
  destruct (Z.eqb_spec (kBDF st - 1) 0) as [K|K].
  - assert (k = 1)%nat by lia. subst k. cbn [Nat.sub firstn length map] in *. destruct cs; [|discriminate].
    f_equal. apply functional_extensionality. intro i. unfold old_sum. rewrite Ec. cbn. unfold addTo, setConstant, Rdiv. ring.
  - unfold prev_range. rewrite (proj1 (g_h _ _ _ G)). unfold zlen. rewrite Nat2Z.id.
    rewrite (old_fold st k past row c) by (auto; lia). f_equal. apply functional_extensionality. intro i.
    unfold old_sum. rewrite Ec. cbn [tl combine map Rsum fst snd]. rewrite (firstn_all (firstn (k - 1) past)).
    rewrite (firstn_all2 cs) by (cbn in Lc; lia). unfold addTo, setConstant. f_equal. unfold Rdiv. ring.
Qed.

Section Run.
Context {E T : Type}.
Variable C : calls E T.

Lemma body_spec st k past row c xL dt iter l : ring st k past -> row_is row c (length (firstn (k - 1) past)) ->
  bdf_body C st row xL dt iter l =
    let olds := xL :: map fst (firstn (k - 1) past) in
    let '(e1, x1, t1) := fdt C (r_env l) (r_x l) (r_dTau l) (c_rhs c) 0%Z in
    let '(e2, f, x2, t2) := frhs C e1 (r_rhsbuf l) x1 t1 iter 1 0%Z in
    let '(e3, x3, rhs, resOther, t3, xinc3) :=
      fsolve C e2 x2 (residual c olds dt x2 f) (old_sum c olds dt) t2 dt (c_rhs c) (r_xinc l) iter 1 0%Z in
    let '(e4, x4, xinc4) := fincrement C e3 x3 xinc3 1 0%Z in
    let '(e5, rhs', stop) := fstop C e4 iter rhs 1%Z in
    Ok ({| r_env := e5; r_x := x4; r_xinc := xinc4; r_dTau := t3; r_rhsbuf := f; r_rhs := rhs';
           r_resOther := resOther; r_xIncPrev := xinc4 |}, stop).
Proof.
  intros G Hr. unfold bdf_body. rewrite (proj1 Hr). cbn [bind].
  destruct (fdt C (r_env l) (r_x l) (r_dTau l) (c_rhs c) 0) as ((e1, x1), t1).
  destruct (frhs C e1 (r_rhsbuf l) x1 t1 iter 1 0) as (((e2, f), x2), t2).
  rewrite (old_part_spec st k past row c) by auto. cbn [bind].
  replace (addTo (addTo (old_sum c (xL :: map fst (firstn (k - 1) past)) dt) x2 (-1 / dt)) f (c_rhs c))
    with (residual c (xL :: map fst (firstn (k - 1) past)) dt x2 f); [reflexivity|].
  apply functional_extensionality. intro i. unfold residual, addTo, Rdiv. ring.
Qed.

Lemma loop_spec st k past row c xL dt n : ring st k past -> row_is row c (length (firstn (k - 1) past)) ->
  forall iter l, exists li, loop (bdf_body C st row xL dt) n iter l = Ok li /\
    last_stop C (iter + Z.of_nat n - 1) li = spec_loop C c (xL :: map fst (firstn (k - 1) past)) dt n iter l.
Proof.
  intros G Hr. induction n as [|n IH]; intros iter l; cbn [loop spec_loop].
  - exists (l, iter). split; auto. unfold last_stop. destruct (Z.ltb_spec (iter + Z.of_nat 0 - 1) iter); [reflexivity|lia].
  - rewrite (body_spec st k past row c) by auto. cbn zeta.
    destruct (fdt C (r_env l) (r_x l) (r_dTau l) (c_rhs c) 0) as ((e1, x1), t1).
    destruct (frhs C e1 (r_rhsbuf l) x1 t1 iter 1 0) as (((e2, f), x2), t2).
    destruct (fsolve C e2 x2 _ _ t2 dt (c_rhs c) (r_xinc l) iter 1 0) as (((((e3, x3), rhs), resOther), t3), xinc3).
    destruct (fincrement C e3 x3 xinc3 1 0) as ((e4, x4), xinc4).
    destruct (fstop C e4 iter rhs 1) as ((e5, rhs'), stop). cbn [bind fst snd].
    destruct stop.
    + eexists. split; [reflexivity|]. unfold last_stop.
      destruct (Z.ltb_spec (iter + Z.of_nat (S n) - 1) iter); [lia|reflexivity].
    + match goal with |- context [loop _ n (iter + 1)%Z ?l'] => destruct (IH (iter + 1)%Z l') as (li & E1 & E2) end.
      exists li. split; auto. rewrite <- E2. f_equal. lia.
Qed.

Lemma loop_spec_max st k past row c xL dt maxIter l : ring st k past -> row_is row c (length (firstn (k - 1) past)) ->
  exists li, loop (bdf_body C st row xL dt) (Z.to_nat maxIter) 1 l = Ok li /\
    last_stop C maxIter li = spec_loop C c (xL :: map fst (firstn (k - 1) past)) dt (Z.to_nat maxIter) 1 l.
Proof.
  intros G Hr. destruct (loop_spec st k past row c xL dt (Z.to_nat maxIter) G Hr 1%Z l) as (li & E1 & E2).
  exists li. split; auto. rewrite <- E2. destruct (Z_lt_ge_dec maxIter 0) as [N|N].
  - replace (Z.to_nat maxIter) with 0%nat in * by lia. cbn [loop] in E1. injection E1 as <-. unfold last_stop.
    destruct (Z.ltb_spec maxIter 1); [|lia]. destruct (Z.ltb_spec (1 + Z.of_nat 0 - 1) 1); [reflexivity|lia].
  - f_equal. lia.
Qed.

(** ** Rows *)
Lemma coef_nth row n c : nth_error row n = Some (Some c) -> coef row (Z.of_nat n) = Ok c.
Proof. intro H. unfold coef. now rewrite (vget_of_nat _ _ _ _ H). Qed.
Lemma coef_next row n c : nth_error row (S n) = Some (Some c) -> coef row (1 + Z.of_nat n) = Ok c.
Proof. intro H. rewrite <- (coef_nth _ _ _ H). f_equal. lia. Qed.
Lemma Some_inj A (a b : A) : Some a = Some b -> a = b.
Proof. congruence. Qed.

Lemma bdf_row n dts dt : (n <= 3)%nat -> length dts = n ->
  exists row, vget BDFCoefs (Z.of_nat n) = Ok row /\ row_is row (BDF_formula dts dt) n.
Proof.
  intros Hn L. unfold row_is, BDF_formula. rewrite L.
  destruct n as [|[|[|[|n]]]]; try lia; eexists; (split; [reflexivity|]);
    (split; [apply (coef_nth _ 0); cbn [nth_error nth form_of hd tl c_rhs]; do 2 f_equal; lra|]);
    (split; [reflexivity|]);
    intros [|[|[|[|[|j]]]]] c' H; cbn [nth form_of hd tl c_old nth_error] in H; try discriminate H; apply Some_inj in H; subst c';
    apply coef_next; cbn [nth_error]; do 2 f_equal; lra.
Qed.

Lemma same_dt_spec st k past dt : ring st k past ->
  (Forall (alike dt) (map snd (firstn (k - 1) past)) -> same_dt st dt = Ok tt) /\
  (~ Forall (alike dt) (map snd (firstn (k - 1) past)) -> same_dt st dt = Abort).
Proof.
  intro G. unfold same_dt, prev_range. rewrite (proj1 (g_h _ _ _ G)). unfold zlen. rewrite Nat2Z.id.
  pose proof (proj2 (g_h _ _ _ G)) as H. pose proof (g_k _ _ _ G) as Ek.
  set (kept := firstn (k - 1) past) in *.
  assert (K : kept <> [] -> (kBDF st - 1 =? 0)%Z = false).
  { intro N. unfold kept in N. apply Z.eqb_neq. destruct k as [|[|k]]; [|cbn in N; congruence|lia]. pose proof (g_k1 _ _ _ G). lia. }
  assert (Q : forall m, (m <= length kept)%nat ->
     foldM (fun (_ : unit) iPrev => do _ <- assert_ (negb (kBDF st - 1 =? 0)%Z); do d <- prev_at st (dtPrevs st) iPrev;
        if Rlt_dec (Rabs (d - dt)) (dt * (1 / 100000000)) then Ok tt else Abort) tt (map Z.of_nat (seq 0 m)) = Ok tt /\
        Forall (alike dt) (map snd (firstn m kept)) \/
     foldM (fun (_ : unit) iPrev => do _ <- assert_ (negb (kBDF st - 1 =? 0)%Z); do d <- prev_at st (dtPrevs st) iPrev;
        if Rlt_dec (Rabs (d - dt)) (dt * (1 / 100000000)) then Ok tt else Abort) tt (map Z.of_nat (seq 0 m)) = Abort /\
        ~ Forall (alike dt) (map snd (firstn m kept))).
  { induction m as [|m IH]; intro Hm.
    - left. split; [reflexivity|constructor].
    - destruct (nth_error_lt_Some _ kept m) as ((y, d) & Hy); [lia|].
      destruct (H m y d Hy) as (_ & Pd). rewrite seq_S, map_app. cbn [map Nat.add]. rewrite foldM_snoc.
      rewrite (firstn_snoc _ kept m (y, d) Hy), map_app. cbn [map snd].
      destruct (IH ltac:(lia)) as [(-> & F)|(-> & F)]; cbn [bind].
      + rewrite K by (intro X; rewrite X in Hy; destruct m; discriminate Hy). cbn [negb assert_ bind]. rewrite Pd. cbn [bind].
        destruct (Rlt_dec (Rabs (d - dt)) (dt * (1 / 100000000))) as [A|A].
        * left. split; auto. apply Forall_app. split; auto.
        * right. split; auto. intro X. apply Forall_app in X. destruct X as (_ & X). apply Forall_inv in X. contradiction.
      + right. split; auto. intro X. apply Forall_app in X. tauto. }
  destruct (Q (length kept) (Nat.le_refl _)) as [(-> & F)|(-> & F)]; rewrite firstn_all in F; split; intro X; auto; contradiction.
Qed.

Lemma bdf_step_spec st k past l maxIter dt : ring st k past -> (k <= 4)%nat ->
  Forall (alike dt) (map snd (firstn (k - 1) past)) ->
  exists st', BDF_Step C st l maxIter dt = Ok (st', snd (spec_step C k BDF_formula past l maxIter dt)) /\
    ring st' k (fst (spec_step C k BDF_formula past l maxIter dt)).
Proof.
  intros G K F. unfold BDF_Step. rewrite (proj1 (same_dt_spec st k past dt G) F). cbn [bind].
  rewrite (proj1 (g_h _ _ _ G)). set (kept := firstn (k - 1) past) in *.
  destruct (bdf_row (length kept) (map snd kept) dt) as (row & Er & Hr).
  { unfold kept. rewrite firstn_length. lia. } { apply map_length. }
  unfold zlen. rewrite Er. cbn [bind].
  destruct (loop_spec_max st k past row (BDF_formula (map snd kept) dt) (r_x l) dt maxIter (start l) G Hr) as (li & E1 & E2).
  rewrite E1. cbn [bind]. destruct (push_ring st k past (r_x l) dt G) as (st' & Ep & G').
  rewrite Ep. cbn [bind]. exists st'. split; auto. rewrite E2. reflexivity.
Qed.

Lemma bdf_step_abort st k past l maxIter dt : ring st k past ->
  ~ Forall (alike dt) (map snd (firstn (k - 1) past)) -> BDF_Step C st l maxIter dt = Abort.
Proof. intros G F. unfold BDF_Step. now rewrite (proj2 (same_dt_spec st k past dt G) F). Qed.

Lemma vbdf_row st k past dt : ring st k past -> (k <= 2)%nat -> 0 < dt -> Forall (fun d => 0 < d) (map snd past) ->
  exists row, VBDFCoefs st dt = Ok row /\
    row_is row (VBDF_formula (map snd (firstn (k - 1) past)) dt) (length (firstn (k - 1) past)).
Proof.
  intros G K P F. unfold VBDFCoefs. rewrite (proj1 (g_h _ _ _ G)). pose proof (proj2 (g_h _ _ _ G)) as H.
  pose proof (g_k1 _ _ _ G) as K1.
  destruct (firstn (k - 1) past) as [|(y, d) kept] eqn:Ek.
  - cbn. eexists. split; [reflexivity|]. split; [reflexivity|]. split; [reflexivity|].
    intros [|j] c' Hj; cbn in Hj; [|destruct j; discriminate Hj]. injection Hj as <-. reflexivity.
  - assert (kept = []).
    { assert (L : (length (firstn (k - 1) past) <= 1)%nat) by (rewrite firstn_length; lia).
      rewrite Ek in L. cbn in L. destruct kept; auto. cbn in L. lia. }
    subst kept. cbn [zlen length Z.of_nat]. change (Z.of_nat 1 + 1 =? 1)%Z with false. change (Z.of_nat 1 + 1 =? 2)%Z with true. cbn iota.
    destruct (H 0%nat y d eq_refl) as (_ & Pd). change (Z.of_nat 0) with 0%Z in Pd. rewrite Pd. cbn [bind].
    assert (D0 : 0 < d).
    { rewrite Forall_forall in F. apply F. apply in_map_iff. exists (y, d). split; auto.
      apply (In_firstn _ (k - 1) past). rewrite Ek. now left. }
    assert (W : 0 < dt / d) by (apply Rdiv_lt_0_compat; lra).
    assert (Q : 0 < dt / (d + dt)) by (apply Rdiv_lt_0_compat; lra).
    eexists. split; [reflexivity|]. unfold row_is. split.
    { apply (coef_nth _ 0). cbn [nth_error VBDF_formula map snd form_of hd c_rhs]. do 2 f_equal. field. repeat split; lra. }
    split; [reflexivity|]. intros [|[|j]] c' Hj; cbn [nth_error VBDF_formula map snd form_of tl c_old] in Hj; [| |destruct j; discriminate Hj];
      apply Some_inj in Hj; subst c'; apply coef_next; cbn [nth_error]; do 2 f_equal; field; repeat split; lra.
Qed.

Lemma vbdf_step_spec st k past l maxIter dt : ring st k past -> (k <= 2)%nat ->
  0 < dt -> Forall (fun d => 0 < d) (map snd past) ->
  exists st', VBDF_Step C st l maxIter dt = Ok (st', snd (spec_step C k VBDF_formula past l maxIter dt)) /\
    ring st' k (fst (spec_step C k VBDF_formula past l maxIter dt)).
Proof.
  intros G K P F. unfold VBDF_Step. destruct (vbdf_row st k past dt G K P F) as (row & Er & Hr).
  rewrite Er. cbn [bind].
  destruct (loop_spec_max st k past row (VBDF_formula (map snd (firstn (k - 1) past)) dt) (r_x l) dt maxIter (start l) G Hr) as (li & E1 & E2).
  rewrite E1. cbn [bind]. destruct (push_ring st k past (r_x l) dt G) as (st' & Ep & G').
  rewrite Ep. cbn [bind]. exists st'. split; auto. rewrite E2. reflexivity.
Qed.

(** ** Runs *)
Lemma init_ring k xi di x0 : (1 <= k <= 4)%nat -> exists st, bdf_init (Z.of_nat k) xi di x0 = Ok st /\ ring st k [].
Proof.
  intro K. unfold bdf_init. replace ((0 <? Z.of_nat k)%Z && (Z.of_nat k <=? 4)%Z) with true by lia. cbn [assert_ bind].
  eexists. split; [reflexivity|].
  constructor; cbn [kBDF xPrevs dtPrevs]; rewrite ?map_length, ?seq_length; try lia.
  unfold holds_history. rewrite firstn_nil. split; [reflexivity|]. intros [|j] x dt H; discriminate H.
Qed.

Lemma spec_past k form todo : forall past l,
  map snd (fst (spec_steps C k form past l todo)) = rev (map snd todo) ++ map snd past.
Proof.
  unfold spec_steps. induction todo as [|t todo IH]; intros past l; cbn [fold_left]; auto.
  destruct (spec_step C k form (fst (past, l)) _ _ _) as (past1, l1) eqn:E1. rewrite IH.
  unfold spec_step in E1. injection E1 as <- _. cbn [map rev snd fst]. rewrite <- app_assoc. reflexivity.
Qed.

Lemma bdf_runs k todo : (1 <= k <= 4)%nat -> forall st past l, ring st k past -> steady k (map snd past) (map snd todo) ->
  exists st', steps (BDF_Step C) st l todo = Ok (st', snd (spec_steps C k BDF_formula past l todo)) /\
    ring st' k (fst (spec_steps C k BDF_formula past l todo)).
Proof.
  intros K. unfold steps, spec_steps. induction todo as [|((ch, mi), dt) todo IH]; intros st past l G S; cbn [foldM fold_left fst snd].
  - exists st. auto.
  - cbn [map snd steady] in S. destruct S as (S1 & S2). rewrite firstn_map in S1.
    destruct (bdf_step_spec st k past (ch l) mi dt G (proj2 K) S1) as (st1 & E1 & G1).
    rewrite E1. cbn [bind].
    specialize (IH st1 ((r_x (ch l), dt) :: past) (snd (spec_step C k BDF_formula past (ch l) mi dt)) G1 S2). exact IH.
Qed.

Lemma vbdf_runs k todo : (1 <= k <= 2)%nat -> Forall (fun t => 0 < snd t) todo ->
  forall st past l, ring st k past -> Forall (fun d => 0 < d) (map snd past) ->
  exists st', steps (VBDF_Step C) st l todo = Ok (st', snd (spec_steps C k VBDF_formula past l todo)) /\
    ring st' k (fst (spec_steps C k VBDF_formula past l todo)).
Proof.
  intros K P. unfold steps, spec_steps. induction P as [|((ch, mi), dt) todo P1 P IH]; intros st past l G S; cbn [foldM fold_left fst snd].
  - exists st. auto.
  - cbn [snd] in P1. destruct (vbdf_step_spec st k past (ch l) mi dt G (proj2 K) P1 S) as (st1 & E1 & G1).
    rewrite E1. cbn [bind].
    apply (IH st1 ((r_x (ch l), dt) :: past) (snd (spec_step C k VBDF_formula past (ch l) mi dt)) G1). constructor; auto.
Qed.

Lemma bdf_run k xi di x0 l todo : (1 <= k <= 4)%nat -> steady k [] (map snd todo) ->
  exists st0 st, bdf_init (Z.of_nat k) xi di x0 = Ok st0 /\
    steps (BDF_Step C) st0 l todo = Ok (st, snd (spec_steps C k BDF_formula [] l todo)) /\
    holds_history st k (fst (spec_steps C k BDF_formula [] l todo)).
Proof.
  intros K S. destruct (init_ring k xi di x0 K) as (st0 & E0 & G0).
  destruct (bdf_runs k todo K st0 [] l G0 S) as (st & E1 & G1). exists st0, st. split; auto. split; auto. apply G1.
Qed.

Lemma bdf_run_change k xi di x0 l todo ch mi dt : (1 <= k <= 4)%nat -> steady k [] (map snd todo) ->
  ~ Forall (alike dt) (firstn (k - 1) (rev (map snd todo))) ->
  exists st0, bdf_init (Z.of_nat k) xi di x0 = Ok st0 /\ steps (BDF_Step C) st0 l (todo ++ [(ch, mi, dt)]) = Abort.
Proof.
  intros K S N. destruct (init_ring k xi di x0 K) as (st0 & E0 & G0).
  destruct (bdf_runs k todo K st0 [] l G0 S) as (st & E1 & G1). exists st0. split; auto.
  unfold steps in *. rewrite foldM_snoc, E1. cbn [bind fst snd]. eapply bdf_step_abort; [exact G1|].
  rewrite <- firstn_map, spec_past. cbn [map]. now rewrite app_nil_r.
Qed.

Lemma vbdf_run k xi di x0 l todo : (1 <= k <= 2)%nat -> Forall (fun t => 0 < snd t) todo ->
  exists st0 st, vbdf_init (Z.of_nat k) xi di x0 = Ok st0 /\
    steps (VBDF_Step C) st0 l todo = Ok (st, snd (spec_steps C k VBDF_formula [] l todo)) /\
    holds_history st k (fst (spec_steps C k VBDF_formula [] l todo)).
Proof.
  intros K S. destruct (init_ring k xi di x0 ltac:(lia)) as (st0 & E0 & G0).
  destruct (vbdf_runs k todo K S st0 [] l G0 (Forall_nil _)) as (st & E1 & G1). exists st0, st.
  split; [|split; [auto|apply G1]]. unfold vbdf_init. rewrite E0. cbn [bind]. replace (Z.of_nat k <=? 2)%Z with true by lia. reflexivity.
Qed.

(** At a constant step both run alike. *)
Lemma const_runs k dt todo : (1 <= k <= 2)%nat -> 0 < dt -> Forall (fun t => snd t = dt) todo ->
  forall past l, Forall (eq dt) (map snd past) ->
  spec_steps C k VBDF_formula past l todo = spec_steps C k BDF_formula past l todo.
Proof.
  intros K P F. unfold spec_steps. induction F as [|((ch, mi), d) todo F1 F IH]; intros past l H; auto.
  cbn [snd] in F1. subst d. cbn [fold_left fst snd].
  assert (Ef : spec_step C k VBDF_formula past (ch l) mi dt = spec_step C k BDF_formula past (ch l) mi dt).
  { unfold spec_step. rewrite vbdf_constant; auto.
    - rewrite map_length, firstn_length. lia.
    - rewrite <- firstn_map. rewrite Forall_forall in *. intros d I. apply H. eapply In_firstn; eauto. }
  rewrite Ef. destruct (spec_step C k BDF_formula past (ch l) mi dt) as (past1, l1) eqn:E1.
  apply IH. unfold spec_step in E1. injection E1 as <- _. constructor; auto.
Qed.

Lemma steady_const k dt n : 0 < dt -> forall past, Forall (eq dt) past -> steady k past (repeat dt n).
Proof.
  intro P. induction n as [|n IH]; intros past F; cbn [repeat steady]; auto. split.
  - apply Forall_forall. intros d I. apply In_firstn in I. rewrite Forall_forall in F. rewrite <- (F d I).
    unfold alike. rewrite Rminus_eq_0, Rabs_R0. lra.
  - apply IH. constructor; auto.
Qed.

Lemma const_run k dt xi di x0 l todo : (1 <= k <= 2)%nat -> 0 < dt -> Forall (fun t => snd t = dt) todo ->
  exists st0 st1 st2 l', bdf_init (Z.of_nat k) xi di x0 = Ok st0 /\ vbdf_init (Z.of_nat k) xi di x0 = Ok st0 /\
    steps (BDF_Step C) st0 l todo = Ok (st1, l') /\ steps (VBDF_Step C) st0 l todo = Ok (st2, l').
Proof.
  intros K P F.
  assert (S : steady k [] (map snd todo)).
  { replace (map snd todo) with (repeat dt (length todo)).
    - apply steady_const; auto.
    - clear - F. induction F as [|t todo H F IH]; auto. cbn [length repeat map]. now rewrite IH, H. }
  destruct (bdf_run k xi di x0 l todo ltac:(lia) S) as (st0 & st1 & E0 & E1 & _).
  destruct (vbdf_run k xi di x0 l todo K) as (st0' & st2 & E0' & E2 & _).
  { eapply Forall_impl; [|exact F]. cbv beta. intros a H. rewrite H. exact P. }
  assert (st0' = st0). { unfold vbdf_init in E0'. rewrite E0 in E0'. cbn [bind] in E0'. apply bind_Ok in E0'. destruct E0' as (u & _ & E0'). congruence. }
  subst st0'. exists st0, st1, st2, (snd (spec_steps C k BDF_formula [] l todo)).
  rewrite (const_runs k dt todo K P F [] l (Forall_nil _)) in E2. auto.
Qed.
End Run.

(** ** StepPP *)
Lemma rel_bind {A B A' B'} (R0 : A -> B -> Prop) (R1 : A' -> B' -> Prop) a b f g :
  rel_res R0 a b -> (forall x y, R0 x y -> rel_res R1 (f x) (g y)) -> rel_res R1 (bind a f) (bind b g).
Proof. destruct a, b; cbn; intros H K; try contradiction; auto. Qed.
Lemma rel_refl {A} (a : res A) : rel_res eq a a.
Proof. destruct a; cbn; auto. Qed.

Lemma loop_rel {L L'} (R0 : L -> L' -> Prop) body body' :
  (forall it a a', R0 a a' -> rel_res (fun x y => R0 (fst x) (fst y) /\ snd x = snd y) (body it a) (body' it a')) ->
  forall n it a a', R0 a a' -> rel_res (fun x y => R0 (fst x) (fst y) /\ snd x = snd y) (loop body n it a) (loop body' n it a').
Proof.
  intro H. induction n as [|n IH]; intros it a a' Ha; cbn [loop].
  - cbn. auto.
  - eapply rel_bind; [apply H; exact Ha|]. intros (x, s) (y, s') (Hx & Hs). cbn [fst snd] in *. subst s'.
    destruct s; [cbn; auto|]. apply IH. exact Hx.
Qed.

Section PP.
Context {E T : Type}.
Variables C C' : calls E T.
Variable Lm : limiters (E := E).
Hypothesis In_ : inactive Lm.
Hypothesis HS : same_but_rhs C C'.

Lemma last_stop_rel mi l l' it : same_but_rhsbuf l l' -> same_but_rhsbuf (last_stop C mi (l, it)) (last_stop C' mi (l', it)).
Proof.
  intros U. pose proof U as (U1 & U2 & U3 & U4 & U5 & U6 & U7). unfold last_stop. destruct (mi <? it)%Z; auto.
  destruct HS as (_ & _ & Es & _). rewrite <- Es, U1, U5. destruct (fstop C (r_env l') it (r_rhs l') 1) as ((e, r), b).
  unfold same_but_rhsbuf. cbn. auto 10.
Qed.

Lemma bdf_body_rel st row dt it a a' :
  (let '(l, xL, _) := a in let '(l', xL', _) := a' in same_but_rhsbuf l l' /\ xL = xL') ->
  rel_res (fun x y => (let '(l, xL, _) := fst x in let '(l', xL', _) := fst y in same_but_rhsbuf l l' /\ xL = xL') /\ snd x = snd y)
    (bdf_body_PP C Lm st row dt it a) (bdf_body_PP C' Lm st row dt it a').
Proof.
  destruct a as ((l, xL), ri), a' as ((l', xL'), ri'). intros (U & <-).
  pose proof U as (U1 & U2 & U3 & U4 & U5 & U6 & U7). destruct HS as (E1 & E2 & E3 & E4 & E5). destruct In_ as (I1 & I2).
  unfold bdf_body_PP. destruct (coef row 0) as [c0| |]; cbn [bind]; try exact I.
  rewrite <- E1, <- E2, <- E3, <- E4, U1, U2, U4.
  destruct (fdt C (r_env l') (r_x l') (r_dTau l') c0 0) as ((e1, x1), t1).
  specialize (E5 e1 (r_rhsbuf l) (r_rhsbuf l') x1 t1 it 1 0%Z).
  destruct (frhs C e1 (r_rhsbuf l) x1 t1 it 1 0) as (((e2, f), x2), t2).
  destruct (frhs C' e1 (r_rhsbuf l') x1 t1 it 1 0) as (((e2', f'), x2'), t2'). destruct E5 as (<- & <- & <-).
  destruct (old_part_PP st row xL dt) as [r0| |] eqn:Eo; cbn [bind]; try exact I.
  match goal with |- context [fresidualIncPP Lm e2 x2 xL f ri ?renew 1 0%Z] =>
    assert (Hren : forall e' xp' f', fst (renew e' xp' f') = e') by
      (intros e' xp' f0; cbv beta; destruct (old_part_PP st row xp' dt); try reflexivity; rewrite I1; reflexivity);
    destruct (I2 e2 x2 xL f ri renew 1 0%Z Hren) as (ri1 & ->); destruct (I2 e2 x2 xL f' ri' renew 1 0%Z Hren) as (ri2 & ->) end.
  rewrite Eo. cbn [bind]. rewrite I1, U3.
  destruct (fsolve C e2 x2 _ _ t2 dt c0 (r_xinc l') it 1 0) as (((((e5, x5), rhs'), ro'), t5), xinc5).
  destruct (fincrement C e5 x5 xinc5 1 0) as ((e6, x6), xinc6). destruct (fstop C e6 it rhs' 1) as ((e7, rhs''), stop).
  cbn. unfold same_but_rhsbuf. cbn. auto 10.
Qed.

Lemma bdf_PP_rel st l ri mi dt :
  rel_res (fun a b => fst a = fst b /\ same_but_rhsbuf (snd a) (snd b)) (BDF_StepPP C Lm st l ri mi dt) (BDF_StepPP C' Lm st l ri mi dt).
Proof.
  unfold BDF_StepPP. eapply rel_bind; [apply rel_refl|]. intros _ _ _.
  eapply rel_bind; [apply rel_refl|]. intros row _ <-.
  eapply rel_bind.
  - apply loop_rel with (R0 := fun a a' => let '(l, xL, _) := a in let '(l', xL', _) := a' in same_but_rhsbuf l l' /\ xL = xL').
    + intros it a a' H. now apply bdf_body_rel.
    + unfold same_but_rhsbuf. auto 10.
  - intros (((l1, xL1), ri1), it1) (((l2, xL2), ri2), it2) ((U & <-) & Es). cbn [fst snd] in *. subst it2.
    destruct (bdf_push st xL1 dt); cbn; auto. split; auto. now apply last_stop_rel.
Qed.

Lemma vbdf_body_rel st row xL dt it a a' : same_but_rhsbuf (fst a) (fst a') /\ r_rhsbuf (fst a) = r_rhsbuf (fst a') ->
  rel_res (fun x y => (same_but_rhsbuf (fst (fst x)) (fst (fst y)) /\ r_rhsbuf (fst (fst x)) = r_rhsbuf (fst (fst y))) /\ snd x = snd y)
    (vbdf_body_PP C Lm st row xL dt it a) (vbdf_body_PP C' Lm st row xL dt it a').
Proof.
  destruct a as (l, ri), a' as (l', ri'). cbn [fst]. intros (U & Ub).
  pose proof U as (U1 & U2 & U3 & U4 & U5 & U6 & U7). destruct HS as (E1 & E2 & E3 & E4 & E5). destruct In_ as (I1 & I2).
  unfold vbdf_body_PP. destruct (coef row 0) as [c0| |]; cbn [bind]; try exact I.
  rewrite <- E1, <- E2, <- E3, <- E4, U1, U2, U4.
  destruct (fdt C (r_env l') (r_x l') (r_dTau l') c0 0) as ((e1, x1), t1).
  specialize (E5 e1 (r_rhs l) (r_rhs l') x1 t1 it 1 0%Z).
  destruct (frhs C e1 (r_rhs l) x1 t1 it 1 0) as (((e2, f), x2), t2).
  destruct (frhs C' e1 (r_rhs l') x1 t1 it 1 0) as (((e2', f'), x2'), t2'). destruct E5 as (<- & <- & <-).
  destruct (old_part st row xL dt) as [r0| |] eqn:Eo; cbn [bind]; try exact I.
  match goal with |- context [fresidualIncPP Lm e2 x2 r0 (r_rhsbuf l) ri ?renew 1 0%Z] =>
    assert (Hren : forall e' xp' f', fst (renew e' xp' f') = e') by (intros e' xp' f0; reflexivity);
    destruct (I2 e2 x2 r0 (r_rhsbuf l) ri renew 1 0%Z Hren) as (ri1 & ->); destruct (I2 e2 x2 r0 (r_rhsbuf l') ri' renew 1 0%Z Hren) as (ri2 & ->) end.
  rewrite Ub, U3.
  destruct (fsolve C e2 x2 _ _ t2 dt c0 (r_xinc l') it 1 0) as (((((e5, x5), rhs'), ro'), t5), xinc5).
  destruct (fincrement C e5 x5 xinc5 1 0) as ((e6, x6), xinc6). destruct (fstop C e6 it rhs' 1) as ((e7, rhs''), stop).
  cbn. unfold same_but_rhsbuf. cbn. auto 10.
Qed.

Lemma vbdf_PP_rel st l ri mi dt :
  rel_res (fun a b => fst a = fst b /\ same_but_rhsbuf (snd a) (snd b)) (VBDF_StepPP C Lm st l ri mi dt) (VBDF_StepPP C' Lm st l ri mi dt).
Proof.
  unfold VBDF_StepPP. eapply rel_bind; [apply rel_refl|]. intros row _ <-.
  eapply rel_bind.
  - apply loop_rel with (R0 := fun a a' : regs E T * D => same_but_rhsbuf (fst a) (fst a') /\ r_rhsbuf (fst a) = r_rhsbuf (fst a')).
    + intros it a a' H. now apply vbdf_body_rel.
    + unfold same_but_rhsbuf. auto 10.
  - intros ((l1, ri1), it1) ((l2, ri2), it2) ((U & _) & Es). cbn [fst snd] in *. subst it2.
    destruct (bdf_push st (r_x l) dt); cbn; auto. split; auto. now apply last_stop_rel.
Qed.
End PP.

(** *** What the buffer keeps *)
Section PPHistory.
Context {E T : Type}.
Variable C : calls E T.
Variable Lm : limiters (E := E).
Hypothesis In_ : inactive Lm.

Lemma loop_inv {L} (P : L -> Prop) body : (forall it a b s, P a -> body it a = Ok (b, s) -> P b) ->
  forall n it a b i, P a -> loop body n it a = Ok (b, i) -> P b.
Proof.
  intro H. induction n as [|n IH]; intros it a b i Ha; cbn [loop].
  - intro Q. injection Q as <- _. exact Ha.
  - intro Q. apply bind_Ok in Q. destruct Q as ((c, s) & Q1 & Q2). cbn [fst snd] in Q2.
    pose proof (H _ _ _ _ Ha Q1) as Hc. destruct s.
    + injection Q2 as <- _. exact Hc.
    + eapply IH; eauto.
Qed.

Lemma bdf_PP_keeps st l ri mi dt st1 l1 st2 l2 :
  BDF_StepPP C Lm st l ri mi dt = Ok (st1, l1) -> BDF_Step C st l mi dt = Ok (st2, l2) -> st1 = st2.
Proof.
  intros H1 H2. unfold BDF_StepPP in H1. unfold BDF_Step in H2.
  apply bind_Ok in H1. destruct H1 as (u & _ & H1). apply bind_Ok in H1. destruct H1 as (row & _ & H1).
  apply bind_Ok in H1. destruct H1 as ((((l', xL), ri'), i) & Q & H1). cbn [fst snd] in H1.
  apply bind_Ok in H1. destruct H1 as (st' & P1 & H1). injection H1 as <- _.
  apply bind_Ok in H2. destruct H2 as (u2 & _ & H2). apply bind_Ok in H2. destruct H2 as (row2 & _ & H2).
  apply bind_Ok in H2. destruct H2 as (li & _ & H2). apply bind_Ok in H2. destruct H2 as (st'' & P2 & H2). injection H2 as <- _.
  assert (xL = r_x l).
  { apply (loop_inv (fun s : pregs => snd (fst s) = r_x l)) in Q; [exact Q| |reflexivity].
    clear - In_. intros it ((a, xa), ra) ((b, xb), rb) s Ha Hb. cbn [fst snd] in *. subst xa.
    destruct In_ as (I1 & I2). unfold bdf_body_PP in Hb.
    destruct (coef row 0) as [c0| |]; cbn [bind] in Hb; try discriminate.
    destruct (fdt C (r_env a) (r_x a) (r_dTau a) c0 0) as ((e1, x1), t1).
    destruct (frhs C e1 (r_rhsbuf a) x1 t1 it 1 0) as (((e2, f), x2), t2).
    destruct (old_part_PP st row (r_x l) dt) as [r0| |] eqn:Eo; cbn [bind] in Hb; try discriminate.
    match type of Hb with context [fresidualIncPP Lm e2 x2 (r_x l) f ra ?renew 1 0%Z] =>
      assert (Hren : forall e' xp' f', fst (renew e' xp' f') = e') by
      (intros e' xp' f0; cbv beta; destruct (old_part_PP st row xp' dt); try reflexivity; rewrite I1; reflexivity);
      destruct (I2 e2 x2 (r_x l) f ra renew 1 0%Z Hren) as (ri1 & Hri); rewrite Hri in Hb; clear Hri Hren end.
    rewrite Eo in Hb. cbn [bind] in Hb. rewrite I1 in Hb.
    destruct (fsolve C e2 x2 _ _ t2 dt c0 (r_xinc a) it 1 0) as (((((e5, x5), rhs'), ro'), t5), xinc5).
    destruct (fincrement C e5 x5 xinc5 1 0) as ((e6, x6), xinc6). destruct (fstop C e6 it rhs' 1) as ((e7, rhs''), stop).
    now injection Hb. }
  subst xL. congruence.
Qed.

Lemma vbdf_PP_keeps st l ri mi dt st1 l1 st2 l2 :
  VBDF_StepPP C Lm st l ri mi dt = Ok (st1, l1) -> VBDF_Step C st l mi dt = Ok (st2, l2) -> st1 = st2.
Proof.
  intros H1 H2. unfold VBDF_StepPP in H1. unfold VBDF_Step in H2.
  apply bind_Ok in H1. destruct H1 as (row & _ & H1). apply bind_Ok in H1. destruct H1 as (li & _ & H1).
  apply bind_Ok in H1. destruct H1 as (st' & P1 & H1). injection H1 as <- _.
  apply bind_Ok in H2. destruct H2 as (row2 & _ & H2). apply bind_Ok in H2. destruct H2 as (li2 & _ & H2).
  apply bind_Ok in H2. destruct H2 as (st'' & P2 & H2). injection H2 as <- _. congruence.
Qed.
End PPHistory.

(** *** Refutations: the solution of x' = 1 *)
Definition uno (f : R) : calls unit unit := {|
  frhs := fun e _ x t _ _ _ => (e, setConstant f, x, t);
  fdt := fun e x t _ _ => (e, x, t);
  fsolve := fun e x rhs ro t dt _ _ _ _ _ => (e, x, rhs, ro, t, scale rhs dt);
  fstop := fun e _ rhs _ => (e, rhs, false);
  fincrement := fun e x xinc _ _ => (e, plus x xinc, xinc) |}.
Definition idle : limiters (E := unit) := {|
  falphaLimSource := fun e v _ => (e, v);
  fresidualIncPP := fun e x xp f ri _ _ _ => (e, x, xp, f, ri) |}.
Definition zero_regs : regs unit unit := {| r_env := tt; r_x := setConstant 0; r_xinc := setConstant 0;
  r_dTau := tt; r_rhsbuf := setConstant 0; r_rhs := setConstant 0; r_resOther := setConstant 0;
  r_xIncPrev := setConstant 0 |}.
Definition fresh : bdf := {| xPrevs := []; dtPrevs := []; xLast := setConstant 0; cnPrev := 0; prevStart := -1; kBDF := 1 |}.

Lemma idle_inactive : inactive idle.
Proof. split; cbn; eauto. Qed.

Lemma step_uno : match BDF_Step (uno 1) fresh zero_regs 1 1, VBDF_Step (uno 1) fresh zero_regs 1 1 with
  | Ok (_, l), Ok (_, l') => r_x l 0%nat = 1 /\ r_x l' 0%nat = 1 | _, _ => False end.
Proof. cbv -[Rplus Rmult Rdiv Ropp Rinv IZR]. split; field. Qed.
Lemma stepPP_uno : match BDF_StepPP (uno 1) idle fresh zero_regs (setConstant 0) 1 1,
    VBDF_StepPP (uno 1) idle fresh zero_regs (setConstant 0) 1 1 with
  | Ok (_, l), Ok (_, l') => r_x l 0%nat = 0 /\ r_x l' 0%nat = 0 | _, _ => False end.
Proof. cbv -[Rplus Rmult Rdiv Ropp Rinv IZR]. split; field. Qed.

Lemma PP_differs : ~ (forall (C : calls unit unit) Lm st l ri mi dt st1 l1 st2 l2, inactive Lm ->
  BDF_Step C st l mi dt = Ok (st1, l1) -> BDF_StepPP C Lm st l ri mi dt = Ok (st2, l2) -> r_x l1 = r_x l2).
Proof.
  intro H. pose proof step_uno as A. pose proof stepPP_uno as B.
  destruct (BDF_Step (uno 1) fresh zero_regs 1 1) as [(st1, l1)| |] eqn:E1; try contradiction.
  destruct (BDF_StepPP (uno 1) idle fresh zero_regs (setConstant 0) 1 1) as [(st2, l2)| |] eqn:E2; try contradiction.
  pose proof (H _ _ _ _ _ _ _ _ _ _ _ idle_inactive E1 E2) as Q.
  destruct (VBDF_Step _ _ _ _ _) as [(?, ?)| |]; try contradiction. destruct (VBDF_StepPP _ _ _ _ _ _ _) as [(?, ?)| |]; try contradiction.
  rewrite Q in A. lra.
Qed.
Lemma VPP_differs : ~ (forall (C : calls unit unit) Lm st l ri mi dt st1 l1 st2 l2, inactive Lm ->
  VBDF_Step C st l mi dt = Ok (st1, l1) -> VBDF_StepPP C Lm st l ri mi dt = Ok (st2, l2) -> r_x l1 = r_x l2).
Proof.
  intro H. pose proof step_uno as A. pose proof stepPP_uno as B.
  destruct (VBDF_Step (uno 1) fresh zero_regs 1 1) as [(st1, l1)| |] eqn:E1; [|destruct (BDF_Step _ _ _ _ _) as [(?, ?)| |]; contradiction..].
  destruct (VBDF_StepPP (uno 1) idle fresh zero_regs (setConstant 0) 1 1) as [(st2, l2)| |] eqn:E2;
    [|destruct (BDF_StepPP _ _ _ _ _ _ _) as [(?, ?)| |]; contradiction..].
  pose proof (H _ _ _ _ _ _ _ _ _ _ _ idle_inactive E1 E2) as Q.
  destruct (BDF_Step _ _ _ _ _) as [(?, ?)| |]; try contradiction. destruct (BDF_StepPP _ _ _ _ _ _ _) as [(?, ?)| |]; try contradiction.
  rewrite Q in A. lra.
Qed.
