From Coq Require Import Reals List Arith Lra Lia Psatz.
From Verif Require Import Base.Prelude Base.PreludeFacts Euler.GasModel Euler.GasProofs
  Euler.CompressModel Euler.CompressProofs Euler.PositiveModel Euler.PositiveSpec Euler.PositiveProofs
  Euler.PositiveIncProofs Euler.PositiveFixProofs.
Import ListNotations.
Local Open Scope R_scope.

(** *** EvaluateCellRHSAlpha on all ranks *)
Section All.
  Variables (d : nat) (st : settings) (rx : R) (compress : nat).
  Hypothesis SA : sane st.
  Hypothesis RX : relax_allowed st rx.
  Hypothesis HN : (1 <= compress * alpha_power st)%nat.

  Definition cell_result (c : state * state) (p : R * bool) : Prop :=
    0 <= fst p <= 1 /\ (snd p = true <-> fst p < 1) /\
    forall t, 0 <= t <= fst p -> physical d (kept_rho st rx (fst c)) (kept_e d st rx (fst c)) (step (fst c) (snd c) t).

  Lemma cells_ok : forall cells, (forall c, In c cells -> cell_ok d st rx (fst c)) ->
    exists l, rhs_alpha_cells d st rx compress cells = Ok l /\ Forall2 cell_result cells l.
  Proof.
    induction cells as [|(u, x) t IH]; intro H; [exists []; split; [reflexivity|constructor]|].
    cbn. destruct (rhs_alpha_cell_ok d st rx compress u x SA RX (H (u, x) (or_introl eq_refl)) HN) as (a & b & -> & A & B & C).
    cbn [bind]. destruct IH as (l & -> & F); [intros; apply H; right; auto|]. cbn [bind].
    exists ((a, b) :: l). split; [reflexivity|]. constructor; [split; [exact A|split; [exact B|exact C]]|auto].
  Qed.

  Lemma ranks_ok : forall ranks, (forall r c, In r ranks -> In c r -> cell_ok d st rx (fst c)) ->
    exists ls, mapM (rhs_alpha_cells d st rx compress) ranks = Ok ls /\ Forall2 (Forall2 cell_result) ranks ls.
  Proof.
    induction ranks as [|r t IH]; intro H; [exists []; split; [reflexivity|constructor]|].
    cbn. destruct (cells_ok r) as (l & -> & F); [intros; eapply H; eauto; left; auto|]. cbn [bind].
    destruct IH as (ls & -> & Fs); [intros; eapply H; eauto; right; auto|]. cbn [bind].
    exists (l :: ls). split; [reflexivity|]. constructor; auto.
  Qed.

  Lemma local_min_range : forall cells l, Forall2 cell_result cells l ->
    0 <= local_min l <= 1 /\ (forall p, In p l -> snd p = true -> local_min l <= fst p) /\
    (local_min l = 1 \/ exists p, In p l /\ snd p = true /\ local_min l = fst p).
  Proof.
    induction 1 as [|c p cells l (A & B & _) F IH]; [split; [cbn; lra|split; [intros p []|left; reflexivity]]|].
    cbn [local_min fold_right]. fold (local_min l). destruct IH as (I1 & I2 & I3). destruct p as (a, b). cbn [fst snd] in *.
    destruct b.
    - split; [split; [apply Rmin_glb; lra|eapply Rle_trans; [apply Rmin_l|lra]]|]. split.
      + intros p [<-|Hp] Hs; [apply Rmin_r|]. eapply Rle_trans; [apply Rmin_l|auto].
      + right. unfold Rmin. destruct (Rle_dec (local_min l) a) as [L|G].
        * destruct I3 as [E|(p & Hp & Hs & E)].
          { exfalso. assert (a < 1) by (apply B; auto). lra. }
          exists p. split; [right; auto|auto].
        * exists (a, true). split; [left; auto|auto].
    - split; [auto|]. split.
      + intros p [<-|Hp] Hs; [discriminate|auto].
      + destruct I3 as [E|(p & Hp & Hs & E)]; [auto|]. right. exists p. split; [right; auto|auto].
  Qed.

  Lemma global_min_range : forall ranks ls, Forall2 (Forall2 cell_result) ranks ls ->
    let m := fold_right Rmin 1 (map local_min ls) in
    0 <= m <= 1 /\ (forall l p, In l ls -> In p l -> snd p = true -> m <= fst p) /\
    (m = 1 \/ exists l p, In l ls /\ In p l /\ snd p = true /\ m = fst p).
  Proof.
    induction 1 as [|r l ranks ls F Fs IH]; cbn; [split; [lra|split; [intros ? ? []|left; reflexivity]]|].
    cbv zeta in IH. set (m := fold_right Rmin 1 (map local_min ls)) in *. destruct IH as (I1 & I2 & I3).
    destruct (local_min_range r l F) as (L1 & L2 & L3).
    split; [split; [apply Rmin_glb; lra|eapply Rle_trans; [apply Rmin_l|lra]]|]. split.
    - intros l' p [<-|Hl] Hp Hs.
      + eapply Rle_trans; [apply Rmin_l|auto].
      + eapply Rle_trans; [apply Rmin_r|eauto].
    - unfold Rmin. destruct (Rle_dec (local_min l) m) as [A|A].
      + destruct L3 as [E|(p & Hp & Hs & E)]; [left; auto|]. right. exists l, p. auto.
      + destruct I3 as [E|(l' & p & Hl & Hp & Hs & E)]; [left; auto|]. right. exists l', p. auto.
  Qed.

  (** the result for a cell after the flags *)
  Definition final_result (c : state * state) (a : R) : Prop :=
    0 <= a <= 1 /\
    forall t, 0 <= t <= a -> physical d (kept_rho st rx (fst c)) (kept_e d st rx (fst c)) (step (fst c) (snd c) t).

  Lemma spread_ok : forall f1 f2 m cells l, 0 <= m <= 1 -> Forall2 cell_result cells l ->
    (forall p, In p l -> snd p = true -> m <= fst p) -> 
    Forall2 final_result cells (spread_min f1 f2 m l).
  Proof.
    intros f1 f2 m cells l Hm F. induction F as [|c (a, b) cells l (A & B & C) F IH]; intro H; [constructor|].
    cbn [spread_min map]. constructor; [|apply IH; intros; apply H; [right; auto|auto]].
    cbn [fst snd] in *.
    assert (Ha : m <= a).
    { destruct b; [apply (H (a, true)); [left; auto|auto]|].
      destruct (Rlt_or_le a 1) as [L|G]; [apply B in L; discriminate|lra]. }
    assert (W : forall x, 0 <= x <= a -> final_result c x).
    { intros x Hx. split; [lra|]. intros t Ht. apply C. lra. }
    destruct f2; [apply W; lra|]. destruct f1; [|apply W; lra]. destruct (Rlt_dec a 1); apply W; lra.
  Qed.

  Lemma spread_count : forall f1 m cells l, (m < 1 \/ local_count l = 0%nat) -> Forall2 cell_result cells l ->
    count_below_one (spread_min f1 false m l) = local_count l.
  Proof.
    intros f1 m cells l Hm F. induction F as [|c (a, b) cells l (A & B & C) F IH]; [reflexivity|].
    unfold count_below_one, local_count, spread_min in *. cbn [map filter fst snd] in *.
    assert (Hl : m < 1 \/ length (filter (fun p : R * bool => snd p) l) = 0%nat).
    { destruct Hm as [|Hm]; [auto|]. right. destruct b; [cbn in Hm; lia|auto]. }
    specialize (IH Hl). rewrite map_map in *.
    destruct b.
    - assert (La : a < 1) by (apply B; auto).
      destruct Hm as [Hm|Hm]; [|cbn in Hm; lia].
      destruct f1; (destruct (Rlt_dec a 1); [|lra]).
      + destruct (Rlt_dec m 1); [|lra]. cbn [length]. rewrite IH. reflexivity.
      + cbn [length]. rewrite IH. reflexivity.
    - assert (La : ~ a < 1) by (intro G; apply B in G; discriminate).
      destruct f1; (destruct (Rlt_dec a 1); [lra|]); try (destruct (Rlt_dec a 1); [lra|]); exact IH.
  Qed.

  Lemma count_app : forall l l', count_below_one (l ++ l') = (count_below_one l + count_below_one l')%nat.
  Proof. intros. unfold count_below_one. rewrite filter_app, app_length. reflexivity. Qed.

  Theorem rhs_alpha_ok : forall f1 f2 ranks, (forall r c, In r ranks -> In c r -> cell_ok d st rx (fst c)) ->
    exists alphas n m, rhs_alpha d st rx compress f1 f2 ranks = Ok (alphas, n, m) /\ 0 <= m <= 1 /\
      Forall2 (Forall2 final_result) ranks alphas /\
      (f2 = false -> n = count_below_one (concat alphas)) /\
      (forall l a, In l alphas -> In a l -> m <= a) /\
      (f1 = true -> forall l a, In l alphas -> In a l -> a = m \/ a = 1).
  Proof.
    intros f1 f2 ranks H. unfold rhs_alpha.
    replace (if relaxed st then if Rlt_dec rx 1 then true else false else true) with true.
    2:{ destruct RX as (_ & RL). destruct (relaxed st); [destruct (Rlt_dec rx 1); [auto|specialize (RL eq_refl); lra]|auto]. }
    destruct (ranks_ok ranks H) as (ls & -> & F). cbn [bind].
    pose proof (global_min_range ranks ls F) as G. cbv zeta in G.
    set (m := fold_right Rmin 1 (map local_min ls)) in *. destruct G as (G1 & G2 & G3).
    eexists _, _, m. split; [reflexivity|]. split; [auto|].
    split; [|split; [|split]].
    - clear G3. clearbody m. clear H. induction F as [|r l ranks ls F Fs IH]; cbn; constructor.
      + apply spread_ok; auto. intros p Hp Hs. apply (G2 l p); auto. left; auto.
      + apply IH. intros l' p Hl. apply G2. right. auto.
    - intros ->. assert (Q : m < 1 \/ forall l, In l ls -> local_count l = 0%nat).
      { destruct (Rlt_or_le m 1) as [L|L]; [auto|]. right. intros l Hl.
        unfold local_count. destruct (filter _ l) as [|p q] eqn:E; [reflexivity|].
        assert (Hp : In p (filter (fun p : R * bool => snd p) l)) by (rewrite E; left; auto).
        apply filter_In in Hp. destruct Hp as (Hp & Hs). pose proof (G2 l p Hl Hp Hs) as Le.
        assert (fst p < 1); [|lra]. 
        clear - F Hl Hp Hs. induction F as [|r l0 ranks ls F Fs IH]; [destruct Hl|].
        destruct Hl as [->|Hl]; [|auto]. clear - F Hp Hs. induction F as [|c p0 cells l0 (A & B & C) F IH]; [destruct Hp|].
        destruct Hp as [->|Hp]; [apply B; auto|auto]. }
      clear G1 G2 G3 H. clearbody m. induction F as [|r l ranks ls F Fs IH]; [reflexivity|].
      cbn [map concat fold_right]. rewrite count_app. f_equal.
      + symmetry. apply (spread_count f1 m r l); auto. destruct Q as [|Q]; [auto|right; apply Q; left; auto].
      + apply IH. destruct Q as [|Q]; [auto|right; intros; apply Q; right; auto].
    - intros l a Hl Ha. apply in_map_iff in Hl. destruct Hl as (l0 & <- & Hl0).
      unfold spread_min in Ha. apply in_map_iff in Ha. destruct Ha as (a1 & <- & Ha1). destruct f2; [lra|].
      apply in_map_iff in Ha1. destruct Ha1 as ((a0, b) & <- & Hp). cbn [fst] in *.
      assert (Hm : m <= a0).
      { destruct b; [apply (G2 l0 (a0, true)); auto|].
        assert (~ a0 < 1); [|lra]. clear - F Hl0 Hp. 
        induction F as [|r l ranks ls F Fs IH]; [destruct Hl0|]. destruct Hl0 as [->|Hl0]; [|auto].
        clear - F Hp. induction F as [|c p0 cells l (A & B & C) F IH]; [destruct Hp|].
        destruct Hp as [->|Hp]; [|auto]. cbn in B. intro G. apply B in G. discriminate. }
      destruct f1; [destruct (Rlt_dec a0 1); lra|auto].
    - intros -> l a Hl Ha. apply in_map_iff in Hl. destruct Hl as (l0 & <- & Hl0).
      unfold spread_min in Ha. apply in_map_iff in Ha. destruct Ha as (a1 & <- & Ha1). destruct f2; [auto|].
      apply in_map_iff in Ha1. destruct Ha1 as ((a0, b) & <- & Hp). cbn [fst] in *.
      destruct (Rlt_dec a0 1) as [|G]; [auto|]. right.
      assert (a0 <= 1); [|lra]. clear - F Hl0 Hp. 
      induction F as [|r l ranks ls F Fs IH]; [destruct Hl0|]. destruct Hl0 as [->|Hl0]; [|auto].
      clear - F Hp. induction F as [|c p0 cells l (A & B & C) F IH]; [destruct Hp|].
      destruct Hp as [->|Hp]; [cbn in A; lra|auto].
  Qed.
End All.

(** *** CompressRecPart *)
Lemma rec_part_ok : forall d tb u x e0, 0 <= rho u -> einner d u szero 0 = Ok e0 -> 0 <= e0 ->
  (tb = TwoEq -> extras_nonneg tb u) ->
  exists v b e, compress_rec_part d tb u x = Ok (v, b) /\ 0 <= rho v /\
    ekin d (rho v) (mom v) = Ok e /\ 0 <= ene v - e /\ (tb = TwoEq -> extras_nonneg tb v) /\
    (b = false -> v = sadd u x) /\
    (b = true -> rho (sadd u x) < 0 \/ (exists k, ekin d (rho (sadd u x)) (mom (sadd u x)) = Ok k /\ ene (sadd u x) < k)
       \/ (tb = TwoEq /\ exists i, In i (extras_of tb) /\ extra (sadd u x) i < 0)).
Proof.
  intros d tb u x e0 P E0 H0 HX. pose proof verySmall_pos as VS.
  assert (KE : forall w, 0 <= rho w -> exists k, ekin d (rho w) (mom w) = Ok k).
  { intros w Hw. unfold ekin. destruct (Req_EM_T _ 0); [lra|]. eauto. }
  destruct (KE u P) as (ku & Eku).
  assert (U0 : 0 <= ene u - ku).
  { unfold einner in E0. cbn [szero rho mom ene] in E0.
    replace (rho u + 0 * 0) with (rho u) in E0 by ring.
    unfold ekin in *. destruct (Req_EM_T _ 0); [lra|]. cbn [bind] in E0. injection E0 as <-. injection Eku as <-.
    rewrite (sqnorm_ext d (fun i => mom u i + 0 * 0) (mom u)) in H0 by (intros; ring). lra. }
  unfold compress_rec_part. set (s := sadd u x).
  (* the flow part *)
  set (p1 := if Rlt_dec (rho s) 0 then (u, true) else (s, false)).
  assert (S1 : exists k, ekin d (rho (fst p1)) (mom (fst p1)) = Ok k /\
    let p := if Rlt_dec (ene (fst p1) - k) 0 then (u, true) else p1 in
    exists k', 0 <= rho (fst p) /\ ekin d (rho (fst p)) (mom (fst p)) = Ok k' /\ 0 <= ene (fst p) - k' /\
      ((p = (s, false)) \/ (p = (u, true) /\
        (rho s < 0 \/ exists k, ekin d (rho s) (mom s) = Ok k /\ ene s < k)))).
  { unfold p1. destruct (Rlt_dec (rho s) 0) as [N|N]; cbn [fst].
    - exists ku. split; [auto|]. destruct (Rlt_dec (ene u - ku) 0); [lra|]. exists ku. repeat split; auto.
    - destruct (KE s) as (k & Ek); [lra|]. exists k. split; [auto|].
      destruct (Rlt_dec (ene s - k) 0) as [B|B]; cbn [fst].
      + exists ku. repeat split; auto. right. split; [auto|]. right. exists k. split; [auto|lra].
      + exists k. repeat split; auto; lra. }
  destruct S1 as (k & -> & S1). cbn [bind]. cbv zeta in S1 |- *.
  set (p := if Rlt_dec (ene (fst p1) - k) 0 then (u, true) else p1) in *. clearbody p. clear p1 k.
  destruct S1 as (k & Rp & Ek & Pe & CS).
  assert (BASE : (tb <> TwoEq) -> exists v b e, Ok p = Ok (v, b) /\ 0 <= rho v /\
    ekin d (rho v) (mom v) = Ok e /\ 0 <= ene v - e /\ (tb = TwoEq -> extras_nonneg tb v) /\
    (b = false -> v = s) /\
    (b = true -> rho s < 0 \/ (exists k, ekin d (rho s) (mom s) = Ok k /\ ene s < k)
       \/ (tb = TwoEq /\ exists i, In i (extras_of tb) /\ extra s i < 0))).
  { intro NT. exists (fst p), (snd p), k. split; [rewrite <- surjective_pairing; reflexivity|].
    split; [auto|]. split; [auto|]. split; [auto|]. split; [congruence|].
    destruct CS as [->|(-> & [Q|Q])]; cbn; split; intros; try discriminate; auto. }
  destruct tb; [apply BASE; discriminate|apply BASE; discriminate|]. clear BASE.
  specialize (HX eq_refl).
  assert (X0 : 0 <= extra u 0%nat) by (apply HX; left; auto).
  assert (X1 : 0 <= extra u 1%nat) by (apply HX; right; left; auto).
  set (p2 := if Rlt_dec (extra (fst p) 0%nat) 0 then (set_extra 0 (extra u 0%nat) (fst p), true) else p).
  set (p3 := if Rlt_dec (extra (fst p2) 1%nat) 0 then (set_extra 1 (extra u 1%nat) (fst p2), true) else p2).
  assert (W2 : rho (fst p2) = rho (fst p) /\ mom (fst p2) = mom (fst p) /\ ene (fst p2) = ene (fst p) /\
     0 <= extra (fst p2) 0%nat /\ extra (fst p2) 1%nat = extra (fst p) 1%nat /\
     (snd p2 = false -> p2 = p) /\ (snd p2 = true -> snd p = true \/ extra (fst p) 0%nat < 0)).
  { unfold p2. destruct (Rlt_dec _ _); cbn [fst snd set_extra rho mom ene extra Nat.eqb]; repeat split; auto; try discriminate; lra. }
  assert (W3 : rho (fst p3) = rho (fst p2) /\ mom (fst p3) = mom (fst p2) /\ ene (fst p3) = ene (fst p2) /\
     0 <= extra (fst p3) 1%nat /\ extra (fst p3) 0%nat = extra (fst p2) 0%nat /\
     (snd p3 = false -> p3 = p2) /\ (snd p3 = true -> snd p2 = true \/ extra (fst p2) 1%nat < 0)).
  { unfold p3. destruct (Rlt_dec (extra (fst p2) 1%nat) 0); cbn [fst snd set_extra rho mom ene extra Nat.eqb].
    - split; [auto|]. split; [auto|]. split; [auto|]. split; [auto|]. split; [auto|]. split; [discriminate|auto].
    - split; [auto|]. split; [auto|]. split; [auto|]. split; [lra|]. split; [auto|]. split; [auto|auto]. }
  clearbody p2 p3. destruct W2 as (A1 & A2 & A3 & A4 & A5 & A6 & A7). destruct W3 as (B1 & B2 & B3 & B4 & B5 & B6 & B7).
  exists (fst p3), (snd p3), k. split; [rewrite <- surjective_pairing; reflexivity|].
  split; [rewrite B1, A1; auto|]. split; [rewrite B1, A1, B2, A2; auto|]. split; [rewrite B3, A3; auto|]. split.
  { intros _ i [<-|[<-|[]]]; [rewrite B5; auto|auto]. }
  split.
  - intro F. pose proof (B6 F) as E3. rewrite E3 in F |- *. pose proof (A6 F) as E2. rewrite E2 in F |- *.
    destruct CS as [->|(-> & _)]; [reflexivity|discriminate].
  - intro F. destruct CS as [->|(Ep & [Q|Q])]; auto. cbn [fst snd] in *.
    right. right. split; [auto|]. destruct (B7 F) as [F2|N1].
    + destruct (A7 F2) as [|N0]; [discriminate|]. exists 0%nat. split; [left; auto|auto].
    + exists 1%nat. rewrite A5 in N1. split; [right; left; auto|auto].
Qed.

(** *** EvaluateCellRHSAlphaExpansion *)
Lemma expand_ok : forall d st m u x a, sane st -> 0 < rho u + rho x -> 
  exists a', rhs_alpha_expand d st m u x a = Ok a' /\
    ((physical d (eps (ref_rho st)) (eps (ref_p st) / (gam st - 1)) (sadd u x) /\ a' = a) \/
     (~ physical d (eps (ref_rho st)) (eps (ref_p st) / (gam st - 1)) (sadd u x) /\ a' = m)).
Proof.
  intros d st m u x a (_ & _ & Hg) P. unfold rhs_alpha_expand. rewrite rho_e_val by exact P. cbn [bind].
  assert (Q : forall i, eps (ref_p st) / (gam st - 1) <= i <-> eps (ref_p st) <= i * (gam st - 1)).
  { intro i. assert (E : eps (ref_p st) / (gam st - 1) * (gam st - 1) = eps (ref_p st)) by (field; lra).
    split; intro H; [apply (Rmult_le_compat_r (gam st - 1)) in H; lra|].
    apply (Rmult_le_reg_r (gam st - 1)); lra. }
  destruct (Rlt_dec _ _) as [L|G].
  - eexists. split; [reflexivity|]. right. split; [|auto]. intros (_ & _ & I). apply Q in I. lra.
  - destruct (Rlt_dec (rho (sadd u x)) (eps (ref_rho st))) as [L|G2]; (eexists; split; [reflexivity|]).
    + right. split; [|auto]. intros (_ & I & _). lra.
    + left. split; [|auto]. split; [exact P|]. split; [lra|]. apply Q. lra.
Qed.

(** *** MinSmoothDTau *)
Lemma fold_left_Rplus : forall l a, fold_left Rplus l a = a + fold_right Rplus 0 l.
Proof. induction l as [|x l IH]; intro a; cbn; [lra|]. rewrite IH. ring. Qed.
Lemma min_smooth_ok : forall dt l, 0 < dt -> (forall x, In x l -> 0 < x) ->
  0 < min_smooth dt l <= dt /\ dt / 2 <= min_smooth dt l /\
  ((forall x, In x l -> dt <= x) -> min_smooth dt l = dt).
Proof.
  intros dt l P H. unfold min_smooth. destruct l as [|x l]; [repeat split; try lra|].
  set (ls := x :: l) in *. assert (N : 0 < INR (length ls)) by (apply lt_0_INR; cbn; lia).
  rewrite fold_left_Rplus, Rplus_0_l.
  assert (S1 : 0 < fold_right Rplus 0 ls).
  { unfold ls in *. clear ls N. cbn. assert (0 <= fold_right Rplus 0 l).
    { assert (H' : forall y, In y l -> 0 < y) by (intros; apply H; right; auto). clear H.
      induction l as [|y l IH]; cbn; [lra|]. pose proof (H' y (or_introl eq_refl)).
      assert (0 <= fold_right Rplus 0 l) by (apply IH; intros; apply H'; right; auto). lra. }
    pose proof (H x (or_introl eq_refl)). lra. }
  set (s := fold_right Rplus 0 ls) in *. set (n := INR (length ls)) in *.
  set (q := (s + n * 1 * dt) / (n * (1 + 1))).
  assert (Q : q * (2 * n) = s + n * dt) by (unfold q; field; lra).
  assert (Q2 : dt / 2 <= q).
  { apply (Rmult_le_reg_r (2 * n)); [lra|]. rewrite Q. lra. }
  assert (M : dt / 2 <= Rmin dt q) by (apply Rmin_glb; lra).
  split; [split; [lra|apply Rmin_l]|]. split; [auto|].
  intro G. apply Rmin_left. assert (n * dt <= s).
  { unfold s, n. clear - G. clearbody ls. induction ls as [|y l' IH]; [cbn; lra|].
    cbn [length fold_right]. rewrite S_INR. pose proof (G y (or_introl eq_refl)).
    assert (INR (length l') * dt <= fold_right Rplus 0 l') by (apply IH; intros; apply G; right; auto). lra. }
  apply (Rmult_le_reg_r (2 * n)); [lra|]. rewrite Q. lra.
Qed.
