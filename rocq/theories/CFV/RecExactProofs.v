(** Polynomials are reproduced. *)
From Coq Require Import List ZArith Reals Bool Lia Lra FunctionalExtensionality.
From Verif Require Import Base.Prelude Base.PreludeFacts Geom.AdjModel Geom.BoundaryModel Geom.BoundaryProofs Geom.PeriodicModel Geom.PeriodicSpec Geom.PeriodicProofs
  Geom.BaseFnModel Geom.BaseFnSpec Geom.DiffTensorModel Geom.DiffTensorSpec Geom.DiffTensorProofs Geom.DiffTensorNormProofs
  CFV.RecModel CFV.RecSpec CFV.RecPolyProofs CFV.RecBaseProofs CFV.RecMeanProofs CFV.RecFunProofs CFV.RecCoefProofs CFV.RecIterProofs CFV.RecFixProofs.
Import ListNotations.
Local Open Scope R_scope.

Lemma constructs : forall st inverse nCell cells faces, supported st -> known_scale st -> sound_periods st -> sound_mesh st nCell cells faces ->
  exists Ks, ConstructRecCoeff st inverse nCell cells faces = Ok Ks /\ zlen Ks = nCell.
Proof.
  intros st inverse nCell cells faces HS KS HP HM. destruct (construct_ok st cells faces inverse nCell HS KS HP HM) as [Ks [E [L _]]]. exists Ks. auto.
Qed.
Lemma the_coeffs : forall st inverse nCell cells faces Ks, supported st -> known_scale st -> sound_periods st -> sound_mesh st nCell cells faces ->
  ConstructRecCoeff st inverse nCell cells faces = Ok Ks -> are_coeffs st cells faces inverse nCell Ks.
Proof.
  intros st inverse nCell cells faces Ks HS KS HP HM E. destruct (construct_ok st cells faces inverse nCell HS KS HP HM) as [Ks' [E' H]].
  rewrite E in E'. injection E' as <-. auto.
Qed.
Lemma may_sweep_ok : forall st nCell cells faces FBoundary, sound_mesh st nCell cells faces ->
  (SORInstead st = true -> prescribed_or_none FBoundary nCell cells faces) -> may_sweep st cells faces nCell FBoundary.
Proof.
  intros st nCell cells faces FB HM H E. destruct (H E) as [P|P]; [left; exact P|right]. intros i Hi k HF.
  apply (P i k). apply (own_face_of st cells faces nCell HM i k HF).
Qed.

Lemma solution_fixed : forall st inverse nCell cells faces Ks u uRec FB FT FTB, supported st -> known_scale st -> sound_periods st -> sound_mesh st nCell cells faces ->
  zlen u = zlen cells -> zlen uRec = zlen cells -> are_coeffs st cells faces inverse nCell Ks ->
  (SORInstead st = true -> prescribed_or_none FB nCell cells faces) ->
  solves st cells faces nCell u FB FT FTB Ks uRec ->
  forall New, zlen New = zlen cells ->
  (forall into, exists r N, DoReconstructionIter st FB FT FTB nCell cells faces Ks u into false false uRec New = Ok (r, N) /\
     same_coefficients st nCell (if into then N else r) uRec) /\
  exists N, DoReconstructionIter st FB FT FTB nCell cells faces Ks u true true false uRec New = Ok (uRec, N) /\
     same_coefficients st nCell N (map (fun _ => fun _ _ => 0) uRec).
Proof.
  intros st inverse nCell cells faces Ks u uRec FB FT FTB HS KS HP HM LU LR HK HW HSv New LN. pose proof HM as ((B0 & B1) & _).
  split.
  - intros into. destruct (iter_ok st cells faces inverse nCell u FB FT FTB HS KS HP HM LU Ks into uRec New HK) as (r & N & E & L & G); auto.
    { apply may_sweep_ok; auto. }
    exists r, N. split; auto. intros i Hi. exists (get zero_mat (if into then N else r) i), (get zero_mat uRec i).
    split; [apply get_vget; lia|split; [apply get_vget; lia|]]. rewrite <- ndof_rows by auto. intros l v Hl.
    destruct (SORInstead st) eqn:ES.
    + rewrite G by lia. replace (i <? nCell)%Z with true by (symmetry; apply Z.ltb_lt; lia).
      apply (sweep_fixed st cells faces nCell u FB FT FTB HM Ks (upto nCell) uRec LR); auto; [| |lia]; intros j Hj; apply in_upto in Hj; auto.
    + rewrite G by lia. replace (i <? nCell)%Z with true by (symmetry; apply Z.ltb_lt; lia). apply step_solves; auto.
  - destruct (record_ok st cells faces inverse nCell u FB FT FTB HS KS HP HM LU Ks uRec New HK LR LN) as [N [E G]]. exists N. split; auto.
    assert (LNN : (nCell <= zlen N)%Z).
    { destruct (loop_new st cells faces inverse nCell u FB FT FTB HS KS HP HM LU Ks true uRec (upto nCell) New HK) as (N' & E' & L' & _); auto.
      { intros j Hj. apply in_upto in Hj. auto. } { apply nodup_upto. }
      unfold DoReconstructionIter in E. cbn [assert_ bind] in E. rewrite E' in E. cbn [bind] in E. injection E as <-. lia. }
    intros i Hi. exists (get zero_mat N i), zero_mat. split; [apply get_vget; lia|]. split.
    + apply vget_Ok. split; [lia|]. rewrite nth_error_map. unfold zlen in *. destruct (nth_error uRec (Z.to_nat i)) eqn:NE; [reflexivity|]. apply nth_error_None in NE. lia.
    + rewrite <- ndof_rows by auto. intros l v Hl. rewrite G by auto. unfold residual. rewrite (HSv i Hi l v Hl). unfold zero_mat. ring.
Qed.

Lemma matching_fixed : forall st inverse nCell cells faces Ks u uRec FB FT FTB, supported st -> known_scale st -> sound_periods st -> sound_mesh st nCell cells faces ->
  ConstructRecCoeff st inverse nCell cells faces = Ok Ks -> (forall K, In K Ks -> inverted st K) ->
  zlen u = zlen cells -> zlen uRec = zlen cells -> linear_change FT -> linear_change FTB ->
  (SORInstead st = true -> prescribed_or_none FB nCell cells faces) ->
  matching_inside st FT FTB nCell cells faces u uRec -> matching_outside st FB nCell cells faces u uRec ->
  forall New, zlen New = zlen cells ->
  (forall into, exists r N, DoReconstructionIter st FB FT FTB nCell cells faces Ks u into false false uRec New = Ok (r, N) /\
     same_coefficients st nCell (if into then N else r) uRec) /\
  exists N, DoReconstructionIter st FB FT FTB nCell cells faces Ks u true true false uRec New = Ok (uRec, N) /\
     same_coefficients st nCell N (map (fun _ => fun _ _ => 0) uRec).
Proof.
  intros st inverse nCell cells faces Ks u uRec FB FT FTB HS KS HP HM EC HI LU LR LT LTB HW MI MO New LN.
  pose proof (the_coeffs st inverse nCell cells faces Ks HS KS HP HM EC) as HK.
  apply (solution_fixed st inverse nCell cells faces Ks u uRec FB FT FTB); auto.
  apply (matching_solves st cells faces inverse nCell u FB FT FTB HS HP HM LU LT LTB uRec LR MI MO Ks HK HI).
Qed.

(** *** polynomials are sums of base functions *)
Lemma find_row : forall dim k a b c, dim23 dim -> (k <= 3)%nat -> (a + b + c <= k)%nat -> (dim = 2%nat -> c = 0%nat) ->
  exists r, (r < rows_up_to dim k)%nat /\ nth r (operators dim) (0, 0, 0)%Z = (Z.of_nat a, Z.of_nat b, Z.of_nat c).
Proof.
  intros dim k a b c H Hk Ho Hc. destruct H as [-> | ->].
  - rewrite (Hc eq_refl) in *. clear Hc. destruct k as [|[|[|[|k]]]]; try lia; destruct a as [|[|[|[|a]]]]; try lia; destruct b as [|[|[|[|b]]]]; try lia;
    first [exists 0%nat; split; [cbn; lia|reflexivity]|exists 1%nat; split; [cbn; lia|reflexivity]|exists 2%nat; split; [cbn; lia|reflexivity]|exists 3%nat; split; [cbn; lia|reflexivity]
          |exists 4%nat; split; [cbn; lia|reflexivity]|exists 5%nat; split; [cbn; lia|reflexivity]|exists 6%nat; split; [cbn; lia|reflexivity]|exists 7%nat; split; [cbn; lia|reflexivity]
          |exists 8%nat; split; [cbn; lia|reflexivity]|exists 9%nat; split; [cbn; lia|reflexivity]].
  - destruct k as [|[|[|[|k]]]]; try lia; destruct a as [|[|[|[|a]]]]; try lia; destruct b as [|[|[|[|b]]]]; try lia; destruct c as [|[|[|[|c]]]]; try lia;
    first [exists 0%nat; split; [cbn; lia|reflexivity]|exists 1%nat; split; [cbn; lia|reflexivity]|exists 2%nat; split; [cbn; lia|reflexivity]|exists 3%nat; split; [cbn; lia|reflexivity]
          |exists 4%nat; split; [cbn; lia|reflexivity]|exists 5%nat; split; [cbn; lia|reflexivity]|exists 6%nat; split; [cbn; lia|reflexivity]|exists 7%nat; split; [cbn; lia|reflexivity]
          |exists 8%nat; split; [cbn; lia|reflexivity]|exists 9%nat; split; [cbn; lia|reflexivity]|exists 10%nat; split; [cbn; lia|reflexivity]|exists 11%nat; split; [cbn; lia|reflexivity]
          |exists 12%nat; split; [cbn; lia|reflexivity]|exists 13%nat; split; [cbn; lia|reflexivity]|exists 14%nat; split; [cbn; lia|reflexivity]|exists 15%nat; split; [cbn; lia|reflexivity]
          |exists 16%nat; split; [cbn; lia|reflexivity]|exists 17%nat; split; [cbn; lia|reflexivity]|exists 18%nat; split; [cbn; lia|reflexivity]|exists 19%nat; split; [cbn; lia|reflexivity]].
Qed.
Lemma poly_rows : forall st f, supported st -> polynomial (dim st) (maxOrder st) f ->
  exists C, forall X Y Z, f X Y Z = sumn (NDOF st) (fun r => C r * mono (exponents st r) X Y Z).
Proof.
  intros st f HS [l [D E]]. assert (G : exists C, forall X Y Z, peval l X Y Z = sumn (NDOF st) (fun r => C r * mono (exponents st r) X Y Z)).
  { clear E. induction D as [|[k [[a b] c]] l [Ho Hc] D [C IH]].
    - exists (fun _ => 0). intros X Y Z. unfold peval, sum_over. cbn [fold_right]. rewrite (sumn_ext _ _ (fun _ => 0)) by (intros; ring). rewrite sumn_zero. reflexivity.
    - cbn [snd order_of] in Ho, Hc. destruct (find_row (dim st) (maxOrder st) a b c (proj1 HS) (proj2 HS) Ho Hc) as [r0 [Hr N]].
      assert (EE : exponents st r0 = (a, b, c)) by (unfold exponents; rewrite N, !Nat2Z.id; reflexivity).
      exists (fun r => kron r0 r * k + C r). intros X Y Z. change (peval ((k, (a, b, c)) :: l) X Y Z) with (k * mono (a, b, c) X Y Z + peval l X Y Z).
      rewrite IH. rewrite (sumn_ext (NDOF st) (fun r => (kron r0 r * k + C r) * mono (exponents st r) X Y Z) (fun r => kron r0 r * (k * mono (exponents st r) X Y Z) + C r * mono (exponents st r) X Y Z)) by (intros; ring).
      rewrite sumn_plus, sumn_kron by (rewrite ndof_rows; auto). rewrite EE. reflexivity. }
  destruct G as [C G]. exists C. intros X Y Z. rewrite E, <- G. reflexivity.
Qed.
Lemma sumn_head : forall n g, sumn (S n) g = g 0%nat + sumn n (fun l => g (S l)).
Proof. induction n as [|n IH]; intros g; [cbn; ring|]. change (sumn (S (S n)) g) with (sumn (S n) g + g (S n)). rewrite IH. cbn [sumn]. ring. Qed.

Lemma spans : forall st c rule f, supported st -> sound_cell st c -> own_moments st c rule -> polynomial (dim st) (maxOrder st) f ->
  exists coef, forall X Y Z, rec_fn st c (mean rule f) coef X Y Z = f X Y Z.
Proof.
  intros st c rule f HS SC OM PF.
  set (M := fun i a => if localOrientation st then majorCoord c i a else kron i a).
  set (L := fun a => if Nat.ltb a (dim st) then own_length st c a else 1).
  (* the physical coordinates as functions of the own ones *)
  set (xi := fun a => fun X Y Z : R => cent c (number_of a) + (M (number_of a) 0%nat * (L 0%nat * X) + M (number_of a) 1%nat * (L 1%nat * Y) +
                       if Nat.eqb (dim st) 2 then 0 else M (number_of a) 2%nat * (L 2%nat * Z))).
  assert (PX : forall a, In a (axes (dim st)) -> polynomial (dim st) 1 (xi a)).
  { intros a Ha. unfold xi. repeat apply poly_plus; try apply poly_const.
    - apply poly_scal. apply (poly_scal _ _ (L 0%nat)). apply (poly_coord (dim st) AX). destruct HS as [[E|E] _]; rewrite E; cbn; auto.
    - apply poly_scal. apply (poly_scal _ _ (L 1%nat)). apply (poly_coord (dim st) AY). destruct HS as [[E|E] _]; rewrite E; cbn; auto.
    - destruct (Nat.eqb_spec (dim st) 2) as [E2|E2]; [apply (poly_const _ _ 0)|]. apply poly_scal. apply (poly_scal _ _ (L 2%nat)). apply (poly_coord (dim st) AZ).
      destruct HS as [[E|E] _]; [congruence|]; rewrite E; cbn; auto. }
  pose proof (poly_compose (dim st) (maxOrder st) f xi PF PX) as PC.
  destruct (poly_rows st _ HS PC) as [C HC].
  (* and back *)
  set (eta := fun a X Y Z => own_coordinate st c a X Y Z / own_length st c a).
  assert (BK : forall X Y Z, compose f xi (eta 0%nat X Y Z) (eta 1%nat X Y Z) (eta 2%nat X Y Z) = f X Y Z).
  { intros X Y Z. destruct SC as [NZ OO].
    assert (ZI : forall x y z z', dim st = 2%nat -> f x y z = f x y z').
    { intros x y z z' E2. destruct PF as [l [D E]]. rewrite !E. apply sum_over_ext. intros [k [[a b] e]] Ht. rewrite Forall_forall in D. destruct (D _ Ht) as [_ Hz]. cbn [snd fst mono] in *. rewrite (Hz E2). reflexivity. }
    assert (MM : forall i, (i < 3)%nat -> (dim st = 3%nat \/ (i < 2)%nat) -> sumn (dim st) (fun a => M i a * own_coordinate st c a X Y Z) = point X Y Z i - cent c i).
    { intros i Hi Hd. change (point X Y Z i - cent c i) with (vsub (point X Y Z) (cent c) i). unfold own_coordinate, M. destruct (localOrientation st) eqn:LO.
      - destruct (OO eq_refl) as [O P2].
        assert (O3 : sumn 3 (fun a => majorCoord c i a * sumn 3 (fun p => majorCoord c p a * vsub (point X Y Z) (cent c) p)) = vsub (point X Y Z) (cent c) i).
        { exact (orth_cancel_vec' 3 (majorCoord c) (vsub (point X Y Z) (cent c)) i O Hi). }
        destruct HS as [[E|E] _]; rewrite E in *.
        + destruct Hd as [Hd|Hd]; [discriminate|]. pose proof (P2 eq_refl i Hd) as [Z1 _]. rewrite <- O3.
          change (sumn 3 (fun a => majorCoord c i a * sumn 3 (fun p => majorCoord c p a * vsub (point X Y Z) (cent c) p)))
            with (sumn 2 (fun a => majorCoord c i a * sumn 3 (fun p => majorCoord c p a * vsub (point X Y Z) (cent c) p)) + majorCoord c i 2%nat * sumn 3 (fun p => majorCoord c p 2%nat * vsub (point X Y Z) (cent c) p)).
          rewrite Z1. ring.
        + rewrite <- O3. reflexivity.
      - rewrite (sumn_kron (dim st) i (fun a => vsub (point X Y Z) (cent c) a)); [reflexivity|]. destruct HS as [[E|E] _]; lia. }
    assert (XE : forall a, (dim st = 3%nat \/ (number_of a < 2)%nat) -> xi a (eta 0%nat X Y Z) (eta 1%nat X Y Z) (eta 2%nat X Y Z) = coordinate a X Y Z).
    { intros a Ha. pose proof (MM (number_of a) ltac:(destruct a; cbn; lia) Ha) as MA. unfold xi, eta, L.
      assert (N0 : own_length st c 0 <> 0) by (apply NZ; destruct HS; lia). assert (N1 : own_length st c 1 <> 0) by (apply NZ; destruct HS; lia).
      replace (coordinate a X Y Z) with (cent c (number_of a) + (point X Y Z (number_of a) - cent c (number_of a))) by (destruct a; unfold point; cbn [number_of axis_at coordinate]; ring).
      rewrite <- MA. destruct HS as [[E|E] _]; rewrite E in *; cbn [Nat.ltb Nat.leb Nat.eqb sumn].
      - field. auto.
      - assert (N2 : own_length st c 2 <> 0) by (apply NZ; lia). field. auto. }
    unfold compose. destruct HS as [[E|E] _].
    - rewrite (ZI _ _ (xi AZ (eta 0%nat X Y Z) (eta 1%nat X Y Z) (eta 2%nat X Y Z)) Z E). rewrite (XE AX), (XE AY) by (right; cbn; lia). reflexivity.
    - rewrite (XE AX), (XE AY), (XE AZ) by (left; auto). reflexivity. }
  assert (PS : (1 <= NDOF st)%nat) by (rewrite ndof_rows by auto; destruct HS as [[E|E] Hk]; rewrite E; destruct (maxOrder st) as [|[|[|[|k]]]]; cbn; lia).
  assert (E0 : exponents st 0 = (0, 0, 0)%nat) by (unfold exponents; destruct HS as [[E|E] _]; rewrite E; reflexivity).
  assert (FR : exists a0, forall X Y Z, f X Y Z = rec_fn st c a0 (fun l => C (S l)) X Y Z).
  { exists (C 0%nat + sumn (NDOF st - 1) (fun l => C (S l) * moment c (S l))). intros X Y Z. rewrite <- BK, HC.
    replace (NDOF st) with (S (NDOF st - 1)) at 1 by lia. rewrite sumn_head, E0. unfold rec_fn. rewrite <- ndof_rows by auto.
    rewrite (sumn_ext (NDOF st - 1) (fun l => C (S l) * mono (exponents st (S l)) (eta 0%nat X Y Z) (eta 1%nat X Y Z) (eta 2%nat X Y Z))
      (fun l => C (S l) * moment c (S l) + C (S l) * base_fn st c (S l) X Y Z)) by (intros; unfold base_fn, eta; ring).
    rewrite sumn_plus. cbn [mono pow]. ring. }
  destruct FR as [a0 FR]. exists (fun l => C (S l)). intros X Y Z. rewrite FR. f_equal.
  assert (EM : mean rule f = mean rule (rec_fn st c a0 (fun l => C (S l)))).
  { unfold mean. f_equal. apply over_ext. intros x. unfold value_at. apply FR. }
  rewrite EM. apply rec_mean; auto.
Qed.

Lemma sum_nothing : forall A (l : list A), sum_over l (fun _ => 0) = 0.
Proof. induction l as [|x l IH]; [reflexivity|]. unfold sum_over in *. cbn [fold_right]. lra. Qed.
Lemma every_variable : forall st c rule P nVars (ui : vec), supported st -> sound_cell st c -> own_moments st c rule ->
  (forall v, (v < nVars)%nat -> polynomial (dim st) (maxOrder st) (P v)) -> (forall v, ui v = mean rule (P v)) ->
  exists ci : mat, (forall v X Y Z, (v < nVars)%nat -> rec_fn st c (ui v) (fun l => ci l v) X Y Z = P v X Y Z) /\ forall l v, (nVars <= v)%nat -> ci l v = 0.
Proof.
  intros st c rule P nVars ui HS SC OM HP HU. induction nVars as [|n IH].
  - exists (fun _ _ => 0). split; intros; [lia|reflexivity].
  - destruct IH as [ci [H1 H2]]; [intros; apply HP; lia|]. destruct (spans st c rule (P n) HS SC OM (HP n ltac:(lia))) as [coef HC].
    exists (fun l v => if Nat.eqb v n then coef l else ci l v). split.
    + intros v X Y Z Hv. destruct (Nat.eqb_spec v n) as [->|N]; [rewrite HU; apply HC|apply H1; lia].
    + intros l v Hv. replace (Nat.eqb v n) with false by (symmetry; apply Nat.eqb_neq; lia). apply H2; lia.
Qed.
Lemma have_coefficients : forall st P nVars rule, supported st ->
  (forall v, (v < nVars)%nat -> polynomial (dim st) (maxOrder st) (P v)) -> (forall v, (nVars <= v)%nat -> P v = fun _ _ _ => 0) ->
  forall cells (u : list vec), Forall (sound_cell st) cells -> length u = length cells -> forall z : nat,
  (forall n c ui, nth_error cells n = Some c -> nth_error u n = Some ui -> own_moments st c (rule (z + n)%nat) /\ forall v, ui v = mean (rule (z + n)%nat) (P v)) ->
  exists uRec : list mat, length uRec = length cells /\ forall n c ui ci v x, nth_error cells n = Some c -> nth_error u n = Some ui -> nth_error uRec n = Some ci ->
    value_at (rec_fn st c (ui v) (fun l => ci l v)) x = value_at (P v) x.
Proof.
  intros st P nVars rule HS HP H0 cells. induction cells as [|c cells IH]; intros u SC LE z HU.
  - exists []. split; [reflexivity|]. intros [|n]; discriminate.
  - destruct u as [|ui u]; [discriminate|]. inversion SC as [|? ? S1 S2]; subst. cbn [length] in LE.
    destruct (HU 0%nat c ui eq_refl eq_refl) as [OM MV].
    destruct (every_variable st c (rule (z + 0)%nat) P nVars ui HS S1 OM HP MV) as [ci [C1 C2]].
    destruct (IH u S2 ltac:(lia) (S z)) as [uRec [L R]].
    { intros n c' ui' N1 N2. replace (S z + n)%nat with (z + S n)%nat by lia. apply HU; auto. }
    exists (ci :: uRec). split; [cbn; lia|]. intros [|n] c' ui' ci' v x N1 N2 N3; cbn [nth_error] in *; [|apply (R n); auto].
    injection N1 as <-. injection N2 as <-. injection N3 as <-. unfold value_at. destruct (Nat.lt_ge_cases v nVars) as [Hv|Hv]; [apply C1; auto|].
    rewrite (H0 v Hv). unfold rec_fn. rewrite (sumn_ext _ _ (fun _ => 0)) by (intros; rewrite C2 by auto; ring). rewrite sumn_zero, MV, (H0 v Hv).
    unfold mean, over_rule. rewrite (sum_over_ext _ (rule (z + 0)%nat) _ (fun _ => 0)) by (intros [[w J] y] _; unfold value_at; ring).
    rewrite sum_nothing. unfold Rdiv. ring.
Qed.

Lemma polynomials_exist : forall st cells rule P nVars u, supported st -> Forall (sound_cell st) cells ->
  (forall v, (v < nVars)%nat -> polynomial (dim st) (maxOrder st) (P v)) -> (forall v, (nVars <= v)%nat -> P v = fun _ _ _ => 0) ->
  means_of st cells rule P u -> exists uRec, reproduces st cells u uRec P.
Proof.
  intros st cells rule P nVars u HS SC HP H0 [LE HM].
  destruct (have_coefficients st P nVars (fun n => rule (Z.of_nat n)) HS HP H0 cells u SC ltac:(unfold zlen in LE; lia) 0%nat) as [uRec [L R]].
  { intros n c ui N1 N2. apply (HM (Z.of_nat (0 + n)) c ui); apply vget_Ok; (split; [lia|rewrite Nat2Z.id; auto]). }
  exists uRec. split; [unfold zlen; lia|]. intros i v x Hi. unfold reconstruction. unfold zlen in *.
  destruct (nth_error cells (Z.to_nat i)) as [c|] eqn:N1; [|apply nth_error_None in N1; lia].
  destruct (nth_error u (Z.to_nat i)) as [ui|] eqn:N2; [|apply nth_error_None in N2; lia].
  destruct (nth_error uRec (Z.to_nat i)) as [ci|] eqn:N3; [|apply nth_error_None in N3; lia].
  rewrite (proj2 (vget_Ok _ cells i c)) by (split; [lia|auto]). rewrite (proj2 (vget_Ok _ u i ui)) by (split; [lia|auto]). rewrite (proj2 (vget_Ok _ uRec i ci)) by (split; [lia|auto]).
  apply (R (Z.to_nat i)); auto.
Qed.

Lemma matching_is_fixed : forall st inverse nCell cells faces Ks u uRec FB FT FTB, supported st -> known_scale st -> sound_periods st -> sound_mesh st nCell cells faces ->
  ConstructRecCoeff st inverse nCell cells faces = Ok Ks -> (forall K, In K Ks -> inverted st K) ->
  zlen u = zlen cells -> zlen uRec = zlen cells -> linear_change FT -> linear_change FTB ->
  (SORInstead st = true -> prescribed_or_none FB nCell cells faces) ->
  matching_inside st FT FTB nCell cells faces u uRec -> matching_outside st FB nCell cells faces u uRec ->
  forall New, zlen New = zlen cells ->
  fixed_point st nCell uRec (fun into record => DoReconstructionIter st FB FT FTB nCell cells faces Ks u into record false uRec New).
Proof.
  intros st inverse nCell cells faces Ks u uRec FB FT FTB HS KS HP HM EC HI LU LR LT LTB HW MI MO New LN.
  apply (matching_fixed st inverse nCell cells faces Ks u uRec FB FT FTB); auto.
Qed.

Lemma polynomial_fixed : forall st inverse nCell cells faces Ks u uRec FB FT FTB P, supported st -> known_scale st -> isPeriodic st = false -> sound_mesh st nCell cells faces ->
  ConstructRecCoeff st inverse nCell cells faces = Ok Ks -> (forall K, In K Ks -> inverted st K) ->
  zlen u = zlen cells -> reproduces st cells u uRec P -> held_outside st FB nCell cells faces u P ->
  (SORInstead st = true -> prescribed_or_none FB nCell cells faces) ->
  forall New, zlen New = zlen cells ->
  fixed_point st nCell uRec (fun into record => DoReconstructionIter st FB FT FTB nCell cells faces Ks u into record false uRec New).
Proof.
  intros st inverse nCell cells faces Ks u uRec FB FT FTB P HS KS HP HM EC HI LU [LR RP] HO HW New LN. pose proof HM as ((B0 & B1) & _ & HF).
  assert (SP : sound_periods st) by (intros E; congruence).
  assert (MI : matching_inside st FT FTB nCell cells faces u uRec).
  { intros i k f [Hi [c [Hc [Hk Hf]]]] HE y v. unfold yields, seen_from, brought. rewrite HP. cbn [andb].
    destruct (HF i c k Hi Hc Hk) as [f' [E J]]. rewrite Hf in E. injection E as <-. unfold joins in J. rewrite HE in J. destruct J as (_ & _ & J0 & J1).
    exists y. split; [reflexivity|]. rewrite !RP; [reflexivity| |lia]. unfold neighbour. destruct (f2c0 f =? i)%Z; auto. }
  assert (MO : matching_outside st FB nCell cells faces u uRec).
  { intros i k f Hfo HE. destruct (HO i k f Hfo HE) as [W G]. split; [exact W|]. intros g w J x ui v Hn Hu Hw.
    pose proof Hfo as [Hi _]. rewrite RP by lia. rewrite <- (G g w J x ui v Hn Hu Hw).
    f_equal. apply functional_extensionality. intros v'. apply RP. lia. }
  destruct (solution_fixed st inverse nCell cells faces Ks u uRec FB FT FTB HS KS SP HM LU LR (the_coeffs st inverse nCell cells faces Ks HS KS SP HM EC) HW) with (New := New) as [A B]; auto; [|split; auto].
  (* the changes across periods are not used *)
  pose proof (matching_solves st cells faces inverse nCell u FB (fun w _ => w) (fun w _ => w) HS SP HM LU ltac:(intros a b x y z v; reflexivity) ltac:(intros a b x y z v; reflexivity) uRec LR) as M.
  assert (SV : solves st cells faces nCell u FB (fun w _ => w) (fun w _ => w) Ks uRec).
  { apply M; auto; [|apply the_coeffs; auto]. intros i k f Hfo HE y v. specialize (MI i k f Hfo HE y v). unfold yields, brought in *. rewrite HP in *. exact MI. }
  intros i Hi l v Hl. rewrite <- (SV i Hi l v Hl). unfold mmul. apply sumn_ext. intros q Hq. f_equal. unfold total. apply sum_over_ext. intros k Hk.
  unfold face_rhs. destruct (FaceIDIsExternalBC (zone (the_face faces k))); [reflexivity|]. unfold turn_rows, turn_vec, which_turn. rewrite HP. reflexivity.
Qed.

(** *** as stated *)
Lemma base_values_rows : forall st c k p, supported st -> sound_cell st c -> (k <= 3)%nat -> exists D,
  FDiffBaseValue st c (rows_up_to (dim st) k) p 0 = Ok D /\
  forall j, (j < rows_up_to (dim st) (maxOrder st))%nat ->
    holds_derivatives everywhere (dim st) (rows_up_to (dim st) k) D j (base_fn st c j) (p 0%nat) (p 1%nat) (p 2%nat).
Proof. intros st c k p HS HC Hk. rewrite <- (ndof_rows st HS). apply base_values; auto. Qed.
Lemma moments_own : forall st c rule, supported st -> sound_cell st c -> measure rule <> 0 ->
  exists m, BaseMoment st c rule (measure rule) = Ok m /\ own_moments st (with_moment c m) rule.
Proof. intros st c rule HS HC HM. destruct (moments_zero st c rule HS HC HM) as [m [E H]]. exists m. split; auto. split; auto. rewrite <- (ndof_rows st HS). exact H. Qed.
Lemma product_inner : forall st f k,
  (forall va vb, product st f k va vb = product st f k vb va) /\
  (forall va vb vc a b, product st f k va (fun m => a * vb m + b * vc m) = a * product st f k va vb + b * product st f k va vc) /\
  (forall va, 0 <= product st f k va va).
Proof.
  intros st f k. split; [apply product_sym|]. split; [|apply product_nonneg]. intros. rewrite (product_plus_r st f k va (fun m => a * vb m) (fun m => b * vc m)), !product_scal_r. reflexivity.
Qed.
