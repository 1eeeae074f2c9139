(** Concrete cells for property C57, and the counterexamples. *)
From Coq Require Import Reals List Arith Lra Lia Psatz.
From Verif Require Import Base.Prelude Base.PreludeFacts Euler.GasModel Euler.GasProofs
  Euler.CompressModel Euler.CompressProofs Euler.PositiveModel Euler.PositiveSpec Euler.PositiveProofs
  Euler.PositiveIncProofs Euler.PositiveFixProofs Euler.PositiveAllProofs Euler.PositiveBetaProofs.
Import ListNotations.
Local Open Scope R_scope.

Definition air : settings :=
  {| ref_rho := 1; ref_p := 1; ref_extra := fun _ => 1; gam := 7/5; relaxed := false;
     alpha_power := 1; beta_power := 11; omega_floor := None |}.
Definition air_relaxed : settings :=
  {| ref_rho := 1; ref_p := 1; ref_extra := fun _ => 1; gam := 7/5; relaxed := true;
     alpha_power := 1; beta_power := 11; omega_floor := None |}.
(** a moving gas, and an increment that would empty the cell *)
Definition moving : state := {| rho := 1; mom := fun _ => 1/2; ene := 5/4; extra := fun _ => 1 |}.
Definition emptying : state := {| rho := -2; mom := fun _ => 3; ene := -4; extra := fun _ => -5 |}.
(** a gas at rest *)
Definition still (r e : R) : state := {| rho := r; mom := fun _ => 0; ene := e; extra := fun _ => 1 |}.

Lemma eps_1 : eps 1 = 1/100000000000.
Proof. unfold eps. rewrite smallR_val. field. Qed.
Lemma tiny : 10 ^ 20 * verySmall <= / 10.
Proof.
  unfold verySmall. replace (10 ^ 200) with (10 ^ 20 * 10 ^ 180) by (rewrite <- pow_add; reflexivity).
  assert (P1 : 0 < 10 ^ 20) by (apply pow_lt; lra). assert (P2 : 0 < 10 ^ 180) by (apply pow_lt; lra).
  replace (10 ^ 20 * / (10 ^ 20 * 10 ^ 180)) with (/ 10 ^ 180) by (field; lra).
  apply Rinv_le_contravar; [lra|]. replace 180%nat with (1 + 179)%nat by reflexivity. rewrite pow_add, pow_1.
  assert (1 <= 10 ^ 179) by (apply pow_R1_Rle; lra). lra.
Qed.
Lemma verySmall_lt : verySmall < 1.
Proof.
  pose proof tiny as T. pose proof verySmall_pos. assert (1 <= 10 ^ 20) by (apply pow_R1_Rle; lra). nra.
Qed.

Lemma air_sane : sane air.
Proof. unfold sane; cbn; lra. Qed.
Lemma air_relaxed_sane : sane air_relaxed.
Proof. unfold sane; cbn; lra. Qed.
Lemma moving_internal : internal 2 moving = 1.
Proof. unfold internal, moving, sqnorm, dot. cbn. field. Qed.
Lemma still_internal : forall d r e, internal d (still r e) = e.
Proof.
  intros. unfold internal, still, sqnorm, dot. cbn [rho mom ene].
  assert (E : sumn d (fun i => 0 * 0) = 0) by (induction d; cbn; lra). rewrite E. unfold Rdiv. ring.
Qed.
Lemma moving_ok : forall st, st = air \/ st = air_relaxed -> cell_ok 2 st (9/10) moving.
Proof.
  intros st Hst. assert (B : 0 <= mean_rho_eps st <= 1/10 /\ 0 <= mean_p_eps st <= 1/100 /\ gam st - 1 = 2/5).
  { destruct Hst as [-> | ->]; unfold mean_rho_eps, mean_p_eps; cbn [relaxed air air_relaxed ref_rho ref_p gam]; rewrite ?eps_1; lra. }
  destruct B as (B1 & B2 & B3). unfold cell_ok, physical, resolved, not_swamped, kept_e. rewrite moving_internal, B3.
  cbn [rho moving]. pose proof tiny. split; [lra|]. split; [lra|].
  assert (K : kinetic 2 moving = 1/4) by (unfold kinetic, moving, sqnorm, dot; cbn; field). rewrite K.
  pose proof verySmall_lt. pose proof verySmall_pos. lra.
Qed.
Lemma allowed : forall st, relax_allowed st (9/10).
Proof. intro st. unfold relax_allowed. lra. Qed.

(** *** counterexamples *)
Lemma ekin_still : forall d r, 0 <= r -> ekin d r (fun _ => 0) = Ok 0.
Proof.
  intros d r H. pose proof verySmall_pos. unfold ekin. destruct (Req_EM_T _ 0); [lra|]. f_equal.
  assert (E : sqnorm d (fun _ => 0) = 0) by (unfold sqnorm, dot; induction d; cbn; lra). rewrite E. unfold Rdiv. ring.
Qed.
Lemma einner_still : forall d r e r' e' y a, 0 <= r + a * r' ->
  einner d (still r e) {| rho := r'; mom := fun _ => 0; ene := e'; extra := y |} a = Ok (a * e' + e).
Proof.
  intros d r e r' e' y a H. pose proof verySmall_pos. unfold einner, ekin, still. cbn [rho mom ene].
  destruct (Req_EM_T _ 0); [lra|]. cbn [bind]. f_equal.
  rewrite (sqnorm_ext d (fun _ => 0 + a * 0) (fun _ => 0)) by (intros; ring).
  assert (E : sqnorm d (fun _ => 0) = 0) by (unfold sqnorm, dot; induction d; cbn; lra). rewrite E. unfold Rdiv. ring.
Qed.

Lemma zero_density : compress_rec_part 2 Laminar (still 1 1) {| rho := -1; mom := fun _ => 0; ene := 0; extra := fun _ => 0 |}
  = Ok (sadd (still 1 1) {| rho := -1; mom := fun _ => 0; ene := 0; extra := fun _ => 0 |}, false).
Proof.
  pose proof verySmall_pos. unfold compress_rec_part. set (s := sadd _ _).
  assert (rho s = 0) as Es by (unfold s; cbn; lra).
  destruct (Rlt_dec (rho s) 0); [lra|]. cbn [fst].
  unfold ekin. rewrite Es. destruct (Req_EM_T _ 0); [lra|]. cbn [bind].
  rewrite (sqnorm_ext 2 (mom s) (fun _ => 0)) by (intros; unfold s; cbn; lra).
  assert (E : sqnorm 2 (fun _ => 0) = 0) by (unfold sqnorm, dot; cbn; lra). rewrite E.
  destruct (Rlt_dec _ 0) as [L|]; [|reflexivity]. exfalso. unfold s in L. cbn in L. unfold Rdiv in L. lra.
Qed.

(** an increment that leaves the internal energy between the two bounds *)
Definition between : state := {| rho := 0; mom := fun _ => 0; ene := 15/1000000000000 - 1; extra := fun _ => 0 |}.
Lemma between_added : exists v, add_fixed_increment 2 Laminar air 1 (still 1 1) between = Ok v /\ assert_mean_pp 2 air v = Abort.
Proof.
  pose proof verySmall_pos as VS. unfold add_fixed_increment, compress_inc. cbn [rho still].
  destruct (Rlt_dec 0 1); [|lra]. unfold fix_density, inc_rho_eps, inc_p_eps. cbn [relaxed air ref_rho ref_p gam]. rewrite eps_1.
  cbn [rho sscale between still]. destruct (Rle_dec (1 + 1 * 0) (1/100000000000)); [lra|]. cbn [bind].
  unfold fix_energy. change (mom (still 1 1)) with (fun _ : nat => 0). cbn [rho still]. rewrite ekin_still by lra. cbn [bind].
  destruct (Rlt_dec 0 (ene (still 1 1) - 0)) as [|N]; [|cbn in N; lra].
  assert (E : einner 2 (still 1 1) (sscale 1 between) 1 = Ok (15/1000000000000)).
  { pose proof (step_internal_reg 2 (still 1 1) (sscale 1 between) 1) as S. cbn [rho still sscale between] in S.
    unfold einner, ekin. cbn [rho still sscale between mom ene]. destruct (Req_EM_T _ 0); [lra|]. cbn [bind]. f_equal.
    rewrite (sqnorm_ext 2 (fun _ => 0 + 1 * (1 * 0)) (fun _ => 0)) by (intros; ring).
    assert (E : sqnorm 2 (fun _ => 0) = 0) by (unfold sqnorm, dot; cbn; lra). rewrite E. unfold Rdiv at 1. lra. }
  rewrite E. cbn [bind]. unfold inc_p_eps. cbn [relaxed air ref_p]. rewrite eps_1.
  destruct (Rle_dec (15/1000000000000) (1/100000000000)); [lra|]. cbn [bind].
  eexists. split; [reflexivity|]. unfold assert_mean_pp, mean_rho_eps, mean_p_eps. cbn [relaxed air ref_rho ref_p gam]. rewrite eps_1.
  destruct (Rlt_dec _ _) as [L|]; [cbn in L; lra|]. rewrite rho_e_val by (cbn; lra). cbn [bind].
  destruct (Req_EM_T _ _); [lra|]. destruct (Rlt_dec _ _) as [|N]; [reflexivity|]. exfalso. apply N. clear N.
  rewrite (internal_ext 2 _ (still 1 (15/1000000000000))); [rewrite still_internal; lra|cbn; ring|cbn; intros; ring|cbn; lra].
Qed.

(** a thin gas, still of positive pressure *)
Lemma thin_aborts : compress_inc 2 Laminar air (still 1 (1/100000000000))
   {| rho := 0; mom := fun _ => 0; ene := - (1/1000000000000); extra := fun _ => 0 |} = Abort.
Proof.
  pose proof verySmall_pos as VS. unfold compress_inc. cbn [rho still].
  destruct (Rlt_dec 0 1); [|lra]. unfold fix_density, inc_rho_eps. cbn [relaxed air ref_rho rho still]. rewrite eps_1.
  destruct (Rle_dec (1 + 0) (1/100000000000)); [lra|]. cbn [bind].
  unfold fix_energy. change (mom (still 1 (1/100000000000))) with (fun _ : nat => 0). cbn [rho still ene]. rewrite ekin_still by lra. cbn [bind].
  destruct (Rlt_dec 0 (1/100000000000 - 0)); [|lra].
  rewrite einner_still by lra. cbn [bind]. unfold inc_p_eps. cbn [relaxed air ref_p gam]. rewrite eps_1.
  destruct (Rle_dec _ _); [|lra]. destruct (Req_EM_T (7/5) 1); [lra|]. cbn [mom rho ene].
  assert (Z1 : sqnorm 2 (fun _ => 0) = 0) by (unfold sqnorm, dot; cbn; lra).
  assert (Z2 : dot 2 (fun _ => 0) (fun _ => 0) = 0) by (unfold dot; cbn; lra). rewrite Z1, Z2.
  match goal with |- context [Rlt_dec 0 ?D] => destruct (Rlt_dec 0 D) as [|N] end; [|reflexivity].
  unfold inc_root. destruct (Req_EM_T _ 0) as [|N]; [|exfalso; apply N; ring].
  destruct (Rlt_dec 0 _); [lra|]. cbn [bind].
  set (F := 1/100000000000 / (7/5 - 1)). assert (EF : F = 25/1000000000000) by (unfold F; field).
  assert (DC : forall k a, a = 0 -> exists a', inc_decay 2 (still 1 (1/100000000000))
      {| rho := 0; mom := fun _ => 0; ene := - (1/1000000000000); extra := fun _ => 0 |} F k a = Ok a' /\ a' = 0).
  { induction k as [|k IH]; intros a ->; [exists 0; auto|]. cbn [inc_decay]. rewrite einner_still by lra. cbn [bind].
    destruct (Rlt_dec _ F); [apply IH; ring|exists 0; auto]. }
  destruct (DC 1000%nat (0 * (99/100)) ltac:(ring)) as (a' & -> & ->). cbn [bind].
  rewrite einner_still by lra. cbn [bind]. destruct (Rlt_dec _ _); [reflexivity|]. rewrite EF in *. lra.
Qed.

(** the multiplier with a compression power of zero *)
Definition no_power : settings :=
  {| ref_rho := 1; ref_p := 1; ref_extra := fun _ => 1; gam := 7/5; relaxed := false;
     alpha_power := 0; beta_power := 11; omega_floor := None |}.
Definition draining : state := {| rho := -10; mom := fun _ => 0; ene := 0; extra := fun _ => 0 |}.
Lemma power_zero : exists a, rhs_alpha_cell 2 no_power 1 2 (still 1 1) draining = Ok (a, true) /\ rho (step (still 1 1) draining a) < 0.
Proof.
  unfold rhs_alpha_cell, mean_rho_eps, mean_p_eps. cbn [relaxed no_power ref_rho ref_p rho still draining gam alpha_power]. rewrite eps_1.
  destruct (Rle_dec (1/100000000000) 1); [|lra]. destruct (Rlt_dec (-10) 0); [|lra].
  set (q := (1 - (1/100000000000 * 1 + 1 * (1 - 1))) / (- -10 - smallR * -10)).
  assert (Q : 0 < q < 1/10).
  { unfold q. rewrite smallR_val. assert (q * (10 + 1/1000000000) = 1 - 1/100000000000) by (unfold q; rewrite smallR_val; field).
    fold q. unfold q in H at 1. rewrite smallR_val in H. split; lra. }
  rewrite Rmin_right by lra. destruct (Rle_dec 0 q); [|lra].
  assert (E : internal 2 (sadd (still 1 1) (sscale q draining)) = 1).
  { rewrite (internal_ext 2 _ (still (1 - 10 * q) 1)); [apply still_internal|cbn; ring|cbn; intros; ring|cbn; ring]. }
  fold draining. rewrite (rho_e_val 2 (sadd (still 1 1) (sscale q draining))) by (cbn; lra). cbn [bind].
  rewrite rho_e_val by (cbn; lra). cbn [bind]. rewrite E, still_internal.
  destruct (Rlt_dec (1 * (7/5 - 1)) (1 * (7/5 - 1))); [lra|]. destruct (Rlt_dec _ (1/100000000000)); [lra|]. cbn [bind].
  destruct (Rlt_dec (q * 1) 1); [|lra]. eexists. split; [reflexivity|].
  cbn [step sadd sscale rho still draining Nat.mul Nat.add pow]. rewrite safety_val. lra.
Qed.

(** relaxed turbulence increments *)
Definition heated : state := {| rho := 0; mom := fun _ => 0; ene := 1; extra := fun _ => 1 |}.
Lemma ransrelax_scales_energy : forall rr, 0 <= rr <= 1 -> exists v,
  fincrement 2 TwoEq air (9/10) rr 1 (still 1 1) heated = Ok v /\ ene v = 1 + rr /\ extra v 1%nat = 2.
Proof.
  intros rr Hr. pose proof verySmall_pos as VS. unfold fincrement. cbn [relaxed air].
  assert (EA : rhs_alpha_cell 2 air (9/10) 2 (still 1 1) heated = Ok (1 * 1, false)).
  { unfold rhs_alpha_cell, mean_rho_eps, mean_p_eps. cbn [relaxed air ref_rho ref_p gam]. rewrite eps_1.
    destruct (Rle_dec _ (rho (still 1 1))) as [|N]; [|cbn in N; lra].
    destruct (Rlt_dec (rho heated) 0) as [L|]; [cbn in L; lra|]. destruct (Rle_dec 0 1); [|lra].
    rewrite (rho_e_val 2 (sadd _ _)) by (cbn; lra). cbn [bind]. rewrite rho_e_val by (cbn; lra). cbn [bind].
    rewrite (internal_ext 2 (sadd (still 1 1) (sscale 1 heated)) (still 1 2)) by (cbn; intros; ring). rewrite !still_internal.
    destruct (Rlt_dec (2 * (7/5 - 1)) (1 * (7/5 - 1))); [lra|]. destruct (Rlt_dec (2 * (7/5 - 1)) (1/100000000000)); [lra|]. cbn [bind].
    destruct (Rlt_dec (1 * 1) 1); [lra|]. reflexivity. }
  rewrite EA. cbn [bind fst]. unfold add_fixed_increment.
  set (x := sscale 1 (ransrelax_inc TwoEq rr (sscale (1 * 1) heated))).
  assert (X : rho x = 0 /\ (forall i, mom x i = 0) /\ ene x = rr /\ extra x 0%nat = rr /\ extra x 1%nat = 1).
  { unfold x. cbn. repeat split; intros; ring. }
  destruct X as (Xr & Xm & Xe & X0 & X1).
  destruct (compress_inc_ok 2 TwoEq air (still 1 1) x air_sane) as (y & t & e & Ey & _ & _ & _ & _ & _ & _ & _ & K).
  { unfold inc_rho_eps. cbn [relaxed air ref_rho]. rewrite eps_1. cbn. lra. }
  { unfold inc_p_eps. cbn [relaxed air ref_p gam]. rewrite eps_1, still_internal. lra. }
  { intros i _. cbn. lra. }
  rewrite K in Ey.
  - rewrite Ey. cbn [bind]. cbn [omega_floor air]. 
    assert (AS : assert_mean_pp 2 air (sadd (still 1 1) x) = Ok tt).
    { apply assert_mean_ok; [apply air_sane|]. unfold physical, mean_rho_eps, mean_p_eps. cbn [relaxed air ref_rho ref_p gam]. rewrite eps_1.
      rewrite (internal_ext 2 _ (still 1 (1 + rr))) by (cbn [sadd still rho mom ene]; intros; rewrite ?Xr, ?Xm, ?Xe; ring).
      rewrite still_internal. cbn [sadd still rho]. rewrite Xr. lra. }
    cbn [bind]. rewrite AS. cbn [bind]. eexists. split; [reflexivity|]. cbn [sadd still ene extra]. rewrite Xe, X1. split; ring.
  - cbn [sadd still rho]. rewrite Xr. unfold inc_rho_eps. cbn [relaxed air ref_rho]. rewrite eps_1. lra.
  - intros e0 E0. destruct (step_internal_reg 2 (still 1 1) x 1) as (e1 & E1 & I1); [cbn [still rho]; rewrite Xr; lra|].
    rewrite E0 in E1. injection E1 as <-.
    rewrite (internal_ext 2 _ (still 1 (1 + rr))) in I1 by (cbn [step sadd sscale still rho mom ene]; intros; rewrite ?Xr, ?Xm, ?Xe; ring).
    rewrite still_internal in I1. unfold inc_p_eps. cbn [relaxed air ref_p]. rewrite eps_1. lra.
  - intros i [<-|[<-|[]]]; cbn [sadd still extra]; rewrite ?X0, ?X1; lra.
Qed.

(** *** reconstructions *)
Definition flat_extra (x : R) : state := {| rho := 0; mom := fun _ => 0; ene := 0; extra := fun _ => x |}.

Lemma flat_internal : forall d r e m x, (forall i, m i = 0) -> internal d {| rho := r; mom := m; ene := e; extra := x |} = e.
Proof.
  intros d r e m x H. rewrite (internal_ext d _ (still r e)) by (cbn; intros; auto; ring). apply still_internal.
Qed.

(** one point, one coefficient: the turbulence variable of NS_SA is left negative *)
Lemma one_equation : urec_beta 2 false OneEq air (eps 1) (eps 1) true 1 (still 1 1) [[1]] [flat_extra (-2)] = Ok ([flat_extra (-2)], 1).
Proof.
  pose proof verySmall_pos as VS. pose proof eps_1 as E1. set (ep := eps 1) in *. clearbody ep.
  assert (SI : forall v, (forall i, mom v i = 0) -> internal 2 v = ene v) by (intros (r, m, e, x) H; cbn in H; rewrite flat_internal; auto).
  assert (PC : points (still 1 1) [[1]] [flat_extra (-2)] =
     [sadd (sadd (sscale 1 (flat_extra (-2))) szero) (still 1 1)]) by reflexivity.
  assert (PB : points (still 1 1) [[1]] [szero] = [sadd (sadd (sscale 1 szero) szero) (still 1 1)]) by reflexivity.
  rewrite urec_beta_eq. destruct (Rlt_dec _ ep) as [L|]; [cbn in L; lra|].
  rewrite rho_e_val by (cbn; lra). cbn [bind]. cbv zeta. rewrite still_internal. cbn [gam air].
  destruct (Rlt_dec _ ep); [lra|].
  assert (G0 : good 2 OneEq ep ep (points (still 1 1) [[1]] [flat_extra (-2)]) = Ok false).
  { rewrite PC. unfold good, all_rho_good, extras_good. cbn [forallb].
    destruct (Rlt_dec (extra _ 0%nat) ep) as [|N]; [|exfalso; apply N; cbn; lra]. rewrite Bool.andb_false_r. reflexivity. }
  rewrite G0. cbn [bind lower_order].
  assert (D1 : down_cast false 1 [flat_extra (-2)] = Ok [szero]) by reflexivity. rewrite D1. cbn [bind].
  assert (G1 : good 2 OneEq ep ep (points (still 1 1) [[1]] [szero]) = Ok true).
  { rewrite PB. unfold good, all_rho_good, extras_good. cbn [forallb].
    destruct (Rlt_dec (extra _ 0%nat) ep) as [L|]; [cbn in L; lra|]. destruct (Rlt_dec (rho _) ep) as [L|]; [cbn in L; lra|]. cbn [andb].
    cbn [all_e_good]. rewrite rho_e_val by (cbn; lra). cbn [bind]. rewrite SI by (intros; cbn; ring).
    destruct (Rlt_dec _ ep) as [L|]; [cbn in L; lra|]. reflexivity. }
  rewrite G1. cbn [bind fst snd].
  set (bs := points (still 1 1) [[1]] [szero]). set (incs := map _ [[1]]).
  assert (TH : rho_theta ep bs incs = 1).
  { unfold rho_theta, bs, incs. cbn [points map combine existsb]. destruct (Rlt_dec _ ep) as [L|]; [cbn in L; lra|]. reflexivity. }
  rewrite TH. destruct (Rle_dec _ (2 * ep)); [lra|].
  assert (PT : p_theta 2 (7/5) ep (combine bs (map (scale_flow OneEq 1) incs)) 1 = Ok 1).
  { unfold bs, incs. cbn [points map combine p_theta]. rewrite rho_e_val by (cbn; lra). cbn [bind].
    rewrite SI by (intros; cbn; ring). destruct (Req_EM_T (7/5) 1); [lra|].
    destruct (Rlt_dec _ _) as [L|]; [|reflexivity]. exfalso. cbn in L. unfold Rdiv in L. lra. }
  rewrite PT. cbn [bind]. unfold final_beta. destruct (Rlt_dec (1 * 1) 1); [lra|]. destruct (Rlt_dec (1 * 1) 0); [lra|].
  unfold limited, turb_scaled. destruct (Rlt_dec (1 * 1) 1); [lra|]. rewrite PC. cbn [all_e_good].
  rewrite rho_e_val by (cbn; lra). cbn [bind]. rewrite SI by (intros; cbn; ring).
  destruct (Rlt_dec _ ep) as [L|]; [cbn in L; lra|]. cbn [andb]. f_equal. f_equal. ring.
Qed.

(** NS_2EQ with a base of order one: scaling the whole reconstruction leaves k and omega negative *)
Definition bent : list state := [flat_extra 9; flat_extra 0; flat_extra (-11)].
Lemma two_equations : exists c', urec_beta 2 false TwoEq air (eps 1) (eps 1) false 2 (still 1 1) [[1; 0; 1]] bent = Ok (c', 1) /\
  extra (sadd (rec_at c' [1; 0; 1]) (still 1 1)) 0%nat < 0.
Proof.
  pose proof verySmall_pos as VS. pose proof verySmall_lt as VL. pose proof eps_1 as E1. set (ep := eps 1) in *.
  assert (SE : smallR * 1 = 10 * ep) by (rewrite E1, smallR_val; field). clearbody ep.
  assert (SI : forall v, (forall i, mom v i = 0) -> internal 2 v = ene v) by (intros (r, m, e, x) H; cbn in H; rewrite flat_internal; auto).
  rewrite urec_beta_eq. destruct (Rlt_dec _ ep) as [L|]; [cbn in L; lra|].
  rewrite rho_e_val by (cbn; lra). cbn [bind]. cbv zeta. rewrite still_internal. cbn [gam air].
  destruct (Rlt_dec _ ep); [lra|].
  assert (G0 : good 2 TwoEq ep ep (points (still 1 1) [[1; 0; 1]] bent) = Ok false).
  { unfold points. cbn [map]. unfold good, all_rho_good, extras_good. cbn [forallb].
    destruct (Rlt_dec (extra _ 0%nat) ep) as [|N]; [|exfalso; apply N; cbn; lra]. cbn [andb]. rewrite Bool.andb_false_r. reflexivity. }
  rewrite G0. cbn [bind lower_order].
  set (lin := [flat_extra 9; flat_extra 0; szero]).
  assert (D1 : down_cast false 2 bent = Ok lin) by reflexivity. rewrite D1. cbn [bind].
  assert (G1 : good 2 TwoEq ep ep (points (still 1 1) [[1; 0; 1]] lin) = Ok true).
  { unfold points. cbn [map]. unfold good, all_rho_good, extras_good. cbn [forallb].
    destruct (Rlt_dec (extra _ 0%nat) ep) as [L|]; [cbn in L; lra|]. destruct (Rlt_dec (extra _ 1%nat) ep) as [L|]; [cbn in L; lra|].
    destruct (Rlt_dec (rho _) ep) as [L|]; [cbn in L; lra|]. cbn [andb].
    cbn [all_e_good]. rewrite rho_e_val by (cbn; lra). cbn [bind]. rewrite SI by (intros; cbn; ring).
    destruct (Rlt_dec _ ep) as [L|]; [cbn in L; lra|]. reflexivity. }
  rewrite G1. cbn [bind fst snd].
  set (bs := points (still 1 1) [[1; 0; 1]] lin). set (incs := map _ [[1; 0; 1]]).
  assert (TH : rho_theta ep bs incs = 1).
  { unfold rho_theta, bs, incs. cbn [points map combine existsb]. destruct (Rlt_dec _ ep) as [L|]; [cbn in L; lra|]. reflexivity. }
  rewrite TH. destruct (Rle_dec _ (2 * ep)); [lra|].
  assert (PT : p_theta 2 (7/5) ep (combine bs (map (scale_flow TwoEq 1) incs)) 1 = Ok 1).
  { unfold bs, incs. cbn [points map combine p_theta]. rewrite rho_e_val by (cbn; lra). cbn [bind].
    rewrite SI by (intros; cbn; ring). destruct (Req_EM_T (7/5) 1); [lra|].
    destruct (Rlt_dec _ _) as [L|]; [|reflexivity]. exfalso. cbn in L. unfold Rdiv in L. lra. }
  rewrite PT. cbn [bind]. unfold final_beta. destruct (Rlt_dec (1 * 1) 1); [lra|]. destruct (Rlt_dec (1 * 1) 0); [lra|].
  unfold limited. destruct (Rlt_dec (1 * 1) 1); [lra|].
  assert (VB : exists b i, bs = [b] /\ incs = [i] /\ forall k, extra b k = 10 /\ extra i k = -11).
  { eexists _, _. split; [reflexivity|]. split; [reflexivity|]. intro k. cbn. split; ring. }
  destruct VB as (b & i & -> & -> & VB).
  set (q := (10 - 10 * ep) / (11 + verySmall)).
  assert (Q : q * (11 + verySmall) = 10 - 10 * ep) by (unfold q; field; lra).
  assert (HQ : 4/5 < q < 1).
  { clearbody q. split; apply Rnot_le_lt; intro; nra. }
  assert (ET : forall k th, extra_theta air [b] [i] k th = Rmin th q).
  { intros k th. unfold extra_theta. cbn [combine existsb fst snd ref_extra air fold_left]. destruct (VB k) as (-> & ->).
    rewrite SE. destruct (Rlt_dec (-11 + 10) (10 * ep)); [|lra]. cbn [orb]. destruct (Rlt_dec (-11) 0); [|lra].
    f_equal. unfold q. f_equal. ring. }
  unfold turb_scaled. rewrite !ET. rewrite (Rmin_right 1 q) by lra.
  rewrite Rmin_left by lra. destruct (Rlt_dec q 1); [|lra].
  unfold points. cbn [map bent all_e_good]. rewrite rho_e_val by (cbn; lra). cbn [bind]. rewrite SI by (intros; cbn; ring).
  destruct (Rlt_dec _ ep) as [L|]; [cbn in L; lra|]. cbn [andb]. eexists. split; [f_equal; f_equal; ring|]. cbn. lra.
Qed.

(** a reconstruction the limiter scales *)
Definition steep : list state := [{| rho := -2; mom := fun _ => 1; ene := -3; extra := fun _ => 0 |}].
Lemma steep_ok : eps 1 <= rho moving /\ eps 1 <= (gam air - 1) * internal 2 moving /\
  (forall k v, In v (points moving [[1]; [-1]] (truncated k steep)) -> physical 2 (eps 1) (eps 1) v -> resolved 2 (eps 1) v /\ not_swamped 2 v).
Proof.
  pose proof eps_1 as E1. pose proof verySmall_pos as VS. pose proof tiny as TN. pose proof verySmall_lt as VL. set (ep := eps 1) in *. clearbody ep.
  split; [cbn; lra|]. split; [rewrite moving_internal; cbn; lra|].
  assert (W : forall v r e, rho v = r -> internal 2 v = e -> kinetic 2 v <= 1 -> (0 < r -> 1 <= r /\ 1 <= e \/ e < ep) ->
    physical 2 ep ep v -> resolved 2 ep v /\ not_swamped 2 v).
  { intros v r e Hr He Hk C (P1 & P2 & P3). rewrite Hr in *. rewrite He in *. destruct (C P1) as [(A & B)|A]; [|lra].
    unfold resolved, not_swamped. rewrite Hr, He. split; [|]; (assert (1 <= r * e) by nra); [|nra].
    assert (1 * (1 - ep) <= r * (e - ep)) by (apply Rmult_le_compat; lra). lra. }
  intros k v Hv. 
  assert (V : v = sadd (rec_at (truncated k steep) [1]) moving \/ v = sadd (rec_at (truncated k steep) [-1]) moving).
  { cbn in Hv. destruct Hv as [<- | [<- | []]]; [left|right]; reflexivity. }
  clear Hv. destruct k as [|k].
  - destruct V as [-> | ->]; apply (W _ 1 1); unfold internal, kinetic, sqnorm, dot; cbn; try ring; try lra; field.
  - replace (truncated (S k) steep) with steep in V by (destruct k; reflexivity).
    destruct V as [-> | ->].
    + intros (P1 & _). cbn in P1. lra.
    + apply (W _ 3 (17/4 - 1/12)); unfold internal, kinetic, sqnorm, dot; cbn; try ring; try lra; field.
Qed.
