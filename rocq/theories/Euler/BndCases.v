(** Concrete walls: where the HLL solvers leak, and examples for the theorems. *)
From Coq Require Import Reals List Arith Lra Lia ZArith String FunctionalExtensionality.
From Verif Require Import Base.Prelude Euler.GasModel Euler.GasSpec Euler.GasProofs Euler.CompressModel Euler.CompressProofs Euler.RiemannModel
  Euler.RiemannSpec Euler.RiemannProofs Euler.RiemannCases Euler.JacobianProofs Geom.RotationModel Geom.BoundaryModel Euler.BndModel Euler.BndSpec Euler.BndFlux
  Euler.BndWall Euler.BndProofs Euler.BndFar Euler.BndInlet.
Import ListNotations.
Local Open Scope R_scope.

Definition env_with (fr : frame) (tu : turbulence) : env :=
  {| e_d := 2; e_gamma := air; e_Cp := 7/2; e_Rgas := 1; e_far := gas_x 1 (1/2) (5/7); e_frame := fr; e_cl := None;
     e_anchor := None; e_profile := None; e_turb := tu; e_mu := 1/100; e_dwall := 1/10; e_special := Abort |}.
Definition plain : env := env_with no_frame NoTurb.
(** a frame turning once a second about the origin *)
Definition spin : frame := {| fr_on := true; fr_axis := v3 0 0 1; fr_center := v3 0 0 0; fr_rpm := 60 |}.
Definition turning : env := env_with spin SA.

Definition slip_bc : bc := {| b_id := BC_ID_DEFAULT_WALL_INVIS; b_type := BCWallInvis; b_value := rest; b_flag := fun _ => None |}.
Definition flag0 (k : string) : string -> option Z := fun s => if String.eqb s k then Some 0%Z else None.
Definition wall_bc : bc := {| b_id := 20; b_type := BCWall; b_value := rest; b_flag := flag0 "frameOpt" |}.
Definition out_bc : bc := {| b_id := 21; b_type := BCOutP; b_value := gas_x 1 (1/2) (5/7); b_flag := flag0 "anchorOpt" |}.
Definition far_bc : bc := {| b_id := 22; b_type := BCFar; b_value := gas_x 1 (1/2) (5/7); b_flag := flag0 "frameOpt" |}.
(** stagnation pressure 2, stagnation temperature 3, direction (3, 4) *)
Definition stag_bc : bc := {| b_id := 23; b_type := BCInPsTs;
  b_value := {| rho := 2; mom := fun i => if (i =? 0)%nat then 3 else 3; ene := 4; extra := fun _ => 0 |}; b_flag := fun _ => None |}.

Lemma ex_unit : sqnorm 2 ex = 1. Proof. unfold sqnorm, dot, ex. cbn. ring. Qed.
Lemma turn_gx : forall u p, turn (mirror 2 ex) (gas_x 1 u p) = gas_x 1 (- u) p.
Proof.
  intros. apply state_eq; cbn [rho mom ene extra turn with_mom gas_x]; auto; try field.
  fe. unfold mirror. rewrite dot_ex. unfold ex. destruct (x =? 0)%nat eqn:E.
  - apply Nat.eqb_eq in E. subst. cbn. ring.
  - ring_simplify. reflexivity.
Qed.
Lemma slip_gx : forall u p q pf t f m, boundary_value plain slip_bc ex q pf t f (gas_x 1 u p) m = Ok (gas_x 1 u p, gas_x 1 (- u) p).
Proof.
  intros. unfold boundary_value. cbn [b_type slip_bc]. rewrite slip_is by (cbn; lra). cbn [bind]. repeat f_equal.
  change (grid_speed (e_frame plain) q) with (fun _ : nat => 0).
  replace (opp (fun _ => 0)) with (fun _ : nat => 0) by (fe; unfold opp; ring). rewrite !boost_zero. apply turn_gx.
Qed.

(** *** supersonic flow towards a slip wall: HLLC lets all of it through *)
Definition fast : state := gas_x 1 2 (5/7).
Definition fast' : state := gas_x 1 (-2) (5/7).
Lemma fast_avg : common 2 air fast fast' fast fast' = Ok (avg1 2 (-2) (7/2 * (5/7) + 2 * 2 / 2) (7/2 * (5/7) + -2 * -2 / 2), sqrt (9/5)).
Proof. unfold fast, fast'. rewrite (common1 _ _ _ _ (9/5)) by (cbn; lra). reflexivity. Qed.
Lemma hllc_leak : exists F, hllc_flux 2 air still ex fast fast' fast fast' = Ok F /\ rho F = 2.
Proof.
  exists (exact_flux 2 air still ex fast). split.
  - unfold hllc_flux. rewrite fast_avg. cbn [bind]. unfold hllc_outer, fast, fast'. rewrite !ns1, !gx_p, !gx_a2 by lra. unfold still.
    unfold rsqrt. destruct (Rle_dec 0 _); [|lra].
    assert (S1 : 1 <= sqrt (9/5)) by (rewrite <- sqrt_1 at 1; apply sqrt_le_1_alt; lra).
    cbn [bind avg1 av_rho]. rewrite Rmax_left by lra. unfold hllc_q. destruct (Rle_dec 0 (5/7)); [|lra]. cbn [bind].
    sq (7/5 * (5/7) / 1) 1. destruct (Rle_dec 0 _); [reflexivity|lra].
  - unfold exact_flux, flux, fast. cbn [rho]. rewrite !dot_ex, !gx_vel by lra. unfold still. cbn. lra.
Qed.

(** *** subsonic flow towards a slip wall: both HLLEP solvers leak *)
Definition slow : state := gas_x 1 (40/79) (5/7).
Definition slow' : state := gas_x 1 (- (40/79)) (5/7).
Definition slow_avg : roe_avg := avg1 (40/79) (- (40/79)) (7/2 * (5/7) + 40/79 * (40/79) / 2) (7/2 * (5/7) + - (40/79) * - (40/79) / 2).
Lemma slow_common : common 2 air slow slow' slow slow' = Ok (slow_avg, 81/79).
Proof. unfold slow, slow'. rewrite (common1 _ _ _ _ (6561/6241)) by (cbn; lra). sq (6561/6241) (81/79). reflexivity. Qed.
Lemma slow_strength : strength1 2 air ex slow_avg (sub_state slow' slow) = 0.
Proof. unfold strength1, strength_t, dot, slow, slow', slow_avg, ex, air. cbn. field. Qed.

Lemma slow_speeds : hllep_speeds (dot 2 (av_v slow_avg) ex - dot 2 still ex) (81/79) (normal_speed 2 slow still ex) (normal_speed 2 slow' still ex) 1 1
  = (81/79, - (39/79)).
Proof.
  unfold hllep_speeds, slow, slow'. rewrite !ns1, !dot_ex. unfold still. cbn [slow_avg avg1 av_v Nat.eqb].
  replace ((40/79 + - (40/79)) / 2 - 0) with 0 by field.
  rewrite Rminus_0_l, Rplus_0_l, Rabs_Ropp, (Rabs_right (81/79)) by lra.
  replace (40/79 - 0 - 1) with (- (39/79)) by field. replace (- (40/79) - 0 + 1) with (39/79) by field.
  rewrite (Rmax_left (81/79) (39/79)), (Rmin_right (81/79) (- (39/79))), Rmax_left, Rmin_left by lra. reflexivity.
Qed.
Lemma slow_sound : sound2 2 air slow = 1 /\ sound2 2 air slow' = 1.
Proof. unfold slow, slow'. rewrite !gx_a2 by lra. split; field. Qed.
Lemma slow_flux : rho (exact_flux 2 air still ex slow) = 40/79 /\ rho (exact_flux 2 air still ex slow') = - (40/79).
Proof.
  unfold exact_flux, flux, slow, slow'. cbn [rho]. rewrite !dot_ex, !gx_vel by lra. unfold still. cbn. split; field.
Qed.
Lemma hllep_leak : exists F, hllep_flux 2 0 air still ex slow slow' slow slow' = Ok F /\ 0 < rho F.
Proof.
  pose proof verySmall_pos as Vp. destruct slow_sound as [S1 S2]. destruct slow_flux as [F1 F2].
  unfold hllep_flux. rewrite slow_common. cbn [bind]. rewrite S1, S2, slow_strength. unfold rsqrt.
  destruct (Rle_dec 0 1); [|lra]. cbn [bind]. rewrite sqrt_1, slow_speeds. cbn [Nat.eqb].
  unfold signP. destruct (Rle_dec 0 (81/79 - - (39/79))); [|lra].
  unfold rdiv. destruct (Req_EM_T _ 0); [lra|]. cbn [bind]. eexists. split; [reflexivity|]. cbn [rho]. rewrite F1, F2.
  replace (rho slow' - rho slow) with 0 by (cbn; ring).
  set (D := 81/79 - - (39/79) + 1 * verySmall). assert (HD : 0 < D) by (unfold D; lra).
  apply (Rmult_lt_reg_r D); [lra|]. rewrite Rmult_0_l.
  set (df := 81/79 / (81/79 + Rabs _)).
  match goal with |- _ < ?x * D => replace (x * D) with (81/79 * (40/79) - 39/79 * (40/79)) by (field; lra) end. lra.
Qed.
Lemma hllep_v1_leak : exists F, hllep_flux 2 1 air still ex slow slow' slow slow' = Ok F /\ 0 < rho F.
Proof.
  destruct slow_sound as [S1 S2]. destruct slow_flux as [F1 F2].
  unfold hllep_flux. rewrite slow_common. cbn [bind]. rewrite S1, S2. unfold rsqrt.
  destruct (Rle_dec 0 1); [|lra]. cbn [bind]. rewrite sqrt_1, slow_speeds. cbn [Nat.eqb].
  unfold rdiv. destruct (Req_EM_T _ 0); [lra|]. cbn [bind]. eexists. split; [reflexivity|].
  cbn [rho central wave_sum]. unfold strength4, strength0. rewrite F1, F2, slow_strength.
  assert (V : dot 2 (av_v slow_avg) ex - dot 2 still ex = 0).
  { rewrite !dot_ex. unfold still. cbn. field. }
  rewrite V. replace (dot 2 (mom (sub_state slow' slow)) ex) with (- (80/79)) by (rewrite dot_ex; cbn; field).
  replace (rho (sub_state slow' slow)) with 0 by (cbn; ring).
  set (D1 := 81/79 / (Rabs 0 + 81/79 + verySmall)).
  match goal with |- _ < ?x => replace x with (40/79 * (42/120)) by field end. lra.
Qed.

Lemma leaks : forall x, In x [HLLC; HLLEP; HLLEP_V1] -> exists UL UR F, admissible 2 air UL /\
  boundary_value plain slip_bc ex (fun _ => 0) (fun _ => 0) 0 false UL UL = Ok (UL, UR) /\
  numerical_flux 2 x air 0 (grid_speed (e_frame plain) (fun _ => 0)) ex UL UR UL UR = Ok F /\ 0 < rho F.
Proof.
  intros x Hx. cbn in Hx. destruct Hx as [<-|[<-|[<-|[]]]].
  - destruct hllc_leak as (F & E & H). exists fast, fast', F. repeat split.
    + cbn. lra.
    + unfold fast. rewrite gx_a2; lra.
    + unfold fast, fast'. rewrite slip_gx. repeat f_equal.
    + exact E.
    + lra.
  - destruct hllep_leak as (F & E & H). exists slow, slow', F. repeat split; auto.
    + cbn. lra.
    + unfold slow. rewrite gx_a2; lra.
    + unfold slow, slow'. apply slip_gx.
  - destruct hllep_v1_leak as (F & E & H). exists slow, slow', F. repeat split; auto.
    + cbn. lra.
    + unfold slow. rewrite gx_a2; lra.
    + unfold slow, slow'. apply slip_gx.
Qed.
