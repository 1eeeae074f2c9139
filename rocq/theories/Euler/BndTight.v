(** The far state, and inlets and outlets that impose or extrapolate everything. *)
From Coq Require Import Reals List Arith ZArith String Lra Lia.
From Verif Require Import Base.Prelude Base.PreludeFacts Euler.GasModel Euler.GasSpec Geom.RotationModel Geom.BoundaryModel Euler.BndModel Euler.BndSpec.
Import ListNotations.
Local Open Scope R_scope.
(** the state given for the boundary: its own for configured ones, the far field for the
    built-in ids, turned by the lift driver *)
Definition given_state (e : env) (b : bc) : state :=
  let U := if Z_lt_dec (b_id b) BC_ID_DEFAULT_MAX then e_far e else b_value b in
  match e_cl e with None => U | Some M => {| rho := rho U; mom := mat_vec (e_d e) M (mom U); ene := ene U; extra := extra U |} end.
Lemma far_is_given e b t : b_type b <> BCFar \/ fr_on (e_frame e) = false \/ b_flag b "frameOpt"%string = Some 0%Z -> far_state e b t = Ok (given_state e b).
Proof.
  intro H. assert (E : cl_turn e (if (BC_ID_DEFAULT_MAX <=? b_id b)%Z then b_value b else e_far e) = given_state e b).
  { unfold given_state, cl_turn. destruct (Z.leb_spec BC_ID_DEFAULT_MAX (b_id b)), (Z_lt_dec (b_id b) BC_ID_DEFAULT_MAX); try lia; destruct (e_cl e); reflexivity. }
  unfold far_state. rewrite E. destruct (b_type b) eqn:T; auto. destruct (fr_on (e_frame e)) eqn:F; auto. destruct H as [H|[H|H]]; try congruence. unfold get_flag. rewrite H. reflexivity.
Qed.
Lemma far_turns_back e b t f : b_type b = BCFar -> fr_on (e_frame e) = true -> b_flag b "frameOpt"%string = Some f -> f <> 0%Z ->
  exists U, far_state e b t = Ok U /\ rho U = rho (given_state e b) /\ ene U = ene (given_state e b) /\ extra U = extra (given_state e b) /\
    mom U = mat_vec 3 (RotateAxis (fun i => - (vOmega (e_frame e) i * t))) (ToThreeDim (e_d e) (mom (given_state e b))).
Proof.
  intros T F G N. assert (E : cl_turn e (if (BC_ID_DEFAULT_MAX <=? b_id b)%Z then b_value b else e_far e) = given_state e b).
  { unfold given_state, cl_turn. destruct (Z.leb_spec BC_ID_DEFAULT_MAX (b_id b)), (Z_lt_dec (b_id b) BC_ID_DEFAULT_MAX); try lia; destruct (e_cl e); reflexivity. }
  unfold far_state. rewrite E, T, F. unfold get_flag. rewrite G. cbn [bind]. rewrite (proj2 (Z.eqb_neq f 0) N). eexists. split; [reflexivity|]. cbn. auto.
Qed.
Lemma in_and_out e b n p pf t fixUL UL ULm : (b_type b = BCIn -> (BC_ID_DEFAULT_MAX <= b_id b)%Z -> boundary_value e b n p pf t fixUL UL ULm = Ok (UL, given_state e b)) /\
  (b_type b = BCOut -> boundary_value e b n p pf t fixUL UL ULm = Ok (UL, UL)).
Proof.
  split; intro T; [intro L|]; unfold boundary_value; rewrite T; auto. unfold given_state, cl_turn. destruct (Z_lt_dec (b_id b) BC_ID_DEFAULT_MAX); [lia|]. destruct (e_cl e); reflexivity.
Qed.
