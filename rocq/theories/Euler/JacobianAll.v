From Coq Require Import Reals List ZArith Arith Bool Lia Lra FunctionalExtensionality.
From Verif Require Import Base.Prelude Base.PreludeFacts Euler.GasModel Euler.GasSpec Euler.GasProofs Euler.RiemannModel Euler.RiemannProofs
  Euler.JacobianModel Euler.JacobianSpec Euler.JacobianProofs Euler.JacobianRows Euler.JacobianMore.
Import ListNotations.
Local Open Scope R_scope.

Lemma product_linear : forall d g U UO n vg l useRoe sign omitF, rho U <> 0 -> (useRoe = true -> roe_ok d g U UO) ->
  exists F, (forall dU, times_du d g U UO n vg l useRoe sign omitF dU = Ok (F dU)) /\
    (forall a b, F (add_state a b) = add_state (F a) (F b)) /\ (forall c a, F (scale_state c a) = scale_state c (F a)).
Proof.
  intros d g U UO n vg l r s o H HR. exists (tdu d g U UO n vg l r s o). split; [intro; apply times_ok; auto|]. split; intros; [apply tdu_add|apply tdu_scal].
Qed.
Lemma central_derivative : forall d x g U t dU vg n, has_derivative d x U t dU -> rho (U t) <> 0 ->
  exists y, timesC_du d g (U t) n vg dU = Ok y /\ has_derivative d x (fun s => full_flux d g vg n (U s)) t y.
Proof.
  intros d x g U t dU vg n H HU. exists (cinc d g (U t) n vg dU). split; [|apply hd_full; auto].
  unfold timesC_du. destruct (Req_EM_T (rho (U t)) 0); [contradiction|reflexivity].
Qed.
Lemma plain_row_derivative : forall d x g dTau dt alpha vol U dU fs,
  rho U <> 0 -> (forall p, In p fs -> rho (there (fst p)) <> 0) -> closed d (map fst fs) ->
  exists r, row_times d g dTau dt alpha vol U dU fs = Ok r /\
    has_derivative d x (implicit_residual d g dTau dt alpha vol (fun f => plain_diss (lam f)) U dU fs) 0 r.
Proof.
  intros d x g dTau dt alpha vol U dU fs H1 H2 H3. eexists. split; [apply row_plain; auto|]. apply row_derivative; auto.
  - intros f a b. apply (diss_add d g false (nrm f) U U (lam f) a b).
  - intros f c a. apply (diss_scal d g false (nrm f) U U (lam f) c a).
Qed.
Lemma roe_row_derivative : forall d x g dTau dt alpha vol U dU fs,
  rho U <> 0 -> (forall p, In p fs -> roe_ok d g U (there (fst p))) -> closed d (map fst fs) ->
  exists r, row_times_roe d g dTau dt alpha vol U dU fs = Ok r /\
    has_derivative d x (implicit_residual d g dTau dt alpha vol (fun f => roe_diss d g (nrm f) U (there f) (lam f)) U dU fs) 0 r.
Proof.
  intros d x g dTau dt alpha vol U dU fs H1 H2 H3. eexists. split; [apply row_roe; auto|]. apply row_derivative; auto.
  - intros f a b. apply (diss_add d g true (nrm f) U (there f) (lam f) a b).
  - intros f c a. apply (diss_scal d g true (nrm f) U (there f) (lam f) c a).
  - intros p Hp. destruct (H2 p Hp) as (_ & H & _). lra.
Qed.
Lemma uniform_rows : forall d x g dTau dt alpha vol U dU fs, rho U <> 0 -> closed d (map fst fs) ->
  (forall p, In p fs -> there (fst p) = U /\ snd p = dU) ->
  (exists r, row_times d g dTau dt alpha vol U dU fs = Ok r /\ same_state d x r (scale_state (1 / dTau + 1 / dt) dU)) /\
  (roe_ok d g U U -> exists r, row_times_roe d g dTau dt alpha vol U dU fs = Ok r /\ same_state d x r (scale_state (1 / dTau + 1 / dt) dU)).
Proof.
  intros d x g dTau dt alpha vol U dU fs HU C H. split.
  - eexists. split; [apply row_plain; intros p Hp; destruct (H p Hp) as (-> & _); auto|]. apply row_uniform; auto.
  - intro R. eexists. split; [apply row_roe; intros p Hp; destruct (H p Hp) as (-> & _); auto|]. apply row_uniform; auto.
Qed.
Lemma roe_both_sides : forall d g U V n vg l sign W, roe_ok d g U V ->
  times_du d g V U (opp n) vg (back_speeds l) true sign true W = times_du d g U V n vg l true sign true W.
Proof.
  intros d g U V n vg l sign W H. rewrite !times_ok.
  - unfold tdu, the_diss. rewrite roe_diss_back by auto. reflexivity.
  - destruct H; lra.
  - auto.
  - destruct H as (_ & H & _); lra.
  - intros _. apply roe_swap_in; auto.
Qed.
Lemma equal_speeds_plain : forall d x g U V n vg l v l0 l1 l4 sign omitF W, g <> 1 -> roe_ok d g U V ->
  exists a b, times_du d g U V n vg {| lamMain := l + v; lamVis := v; lam0 := l; lam123 := l; lam4 := l |} true sign omitF W = Ok a /\
    times_du d g U V n vg {| lamMain := l + v; lamVis := v; lam0 := l0; lam123 := l1; lam4 := l4 |} false sign omitF W = Ok b /\ same_state d x a b.
Proof.
  intros d x g U V n vg l v l0 l1 l4 sign omitF W G H. assert (N : rho U <> 0) by (destruct H; lra).
  do 2 eexists. split; [apply times_ok; auto|]. split; [apply times_ok; auto; discriminate|].
  destruct (roe_equal_speeds d g x n U V l v W G H) as (R & M & E & X). unfold tdu, the_diss, plain_diss. cbn [lamMain].
  unfold same_state. cbn [rho mom ene extra add_state scale_state]. rewrite R, E. split; [reflexivity|]. split; [intros; rewrite M by auto; reflexivity|]. split; [reflexivity|].
  intros; rewrite X by auto; reflexivity.
Qed.

(** *** an example: two cells in a ring *)
Definition exU : state := {| rho := 1; mom := fun i => match i with 0%nat => 0 | _ => 0 end; ene := 1; extra := fun _ => 3 |}.
Definition exV : state := {| rho := 4; mom := fun _ => 0; ene := 1; extra := fun _ => 0 |}.
Definition exu (i : nat) : state := match i with 0%nat => exU | _ => exV end.
Definition exd : state := {| rho := 1; mom := fun i => match i with 0%nat => 2 | _ => 1 end; ene := 1; extra := fun _ => 1 |}.
Definition exdu (i : nat) : state := match i with 0%nat => exd | _ => zero_st end.
Definition exn : vec := fun i => match i with 0%nat => 1 | _ => 0 end.
Definition exl : speeds_in := {| lamMain := 2; lamVis := 1; lam0 := 1; lam123 := 2; lam4 := 3 |}.
Definition exf (a b : nat) : mface := {| fL := a; fR := b; farea := 1; flam := exl; fnrm := exn; fvg := fun _ => 1 |}.
Definition exfs : list mface := [exf 0 1; exf 1 0].
Lemma ex_mesh : mesh_ok 2 2 exu exdu exfs.
Proof.
  split.
  - intros f [<-|[<-|[]]]; cbn; lia.
  - intros i Hi. assert (i = 0 \/ i = 1)%nat as [-> | ->] by lia; (split; [intros j Hj|]; cbn; unfold opp, exn; try destruct j; lra).
Qed.
Lemma ex_roe : forall a b, (a = exU \/ a = exV) -> (b = exU \/ b = exV) -> roe_ok 2 (7/5) a b.
Proof.
  intros a b Ha Hb. assert (P : forall s, s = exU \/ s = exV -> 0 < rho s /\ 0 < sqrt (rho s) /\ 0 < enthalpy 2 (7/5) s /\ (forall i, velocity s i = 0)).
  { intros s [-> | ->]; (split; [cbn; lra|]; split; [apply sqrt_lt_R0; cbn; lra|]; split;
      [assert (Q : forall E r p, 0 < E -> 0 < r -> 0 < p -> 0 < (E + p) / r) by (intros; apply Rdiv_lt_0_compat; lra); apply Q; [cbn; lra|cbn; lra|unfold pressure, th_p, velocity, sqnorm, dot; cbn; lra]|intros [|i]; unfold velocity; cbn; lra]). }
  destruct (P a Ha) as (A1 & A2 & A3 & A4). destruct (P b Hb) as (B1 & B2 & B3 & B4). split; [auto|]. split; [auto|].
  unfold roe_average. cbn [av_a2]. unfold sqnorm, dot. cbn [sumn]. rewrite !A4, !B4.
  apply Rmult_lt_0_compat; [lra|]. assert (H : 0 < (sqrt (rho a) * enthalpy 2 (7/5) a + sqrt (rho b) * enthalpy 2 (7/5) b) / (sqrt (rho a) + sqrt (rho b))).
  { apply Rdiv_lt_0_compat; [|lra]. pose proof (Rmult_lt_0_compat _ _ A2 A3). pose proof (Rmult_lt_0_compat _ _ B2 B3). lra. }
  unfold Rdiv in *. lra.
Qed.
