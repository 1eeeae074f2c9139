(** Runs that go wrong. *)

From Coq Require Import List ZArith Bool QArith Lqa Lia.
From Verif Require Import Base.Prelude Euler.TimeLoopModel Euler.TimeLoopSpec Euler.TimeLoopExample Euler.TimeLoopProofs.
Import ListNotations.
Local Open Scope Q_scope.

(** With the positivity-preserving VBDF step the clock is set to the output
    time although the flow was advanced by less. *)
Lemma clock_pp_refuted :
  ~ (forall c e ir fl y, sane c -> flowing e -> run c e ir fl = Ok y -> qsum (lengths (s_trace y)) == s_t y).
Proof.
  intro H.
  destruct (run (conf true 102 10 (4 # 10) true) wind None 0) as [y| |] eqn:E; try (vm_compute in E; discriminate).
  specialize (H _ _ _ _ _ (conf_sane true 102 10 true eq_refl ltac:(lia)) wind_flows E).
  vm_compute in E. injection E as <-. vm_compute in H. discriminate.
Qed.

(** The positivity-preserving step with scheme 1 passes the checks made at the
    start and then uses a null pointer. *)
Lemma scheme_refuted :
  ~ (forall c e ir fl, sane c -> averages_kept c -> flowing e -> initialize c = Ok c ->
       exists y, run c e ir fl = Ok y).
Proof.
  intro H.
  destruct (H (conf true 1 10 (4 # 10) true) wind None 0) as [y E].
  - apply conf_sane; [reflexivity | lia].
  - left. reflexivity.
  - apply wind_flows.
  - reflexivity.
  - vm_compute in E. discriminate.
Qed.

Lemma scheme_ub : run (conf true 1 10 (4 # 10) true) wind None 0 = UB.
Proof. vm_compute. reflexivity. Qed.

(** A file of averages asked for while none are kept stops the run in the
    middle. *)
Lemma averages_refuted :
  ~ (forall c e ir fl, sane c -> flowing e -> c_pp c = false -> exists y, run c e ir fl = Ok y).
Proof.
  intro H. destruct (H (conf false 1 10 (4 # 10) false) wind None 0) as [y E].
  - apply conf_sane; [reflexivity | lia].
  - apply wind_flows.
  - reflexivity.
  - vm_compute in E. discriminate.
Qed.

(** A run started from a restart file counts time and steps from the
    beginning again. *)
Lemma restart_refuted :
  ~ (forall c e i fl y, sane c -> flowing e -> (0 < i)%Z -> run c e (Some i) fl = Ok y ->
       forall s d t, In (s, d, t) (advances (s_trace y)) -> (i < s)%Z).
Proof.
  intro H.
  destruct (run (conf false 1 10 (4 # 10) true) wind (Some 4%Z) 0) as [y| |] eqn:E; try (vm_compute in E; discriminate).
  specialize (H _ _ 4%Z _ _ (conf_sane false 1 10 true eq_refl ltac:(lia)) wind_flows eq_refl E).
  vm_compute in E. injection E as <-. 
  specialize (H _ _ _ (or_introl eq_refl)). cbn in H. discriminate.
Qed.

(** Files every 0 units of time keep the clock at 0. *)
Lemma interval_refuted :
  ~ (forall c e ir fl y, 0 < c_tEnd c -> 0 <= c_tOut c -> 0 < c_dt c -> 0 < c_dtMin c -> (0 < c_nStep c)%Z ->
       flowing e -> run c e ir fl = Ok y -> 0 < s_t y).
Proof.
  intro H.
  destruct (run (conf false 1 10 0 true) wind None 0) as [y| |] eqn:E; try (vm_compute in E; discriminate).
  specialize (H (conf false 1 10 0 true) wind None 0 y eq_refl ltac:(cbn; lra) eq_refl eq_refl eq_refl wind_flows E).
  vm_compute in E. injection E as <-. vm_compute in H. discriminate.
Qed.
