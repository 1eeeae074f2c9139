(** Runs used as examples and counterexamples. *)

From Coq Require Import List ZArith Bool QArith Lqa Lia.
From Verif Require Import Base.Prelude Euler.TimeLoopModel Euler.TimeLoopSpec.
Import ListNotations.
Local Open Scope Q_scope.

(** Steps of 3/10 up to time 1, files every 4/10 of time and every 2 steps. *)
Definition conf (pp : bool) (ode nStep : Z) (tOut : Q) (avg : bool) : config :=
  {| c_dt := 3 # 10; c_dtMin := 1 # 100; c_nStep := nStep; c_steady := false; c_tEnd := 1;
     c_scale := 1; c_ppLimit := false; c_inc := 2; c_incAfter := 0; c_pp := pp; c_ode := ode;
     c_tOut := tOut; c_nOut := 2; c_nOutC := 1; c_nAvg := 3; c_nAvgC := 100; c_nRst := 2; c_nRstC := 1;
     c_nLog := 5; c_lazy := true; c_atInit := true; c_avg := avg; c_tiny := 1 # 1000000 |}.

Definition wind (s : Z) : env :=
  {| e_cfl := 1; e_lim := None; e_vbdf := fun d => d / 2; e_flow := inject_Z s |}.

Lemma wind_flows : flowing wind.
Proof.
  intros s. cbn. split; [reflexivity|]. split; [discriminate|]. intros d H.
  assert (d / 2 == d * (1 # 2)) by (unfold Qdiv; reflexivity). split; lra.
Qed.

Lemma conf_sane : forall pp ode n a, known_ode ode = true -> (0 <= n <= 1000)%Z ->
  sane (conf pp ode n (4 # 10) a).
Proof.
  intros pp ode n a Ho Hn. constructor; cbn [conf c_steady c_tEnd c_tOut c_dt c_scale c_inc c_nStep c_ode c_nLog c_nOut c_nOutC c_nAvg c_nAvgC c_nRst c_nRstC c_tiny];
    try reflexivity; try assumption; try discriminate; unfold fits, INT_MAX; cbn [conf c_nStep]; lia.
Qed.
