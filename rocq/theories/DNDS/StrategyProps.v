(** C07: communication strategies and modes. *)
From Coq Require Import List ZArith Bool Permutation.
From Verif Require Import Base.Prelude Base.MPIModel DNDS.IndexMappingModel DNDS.ArrayModel DNDS.ArraySpec
  DNDS.ExchangeModel DNDS.ExchangeSpec DNDS.ExchangeDemo DNDS.RequestModel DNDS.StrategyProofs DNDS.InSituFinalProofs.
Import ListNotations.
Local Open Scope Z_scope.

(** A pull cycle, with all requests started at once or one by one, with buffered
    or rendezvous sends, and in any schedule: never stuck, of bounded length, and
    when all ranks are done every message was transferred exactly once. *)
Theorem C07_pull_completes_partial : forall T (dflt : T) lens ms l ws ts pull push one_by_one eager n st,
  created_with dflt lens ms l ws ts pull push ->
  let reqs := map pull_reqs ts in let progs := map (cycle one_by_one) reqs in
  rsteps eager reqs n (begin progs) st ->
  ~ stuck eager reqs st /\ (n <= list_sum (map (@length _) progs) + length (transfers reqs))%nat /\
  (finished st -> Permutation (log st) (transfers reqs)).
Proof. exact pull_completes. Qed.
Print Assumptions C07_pull_completes_partial.

(** The same for a push with all requests started at once. *)
Theorem C07_push_completes_partial : forall T (dflt : T) lens ms l ws ts pull push eager n st,
  created_with dflt lens ms l ws ts pull push ->
  let reqs := map push_reqs ts in let progs := map (cycle false) reqs in
  rsteps eager reqs n (begin progs) st ->
  ~ stuck eager reqs st /\ (n <= list_sum (map (@length _) progs) + length (transfers reqs))%nat /\
  (finished st -> Permutation (log st) (transfers reqs)).
Proof. exact push_completes. Qed.
Print Assumptions C07_push_completes_partial.

(** One by one, a push can deadlock: its requests are stored sends first, but as
    many as there are receives are started first. *)
Theorem C07_push_one_by_one_refuted : exists lens ms l ws ts pull push n st,
  created_with 0 lens ms l ws ts pull push /\
  rsteps false (map push_reqs ts) n (begin (map (cycle true) (map push_reqs ts))) st /\
  stuck false (map push_reqs ts) st.
Proof. exact ring_push_deadlocks. Qed.
Print Assumptions C07_push_one_by_one_refuted.

(** One by one, pullOnce transfers messages twice: clearing waits again, and
    waiting starts the requests. *)
Theorem C07_pull_once_refuted : exists lens ms l ws ts pull push n st,
  created_with 0 lens ms l ws ts pull push /\
  rsteps false (map pull_reqs ts) n (begin (map (once true) (map pull_reqs ts))) st /\ finished st /\
  ~ NoDup (log st).
Proof. exact pull_once_twice. Qed.
Print Assumptions C07_pull_once_refuted.

(** With in-situ packing, max-layout ghosts are wrong after a pull: rows are packed
    with their sizes and stored over whole strides. *)
Theorem C07_insitu_max_refuted : exists lens ms ws ts order ws', mapped lens ms /\ ready 0 lens ms Max ws /\
  createMPITypes 0 InSituPack ws ms = Ok ts /\
  Permutation order (list_prod (ranks (length ts)) (ranks (length ts))) /\
  insitu_pull ts order = Ok (Some ws') /\ ~ ghosts_current lens ms ws'.
Proof. exact insitu_max_wrong. Qed.
Print Assumptions C07_insitu_max_refuted.

(** With in-situ packing, a pull of empty rows never completes: the empty message
    is sent but not received.  Derived datatypes skip it on both sides. *)
Theorem C07_insitu_empty_refuted : exists lens ms ws ts ts' pull push order,
  mapped lens ms /\ ready 0 lens ms CSR ws /\
  created_with 0 lens ms CSR ws ts pull push /\
  createMPITypes 0 InSituPack ws ms = Ok ts' /\
  Permutation order (list_prod (ranks (length ts')) (ranks (length ts'))) /\
  insitu_pull ts' order = Ok None.
Proof. exact insitu_hangs. Qed.
Print Assumptions C07_insitu_empty_refuted.

(** With in-situ packing, pushOnce never succeeds, whatever was received. *)
Theorem C07_insitu_push_once_refuted : forall T P (t : trans T) bufs w w',
  (0 < P)%nat -> insitu_push_once P t bufs w <> Ok w'.
Proof. exact insitu_push_never. Qed.
Print Assumptions C07_insitu_push_once_refuted.

Example C07_example : let p := demo_pulls in
  created_with 0 demo_lens (demo_ms p) CSR demo_ws (demo_ts p) (demo_pull p) (demo_push p) /\
  map pull_reqs (demo_ts p) = [[Recv 1; Send 1; Send 2]; [Recv 0; Send 0; Send 2]; [Recv 0; Recv 1]]%nat /\
  transfers (map pull_reqs (demo_ts p)) = [(1, 0); (0, 1); (0, 2); (1, 2)]%nat.
Proof.
  intro p. split; [apply demo_created; auto|]. split; vm_compute; reflexivity.
Qed.

(** With in-situ packing, creating the communication succeeds and keeps the owned rows. *)
Theorem C07_insitu_created : forall T (dflt : T) lens ms l ws, mapped lens ms -> ready dflt lens ms l ws ->
  exists ts, createMPITypes dflt InSituPack ws ms = Ok ts /\ unchanged father ws (map tw ts).
Proof. exact insitu_created. Qed.
Print Assumptions C07_insitu_created.

(** With in-situ packing and a layout other than max, after any history of writes,
    pulls and pushes, with messages received in any order, and when no message is
    empty: a pull completes, every ghost row equals its owner row, and the owned rows
    are unchanged. *)
Theorem C07_insitu_pull_partial : forall T (dflt : T) lens ms l ws ts, mapped lens ms -> is_max l = false ->
  ready dflt lens ms l ws -> createMPITypes dflt InSituPack ws ms = Ok ts ->
  forall ws1 order, insitu_reached dflt ts ws1 -> message_pairs_order (length ts) order ->
  no_empty_message lens ms ws1 ->
  exists ws2, insitu_pull (at_state ts ws1) order = Ok (Some ws2) /\ ghosts_current lens ms ws2 /\
    unchanged father ws1 ws2.
Proof. exact insitu_pull_current. Qed.
Print Assumptions C07_insitu_pull_partial.

(** ... and when some message is empty, it never completes. *)
Theorem C07_insitu_pull_stuck_refuted : forall T (dflt : T) lens ms l ws ts, mapped lens ms -> is_max l = false ->
  ready dflt lens ms l ws -> createMPITypes dflt InSituPack ws ms = Ok ts ->
  forall ws1 order, insitu_reached dflt ts ws1 -> message_pairs_order (length ts) order ->
  ~ no_empty_message lens ms ws1 -> insitu_pull (at_state ts ws1) order = Ok None.
Proof. exact insitu_pull_stuck. Qed.
Print Assumptions C07_insitu_pull_stuck_refuted.

(** A push writes ghost rows back to their owners, when in addition the last rank has
    ghosts of every rank, itself included ... *)
Theorem C07_insitu_push_partial : forall T (dflt : T) lens ms l ws ts, mapped lens ms -> is_max l = false ->
  ready dflt lens ms l ws -> createMPITypes dflt InSituPack ws ms = Ok ts ->
  forall ws1, insitu_reached dflt ts ws1 -> no_empty_message lens ms ws1 -> last_has_ghosts lens ms ->
  exists ws2, insitu_push dflt (at_state ts ws1) = Ok (Some ws2) /\ pushed_rows lens ms ws1 ws2 /\
    unchanged son ws1 ws2.
Proof. exact insitu_push_rows. Qed.
Print Assumptions C07_insitu_push_partial.

(** ... and otherwise fails an assertion. *)
Theorem C07_insitu_push_last_refuted : forall T (dflt : T) lens ms l ws ts, mapped lens ms -> is_max l = false ->
  ready dflt lens ms l ws -> createMPITypes dflt InSituPack ws ms = Ok ts ->
  forall ws1, insitu_reached dflt ts ws1 -> no_empty_message lens ms ws1 -> ~ last_has_ghosts lens ms ->
  insitu_push dflt (at_state ts ws1) = Abort.
Proof. exact insitu_push_aborts. Qed.
Print Assumptions C07_insitu_push_last_refuted.

Example C07_insitu_example :
  mapped two_lens own_ms /\ ready 0 two_lens own_ms CSR (two_ws CSR own_calls) /\
  createMPITypes 0 InSituPack (two_ws CSR own_calls) own_ms = Ok own_ts /\
  no_empty_message two_lens own_ms (map tw own_ts) /\ last_has_ghosts two_lens own_ms.
Proof. exact own_case. Qed.
