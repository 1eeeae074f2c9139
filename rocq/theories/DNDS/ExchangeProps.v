(** C04 and C05: ghost exchange with derived datatypes, for every number of
    ranks, every ghost mapping built by pulling or pushing, all five array
    layouts, every state the arrays can be in, and every order in which the
    elements arrive. *)
From Coq Require Import List ZArith Bool Permutation.
From Verif Require Import Base.Prelude DNDS.IndexMappingModel DNDS.IndexMappingSpec DNDS.ArrayModel
  DNDS.ArraySpec DNDS.ExchangeModel DNDS.ExchangeSpec DNDS.ExchangeFinalProofs DNDS.ExchangeDemo.
Import ListNotations.
Local Open Scope Z_scope.

(** ** C04 *)

(** Creating the communication types never fails, leaves every father as it was,
    and every send has its receive. *)
Theorem C04_create : forall T (dflt : T) lens ms l ws,
  mapped lens ms -> ready dflt lens ms l ws ->
  exists ts pull push, created_with dflt lens ms l ws ts pull push /\ unchanged father ws (map tw ts).
Proof. exact create_succeeds. Qed.
Print Assumptions C04_create.

(** A pull, started in any reached state and with elements arriving in any
    order, makes every ghost row equal to its owner's row and changes no father. *)
Theorem C04_pull : forall T (dflt : T) lens ms l ws ts pull push ws1 order,
  created_with dflt lens ms l ws ts pull push -> reached dflt ts pull push ws1 ->
  Permutation order (all_moves pull) ->
  exists ws2, pull_exchange ws1 order = Ok ws2 /\
              ghosts_current lens ms ws2 /\ unchanged father ws1 ws2.
Proof. exact pull_current. Qed.
Print Assumptions C04_pull.

(** The order does not matter. *)
Theorem C04_order : forall T (dflt : T) lens ms l ws ts pull push ws1 order order' ws2 ws2',
  created_with dflt lens ms l ws ts pull push -> reached dflt ts pull push ws1 ->
  Permutation order (all_moves pull) -> Permutation order' (all_moves pull) ->
  pull_exchange ws1 order = Ok ws2 -> pull_exchange ws1 order' = Ok ws2' -> same_worlds ws2 ws2'.
Proof. exact pull_any_order. Qed.
Print Assumptions C04_order.

Example C04_example : let p := demo_pulls in
  created_with 0 demo_lens (demo_ms p) CSR demo_ws (demo_ts p) (demo_pull p) (demo_push p) /\
  reached 0 (demo_ts p) (demo_pull p) (demo_push p) (demo_reached p) /\
  shown father (demo_reached p) = [[[10; 11]; [12]]; [[]; [20; 21; 99]; [23]]; []] /\
  shown son (demo_reached p) = [[[55; 21; 99]; [23]]; [[10; 11]]; [[66]; [20; 21; 99]]] /\
  exists ws2, pull_exchange (demo_reached p) (rev (all_moves (demo_pull p))) = Ok ws2 /\
    shown son ws2 = [[[20; 21; 99]; [23]]; [[10; 11]]; [[12]; [20; 21; 99]]].
Proof.
  intro p. split; [apply demo_created; auto|]. split; [apply demo_reached_ok; auto|].
  split; [vm_compute; reflexivity|]. split; [vm_compute; reflexivity|].
  eexists. split; [vm_compute; reflexivity|]. vm_compute. reflexivity.
Qed.

(** ** C05 *)

(** A push, started in any reached state and with elements arriving in any
    order, makes every element of a father row that is a ghost somewhere equal to
    the one of some ghost copy, and changes nothing else. *)
Theorem C05_push : forall T (dflt : T) lens ms l ws ts pull push ws1 order,
  created_with dflt lens ms l ws ts pull push -> reached dflt ts pull push ws1 ->
  Permutation order (all_moves push) ->
  exists ws2, push_exchange ws1 order = Ok ws2 /\
              pushed lens ms ws1 ws2 /\ unchanged son ws1 ws2.
Proof. exact push_owners. Qed.
Print Assumptions C05_push.

(** When messages are stored one after the other, whole rows are copies. *)
Theorem C05_rows : forall T (dflt : T) lens ms l ws ts pull push ws1 order ws2,
  created_with dflt lens ms l ws ts pull push -> reached dflt ts pull push ws1 ->
  message_order push order ->
  push_exchange ws1 order = Ok ws2 -> pushed_rows lens ms ws1 ws2.
Proof. exact push_whole_rows. Qed.
Print Assumptions C05_rows.

(** When no row is ghost twice, the order does not matter. *)
Theorem C05_order : forall T (dflt : T) lens ms l ws ts pull push ws1 order order' ws2 ws2',
  created_with dflt lens ms l ws ts pull push -> reached dflt ts pull push ws1 ->
  unique_ghosts lens ms ->
  Permutation order (all_moves push) -> Permutation order' (all_moves push) ->
  push_exchange ws1 order = Ok ws2 -> push_exchange ws1 order' = Ok ws2' -> same_worlds ws2 ws2'.
Proof. exact push_any_order. Qed.
Print Assumptions C05_order.

(** A push right after a pull changes nothing, also with several copies. *)
Theorem C05_pull_push : forall T (dflt : T) lens ms l ws ts pull push ws1 order order' ws2 ws3,
  created_with dflt lens ms l ws ts pull push -> reached dflt ts pull push ws1 ->
  Permutation order (all_moves pull) -> Permutation order' (all_moves push) ->
  pull_exchange ws1 order = Ok ws2 -> push_exchange ws2 order' = Ok ws3 ->
  unchanged father ws1 ws3 /\ unchanged son ws2 ws3.
Proof. exact pull_then_push. Qed.
Print Assumptions C05_pull_push.

(** Row 1 of rank 1 has two copies: the result depends on the order. *)
Example C05_example : let p := demo_pulls in
  created_with 0 demo_lens (demo_ms p) CSR demo_ws (demo_ts p) (demo_pull p) (demo_push p) /\
  reached 0 (demo_ts p) (demo_pull p) (demo_push p) (demo_reached p) /\
  exists ws2 ws2',
    push_exchange (demo_reached p) (all_moves (demo_push p)) = Ok ws2 /\
    push_exchange (demo_reached p) (all_moves (rev (demo_push p))) = Ok ws2' /\
    shown father ws2 = [[[10; 11]; [66]]; [[]; [20; 21; 99]; [23]]; []] /\
    shown father ws2' = [[[10; 11]; [66]]; [[]; [55; 21; 99]; [23]]; []].
Proof.
  intro p. split; [apply demo_created; auto|]. split; [apply demo_reached_ok; auto|].
  do 2 eexists. split; [vm_compute; reflexivity|]. split; [vm_compute; reflexivity|].
  split; vm_compute; reflexivity.
Qed.

Example C05_example_unique : let p := demo_pulls1 in
  created_with 0 demo_lens (demo_ms p) CSR demo_ws (demo_ts p) (demo_pull p) (demo_push p) /\
  reached 0 (demo_ts p) (demo_pull p) (demo_push p) (demo_reached p) /\
  unique_ghosts demo_lens (demo_ms p).
Proof.
  intro p. split; [apply demo_created; auto|]. split; [apply demo_reached_ok; auto|]. exact demo_unique.
Qed.
