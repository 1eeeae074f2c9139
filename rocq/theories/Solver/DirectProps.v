(** C24: the symbolic factorization. *)
From Coq Require Import List ZArith Lia.
From Verif Require Import Base.Prelude Base.PreludeFacts Solver.DirectModel Solver.DirectSpec Solver.DirectProofs Solver.DirectMore.
Import ListNotations.
Local Open Scope Z_scope.

(** A ring of five cells with a chord, eliminated in the order 2, 0, 3, 4, 1. *)
Definition ring5 : list (list Z) := [[1; 4; 2]; [0; 2]; [3; 1; 0]; [2; 4]; [3; 0]].
Definition ring5_n2o : list Z := [2; 0; 3; 4; 1].
Definition ring5_o2n : list Z := [1; 4; 0; 2; 3].

(** It always succeeds, and its tables are the ones specified: sorted rows holding exactly the
    pattern of the elimination at the given level, the same rows in the old numbering, and
    positions that point where they claim. *)
Theorem C24_structure n adj o2n n2o iluCode :
  graph_ok n adj -> ordering_ok n o2n n2o -> iluCode <= 5 ->
  exists s, symbolic n adj o2n n2o iluCode = Ok s /\ structure_ok n adj o2n n2o (pattern adj n2o iluCode) s.
Proof. exact (symbolic_ok n adj o2n n2o iluCode). Qed.
Print Assumptions C24_structure.
Example C24_ring : graph_ok 5 ring5 /\ ordering_ok 5 ring5_o2n ring5_n2o /\
  match symbolic 5 ring5 ring5_o2n ring5_n2o (-1) with
  | Ok s => lowNew s = [[]; [0]; [0; 1]; [1; 2]; [0; 1; 2; 3]] /\ uppNew s = [[1; 2; 4]; [2; 3; 4]; [3; 4]; [4]; []]
  | _ => False
  end.
Proof. split; [apply graph_check; reflexivity|]. split; [apply ordering_check; reflexivity|]. vm_compute. split; reflexivity. Qed.

(** The two triangles are transposes of each other. *)
Theorem C24_transposed n adj o2n n2o iluCode s :
  graph_ok n adj -> ordering_ok n o2n n2o -> symbolic n adj o2n n2o iluCode = Ok s ->
  forall i j, 0 <= i < n -> 0 <= j < n -> (In j (row (lowNew s) i) <-> In i (row (uppNew s) j)).
Proof. exact (transposed n adj o2n n2o iluCode s). Qed.
Print Assumptions C24_transposed.

(** Every neighbour of a cell has its place in the row of the cell, at every level. *)
Theorem C24_adjacency_kept n adj o2n n2o iluCode s :
  graph_ok n adj -> ordering_ok n o2n n2o -> symbolic n adj o2n n2o iluCode = Ok s ->
  forall i j, 0 <= i < n -> In j (row adj i) -> In j (i :: row (lowOld s) i ++ row (uppOld s) i).
Proof. exact (adjacency_kept n adj o2n n2o iluCode s). Qed.
Print Assumptions C24_adjacency_kept.

(** The complete factorization is closed under elimination: what column k makes is there. *)
Theorem C24_complete_closed n adj o2n n2o iluCode s :
  graph_ok n adj -> ordering_ok n o2n n2o -> iluCode < 0 -> symbolic n adj o2n n2o iluCode = Ok s ->
  forall k i j, 0 <= i < n -> 0 <= j < i -> In k (row (lowNew s) i) -> In k (row (lowNew s) j) -> In j (row (lowNew s) i).
Proof. exact (complete_closed n adj o2n n2o iluCode s). Qed.
Print Assumptions C24_complete_closed.

(** Level 0 has the neighbours and nothing else. *)
Theorem C24_level_zero n adj o2n n2o s :
  graph_ok n adj -> ordering_ok n o2n n2o -> symbolic n adj o2n n2o 0 = Ok s ->
  forall i j, 0 <= i < n -> (In j (row (lowOld s) i ++ row (uppOld s) i) <-> j <> i /\ In j (row adj i)).
Proof. exact (level_zero n adj o2n n2o s). Qed.
Print Assumptions C24_level_zero.
Example C24_ring0 : match symbolic 5 ring5 ring5_o2n ring5_n2o 0 with
  | Ok s => lowNew s = [[]; [0]; [0]; [1; 2]; [0; 1]] /\ rowPos s = [[3; 2; 1]; [2; 1]; [2; 3; 1]; [1; 2]; [2; 1]]
  | _ => False
  end.
Proof. vm_compute. split; reflexivity. Qed.

(** An ordering given by the user is taken; when none is given (the code is the least
    integer) the complete factorization uses ordering 2, the incomplete ones keep the
    order of the cells. *)
Theorem C24_ordering_choice : forall iluCode orderingCode,
  (orderingCode <> int32_min -> getOrderingCode iluCode orderingCode = orderingCode) /\
  (orderingCode = int32_min -> iluCode = -1 -> getOrderingCode iluCode orderingCode = 2) /\
  (orderingCode = int32_min -> iluCode <> -1 -> getOrderingCode iluCode orderingCode = 0).
Proof. exact ordering_choice. Qed.
Print Assumptions C24_ordering_choice.
