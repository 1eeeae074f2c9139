(** C25: the graph check and the reverse Cuthill-McKee ordering. *)
From Coq Require Import List ZArith.
From Verif Require Import Base.Prelude Geom.RcmModel Geom.RcmSpec Geom.RcmProofs.
Import ListNotations.
Local Open Scope Z_scope.

(** The check accepts exactly the symmetric graphs without repeated edges. *)
Theorem C25_check_exact g : CheckAdj true true g = Ok 0 <-> symmetric_simple g.
Proof. exact (check_exact g). Qed.
Print Assumptions C25_check_exact.

(** On every other graph the routine raises. *)
Theorem C25_refuses g : ~ symmetric_simple g -> Reorder g = Abort.
Proof. exact (reorder_refuses g). Qed.
Print Assumptions C25_refuses.

(** On every accepted graph, connected or not, the routine returns a permutation
    and its inverse, and the true bandwidths before and after. *)
Theorem C25_permutation g : symmetric_simple g -> zlen g <= 2 ^ 31 ->
  exists n2o o2n bwOld bwNew, Reorder g = Ok ((n2o, o2n), (bwOld, bwNew)) /\
    inverse_permutations (length g) o2n n2o /\
    is_bandwidth g (fun i => i) bwOld /\
    is_bandwidth g (fun i => nth (Z.to_nat i) o2n 0) bwNew.
Proof. exact (reorder_ok g). Qed.
Print Assumptions C25_permutation.

(** Breadth-first search visits the vertices reachable from its root once each,
    and the layers it returns are the distances. *)
Theorem C25_bfs_distance g root : symmetric_simple g -> vertex g root ->
  exists layer order, bfs (fun s i (_ : Z) => Ok (s ++ [i])) no_sort g root [] = Ok (layer, order) /\
    NoDup order /\ (forall j, In j order <-> reach g root j) /\
    (forall j d, vertex g j -> (nth (Z.to_nat j) layer (-1) = Z.of_nat d <->
        walk g root d j /\ forall d', walk g root d' j -> (d <= d')%nat)) /\
    (forall j, vertex g j -> (nth (Z.to_nat j) layer (-1) = -1 <-> ~ reach g root j)).
Proof. exact (bfs_distance g root). Qed.
Print Assumptions C25_bfs_distance.

(** The size limit is real: the roots pass through [int]. *)
Theorem C25_huge_graph_refuted : exists g, symmetric_simple g /\ Reorder g = Abort.
Proof. exact huge_graph. Qed.
Print Assumptions C25_huge_graph_refuted.

(** A path, a loop, an isolated vertex and an edge. *)
Definition sample : graph := [[2; 0]; [4]; [0; 5]; []; [1]; [2]].
Example sample_ok : CheckAdj true true sample = Ok 0.
Proof. vm_compute. reflexivity. Qed.
Example sample_order :
  Reorder sample = Ok (([3; 1; 4; 0; 2; 5], [3; 1; 4; 0; 2; 5]), (3, 1)).
Proof. vm_compute. reflexivity. Qed.
Example sample_bad : CheckAdj true true [[1; 1]; [0]] = Abort /\ CheckAdj true true [[1]; []] = Abort.
Proof. split; vm_compute; reflexivity. Qed.
