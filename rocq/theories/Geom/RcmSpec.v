(** Graphs, permutations and bandwidth, independently of the ordering code. *)
From Coq Require Import List ZArith.
From Verif Require Import Base.Prelude.
Import ListNotations.
Local Open Scope Z_scope.

Definition vertex (g : list (list Z)) (i : Z) : Prop := 0 <= i < zlen g.
Definition adj (g : list (list Z)) (i : Z) : list Z := nth (Z.to_nat i) g [].

(** Symmetric, and without repeated edges; loops are tolerated. *)
Definition symmetric_simple (g : list (list Z)) : Prop :=
  forall i j, vertex g i -> In j (adj g i) -> i <> j ->
    vertex g j /\ In i (adj g j) /\ count_occ Z.eq_dec (adj g i) j = 1%nat.

(** A walk of [d] steps. *)
Inductive walk (g : list (list Z)) (a : Z) : nat -> Z -> Prop :=
| walk_here : walk g a 0 a
| walk_step d i j : walk g a d i -> In j (adj g i) -> walk g a (S d) j.
Definition reach g a b : Prop := exists d, walk g a d b.

(** [o2n] and [n2o] are permutations of [0 .. n-1], inverse to each other. *)
Definition inverse_permutations (n : nat) (o2n n2o : list Z) : Prop :=
  length o2n = n /\ length n2o = n /\
  (forall i, (i < n)%nat -> exists k, (k < n)%nat /\
     nth_error o2n i = Some (Z.of_nat k) /\ nth_error n2o k = Some (Z.of_nat i)) /\
  (forall k, (k < n)%nat -> exists i, (i < n)%nat /\
     nth_error n2o k = Some (Z.of_nat i) /\ nth_error o2n i = Some (Z.of_nat k)).

(** [b] is the largest distance between the numbers of two neighbours (0 if
    there are none). *)
Definition is_bandwidth (g : list (list Z)) (num : Z -> Z) (b : Z) : Prop :=
  (forall i j, vertex g i -> In j (adj g i) -> Z.abs (num i - num j) <= b) /\
  (b = 0 \/ exists i j, vertex g i /\ In j (adj g i) /\ b = Z.abs (num i - num j)).
