(** Reference notions for the object pool. *)
From Coq Require Import List Arith.
From Verif Require Import DNDS.PoolModel.
Import ListNotations.

(** The objects held by live handles, one entry per handle that holds one. *)
Definition borrowed (w : world) : list nat :=
  flat_map (fun kx => ptr_list (ptr (snd kx))) (handles w).

Definition reachable (w : world) : Prop := exists l, run world_init l = Some w.

(** Handle variable [h] is live and owns object [x]. *)
Definition owns (w : world) (h x : nat) : Prop :=
  exists y, find_handle (handles w) h = Some y /\ ptr y = Some x.

Definition total (w : world) : nat := length (pool w) + length (borrowed w).
