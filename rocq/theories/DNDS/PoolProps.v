(** C18: the object pool. *)
From Coq Require Import List Arith Permutation.
From Verif Require Import DNDS.PoolModel DNDS.PoolSpec DNDS.PoolProofs.
Import ListNotations.

(** No object is owned by two live handles, after any sequence of operations. *)
Theorem C18_never_two_owners w h h' x :
  reachable w -> owns w h x -> owns w h' x -> h = h'.
Proof. exact (owned_once w h h' x). Qed.
Print Assumptions C18_never_two_owners.

(** A borrowed object is neither in the pool nor destroyed. *)
Theorem C18_borrowed_is_not_pooled w h x :
  reachable w -> owns w h x -> ~ In x (pool w) /\ ~ In x (destroyed w).
Proof. exact (owned_not_pooled w h x). Qed.
Print Assumptions C18_borrowed_is_not_pooled.

(** Ending a handle puts its object back, and the next [get] hands it out. *)
Theorem C18_return_puts_back w h x w' :
  reachable w -> alive w = true -> owns w h x -> step w (Destroy h) = Some w' ->
  pool w' = x :: pool w /\ find_handle (handles w') h = None /\
  forall k, find_handle (handles w') k = None ->
    exists w2, step w' (Get k) = Some w2 /\ owns w2 k x /\ pool w2 = pool w.
Proof. exact (returned w h x w'). Qed.
Print Assumptions C18_return_puts_back.

(** What [get] and the allocating variants return. *)
Theorem C18_get_result w h w' (alloc : bool) :
  step w (if alloc then GetAlloc h else Get h) = Some w' ->
  match pool w with
  | x :: p => owns w' h x /\ pool w' = p /\ fresh w' = fresh w
  | [] => if alloc then owns w' h (fresh w) /\ pool w' = [] /\ fresh w' = S (fresh w)
          else (forall x, ~ owns w' h x) /\ pool w' = [] /\ fresh w' = fresh w
  end.
Proof. exact (got w h w' alloc). Qed.
Print Assumptions C18_get_result.

(** Pooled plus borrowed objects stay the same under every operation except
    allocation from an empty pool, resizing, destroying the pool, and move
    assignment over a handle that owns an object. The last exception is not in
    the property: see the next theorem. *)
Theorem C18_conserved_partial w o w' :
  reachable w -> alive w = true -> step w o = Some w' ->
  match o with
  | GetAlloc _ => pool w <> []
  | MoveAssign h _ => forall x, ~ owns w h x
  | Resize _ | DropPool => False
  | _ => True
  end ->
  Permutation (pool w' ++ borrowed w') (pool w ++ borrowed w) /\ total w' = total w.
Proof. exact (fun R A E C => conj (conserved w o w' R A E C) (conserved_count w o w' R A E C)). Qed.
Print Assumptions C18_conserved_partial.

(** Move assignment destroys the object the target owned instead of returning it. *)
Theorem C18_move_assign_loses_object_refuted w h src x w' :
  reachable w -> owns w h x -> step w (MoveAssign h src) = Some w' ->
  In x (destroyed w') /\ ~ In x (pool w') /\ ~ In x (borrowed w') /\ S (total w') = total w.
Proof. exact (move_assign_effect w h src x w'). Qed.
Print Assumptions C18_move_assign_loses_object_refuted.

(** Resizing fills the pool with new objects and leaves the borrowed ones. *)
Theorem C18_resize w n w' : reachable w -> step w (Resize n) = Some w' ->
  length (pool w') = n /\ borrowed w' = borrowed w /\
  (forall x, In x (pool w') -> ~ In x (pool w ++ borrowed w ++ destroyed w)).
Proof. exact (resized w n w'). Qed.
Print Assumptions C18_resize.

Example C18_example : exists w, run world_init [Resize 2; Get 0; MoveCtor 1 0; Destroy 0; GetAlloc 0; GetAlloc 2; Destroy 1] = Some w
  /\ owns w 0 0 /\ owns w 2 2 /\ pool w = [1] /\ total w = 3 /\ alive w = true.
Proof. exact sample_world. Qed.
Example C18_example_lost : exists w w', run world_init [Resize 2; Get 0; Get 1] = Some w /\
  run world_init sample = Some w' /\ total w = 2 /\ total w' = 1.
Proof. exact move_assign_loses. Qed.
