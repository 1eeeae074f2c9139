(** C41: asking whether the mesh is of first (second) order. *)
From Coq Require Import List.
From Verif Require Import Base.Prelude Geom.ElemModel Geom.OrderModel Geom.OrderProofs.
Import ListNotations.

(** The property fails: the ranks do not get the same answer, and a rank can be
    told that the mesh is of first order although a cell elsewhere is not. *)
Theorem C41_agreement_refuted : exists world,
  IsO1 world = [true; false] /\ IsO2 world = [false; true].
Proof. exact disagree. Qed.
Print Assumptions C41_agreement_refuted.

(** What a rank is told is true of exactly the cells it stores itself. *)
Theorem C41_O1_local_partial : forall world r b, nth_error (IsO1 world) r = Some b ->
  exists cells, nth_error world r = Some cells /\
    (b = true <-> Forall (fun t => GetOrder t = Some 1) cells).
Proof. exact o1_local. Qed.
Print Assumptions C41_O1_local_partial.

Theorem C41_O2_local_partial : forall world r b, nth_error (IsO2 world) r = Some b ->
  exists cells, nth_error world r = Some cells /\
    (b = true <-> Forall (fun t => GetOrder t = Some 2) cells).
Proof. exact o2_local. Qed.
Print Assumptions C41_O2_local_partial.

(** If every rank asserts the answer, as the callers do, the whole mesh is of
    that order; and on such a mesh no rank fails the assertion. *)
Theorem C41_O1_all_ranks : forall world, (forall b, In b (IsO1 world) -> b = true) <->
  (forall cells t, In cells world -> In t cells -> GetOrder t = Some 1).
Proof. exact o1_all. Qed.
Print Assumptions C41_O1_all_ranks.

Theorem C41_O2_all_ranks : forall world, (forall b, In b (IsO2 world) -> b = true) <->
  (forall cells t, In cells world -> In t cells -> GetOrder t = Some 2).
Proof. exact o2_all. Qed.
Print Assumptions C41_O2_all_ranks.

Example C41_nv : IsO1 [[Tri3; Quad4]; []; [Tet4]] = [true; true; true]
  /\ IsO2 [[Tri6]; [Hex27; Hex8]] = [true; false].
Proof. split; reflexivity. Qed.
