(** Reference notions for the periodic transformations. *)
From Coq Require Import Reals ZArith List Bool.
From Verif Require Import Base.Prelude Geom.PeriodicModel.
Open Scope R_scope.

Definition kron (i j : nat) : R := if Nat.eqb i j then 1 else 0.

(** The [n] x [n] block is orthogonal: its columns and its rows are orthonormal. *)
Definition orthogonal (n : nat) (Q : mat) : Prop :=
  forall i j, (i < n)%nat -> (j < n)%nat ->
    sumn n (fun k => Q k i * Q k j) = kron i j /\
    sumn n (fun k => Q i k * Q j k) = kron i j.

(** Four slots each, and slots 1 to 3 hold orthogonal [n] x [n] blocks. *)
Definition well_formed (n : nat) (p : Periodicity) : Prop :=
  length (rotation p) = 4%nat /\ length (translation p) = 4%nat /\
  length (rotationCenter p) = 4%nat /\
  forall i Q, (1 <= i <= 3)%nat -> nth_error (rotation p) i = Some Q -> orthogonal n Q.

Definition same_vec (n : nat) (u v : vec) : Prop := forall i, (i < n)%nat -> u i = v i.
Definition same_mat (n m : nat) (A B : mat) : Prop :=
  forall i j, (i < n)%nat -> (j < m)%nat -> A i j = B i j.

(** A computation yields something satisfying [P]. *)
Definition yields {A} (r : res A) (P : A -> Prop) : Prop := exists x, r = Ok x /\ P x.

(** The squared distance of two points. *)
Definition dist2 (u v : vec) : R := sumn 3 (fun i => (u i - v i) * (u i - v i)).
