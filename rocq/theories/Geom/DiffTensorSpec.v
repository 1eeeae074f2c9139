(** Derivatives of functions of space on a region, and how they are laid out in the
    rows of a matrix (C55). *)
From Coq Require Import List ZArith Reals Bool.
From Verif Require Import Base.Prelude Geom.PeriodicModel Geom.PeriodicSpec Geom.BaseFnModel Geom.BaseFnSpec.
Import ListNotations.
Local Open Scope R_scope.

(** A region of space. *)
Definition region := R -> R -> R -> Prop.
Definition everywhere : region := fun _ _ _ => True.
Definition open_region (D : region) : Prop := forall X Y Z, D X Y Z ->
  exists e, 0 < e /\ forall X' Y' Z', Rabs (X' - X) < e -> Rabs (Y' - Y) < e -> Rabs (Z' - Z) < e -> D X' Y' Z'.

(** [g] is the derivative of [f] along an axis, in a region. *)
Definition along_in (D : region) (a : axis) (f g : fn) : Prop := forall X Y Z, D X Y Z ->
  match a with
  | AX => derivable_pt_lim (fun t => f t Y Z) X (g X Y Z)
  | AY => derivable_pt_lim (fun t => f X t Z) Y (g X Y Z)
  | AZ => derivable_pt_lim (fun t => f X Y t) Z (g X Y Z)
  end.
(** [g] is the derivative of [f] along these axes, one after another. *)
Inductive partial_in (D : region) : list axis -> fn -> fn -> Prop :=
| partial_in_none : forall f, partial_in D [] f f
| partial_in_next : forall a ds f f' g, along_in D a f f' -> partial_in D ds f' g -> partial_in D (a :: ds) f g.

(** [f] is differentiable in a region, with these derivatives along the axes. *)
Definition differential_in (D : region) (f : fn) (g : axis -> fn) : Prop := forall X Y Z, D X Y Z ->
  forall e, 0 < e -> exists d, 0 < d /\
  forall u v w, Rabs u < d -> Rabs v < d -> Rabs w < d ->
    Rabs (f (X + u) (Y + v) (Z + w) - f X Y Z - (g AX X Y Z * u + g AY X Y Z * v + g AZ X Y Z * w)) <=
    e * (Rabs u + Rabs v + Rabs w).

(** Multi-indices. *)
Definition next (a : axis) (m : nat * nat * nat) : nat * nat * nat :=
  let '(p, q, r) := m in
  match a with AX => (S p, q, r) | AY => (p, S q, r) | AZ => (p, q, S r) end.
Definition order_of (m : nat * nat * nat) : nat := let '(p, q, r) := m in (p + q + r)%nat.

(** [f] is [k] times differentiable in a region; [d m] is its derivative of multi-index [m]. *)
Definition smooth_in (D : region) (k : nat) (f : fn) (d : nat * nat * nat -> fn) : Prop :=
  (forall X Y Z, d (0, 0, 0)%nat X Y Z = f X Y Z) /\
  forall m, (order_of m < k)%nat -> differential_in D (d m) (fun a => d (next a m)).

(** Functions of other coordinates. *)
Definition compose (f : fn) (xi : axis -> fn) : fn :=
  fun X Y Z => f (xi AX X Y Z) (xi AY X Y Z) (xi AZ X Y Z).
(** A change of coordinates; in 2D it does not involve the third. *)
Definition coordinates (dim : nat) (xi : axis -> fn) : Prop :=
  dim = 3%nat \/ (dim = 2%nat /\ forall X Y Z, xi AZ X Y Z = Z).
Definition maps (D E : region) (xi : axis -> fn) : Prop :=
  forall X Y Z, D X Y Z -> E (xi AX X Y Z) (xi AY X Y Z) (xi AZ X Y Z).

(** The axis of a subscript. *)
Definition axis_at (i : nat) : axis := match i with 0 => AX | 1 => AY | _ => AZ end%nat.
Definition coordinate (a : axis) : fn := fun X Y Z => match a with AX => X | AY => Y | AZ => Z end.

(** The affine change of coordinates with [dxi_m/dx_i] = [A i m]. *)
Definition affine (dim : nat) (A : mat) (c : vec) : axis -> fn := fun a X Y Z =>
  let x i := coordinate (axis_at i) X Y Z in
  match a with
  | AX => c 0%nat + sumn dim (fun i => A i 0%nat * x i)
  | AY => c 1%nat + sumn dim (fun i => A i 1%nat * x i)
  | AZ => if Nat.eqb dim 2 then Z else c 2%nat + sumn dim (fun i => A i 2%nat * x i)
  end.

(** The table of rows, and the number of rows for derivatives up to some order. *)
Definition operators (dim : nat) : list (Z * Z * Z) :=
  if Nat.eqb dim 2 then diffOperatorOrderList2D else diffOperatorOrderList.
Definition rows_up_to (dim k : nat) : nat :=
  match (if Nat.eqb dim 2 then [1; 3; 6; 10] else [1; 4; 10; 20])%nat with l => nth k l 0%nat end.

(** The column [b] of a matrix holds these values, by multi-index, from some row on. *)
Definition holds (dim from rows : nat) (M : mat) (b : nat) (val : nat * nat * nat -> R) : Prop :=
  forall r m, (from <= r < rows)%nat -> nth_error (operators dim) r = Some (multi_Z m) -> M r b = val m.

(** The column [b] holds the derivatives of [f] at a point. *)
Definition holds_derivatives (D : region) (dim rows : nat) (M : mat) (b : nat) (f : fn) (X Y Z : R) : Prop :=
  forall r ds, (r < rows)%nat -> nth_error (operators dim) r = Some (multi_Z (multi ds)) ->
  exists g, partial_in D ds f g /\ M r b = g X Y Z.

(** The axes of a dimension, the sum over all sequences of axes, and the rows of one
    order as they are passed to the tensor functions: row 0 is the first of them. *)
Definition axes (dim : nat) : list axis := if Nat.eqb dim 2 then [AX; AY] else [AX; AY; AZ].
Definition sum_over {A} (l : list A) (f : A -> R) : R := fold_right (fun x s => f x + s) 0 l.
Definition holds_order (dim rank : nat) (v : vec) (val : nat * nat * nat -> R) : Prop :=
  forall r m, nth_error (operators dim) r = Some (multi_Z m) -> order_of m = rank ->
  v (r - match rank with O => 0 | S k => rows_up_to dim k end)%nat = val m.

(** The point with these coordinates, the coordinates a periodic transformation leads
    back to, and transformations within the plane. *)
Definition point (X Y Z : R) : vec := fun i => coordinate (axis_at i) X Y Z.
Definition leads_back (p : Periodicity) (id : Z) (xi : axis -> fn) : Prop := forall X Y Z,
  yields (TransCoordBack p (point X Y Z) id)
         (fun v => xi AX X Y Z = v 0%nat /\ xi AY X Y Z = v 1%nat /\ xi AZ X Y Z = v 2%nat).
Definition planar (p : Periodicity) : Prop :=
  (forall Q, In Q (rotation p) -> forall i, (i < 3)%nat -> Q i 2%nat = kron i 2 /\ Q 2%nat i = kron 2 i) /\
  (forall t, In t (translation p) -> t 2%nat = 0).

(** [B] is the inverse of the 3x3 matrix [A]. *)
Definition inverse_of (A B : mat) : Prop := forall i j, (i < 3)%nat -> (j < 3)%nat ->
  sumn 3 (fun k => A i k * B k j) = kron i j /\ sumn 3 (fun k => B i k * A k j) = kron i j.
