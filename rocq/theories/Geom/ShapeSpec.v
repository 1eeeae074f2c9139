(** * What is meant by a nodal basis and by partial derivatives *)
From Coq Require Import List ZArith QArith Qreals Reals.
From Verif Require Import Geom.ElemModel Geom.ShapeExpr Geom.ShapeModel.
Import ListNotations.
Local Open Scope R_scope.

(** Sum of [f j] over the nodes of an element. *)
Definition rsum (l : list R) : R := fold_right Rplus 0 l.
Definition node_sum (t : ElemType) (f : nat -> R) : R :=
  rsum (map f (seq 0 (GetNumNodes t))).

(** The standard position of a node, as a point. *)
Definition node_point (t : ElemType) (k : nat) : point :=
  match nth_error (GetStandardCoord t) k with
  | Some (x, y, z) => Pt (Q2R x) (Q2R y) (Q2R z)
  | None => Pt 0 0 0
  end.

Inductive var := VX | VY | VZ.
Definition get_var (v : var) (p : point) : R :=
  match v with VX => p_xi p | VY => p_et p | VZ => p_zt p end.
Definition set_var (v : var) (p : point) (x : R) : point :=
  match v with
  | VX => Pt x (p_et p) (p_zt p)
  | VY => Pt (p_xi p) x (p_zt p)
  | VZ => Pt (p_xi p) (p_et p) x
  end.

(** The multi-index with one more derivative with respect to [v]. *)
Definition incr (v : var) (a : nat * nat * nat) : nat * nat * nat :=
  let '(x, y, z) := a in
  match v with VX => (S x, y, z) | VY => (x, S y, z) | VZ => (x, y, S z) end.

(** Away from the zone around the apex of a pyramid in which the code moves the
    point. *)
Definition regular (t : ElemType) (p : point) : Prop :=
  is_pyramid t = true -> apex_eps < Rabs (1 - p_zt p).

(** [F] is the derivative of [f] with respect to [v] at [p]. *)
Definition partial_derivative (v : var) (f : point -> R) (p : point) (F : R)
  : Prop :=
  derivable_pt_lim (fun x => f (set_var v p x)) (get_var v p) F.

(** Kronecker's symbol. *)
Definition delta (i j : nat) : R := if (i =? j)%nat then 1 else 0.

(** The row of the derivative with respect to [v]. *)
Definition var_rank (v : var) : nat := match v with VX => 0 | VY => 1 | VZ => 2 end.

(** [v] is a coordinate of the space of the element. *)
Definition in_space (t : ElemType) (v : var) : bool :=
  match GetDim t with Some d => (var_rank v <? d)%nat | None => false end.
