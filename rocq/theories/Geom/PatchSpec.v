(** What it is to cut a face into triangles (C53). *)
From Coq Require Import List ZArith QArith Reals.
From Verif Require Import Base.Prelude Geom.ElemModel Geom.QuadratureModel.
Import ListNotations.
Local Open Scope R_scope.

Definition plane (p : Q * Q * Q) : R * R := let '(x, y, _) := p in (Q2R x, Q2R y).

(** The point [x] is strictly inside the triangle [a b c]. *)
Definition in_triangle (tri : (Q * Q * Q) * (Q * Q * Q) * (Q * Q * Q)) (x : R * R) : Prop :=
  let '(a, b, c) := tri in
  exists u v w, 0 < u /\ 0 < v /\ 0 < w /\ u + v + w = 1 /\
    fst x = u * fst (plane a) + v * fst (plane b) + w * fst (plane c) /\
    snd x = u * snd (plane a) + v * snd (plane b) + w * snd (plane c).

Definition on_segment (a b : Q * Q * Q) (x : R * R) : Prop :=
  exists s, 0 <= s <= 1 /\
    fst x = (1 - s) * fst (plane a) + s * fst (plane b) /\
    snd x = (1 - s) * snd (plane a) + s * snd (plane b).
Definition on_side (tri : (Q * Q * Q) * (Q * Q * Q) * (Q * Q * Q)) (x : R * R) : Prop :=
  let '(a, b, c) := tri in on_segment a b x \/ on_segment b c x \/ on_segment c a x.

(** The reference triangle and square, without and with their boundary. *)
Definition inside_face (ps : ParamSpace) (x : R * R) : Prop :=
  match ps with
  | TriSpace => 0 < fst x /\ 0 < snd x /\ fst x + snd x < 1
  | QuadSpace => -1 < fst x < 1 /\ -1 < snd x < 1
  | _ => False
  end.
Definition outside_face (ps : ParamSpace) (x : R * R) : Prop :=
  match ps with
  | TriSpace => fst x < 0 \/ snd x < 0 \/ 1 < fst x + snd x
  | QuadSpace => fst x < -1 \/ 1 < fst x \/ snd x < -1 \/ 1 < snd x
  | _ => False
  end.

(** Exactly one element of [l] satisfies [P]. *)
Definition exactly_one {A} (P : A -> Prop) (l : list A) : Prop :=
  exists l1 a l2, l = l1 ++ a :: l2 /\ P a /\ Forall (fun b => ~ P b) (l1 ++ l2).

(** Vectors in space. *)
Definition vec : Type := R * R * R.
Definition vadd (a b : vec) : vec :=
  let '(x, y, z) := a in let '(x', y', z') := b in (x + x', y + y', z + z').
Definition vsub (a b : vec) : vec :=
  let '(x, y, z) := a in let '(x', y', z') := b in (x - x', y - y', z - z').
Definition cross (a b : vec) : vec :=
  let '(x, y, z) := a in let '(x', y', z') := b in
  (y * z' - z * y', z * x' - x * z', x * y' - y * x').
Definition vsum : list vec -> vec := fold_right vadd (0, 0, 0).
(** Twice the area vector of a triangle, and of a closed polygon. *)
Definition area2 (tri : vec * vec * vec) : vec := let '(a, b, c) := tri in cross (vsub b a) (vsub c a).
Definition polygon_area2 (l : list vec) : vec :=
  vsum (map (fun '(a, b) => cross a b) (combine l (tl l ++ firstn 1 l))).

(** The nodes around a face, counted from 0, in order. *)
Definition around (t : ElemType) : list nat :=
  match t with
  | Tri3 => [0; 1; 2]
  | Tri6 => [0; 3; 1; 4; 2; 5]
  | Quad4 => [0; 1; 2; 3]
  | Quad9 => [0; 4; 1; 5; 2; 6; 3; 7]
  | _ => []
  end%nat.

Definition face_type (t : ElemType) : Prop := t = Tri3 \/ t = Tri6 \/ t = Quad4 \/ t = Quad9.

(** [x] is strictly between the first two corners, on the axis. *)
Definition in_piece (tri : (Q * Q * Q) * (Q * Q * Q) * (Q * Q * Q)) (x : R) : Prop :=
  let '(a, b, _) := tri in fst (plane a) < x < fst (plane b).
