(** What basis functions and their derivatives are (C51). *)
From Coq Require Import List ZArith Reals Bool.
From Verif Require Import Base.Prelude.
Import ListNotations.
Local Open Scope R_scope.

Inductive axis := AX | AY | AZ.
Definition axis_eqb (a b : axis) : bool :=
  match a, b with AX, AX | AY, AY | AZ, AZ => true | _, _ => false end.
(** The subscript of an axis. *)
Definition axis_no (a : axis) : Z := match a with AX => 0 | AY => 1 | AZ => 2 end%Z.
(** How often an axis occurs. *)
Definition times (a : axis) (ds : list axis) : nat := length (filter (axis_eqb a) ds).
Definition multi (ds : list axis) : nat * nat * nat := (times AX ds, times AY ds, times AZ ds).
Definition multi_Z (m : nat * nat * nat) : Z * Z * Z :=
  let '(a, b, c) := m in (Z.of_nat a, Z.of_nat b, Z.of_nat c).

(** Functions of the physical coordinates. *)
Definition fn : Type := R -> R -> R -> R.

(** [g] is the derivative of [f] along an axis, everywhere. *)
Definition along (a : axis) (f g : fn) : Prop := forall X Y Z,
  match a with
  | AX => derivable_pt_lim (fun t => f t Y Z) X (g X Y Z)
  | AY => derivable_pt_lim (fun t => f X t Z) Y (g X Y Z)
  | AZ => derivable_pt_lim (fun t => f X Y t) Z (g X Y Z)
  end.
(** [g] is the derivative of [f] along these axes, one after another. *)
Inductive partial : list axis -> fn -> fn -> Prop :=
| partial_none : forall f, partial [] f f
| partial_next : forall a ds f f' g, along a f f' -> partial ds f' g -> partial (a :: ds) f g.

(** The monomial with these exponents, of coordinates divided by lengths. *)
Definition monomial (lx ly lz : R) (m : nat * nat * nat) : fn :=
  fun X Y Z => let '(p, q, r) := m in (X / lx) ^ p * (Y / ly) ^ q * (Z / lz) ^ r.

(** All sequences of [n] axes out of [axes]. *)
Fixpoint sequences (axes : list axis) (n : nat) : list (list axis) :=
  match n with
  | O => [[]]
  | S n' => flat_map (fun ds => map (fun a => a :: ds) axes) (sequences axes n')
  end.
Definition multi_eqb (m m' : nat * nat * nat) : bool :=
  let '(a, b, c) := m in let '(a', b', c') := m' in (a =? a')%nat && (b =? b')%nat && (c =? c')%nat.

(** A table lists every multi-index of order at most 3 over these axes once, by
    increasing order: those of order at most [k] are the first [sizes k]. *)
Definition lists_multi_indices (axes : list axis) (sizes : list Z) (table : list (Z * Z * Z)) : Prop :=
  length sizes = 4%nat /\ NoDup table /\
  forall k n, nth_error sizes k = Some n ->
  forall m, In m (firstn (Z.to_nat n) table) <->
            exists ds, (length ds <= k)%nat /\ Forall (fun a => In a axes) ds /\ m = multi_Z (multi ds).

(** The axes in an entry of a dimension list: as many as the order of the index. *)
Definition axes_of (m d : Z * Z * Z) : list Z :=
  let '(a, b, c) := m in let '(d0, d1, d2) := d in firstn (Z.to_nat (a + b + c)) [d0; d1; d2].
