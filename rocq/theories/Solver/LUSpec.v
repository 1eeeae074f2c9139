(** What the block factorizations have to compute. *)
From Coq Require Import List ZArith.
From Verif Require Import Base.Prelude Solver.DirectModel Solver.DirectSpec Solver.LUModel.
Import ListNotations.
Local Open Scope Z_scope.

(** Blocks form a ring, not necessarily commutative, and act on vector components. *)
Record ops (T V : Type) := {
  t0 : T; t1 : T; tadd : T -> T -> T; topp : T -> T; tmul : T -> T -> T;
  v0 : V; vadd : V -> V -> V; vopp : V -> V; act : T -> V -> V
}.
Arguments t0 {T V}. Arguments t1 {T V}. Arguments tadd {T V}. Arguments topp {T V}. Arguments tmul {T V}.
Arguments v0 {T V}. Arguments vadd {T V}. Arguments vopp {T V}. Arguments act {T V}.
Definition tsub {T V} (O : ops T V) (a b : T) : T := tadd O a (topp O b).
Definition vsub {T V} (O : ops T V) (x y : V) : V := vadd O x (vopp O y).

Record laws {T V} (O : ops T V) : Prop := {
  taddC : forall a b, tadd O a b = tadd O b a;
  taddA : forall a b c, tadd O a (tadd O b c) = tadd O (tadd O a b) c;
  tadd0 : forall a, tadd O (t0 O) a = a;
  taddN : forall a, tadd O a (topp O a) = t0 O;
  tmulA : forall a b c, tmul O a (tmul O b c) = tmul O (tmul O a b) c;
  tmul1l : forall a, tmul O (t1 O) a = a;
  tmul1r : forall a, tmul O a (t1 O) = a;
  tmulDl : forall a b c, tmul O (tadd O a b) c = tadd O (tmul O a c) (tmul O b c);
  tmulDr : forall a b c, tmul O a (tadd O b c) = tadd O (tmul O a b) (tmul O a c);
  vaddC : forall a b, vadd O a b = vadd O b a;
  vaddA : forall a b c, vadd O a (vadd O b c) = vadd O (vadd O a b) c;
  vadd0 : forall a, vadd O (v0 O) a = a;
  vaddN : forall a, vadd O a (vopp O a) = v0 O;
  actM : forall a b x, act O (tmul O a b) x = act O a (act O b x);
  act1 : forall x, act O (t1 O) x = x;
  actDl : forall a b x, act O (tadd O a b) x = vadd O (act O a x) (act O b x);
  actDr : forall a x y, act O a (vadd O x y) = vadd O (act O a x) (act O a y)
}.
(** InvertDiag gives two-sided inverses where it returns. *)
Definition inverts {T V} (O : ops T V) (invert : T -> res T) : Prop :=
  forall d e, invert d = Ok e -> tmul O d e = t1 O /\ tmul O e d = t1 O.
(** The transpose of blocks *)
Record transposes {T V} (O : ops T V) (tr : T -> T) : Prop := {
  trD : forall a b, tr (tadd O a b) = tadd O (tr a) (tr b);
  trM : forall a b, tr (tmul O a b) = tmul O (tr b) (tr a);
  trI : forall a, tr (tr a) = a
}.

(** The product of the matrix [M] with the vector [x] in row [i] *)
Definition product {T V} (O : ops T V) (n : Z) (M : Z -> Z -> T) (x : list V) (i : Z) : V :=
  fold_right (vadd O) (v0 O) (map (fun j => act O (M i j) (nth (Z.to_nat j) x (v0 O))) (range n)).

(** The storage holds the matrix [M]: row "diagonal, lower, upper"; the entries it has no place
    for are zero. *)
Definition stored {T V} (O : ops T V) (s : symlu) (A : list (list T)) (M : Z -> Z -> T) : Prop :=
  zlen A = Num s /\
  (forall i, 0 <= i < Num s -> nth (Z.to_nat i) A [] = map (M i) (i :: row (lowOld s) i ++ row (uppOld s) i)).
Definition vanishes {T V} (O : ops T V) (s : symlu) (M : Z -> Z -> T) : Prop :=
  forall i j, 0 <= i < Num s -> 0 <= j < Num s -> ~ In j (i :: row (lowOld s) i ++ row (uppOld s) i) -> M i j = t0 O.
(** The symmetric storage has the diagonal and the lower entries only. *)
Definition stored_sym {T V} (O : ops T V) (tr : T -> T) (s : symlu) (A : list (list T)) (M : Z -> Z -> T) : Prop :=
  zlen A = Num s /\
  (forall i, 0 <= i < Num s -> nth (Z.to_nat i) A [] = map (M i) (i :: row (lowOld s) i)) /\
  (forall i j, 0 <= i < Num s -> 0 <= j < Num s -> M j i = tr (M i j)).
