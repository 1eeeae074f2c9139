(** What a pair is to its users: one list of rows. *)
From Coq Require Import ZArith List Bool.
From Verif Require Import Base.Prelude DNDS.ArrayModel DNDS.ArraySpec DNDS.PairModel.
Import ListNotations.
Open Scope Z_scope.

Section Spec.
Variable T : Type.

(** Element [j] of row [i]; refused outside. *)
Definition cell (rows : list (list T)) (i j : Z) : res T :=
  match in_range i (length rows) with
  | None => Abort
  | Some k =>
      match nth_error rows k with
      | None => Abort
      | Some r => match in_range j (length r) with
                  | None => Abort
                  | Some l => match nth_error r l with Some x => Ok x | None => Abort end
                  end
      end
  end.

(** Everything the readers of one array return is given by [rows]. *)
Definition shows (w : world T) (id : nat) (rows : list (list T)) : Prop :=
  exists a, nth_error (arrs w) id = Some a /\ size a = zlen rows /\
    (forall k r, nth_error rows k = Some r -> RowSize (hp w) a (Z.of_nat k) = Ok (zlen r)) /\
    (forall i j, at_ (hp w) a i j = cell rows i j).

(** The same for the readers of a pair. *)
Definition pair_shows (w : world T) (f s : nat) (rows : list (list T)) : Prop :=
  pair_Size w f s = Ok (zlen rows) /\
  (forall k r, nth_error rows k = Some r -> pair_RowSize w f s (Z.of_nat k) = Ok (zlen r)) /\
  (forall i j, pair_at w f s i j = cell rows i j).

(** One call on a list of rows: the addressed row changes and nothing else; a
    resized row keeps what fits. *)
Inductive pstep : list (list T) -> pcall T -> list (list T) -> Prop :=
| ps_set : forall rows k l r x, nth_error rows k = Some r -> (l < length r)%nat ->
    pstep rows (PSet (Z.of_nat k) (Z.of_nat l) x) (upd k (upd l x r) rows)
| ps_resize : forall rows k r r' n, nth_error rows k = Some r -> length r' = n ->
    firstn (Nat.min n (length r)) r' = firstn (Nat.min n (length r)) r ->
    pstep rows (PResizeRow (Z.of_nat k) n) (upd k r' rows)
| ps_compress : forall rows, pstep rows PCompressBoth rows.

Inductive psteps : list (list T) -> list (pcall T) -> list (list T) -> Prop :=
| pss_nil : forall rows, psteps rows [] rows
| pss_cons : forall rows c rows1 cs rows2,
    pstep rows c rows1 -> psteps rows1 cs rows2 -> psteps rows (c :: cs) rows2.

(** Calls that may be refused: assigning to an element that does not exist, and
    resizing a row (always when the half's layout or state forbids it). *)
Definition refusable (rows : list (list T)) (c : pcall T) : Prop :=
  match c with
  | PSet i j x => cell rows i j = Abort
  | PResizeRow i n => True
  | PCompressBoth => False
  end.

(** Row sizes below the 32-bit limit. *)
Definition psmall (c : pcall T) : Prop :=
  match c with PResizeRow _ n => Z.of_nat n < int32_max | _ => True end.
End Spec.
Arguments cell {T}. Arguments shows {T}. Arguments pair_shows {T}. Arguments pstep {T}.
Arguments refusable {T}. Arguments psteps {T}. Arguments psmall {T}.
