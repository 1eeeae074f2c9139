(** Father/son pairs of arrays: src/DNDS/ArrayPair.hpp. The two halves are two
    arrays of the world of ArrayModel, given by their places. *)
From Coq Require Import ZArith List Bool.
From Verif Require Import Base.Prelude DNDS.ArrayModel.
Import ListNotations.
Open Scope Z_scope.

Section Pair.
Variable T : Type.
Variable dflt : T.

Definition get_arr (w : world T) (id : nat) : res (arr T) :=
  match nth_error (arrs w) id with Some a => Ok a | None => UB end.

(** The test every member repeats (18-21, 26-29, 43-46, 52-55, 65-68, 73-76,
    82-85): the half addressed and the index inside it. *)
Definition pick (w : world T) (f s : nat) (i : Z) : res (nat * Z) :=
  do a <- get_arr w f;
  if (0 <=? i) && (i <? size a) then Ok (f, i) else Ok (s, i - size a).

(** 40-56 operator() *)
Definition pair_at (w : world T) (f s : nat) (i j : Z) : res T :=
  do p <- pick w f s i;
  do a <- get_arr w (fst p);
  at_ (hp w) a (snd p) j.

(** 63-69 *)
Definition pair_RowSize (w : world T) (f s : nat) (i : Z) : res Z :=
  do p <- pick w f s i;
  do a <- get_arr w (fst p);
  RowSize (hp w) a (snd p).

(** 88-91 *)
Definition pair_Size (w : world T) (f s : nat) : res Z :=
  do a <- get_arr w f;
  do b <- get_arr w s;
  Ok (size a + size b).

(** Calls that change a pair: assignment through operator() (40-47), ResizeRow
    (71-86), CompressBoth (99-103). *)
Inductive pcall := PSet (i j : Z) (x : T) | PResizeRow (i : Z) (n : nat) | PCompressBoth.

Definition do_pcall (w : world T) (f s : nat) (c : pcall) : res (world T) :=
  match c with
  | PSet i j x => do p <- pick w f s i; do_call dflt w (fst p) (CSet (snd p) j x)
  | PResizeRow i n => do p <- pick w f s i; do_call dflt w (fst p) (CResizeRow (snd p) n)
  | PCompressBoth => do w1 <- do_call dflt w f CCompress; do_call dflt w1 s CCompress
  end.

Fixpoint prun (w : world T) (f s : nat) (cs : list pcall) : res (world T) :=
  match cs with
  | [] => Ok w
  | c :: t => do w' <- do_pcall w f s c; prun w' f s t
  end.
End Pair.
Arguments get_arr {T}. Arguments pick {T}. Arguments pair_at {T}. Arguments pair_RowSize {T}.
Arguments pair_Size {T}. Arguments do_pcall {T}. Arguments prun {T}.
Arguments PSet {T}. Arguments PResizeRow {T}. Arguments PCompressBoth {T}.
