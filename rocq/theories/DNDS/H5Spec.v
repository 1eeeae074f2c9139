(** What it means for the parts of a distributed vector to tile its dataset. *)
From Coq Require Import List ZArith Permutation String.
From Verif Require Import Base.Prelude DNDS.H5Model.
Import ListNotations.
Local Open Scope Z_scope.

(** Where rank [r]'s part begins when the parts follow one another in rank
    order. *)
Definition start (parts : list (list Z)) (r : nat) : Z := zsum (map zlen (firstn r parts)).
Definition total (parts : list (list Z)) : Z := zsum (map zlen parts).

(** Every rank writes exactly once, in whatever order. *)
Definition any_order (n : nat) (s : list nat) : Prop := Permutation s (seq 0 n).

(** [d] holds exactly the parts, in rank order: its length is the sum of the
    lengths, and element [j] of rank [r]'s part is element [start r + j]. *)
Definition tiled (parts : list (list Z)) (d : list Z) : Prop :=
  zlen d = total parts /\
  forall r j x, (r < List.length parts)%nat ->
    nth_error (nth r parts []) j = Some x ->
    nth_error d (Z.to_nat (start parts r) + j) = Some x.

(** The files reachable from [f] by further writes, of any kind. *)
Inductive later : file -> file -> Prop :=
| later_refl f : later f f
| later_write f g h name parts offs s1 s2 :
    later f g -> write_vector g name parts offs s1 s2 = Ok h -> later f h.

(** Every rank asks for its own part, not knowing where it is. *)
Definition ask (fresh : list bool) : list (goffset * bool) :=
  map (fun b => (off_unknown, b)) fresh.

(** The offsets that describe the parts' places. *)
Definition places (parts : list (list Z)) : list goffset :=
  map (fun r => {| g_size := total parts; g_off := start parts r |}) (seq 0 (List.length parts)).
