(** Specification of distributed numbering, independent of offsets and searches. *)
From Coq Require Import List ZArith Bool Arith.
Import ListNotations.

(** Rank [r] holds [nth r lens] items.  [flat lens] lists all items of all ranks
    as (rank, local position), rank by rank: the global index of an item is its
    position in this list. *)
Definition flat (lens : list nat) : list (nat * nat) :=
  concat (map (fun r => map (fun v => (r, v)) (seq 0 (nth r lens 0)))
              (seq 0 (length lens))).

(** The item with a global index, if any. *)
Definition item_at (lens : list nat) (q : Z) : option (nat * nat) :=
  if (q <? 0)%Z then None else nth_error (flat lens) (Z.to_nat q).

(** The owner of a global index. *)
Definition owned_by (lens : list nat) (s : nat) (q : Z) : Prop :=
  exists v, item_at lens q = Some (s, v).

(** [l] lists the elements of [src] satisfying [P] in strictly ascending order,
    each once.  Such a list is unique. *)
Definition ascending_list_of (P : Z -> Prop) (src : list Z) (l : list Z) : Prop :=
  (forall i j x y, i < j -> nth_error l i = Some x -> nth_error l j = Some y -> (x < y)%Z) /\
  (forall x, In x l <-> In x src /\ P x).

(** Part [s] of a vector [v] delimited by a vector of starts. *)
Definition part {A} (starts : list Z) (v : list A) (s : nat) : option (list A) :=
  match nth_error starts s, nth_error starts (S s) with
  | Some a, Some b => Some (firstn (Z.to_nat (b - a)) (skipn (Z.to_nat a) v))
  | _, _ => None
  end.

(** The (first global index, number of items) of each rank: what a rank passes
    as its own range when it sets up a ghost mapping. *)
Definition main_range (lens : list nat) (r : nat) : Z * Z :=
  (Z.of_nat (list_sum (firstn r lens)), Z.of_nat (nth r lens 0)).
Definition main_ranges (lens : list nat) : list (Z * Z) :=
  map (main_range lens) (seq 0 (length lens)).

(** The arguments by which a rank announces, for each destination rank, the
    list of its local rows to send there: all rows one destination after the
    other, and the start of each destination's part. *)
Definition push_args (dests : list (list nat)) : list Z * list Z :=
  (map Z.of_nat (concat dests),
   map (fun r => Z.of_nat (length (concat (firstn r dests)))) (seq 0 (S (length dests)))).

(** [L]: for each rank [s] and destination [r] the local rows of [s] to send to
    [r].  Well formed: one list per pair of ranks, rows that exist. *)
Definition pushes_ok (lens : list nat) (L : list (list (list nat))) : Prop :=
  length L = length lens /\
  forall s dests, nth_error L s = Some dests ->
    length dests = length lens /\ Forall (Forall (fun i => (i < nth s lens 0)%nat)) dests.

(** Rows [s] sends to [r]. *)
Definition seg_of (L : list (list (list nat))) s r : list nat := nth r (nth s L []) [].

(** Every list is strictly ascending. *)
Definition ascending_pushes (L : list (list (list nat))) : Prop :=
  Forall (Forall (fun l => forall i j x y, (i < j)%nat ->
     nth_error l i = Some x -> nth_error l j = Some y -> (x < y)%nat)) L.
