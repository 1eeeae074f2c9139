(** Reference notions for matrix batches. *)
From Coq Require Import ZArith List.
From Verif Require Import Base.Prelude DNDS.BatchModel.
Import ListNotations.
Open Scope Z_scope.

(** A matrix value: as many entries as its sizes say. *)
Definition wf_matrix (m : matrix) : Prop :=
  0 <= rows m /\ 0 <= cols m /\ zlen (entries m) = rows m * cols m.

(** Words needed: one for the count, one per matrix, one per entry. *)
Definition words (ms : list matrix) : Z :=
  1 + zlen ms + zsum (map (fun m => rows m * cols m) ms).

(** The batches the format can hold. *)
Definition packable (ms : list matrix) : Prop :=
  words ms < DNDS_ROWSIZE_MAX /\
  Forall (fun m => wf_matrix m /\ rows m < UINT16_MAX /\ cols m < UINT16_MAX) ms.

(** The words of the buffer matrix [k] of the batch occupies. *)
Definition first_word (ms : list matrix) (k : nat) : Z :=
  1 + zlen ms + zsum (map (fun m => rows m * cols m) (firstn k ms)).

(** An assignment of matrix [x] to place [k]: allowed when the place exists and
    the sizes are the same. *)
Definition fits (ms : list matrix) (w : nat * matrix) : Prop :=
  wf_matrix (snd w) /\
  exists m, nth_error ms (fst w) = Some m /\ rows (snd w) = rows m /\ cols (snd w) = cols m.

(** The batch after a sequence of assignments. *)
Definition assigned (ms : list matrix) (ws : list (nat * matrix)) : list matrix :=
  fold_left (fun l w => upd (fst w) (snd w) l) ws ms.
