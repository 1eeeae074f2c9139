(** C13: matrix batches. *)
From Coq Require Import ZArith List.
From Verif Require Import Base.Prelude DNDS.BatchModel DNDS.BatchSpec DNDS.BatchProofs.
Import ListNotations.
Open Scope Z_scope.

(** Packing any batch into any buffer that is large enough, whatever the buffer
    held before, and then assigning any sequence of matrices of the same sizes:
    every place returns the last matrix stored in it, bit for bit, other indices
    are refused, and the words behind the batch keep their values. *)
Theorem C13_every_matrix_read_back buf ms ws :
  packable ms -> words ms <= zlen buf <= DNDS_ROWSIZE_MAX -> Forall (fits ms) ws ->
  exists buf1 buf',
    CompressIn buf ms = Ok buf1 /\
    foldM (fun b w => batch_set b (Z.of_nat (fst w)) (snd w)) buf1 ws = Ok buf' /\
    length buf' = length buf /\
    Size buf' = Ok (zlen ms) /\
    (forall k m, nth_error (assigned ms ws) k = Some m -> batch_get buf' (Z.of_nat k) = Ok m) /\
    (forall k, int32_min <= k <= DNDS_ROWSIZE_MAX -> ~ (0 <= k < zlen ms) -> batch_get buf' k = Abort) /\
    (forall x, words ms <= Z.of_nat x -> nth_error buf' x = nth_error buf x).
Proof. exact (batch_history buf ms ws). Qed.
Print Assumptions C13_every_matrix_read_back.

(** Filling a row of the array: the row gets exactly the words needed. *)
Theorem C13_row_has_exact_size dflt row ms :
  packable ms ->
  exists buf, InitializeWriteRow dflt row ms = Ok buf /\ zlen buf = words ms /\
    Size buf = Ok (zlen ms) /\
    (forall k m, nth_error ms k = Some m -> batch_get buf (Z.of_nat k) = Ok m).
Proof. exact (init_row_history dflt row ms). Qed.
Print Assumptions C13_row_has_exact_size.

(** The matrices occupy disjoint words inside the buffer, behind the headers. *)
Theorem C13_matrices_do_not_overlap ms k m :
  packable ms -> nth_error ms k = Some m ->
  1 + zlen ms <= first_word ms k /\ first_word ms k + rows m * cols m <= words ms /\
  forall j m', nth_error ms j = Some m' -> (k < j)%nat ->
    first_word ms k + rows m * cols m <= first_word ms j.
Proof. exact (regions ms k m). Qed.
Print Assumptions C13_matrices_do_not_overlap.

(** Assigning matrix [k] touches only those words. *)
Theorem C13_assignment_stays_inside buf ms k m x :
  packable ms -> words ms <= zlen buf <= DNDS_ROWSIZE_MAX ->
  packed buf ms -> nth_error ms k = Some m -> wf_matrix x -> rows x = rows m -> cols x = cols m ->
  exists buf', batch_set buf (Z.of_nat k) x = Ok buf' /\ length buf' = length buf /\
    packed buf' (upd k x ms) /\
    (forall j, ~ (first_word ms k <= Z.of_nat j < first_word ms k + rows m * cols m) ->
       nth_error buf' j = nth_error buf j).
Proof. exact (packed_set buf ms k m x). Qed.
Print Assumptions C13_assignment_stays_inside.

(** What the format cannot hold is refused before anything is written. *)
Theorem C13_unpackable_is_refused ms :
  Forall wf_matrix ms -> ms <> [] ->
  (getBufSize ms = Abort <-> ~ packable ms) /\
  (getBufSize ms <> Abort -> getBufSize ms = Ok (words ms)).
Proof. exact (refused ms). Qed.
Print Assumptions C13_unpackable_is_refused.

(** So is a matrix of another shape, even with as many entries. *)
Theorem C13_other_shape_is_refused buf ms buf1 k m x :
  packable ms -> words ms <= zlen buf <= DNDS_ROWSIZE_MAX -> CompressIn buf ms = Ok buf1 ->
  nth_error ms k = Some m -> rows x <> rows m \/ cols x <> cols m -> batch_set buf1 (Z.of_nat k) x = Abort.
Proof. exact (other_shape buf ms buf1 k m x). Qed.
Print Assumptions C13_other_shape_is_refused.

(** Three matrices, one of them empty, in a row that held other words. *)
Example C13_example_packable : packable sample_batch.
Proof. exact sample_packable. Qed.
Example C13_example_row :
  exists buf, InitializeWriteRow 77 [123456789012345; 5] sample_batch = Ok buf /\ length buf = 11%nat.
Proof. exact sample_row. Qed.
