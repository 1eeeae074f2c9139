(** C14: arrays of equally sized matrices, and arrays with one matrix per row. *)
From Coq Require Import ZArith List.
From Verif Require Import Base.Prelude DNDS.MatrixModel DNDS.MatrixSpec DNDS.MatrixProofs.
Import ListNotations.
Open Scope Z_scope.

(** Every history of resizing the array, resizing batches and assigning matrices,
    for every combination of fixed and dynamic shape: the number of matrices of a
    row, the shape and every matrix read are those of plain lists of matrices, and
    a call is refused exactly when the lists refuse it. *)
Theorem C14_uniform_batches : forall T (dflt : T) n_row n_col,
  n_row = -1 \/ 0 <= n_row -> n_col = -1 \/ 0 <= n_col -> forall cs,
  ucovered_all dflt n_row n_col (no_batches n_row n_col) cs ->
  match bsteps dflt (no_batches n_row n_col) cs with
  | Some b => exists u, urun dflt n_row n_col (new_ubatch n_row n_col) cs = Ok u /\ ushows n_row n_col u b
  | None => urun dflt n_row n_col (new_ubatch n_row n_col) cs = Abort
  end.
Proof. exact uniform_history. Qed.
Print Assumptions C14_uniform_batches.

(** The excluded shape: with no rows (or columns) the number of matrices of a row
    cannot be asked for; the code divides by zero. *)
Theorem C14_empty_shape_refuted : forall T (dflt : T) n_col i n,
  0 <= i < Z.of_nat n -> 0 < n_col ->
  exists u, Resize3 (-1) n_col (new_ubatch (-1) n_col) n 0 n_col = @Ok (ubatch T) u /\
    BatchSize (-1) n_col u i = UB.
Proof. exact empty_shape. Qed.
Print Assumptions C14_empty_shape_refuted.

(** Matrix arrays with one common shape: after resizing (whatever the array held),
    every row reports the shape given and is exactly that large. *)
Theorem C14_common_shape_reported : forall T (dflt : T) ni nj (a a' : amat T) n r c i,
  (ni = -1 /\ nj = -1 \/ ni = -1 /\ 0 <= nj \/ 0 <= ni /\ 0 <= nj) ->
  0 < r -> 0 <= c -> mResize dflt ni nj a n r c = Ok a' -> 0 <= i < Z.of_nat n ->
  zlen (mrows a') = Z.of_nat n /\
  MatRowSize ni a' i = Ok r /\ MatColSize ni nj a' i = Ok c /\ mat_at ni nj a' i = Ok (r, c) /\
  exists row, vat (mrows a') i = Ok row /\ zlen row = r * c.
Proof. exact table_dims. Qed.
Print Assumptions C14_common_shape_reported.

(** Matrix arrays with a shape per row: after any sequence of matrix resizings
    each row reports the shape last given to it ([r0] rows and no columns if none
    was). *)
Theorem C14_own_shapes_reported : forall T (dflt : T) n r0 c0 cs,
  0 < r0 -> 0 <= c0 -> r0 * c0 <= int32_max -> Forall (mcovered n) cs ->
  exists a, (do a0 <- mResize dflt (-2) (-2) new_amat n r0 c0; mrun dflt (-2) a0 cs) = Ok a /\
    forall k r c, nth_error (given (repeat (r0, 0) n) cs) k = Some (r, c) ->
      MatRowSize (-2) a (Z.of_nat k) = Ok r /\ MatColSize (-2) (-2) a (Z.of_nat k) = Ok c /\
      mat_at (-2) (-2) a (Z.of_nat k) = Ok (r, c) /\
      exists row, vat (mrows a) (Z.of_nat k) = Ok row /\ zlen row = r * c.
Proof. exact nonuniform_dims. Qed.
Print Assumptions C14_own_shapes_reported.

(** Defects. A dynamic number of columns without a dynamic number of rows is never
    reported: the test in the source is on the rows. *)
Theorem C14_dynamic_columns_refuted : forall T ni (a : amat T) i,
  ni <> -1 -> MatColSize ni (-1) a i = Ok UnInitRowsize.
Proof. exact dynamic_columns_lost. Qed.
Print Assumptions C14_dynamic_columns_refuted.

(** Resizing a matrix of an array with a fixed number of rows does nothing and
    says nothing. *)
Theorem C14_fixed_rows_not_resized_refuted : forall T (dflt : T) ni (a : amat T) i r c,
  0 <= ni -> ResizeMat dflt ni a i r c = Ok a.
Proof. exact fixed_rows_not_resized. Qed.
Print Assumptions C14_fixed_rows_not_resized_refuted.

(** Resizing an array with own shapes a second time keeps the old rows but not
    their shape: a row of six entries is then a 4 by 1 matrix. *)
Theorem C14_second_resize_refuted :
  exists a, (do a0 <- mResize 0 (-2) (-2) new_amat 1 2 3;
             do a1 <- ResizeMat 0 (-2) a0 0 2 3;
             mResize 0 (-2) (-2) a1 1 4 2) = Ok a /\
    mat_at (-2) (-2) a 0 = Ok (4, 1) /\ vat (mrows a) 0 = Ok [0; 0; 0; 0; 0; 0].
Proof. exact second_resize_misreports. Qed.
Print Assumptions C14_second_resize_refuted.

Example C14_example : ucovered_all 0 (-1) 2 (no_batches (-1) 2) sample_ucalls /\
  exists b, bsteps 0 (no_batches (-1) 2) sample_ucalls = Some b /\
    mats b = [[[0; 0]]; [[0; 0]; [7; 8]; [0; 0]]].
Proof. exact sample_uniform. Qed.
