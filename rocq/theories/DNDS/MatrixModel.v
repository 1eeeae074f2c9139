(** Arrays of matrices: src/DNDS/ArrayDerived/ArrayEigenUniMatrixBatch.hpp and
    ArrayEigenMatirx.hpp. The base array is a list of rows (ArraySpec; C08 and C09
    prove the base class behaves as one); a variable-row base array is taken to be
    decompressed. A matrix is its entries in storage order. *)
From Coq Require Import ZArith List Bool.
From Verif Require Import Base.Prelude DNDS.ArraySpec.
Import ListNotations.
Open Scope Z_scope.

(** [int] multiplication: overflow is undefined. *)
Definition mul32 (a b : Z) : res Z :=
  if (int32_min <=? a * b) && (a * b <=? int32_max) then Ok (a * b) else UB.

Section Uniform.
Variable T : Type.
Variable dflt : T.
(** The template arguments; -1 is Eigen::Dynamic. *)
Variables n_row n_col : Z.

(** ArrayEigenUniMatrixBatch.hpp 36-38 *)
Record ubatch := { row_dynamic : Z; col_dynamic : Z; m_size : Z; brows : list (list T) }.

(** 84-85 *)
Definition Rows (u : ubatch) : Z := if 0 <? n_row then n_row else row_dynamic u.
Definition Cols (u : ubatch) : Z := if 0 <? n_col then n_col else col_dynamic u.

(** 36-38 initial values *)
Definition new_ubatch : ubatch :=
  let r := if 0 <? n_row then n_row else 0 in
  let c := if 0 <? n_col then n_col else 0 in
  {| row_dynamic := r; col_dynamic := c; m_size := r * c; brows := [] |}.

(** 86-92 *)
Definition MSize (u : ubatch) : Z :=
  if (0 <=? n_row) && (0 <=? n_col) then n_row * n_col else m_size u.

(** 54-67 *)
Definition ResizeMatrix (u : ubatch) (r c : Z) : res ubatch :=
  do _ <- assert_ (if 0 <=? n_row then (r =? -1) || (r =? n_row) else true);
  do _ <- assert_ (if 0 <=? n_col then (c =? -1) || (c =? n_col) else true);
  let u1 := {| row_dynamic := if 0 <=? r then r else row_dynamic u;
               col_dynamic := if 0 <=? c then c else col_dynamic u;
               m_size := m_size u; brows := brows u |} in
  do m <- mul32 (Rows u1) (Cols u1);
  Ok {| row_dynamic := row_dynamic u1; col_dynamic := col_dynamic u1; m_size := m; brows := [] |}.

(** 69-73 *)
Definition Resize3 (u : ubatch) (n : nat) (r c : Z) : res ubatch :=
  do u1 <- ResizeMatrix u r c;
  Ok {| row_dynamic := row_dynamic u1; col_dynamic := col_dynamic u1; m_size := m_size u1;
        brows := fit [] n (brows u1) |}.

(** 75-81 *)
Definition Resize1 (u : ubatch) (n : nat) : res ubatch :=
  if (0 <? n_row) && (0 <? n_col) then Resize3 u n (-1) (-1) else Abort.

(** 94-102 *)
Definition ResizeBatch (u : ubatch) (i : Z) (b : nat) : res ubatch :=
  do k <- mul32 (Z.of_nat b) (MSize u);
  match in_range i (length (brows u)) with
  | None => Abort
  | Some q =>
      Ok {| row_dynamic := row_dynamic u; col_dynamic := col_dynamic u; m_size := m_size u;
            brows := upd q (fit dflt (Z.to_nat k) (nth q (brows u) [])) (brows u) |}
  end.

(** 104-114; a zero divisor is undefined. *)
Definition BatchSize (u : ubatch) (i : Z) : res Z :=
  do row <- vat (brows u) i;
  if MSize u =? 0 then UB else
  do _ <- assert_ (zlen row mod MSize u =? 0);
  Ok (zlen row / MSize u).

(** 116-128: the place of matrix [j]: offset in row [i], rows, columns. *)
Definition ulocate (u : ubatch) (i j : Z) : res (Z * Z * Z) :=
  do s <- BatchSize u i;
  do _ <- assert_ ((0 <=? j) && (j <? s));
  do o <- mul32 (MSize u) j;
  Ok (o, Rows u, Cols u).

(** Reading and assigning through the map returned. *)
Definition uget (u : ubatch) (i j : Z) : res (list T) :=
  do p <- ulocate u i j;
  let '(o, r, c) := p in
  do row <- vget (brows u) i;
  mapM (fun e => vget row (o + Z.of_nat e)) (seq 0 (Z.to_nat (r * c))).
Definition uset (u : ubatch) (i j : Z) (m : list T) : res ubatch :=
  do p <- ulocate u i j;
  let '(o, r, c) := p in
  do row <- vget (brows u) i;
  do row' <- foldM (fun b e => do x <- vget m (Z.of_nat e); vset b (o + Z.of_nat e) x) row
               (seq 0 (Z.to_nat (r * c)));
  do rows' <- vset (brows u) i row';
  Ok {| row_dynamic := row_dynamic u; col_dynamic := col_dynamic u; m_size := m_size u; brows := rows' |}.

Inductive ucall := UResize (n : nat) (r c : Z) | UResizeBatch (i : Z) (b : nat) | USet (i j : Z) (m : list T).
Definition do_ucall (u : ubatch) (c : ucall) : res ubatch :=
  match c with
  | UResize n r k => Resize3 u n r k
  | UResizeBatch i b => ResizeBatch u i b
  | USet i j m => uset u i j m
  end.
Fixpoint urun (u : ubatch) (cs : list ucall) : res ubatch :=
  match cs with [] => Ok u | c :: t => do u' <- do_ucall u c; urun u' t end.
End Uniform.

Section Matrix.
Variable T : Type.
Variable dflt : T.
(** The template arguments: a size, -1 DynamicSize, -2 NonUniformSize (no separate
    maxima). *)
Variables ni nj : Z.
Definition UnInitRowsize : Z := int32_min.

(** ArrayEigenMatirx.hpp 50-51 *)
Record amat := { nRows : list Z; nRow_dynamic : Z; mrows : list (list T) }.
Definition new_amat : amat := {| nRows := []; nRow_dynamic := 0; mrows := [] |}.

(** 6-22: variable rows when either size is non-uniform. *)
Definition base_csr : bool := (ni =? -2) || (nj =? -2).

(** 54-72 *)
Definition mResize (a : amat) (n : nat) (r c : Z) : res amat :=
  do _ <- assert_ (if 0 <=? ni then r =? ni else true);
  do _ <- assert_ (if 0 <=? nj then c =? nj else true);
  do k <- mul32 r c;
  Ok {| nRows := if ni =? -2 then repeat r n else nRows a;
        nRow_dynamic := if ni =? -1 then r else nRow_dynamic a;
        mrows := if base_csr then fit [] n (mrows a)
                 else regroup dflt (repeat (Z.to_nat k) n) (concat (mrows a)) |}.

(** 74-83 *)
Definition MatRowSize (a : amat) (i : Z) : res Z :=
  if 0 <=? ni then Ok ni
  else if ni =? -2 then vat (nRows a) i
  else if ni =? -1 then Ok (nRow_dynamic a)
  else Ok UnInitRowsize.

(** [RowSize(i) / d] *)
Definition columns (a : amat) (i d : Z) : res Z :=
  do row <- vat (mrows a) i;
  if d =? 0 then UB else Ok (zlen row / d).

(** 85-94; the third test is on the number of rows, as in the source. *)
Definition MatColSize (a : amat) (i : Z) : res Z :=
  if 0 <=? nj then Ok nj
  else if nj =? -2 then do d <- MatRowSize a i; columns a i d
  else if ni =? -1 then do d <- MatRowSize a i; columns a i d
  else Ok UnInitRowsize.

(** 96-107 *)
Definition ResizeMat (a : amat) (i : Z) (r c : Z) : res amat :=
  if ni =? -2 then
    do k <- mul32 r c;
    match in_range i (length (mrows a)) with
    | None => Abort
    | Some q =>
        do nr <- vset (nRows a) i r;
        Ok {| nRows := nr; nRow_dynamic := nRow_dynamic a;
              mrows := upd q (fit dflt (Z.to_nat k) (nth q (mrows a) [])) (mrows a) |}
    end
  else if ni =? -1 then Abort
  else Ok a.

(** 114-144: rows and columns of the map at the start of row [i]; a map whose
    fixed number of columns differs fails Eigen's assertion. *)
Definition mat_at (a : amat) (i : Z) : res (Z * Z) :=
  do d <- (if ni =? -2 then vget (nRows a) i
           else if ni =? -1 then Ok (nRow_dynamic a) else Ok ni);
  do c <- columns a i d;
  do _ <- assert_ (if 0 <=? nj then c =? nj else true);
  Ok (d, c).

Fixpoint mrun (a : amat) (cs : list (Z * Z * Z)) : res amat :=
  match cs with
  | [] => Ok a
  | (i, r, c) :: t => do a' <- ResizeMat a i r c; mrun a' t
  end.
End Matrix.
Arguments row_dynamic {T}. Arguments col_dynamic {T}. Arguments m_size {T}. Arguments brows {T}.
Arguments Rows {T}. Arguments Cols {T}. Arguments MSize {T}. Arguments new_ubatch {T}.
Arguments ResizeMatrix {T}. Arguments Resize3 {T}. Arguments Resize1 {T}. Arguments ResizeBatch {T}.
Arguments BatchSize {T}. Arguments ulocate {T}. Arguments uget {T}. Arguments uset {T}.
Arguments UResize {T}. Arguments UResizeBatch {T}. Arguments USet {T}.
Arguments do_ucall {T}. Arguments urun {T}.
Arguments nRows {T}. Arguments nRow_dynamic {T}. Arguments mrows {T}. Arguments new_amat {T}.
Arguments mResize {T}. Arguments MatRowSize {T}. Arguments columns {T}. Arguments MatColSize {T}.
Arguments ResizeMat {T}. Arguments mat_at {T}. Arguments mrun {T}.
