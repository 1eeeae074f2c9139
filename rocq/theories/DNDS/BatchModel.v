(** Model of the matrix batch stored in one row of 8-byte words. A word is its
    64-bit pattern, an integer in [0, 2^64); a [real] is stored as its pattern,
    and copying a [real] copies the pattern. *)
From Coq Require Import ZArith List Bool.
From Verif Require Import Base.Prelude.
Import ListNotations.
Open Scope Z_scope.

(** An Eigen matrix with dynamic sizes: column-major entries. *)
Record matrix := { rows : Z; cols : Z; entries : list Z }.

Definition uint16 (x : Z) : Z := x mod 2 ^ 16.
Definition uint32 (x : Z) : Z := x mod 2 ^ 32.
Definition uint64 (x : Z) : Z := x mod 2 ^ 64.
Definition UINT16_MAX : Z := 65535.
Definition DNDS_ROWSIZE_MAX : Z := 2147483647.

(** src/DNDS/ArrayDerived/ArrayEigenMatrixBatch.hpp 10-17 *)
Definition getN (d : Z) : Z := uint32 (Z.shiftr d 32).
Definition setN (d v : Z) : Z := Z.lor (Z.land d 0x00000000FFFFFFFF) (Z.shiftl v 32).
(** 20-32 *)
Definition getA (d : Z) : Z := uint16 (Z.land d 0x000000000000FFFF).
Definition getB (d : Z) : Z := uint16 (Z.shiftr (Z.land d 0x00000000FFFF0000) 16).
Definition setA (d v : Z) : Z := Z.lor (Z.land d 0xFFFFFFFFFFFF0000) v.
Definition setB (d v : Z) : Z := Z.lor (Z.land d 0xFFFFFFFF0000FFFF) (Z.shiftl v 16).

(** 38-49. [matrices.size()] is compared as an unsigned number; the sums are
    below the limits the assertion enforces. *)
Definition getBufSize (ms : list matrix) : res Z :=
  do _ <- assert_ (zlen ms <? DNDS_ROWSIZE_MAX);
  foldM (fun bufSiz m =>
    let mSiz := rows m * cols m in
    do _ <- assert_ ((mSiz + bufSiz <? DNDS_ROWSIZE_MAX)
                     && (rows m <? UINT16_MAX) && (cols m <? UINT16_MAX));
    Ok (bufSiz + mSiz)) (zlen ms + 1) ms.

(** 62-66 *)
Definition Size (buf : list Z) : res Z :=
  do _ <- assert_ (0 <? zlen buf); vget buf 0.
Definition setSize (buf : list Z) (n : Z) : res (list Z) :=
  do _ <- assert_ (0 <? zlen buf); vset buf 0 n.

(** 68-101: the six accessors share this shape. *)
Definition header (f : Z -> Z) (buf : list Z) (k : Z) : res Z :=
  do _ <- assert_ (k <? zlen buf - 1);
  do d <- vget buf (k + 1); Ok (f d).
Definition getNRow := header getA.
Definition getNCol := header getB.
Definition getOffset := header getN.
Definition set_header (f : Z -> Z -> Z) (buf : list Z) (k v : Z) : res (list Z) :=
  do _ <- assert_ (k <? zlen buf - 1);
  do d <- vget buf (k + 1); vset buf (k + 1) (f d v).
Definition setNRow := set_header setA.
Definition setNCol := set_header setB.
Definition setOffset := set_header setN.

(** 120-127: the map as (offset, rows, cols). [k < Size()] compares as unsigned,
    so a negative [k] fails. *)
Record map_ := { moff : Z; mrows : Z; mcols : Z }.
Definition batch_at (buf : list Z) (k : Z) : res map_ :=
  do n <- Size buf;
  do _ <- assert_ (uint64 k <? n);
  do r <- getNRow buf k;
  do c <- getNCol buf k;
  do o <- getOffset buf k;
  Ok {| moff := o; mrows := r; mcols := c |}.

(** Reading and assigning through an Eigen map of consecutive words. Assigning a
    matrix of other sizes fails Eigen's assertion. *)
Definition map_read (buf : list Z) (m : map_) : res matrix :=
  do l <- mapM (fun j => vget buf (moff m + Z.of_nat j)) (seq 0 (Z.to_nat (mrows m * mcols m)));
  Ok {| rows := mrows m; cols := mcols m; entries := l |}.
Definition map_write (buf : list Z) (m : map_) (x : matrix) : res (list Z) :=
  do _ <- assert_ ((rows x =? mrows m) && (cols x =? mcols m));
  foldM (fun b j => do e <- vget (entries x) (Z.of_nat j); vset b (moff m + Z.of_nat j) e)
        buf (seq 0 (Z.to_nat (mrows m * mcols m))).

(** 110-117, one turn of the loop. *)
Definition compress_one (st : list Z * Z) (im : Z * matrix) : res (list Z * Z) :=
  let '(buf, cur) := st in
  let '(i, m) := im in
  do buf <- setNRow buf i (uint16 (rows m));
  do buf <- setNCol buf i (uint16 (cols m));
  do buf <- setOffset buf i cur;
  do p <- batch_at buf i;
  do buf <- map_write buf p m;
  Ok (buf, uint32 (cur + rows m * cols m)).

Fixpoint number {A} (i : Z) (l : list A) : list (Z * A) :=
  match l with [] => [] | x :: l => (i, x) :: number (i + 1) l end.

(** 103-118 *)
Definition CompressIn (buf : list Z) (ms : list matrix) : res (list Z) :=
  do s <- getBufSize ms;
  do _ <- assert_ (s <=? zlen buf);
  do buf <- setSize buf (uint64 (zlen ms));
  do n <- Size buf;
  do st <- foldM compress_one (buf, uint32 (uint32 n + 1)) (number 0 ms);
  Ok (fst st).

(** 144-149 on a decompressed row: the row is resized ([dflt] for new words),
    then filled. *)
Definition InitializeWriteRow (dflt : Z) (row : list Z) (ms : list matrix) : res (list Z) :=
  do s <- getBufSize ms;
  CompressIn (firstn (Z.to_nat s) row ++ repeat dflt (Z.to_nat s - length row)) ms.

(** 156-159 followed by a read through the map. *)
Definition batch_get (buf : list Z) (k : Z) : res matrix :=
  do p <- batch_at buf k; map_read buf p.
Definition batch_set (buf : list Z) (k : Z) (x : matrix) : res (list Z) :=
  do p <- batch_at buf k; map_write buf p x.
