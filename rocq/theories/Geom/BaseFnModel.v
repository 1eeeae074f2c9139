(** Polynomial basis functions and their derivatives.
    Models src/Geom/BaseFunction.hpp.  [real] is R. *)
From Coq Require Import List ZArith Reals Bool.
From Verif Require Import Base.Prelude.
Import ListNotations.
Local Open Scope Z_scope.

Definition index3 : Type := Z * Z * Z.

(** BaseFunction.hpp 12-16. *)
Definition ndiffSizC : list Z := [1; 4; 10; 20].
Definition ndiffSizC2D : list Z := [1; 3; 6; 10].

(** BaseFunction.hpp 55-77. *)
Definition diffOperatorOrderList : list index3 :=
   [ (0, 0, 0); (1, 0, 0); (0, 1, 0); (0, 0, 1); (2, 0, 0);
     (0, 2, 0); (0, 0, 2); (1, 1, 0); (0, 1, 1); (1, 0, 1);
     (3, 0, 0); (0, 3, 0); (0, 0, 3); (2, 1, 0); (1, 2, 0);
     (0, 2, 1); (0, 1, 2); (1, 0, 2); (2, 0, 1); (1, 1, 1) ].
(** BaseFunction.hpp 79-91. *)
Definition diffOperatorOrderList2D : list index3 :=
   [ (0, 0, 0); (1, 0, 0); (0, 1, 0); (2, 0, 0); (1, 1, 0);
     (0, 2, 0); (3, 0, 0); (2, 1, 0); (1, 2, 0); (0, 3, 0) ].
(** BaseFunction.hpp 93-115: arrays of three, missing values are 0. *)
Definition diffOperatorDimList : list index3 :=
   [ (0, 0, 0); (0, 0, 0); (1, 0, 0); (2, 0, 0); (0, 0, 0);
     (1, 1, 0); (2, 2, 0); (0, 1, 0); (1, 2, 0); (0, 2, 0);
     (0, 0, 0); (1, 1, 1); (2, 2, 2); (0, 0, 1); (0, 1, 1);
     (1, 1, 2); (1, 2, 2); (0, 2, 2); (0, 0, 2); (0, 1, 2) ].
(** BaseFunction.hpp 117-129. *)
Definition diffOperatorDimList2D : list index3 :=
   [ (0, 0, 0); (0, 0, 0); (1, 0, 0); (0, 0, 0); (0, 1, 0);
     (1, 1, 0); (0, 0, 0); (0, 0, 1); (0, 1, 1); (1, 1, 1) ].

(** BaseFunction.hpp 141-154: [searchForArray3], the last equal entry or -1. *)
Definition same3 (a b : index3) : bool :=
  let '(a0, a1, a2) := a in let '(b0, b1, b2) := b in (a0 =? b0) && (a1 =? b1) && (a2 =? b2).
Fixpoint search3 (a : index3) (i found : Z) (ops : list index3) : Z :=
  match ops with
  | [] => found
  | b :: ops' => search3 a (i + 1) (if same3 a b then i else found) ops'
  end.
(** [entry[d]++] on an array of three. *)
Definition bump (d : Z) (e : index3) : index3 :=
  let '(e0, e1, e2) := e in
  if d =? 0 then (e0 + 1, e1, e2) else if d =? 1 then (e0, e1 + 1, e2) else (e0, e1, e2 + 1).

(** BaseFunction.hpp 136-180: __get_diffOperatorIJK2I.  The tuple holds one index, an
    array of 3, of 3x3 and of 3x3x3 indices; the loops set the entries with subscripts
    below [dim].  Here it is read by the list of subscripts. *)
Definition IJK2I (ops : list index3) (ds : list Z) : Z :=
  match ds with
  | [] => 0
  | _ => search3 (fold_left (fun e d => bump d e) ds (0, 0, 0)) 0 (-1) ops
  end.
Definition diffOperatorIJK2I (ds : list Z) : Z := IJK2I diffOperatorOrderList ds.
Definition diffOperatorIJK2I2D (ds : list Z) : Z := IJK2I diffOperatorOrderList2D ds.

(** BaseFunction.hpp 193-197. *)
Definition dFactorials : list (list Z) :=
  [ [1; 0; 0; 0]; [1; 1; 0; 0]; [1; 2; 2; 0]; [1; 3; 6; 6] ].
(** BaseFunction.hpp 211-215. *)
Definition diffNCombs2D : list Z := [1; 1; 1; 1; 2; 1; 1; 3; 3; 1].
Definition diffNCombs : list Z := [1; 1; 1; 1; 1; 1; 1; 2; 2; 2; 1; 1; 1; 3; 3; 3; 3; 3; 3; 6].

(** BaseFunction.hpp 216-231. *)
Definition iPow (p : Z) (x : R) : R :=
  (if p =? 0 then 1 else if p =? 1 then x else if p =? 2 then x * x else if p =? 3 then x * x * x
   else IZR (10 ^ 300))%R.

(** BaseFunction.hpp 234-275 PolynomialNDOF and 715-740 GetNDof; the error value -1 of
    the former is not reached, an order above 3 fails the assertion. *)
Definition PolynomialNDOF (dim order : Z) : Z :=
  if dim =? 2 then
    if order =? 0 then 1 else if order =? 1 then 3 else if order =? 2 then 6 else if order =? 3 then 10 else -1
  else if dim =? 3 then
    if order =? 0 then 1 else if order =? 1 then 4 else if order =? 2 then 10 else if order =? 3 then 20 else -1
  else -1.
Definition GetNDof (dim maxOrder : Z) : res Z :=
  if (0 <=? maxOrder) && (maxOrder <=? 3) then Ok (PolynomialNDOF dim maxOrder) else Abort.

(** BaseFunction.hpp 278-283. *)
Definition dFactorial (p d : Z) : res Z := do row <- vat dFactorials p; vat row d.
Definition FPolynomial3D (px py pz dx dy dz : Z) (x y z : R) : res R :=
  do cx <- dFactorial px dx; do cy <- dFactorial py dy; do cz <- dFactorial pz dz;
  let c := cx * cy * cz in
  Ok (if c =? 0 then 0%R
      else (IZR c * iPow (px - dx) x * iPow (py - dy) y * iPow (pz - dz) z)%R).

(** An assignment [T(i, j) = v]. *)
Definition put (i j : Z) (v : R) : Z * Z * R := (i, j, v).

(** The entry (i, j) of a matrix set to zero and then assigned to in this order.
    Simplification: the matrix has all entries that are assigned. *)
Definition entry (T : list (Z * Z * R)) (i j : Z) : R :=
  match find (fun '(a, b, _) => (a =? i) && (b =? j)) (rev T) with
  | Some (_, _, v) => v
  | None => 0%R
  end.

Section Fill.
Variables x y z lx ly lz : R.

(** BaseFunction.hpp 290-327: the assignments for 10 rows and 10 columns. *)
Definition fill2D_10_10 : list (Z * Z * R) :=
  [ put 0 0 (1);
    put 0 1 (x);
    put 0 2 (y);
    put 0 3 (x * x);
    put 0 4 (x * y);
    put 0 5 (y * y);
    put 0 6 (x * x * x);
    put 0 7 ((x * x) * y);
    put 0 8 (x * (y * y));
    put 0 9 (y * y * y);
    put 1 1 (1 / lx);
    put 1 3 ((x * 2) / lx);
    put 1 4 (y / lx);
    put 1 6 (((x * x) * 3) / lx);
    put 1 7 ((x * y * 2) / lx);
    put 1 8 ((y * y) / lx);
    put 2 2 (1 / ly);
    put 2 4 (x / ly);
    put 2 5 ((y * 2) / ly);
    put 2 7 ((x * x) / ly);
    put 2 8 ((x * y * 2) / ly);
    put 2 9 (((y * y) * 3) / ly);
    put 3 3 (1 / (lx * lx) * 2);
    put 3 6 (1 / (lx * lx) * x * 6);
    put 3 7 (1 / (lx * lx) * y * 2);
    put 4 4 (1 / (lx * ly));
    put 4 7 ((x * 2) / (lx * ly));
    put 4 8 ((y * 2) / (lx * ly));
    put 5 5 (1 / (ly * ly) * 2);
    put 5 8 (1 / (ly * ly) * x * 2);
    put 5 9 (1 / (ly * ly) * y * 6);
    put 6 6 (1 / (lx * lx * lx) * 6);
    put 7 7 ((1 / (lx * lx) * 2) / ly);
    put 8 8 ((1 / (ly * ly) * 2) / lx);
    put 9 9 (1 / (ly * ly * ly) * 6) ]%R.
(** BaseFunction.hpp 328-352: the assignments for 3 rows and 10 columns. *)
Definition fill2D_3_10 : list (Z * Z * R) :=
  [ put 0 0 (1);
    put 0 1 (x);
    put 0 2 (y);
    put 0 3 (x * x);
    put 0 4 (x * y);
    put 0 5 (y * y);
    put 0 6 (x * x * x);
    put 0 7 ((x * x) * y);
    put 0 8 (x * (y * y));
    put 0 9 (y * y * y);
    put 1 1 (1 / lx);
    put 1 3 ((x * 2) / lx);
    put 1 4 (y / lx);
    put 1 6 (((x * x) * 3) / lx);
    put 1 7 ((x * y * 2) / lx);
    put 1 8 ((y * y) / lx);
    put 2 2 (1 / ly);
    put 2 4 (x / ly);
    put 2 5 ((y * 2) / ly);
    put 2 7 ((x * x) / ly);
    put 2 8 ((x * y * 2) / ly);
    put 2 9 (((y * y) * 3) / ly) ]%R.
(** BaseFunction.hpp 353-365: the assignments for 1 rows and 10 columns. *)
Definition fill2D_1_10 : list (Z * Z * R) :=
  [ put 0 0 (1);
    put 0 1 (x);
    put 0 2 (y);
    put 0 3 (x * x);
    put 0 4 (x * y);
    put 0 5 (y * y);
    put 0 6 (x * x * x);
    put 0 7 ((x * x) * y);
    put 0 8 (x * (y * y));
    put 0 9 (y * y * y) ]%R.
(** BaseFunction.hpp 366-383: the assignments for 6 rows and 6 columns. *)
Definition fill2D_6_6 : list (Z * Z * R) :=
  [ put 0 0 (1);
    put 0 1 (x);
    put 0 2 (y);
    put 0 3 (x * x);
    put 0 4 (x * y);
    put 0 5 (y * y);
    put 1 1 (1 / lx);
    put 1 3 ((x * 2) / lx);
    put 1 4 (y / lx);
    put 2 2 (1 / ly);
    put 2 4 (x / ly);
    put 2 5 ((y * 2) / ly);
    put 3 3 (1 / (lx * lx) * 2);
    put 4 4 (1 / (lx * ly));
    put 5 5 (1 / (ly * ly) * 2) ]%R.
(** BaseFunction.hpp 384-398: the assignments for 3 rows and 6 columns. *)
Definition fill2D_3_6 : list (Z * Z * R) :=
  [ put 0 0 (1);
    put 0 1 (x);
    put 0 2 (y);
    put 0 3 (x * x);
    put 0 4 (x * y);
    put 0 5 (y * y);
    put 1 1 (1 / lx);
    put 1 3 ((x * 2) / lx);
    put 1 4 (y / lx);
    put 2 2 (1 / ly);
    put 2 4 (x / ly);
    put 2 5 ((y * 2) / ly) ]%R.
(** BaseFunction.hpp 399-407: the assignments for 1 rows and 6 columns. *)
Definition fill2D_1_6 : list (Z * Z * R) :=
  [ put 0 0 (1);
    put 0 1 (x);
    put 0 2 (y);
    put 0 3 (x * x);
    put 0 4 (x * y);
    put 0 5 (y * y) ]%R.
(** BaseFunction.hpp 408-415: the assignments for 3 rows and 3 columns. *)
Definition fill2D_3_3 : list (Z * Z * R) :=
  [ put 0 0 (1);
    put 0 1 (x);
    put 0 2 (y);
    put 1 1 (1 / lx);
    put 2 2 (1 / ly) ]%R.
(** BaseFunction.hpp 416-421: the assignments for 1 rows and 3 columns. *)
Definition fill2D_1_3 : list (Z * Z * R) :=
  [ put 0 0 (1);
    put 0 1 (x);
    put 0 2 (y) ]%R.
(** BaseFunction.hpp 446-532: the assignments for 20 rows and 20 columns. *)
Definition fill3D_20_20 : list (Z * Z * R) :=
  [ put 0 0 (1);
    put 0 1 (x);
    put 0 2 (y);
    put 0 3 (z);
    put 0 4 (x * x);
    put 0 5 (y * y);
    put 0 6 (z * z);
    put 0 7 (x * y);
    put 0 8 (y * z);
    put 0 9 (x * z);
    put 0 10 (x * x * x);
    put 0 11 (y * y * y);
    put 0 12 (z * z * z);
    put 0 13 ((x * x) * y);
    put 0 14 (x * (y * y));
    put 0 15 ((y * y) * z);
    put 0 16 (y * (z * z));
    put 0 17 (x * (z * z));
    put 0 18 ((x * x) * z);
    put 0 19 (x * y * z);
    put 1 1 (1 / lx);
    put 1 4 ((x * 2) / lx);
    put 1 7 (y / lx);
    put 1 9 (z / lx);
    put 1 10 (((x * x) * 3) / lx);
    put 1 13 ((x * y * 2) / lx);
    put 1 14 ((y * y) / lx);
    put 1 17 ((z * z) / lx);
    put 1 18 ((x * z * 2) / lx);
    put 1 19 ((y * z) / lx);
    put 2 2 (1 / ly);
    put 2 5 ((y * 2) / ly);
    put 2 7 (x / ly);
    put 2 8 (z / ly);
    put 2 11 (((y * y) * 3) / ly);
    put 2 13 ((x * x) / ly);
    put 2 14 ((x * y * 2) / ly);
    put 2 15 ((y * z * 2) / ly);
    put 2 16 ((z * z) / ly);
    put 2 19 ((x * z) / ly);
    put 3 3 (1 / lz);
    put 3 6 ((z * 2) / lz);
    put 3 8 (y / lz);
    put 3 9 (x / lz);
    put 3 12 (((z * z) * 3) / lz);
    put 3 15 ((y * y) / lz);
    put 3 16 ((y * z * 2) / lz);
    put 3 17 ((x * z * 2) / lz);
    put 3 18 ((x * x) / lz);
    put 3 19 ((x * y) / lz);
    put 4 4 (1 / (lx * lx) * 2);
    put 4 10 (1 / (lx * lx) * x * 6);
    put 4 13 (1 / (lx * lx) * y * 2);
    put 4 18 (1 / (lx * lx) * z * 2);
    put 5 5 (1 / (ly * ly) * 2);
    put 5 11 (1 / (ly * ly) * y * 6);
    put 5 14 (1 / (ly * ly) * x * 2);
    put 5 15 (1 / (ly * ly) * z * 2);
    put 6 6 (1 / (lz * lz) * 2);
    put 6 12 (1 / (lz * lz) * z * 6);
    put 6 16 (1 / (lz * lz) * y * 2);
    put 6 17 (1 / (lz * lz) * x * 2);
    put 7 7 (1 / (lx * ly));
    put 7 13 ((x * 2) / (lx * ly));
    put 7 14 ((y * 2) / (lx * ly));
    put 7 19 (z / (lx * ly));
    put 8 8 (1 / (ly * lz));
    put 8 15 ((y * 2) / (ly * lz));
    put 8 16 ((z * 2) / (ly * lz));
    put 8 19 (x / (ly * lz));
    put 9 9 (1 / (lx * lz));
    put 9 17 ((z * 2) / (lx * lz));
    put 9 18 ((x * 2) / (lx * lz));
    put 9 19 (y / (lx * lz));
    put 10 10 (1 / (lx * lx * lx) * 6);
    put 11 11 (1 / (ly * ly * ly) * 6);
    put 12 12 (1 / (lz * lz * lz) * 6);
    put 13 13 ((1 / (lx * lx) * 2) / ly);
    put 14 14 ((1 / (ly * ly) * 2) / lx);
    put 15 15 ((1 / (ly * ly) * 2) / lz);
    put 16 16 ((1 / (lz * lz) * 2) / ly);
    put 17 17 ((1 / (lz * lz) * 2) / lx);
    put 18 18 ((1 / (lx * lx) * 2) / lz);
    put 19 19 (1 / (lx * ly * lz)) ]%R.
(** BaseFunction.hpp 533-585: the assignments for 4 rows and 20 columns. *)
Definition fill3D_4_20 : list (Z * Z * R) :=
  [ put 0 0 (1);
    put 0 1 (x);
    put 0 2 (y);
    put 0 3 (z);
    put 0 4 (x * x);
    put 0 5 (y * y);
    put 0 6 (z * z);
    put 0 7 (x * y);
    put 0 8 (y * z);
    put 0 9 (x * z);
    put 0 10 (x * x * x);
    put 0 11 (y * y * y);
    put 0 12 (z * z * z);
    put 0 13 ((x * x) * y);
    put 0 14 (x * (y * y));
    put 0 15 ((y * y) * z);
    put 0 16 (y * (z * z));
    put 0 17 (x * (z * z));
    put 0 18 ((x * x) * z);
    put 0 19 (x * y * z);
    put 1 1 (1 / lx);
    put 1 4 ((x * 2) / lx);
    put 1 7 (y / lx);
    put 1 9 (z / lx);
    put 1 10 (((x * x) * 3) / lx);
    put 1 13 ((x * y * 2) / lx);
    put 1 14 ((y * y) / lx);
    put 1 17 ((z * z) / lx);
    put 1 18 ((x * z * 2) / lx);
    put 1 19 ((y * z) / lx);
    put 2 2 (1 / ly);
    put 2 5 ((y * 2) / ly);
    put 2 7 (x / ly);
    put 2 8 (z / ly);
    put 2 11 (((y * y) * 3) / ly);
    put 2 13 ((x * x) / ly);
    put 2 14 ((x * y * 2) / ly);
    put 2 15 ((y * z * 2) / ly);
    put 2 16 ((z * z) / ly);
    put 2 19 ((x * z) / ly);
    put 3 3 (1 / lz);
    put 3 6 ((z * 2) / lz);
    put 3 8 (y / lz);
    put 3 9 (x / lz);
    put 3 12 (((z * z) * 3) / lz);
    put 3 15 ((y * y) / lz);
    put 3 16 ((y * z * 2) / lz);
    put 3 17 ((x * z * 2) / lz);
    put 3 18 ((x * x) / lz);
    put 3 19 ((x * y) / lz) ]%R.
(** BaseFunction.hpp 586-608: the assignments for 1 rows and 20 columns. *)
Definition fill3D_1_20 : list (Z * Z * R) :=
  [ put 0 0 (1);
    put 0 1 (x);
    put 0 2 (y);
    put 0 3 (z);
    put 0 4 (x * x);
    put 0 5 (y * y);
    put 0 6 (z * z);
    put 0 7 (x * y);
    put 0 8 (y * z);
    put 0 9 (x * z);
    put 0 10 (x * x * x);
    put 0 11 (y * y * y);
    put 0 12 (z * z * z);
    put 0 13 ((x * x) * y);
    put 0 14 (x * (y * y));
    put 0 15 ((y * y) * z);
    put 0 16 (y * (z * z));
    put 0 17 (x * (z * z));
    put 0 18 ((x * x) * z);
    put 0 19 (x * y * z) ]%R.
(** BaseFunction.hpp 609-639: the assignments for 10 rows and 10 columns. *)
Definition fill3D_10_10 : list (Z * Z * R) :=
  [ put 0 0 (1);
    put 0 1 (x);
    put 0 2 (y);
    put 0 3 (z);
    put 0 4 (x * x);
    put 0 5 (y * y);
    put 0 6 (z * z);
    put 0 7 (x * y);
    put 0 8 (y * z);
    put 0 9 (x * z);
    put 1 1 (1 / lx);
    put 1 4 ((x * 2) / lx);
    put 1 7 (y / lx);
    put 1 9 (z / lx);
    put 2 2 (1 / ly);
    put 2 5 ((y * 2) / ly);
    put 2 7 (x / ly);
    put 2 8 (z / ly);
    put 3 3 (1 / lz);
    put 3 6 ((z * 2) / lz);
    put 3 8 (y / lz);
    put 3 9 (x / lz);
    put 4 4 (1 / (lx * lx) * 2);
    put 5 5 (1 / (ly * ly) * 2);
    put 6 6 (1 / (lz * lz) * 2);
    put 7 7 (1 / (lx * ly));
    put 8 8 (1 / (ly * lz));
    put 9 9 (1 / (lx * lz)) ]%R.
(** BaseFunction.hpp 640-664: the assignments for 4 rows and 10 columns. *)
Definition fill3D_4_10 : list (Z * Z * R) :=
  [ put 0 0 (1);
    put 0 1 (x);
    put 0 2 (y);
    put 0 3 (z);
    put 0 4 (x * x);
    put 0 5 (y * y);
    put 0 6 (z * z);
    put 0 7 (x * y);
    put 0 8 (y * z);
    put 0 9 (x * z);
    put 1 1 (1 / lx);
    put 1 4 ((x * 2) / lx);
    put 1 7 (y / lx);
    put 1 9 (z / lx);
    put 2 2 (1 / ly);
    put 2 5 ((y * 2) / ly);
    put 2 7 (x / ly);
    put 2 8 (z / ly);
    put 3 3 (1 / lz);
    put 3 6 ((z * 2) / lz);
    put 3 8 (y / lz);
    put 3 9 (x / lz) ]%R.
(** BaseFunction.hpp 665-677: the assignments for 1 rows and 10 columns. *)
Definition fill3D_1_10 : list (Z * Z * R) :=
  [ put 0 0 (1);
    put 0 1 (x);
    put 0 2 (y);
    put 0 3 (z);
    put 0 4 (x * x);
    put 0 5 (y * y);
    put 0 6 (z * z);
    put 0 7 (x * y);
    put 0 8 (y * z);
    put 0 9 (x * z) ]%R.
(** BaseFunction.hpp 678-687: the assignments for 4 rows and 4 columns. *)
Definition fill3D_4_4 : list (Z * Z * R) :=
  [ put 0 0 (1);
    put 0 1 (x);
    put 0 2 (y);
    put 0 3 (z);
    put 1 1 (1 / lx);
    put 2 2 (1 / ly);
    put 3 3 (1 / lz) ]%R.
(** BaseFunction.hpp 688-694: the assignments for 1 rows and 4 columns. *)
Definition fill3D_1_4 : list (Z * Z * R) :=
  [ put 0 0 (1);
    put 0 1 (x);
    put 0 2 (y);
    put 0 3 (z) ]%R.

(** The loops at BaseFunction.hpp 424-438 and 697-710.  A row or column beyond the
    table is an out-of-range access. *)
Definition fill_loop (ops : list index3) (z' lz' : R) (rows cols : Z) : res (list (Z * Z * R)) :=
  mapM (fun ij =>
    do b <- vat ops (snd ij); do d <- vat ops (fst ij);
    let '(px, py, pz) := b in let '(ndx, ndy, ndz) := d in
    do v <- FPolynomial3D px py pz ndx ndy ndz x y z';
    Ok (put (fst ij) (snd ij) (v / (iPow ndx lx * iPow ndy ly * iPow ndz lz'))%R))
    (list_prod (map Z.of_nat (seq 0 (Z.to_nat rows))) (map Z.of_nat (seq 0 (Z.to_nat cols)))).

(** BaseFunction.hpp 286-441. *)
Definition FPolynomialFill2D (rows cols : Z) : res (list (Z * Z * R)) :=
  if (rows =? 10) && (cols =? 10) then Ok fill2D_10_10
  else if (rows =? 3) && (cols =? 10) then Ok fill2D_3_10
  else if (rows =? 1) && (cols =? 10) then Ok fill2D_1_10
  else if (rows =? 6) && (cols =? 6) then Ok fill2D_6_6
  else if (rows =? 3) && (cols =? 6) then Ok fill2D_3_6
  else if (rows =? 1) && (cols =? 6) then Ok fill2D_1_6
  else if (rows =? 3) && (cols =? 3) then Ok fill2D_3_3
  else if (rows =? 1) && (cols =? 3) then Ok fill2D_1_3
  else fill_loop diffOperatorOrderList2D (z / 1) 1 rows cols.

(** BaseFunction.hpp 443-712. *)
Definition FPolynomialFill3D (rows cols : Z) : res (list (Z * Z * R)) :=
  if (rows =? 20) && (cols =? 20) then Ok fill3D_20_20
  else if (rows =? 4) && (cols =? 20) then Ok fill3D_4_20
  else if (rows =? 1) && (cols =? 20) then Ok fill3D_1_20
  else if (rows =? 10) && (cols =? 10) then Ok fill3D_10_10
  else if (rows =? 4) && (cols =? 10) then Ok fill3D_4_10
  else if (rows =? 1) && (cols =? 10) then Ok fill3D_1_10
  else if (rows =? 4) && (cols =? 4) then Ok fill3D_4_4
  else if (rows =? 1) && (cols =? 4) then Ok fill3D_1_4
  else fill_loop diffOperatorOrderList z lz rows cols.
End Fill.
