(** Symmetric derivative tensors stored by multi-index, and their change of coordinates.
    Models src/Geom/DiffTensors.hpp.  [real] is R.  Matrices are functions of row and
    column (Geom/PeriodicModel.v); the number of rows is given beside them. *)
From Coq Require Import List ZArith Reals Bool.
From Verif Require Import Base.Prelude Geom.PeriodicModel Geom.BaseFnModel.
Import ListNotations.
Local Open Scope R_scope.

(** The templates are instantiated with [dim] 2 and 3; anything but 3 (in the tensor
    functions) or 2 (in the others) takes the other branch. *)

(** BaseFunction.hpp 18-21 ndiffSizS for an order in 0..3. *)
Definition ndiffSizS (dim i : nat) : nat :=
  Z.to_nat (nth i (if Nat.eqb dim 2 then ndiffSizC2D else ndiffSizC) 0%Z).

(** BaseFunction.hpp 22-53 ndiff2order; None is -1. *)
Definition ndiff2order (dim rows : nat) : option nat :=
  if Nat.eqb dim 2 then
    if Nat.eqb rows 10 then Some 3%nat else if Nat.eqb rows 6 then Some 2%nat
    else if Nat.eqb rows 3 then Some 1%nat else if Nat.eqb rows 1 then Some 0%nat else None
  else
    if Nat.eqb rows 20 then Some 3%nat else if Nat.eqb rows 10 then Some 2%nat
    else if Nat.eqb rows 4 then Some 1%nat else if Nat.eqb rows 1 then Some 0%nat else None.

(** DiffTensors.hpp 7-154 NormSymDiffOrderTensorV: the unrolled sums of [Le(k) * Ri(k) *
    diffNCombs[k + first]]; with [powV] = 1 the power is not computed (same value).  The
    numbers of terms and first table entries are those written out in the code. *)
Definition NormSymDiffOrderTensorV (dim rank powV : nat) (Le Ri : vec) : res R :=
  let sum (table : list Z) (first count : nat) :=
    Ok (sumn count (fun k => Le k * Ri k * IZR (nth (k + first) table 0%Z) ^ powV)) in
  if Nat.eqb dim 3 then
    match rank with
    | 0 => sum diffNCombs 0 1 | 1 => sum diffNCombs 1 3
    | 2 => sum diffNCombs 4 6 | 3 => sum diffNCombs 10 10
    | _ => Abort
    end%nat
  else
    match rank with
    | 0 => sum diffNCombs2D 0 1 | 1 => sum diffNCombs2D 1 2
    | 2 => sum diffNCombs2D 3 3 | 3 => sum diffNCombs2D 6 4
    | _ => Abort
    end%nat.

(** Tensors of rank 3 and their products with a matrix, src/Geom/EigenTensor.hpp 59-90. *)
Definition tensor3 := nat -> nat -> nat -> R.
Definition MatTransform0 (n : nat) (Rmat : mat) (T : tensor3) : tensor3 :=
  fun i0 i1 i2 => mmul n (tr Rmat) (fun a b => T a b i2) i0 i1.
Definition MatTransform1 (n : nat) (Rmat : mat) (T : tensor3) : tensor3 :=
  fun i0 i1 i2 => mmul n (fun a b => T a b i2) Rmat i0 i1.
Definition MatTransform2 (n : nat) (Rmat : mat) (T : tensor3) : tensor3 :=
  fun i0 i1 i2 => mmul n (fun b c => T i0 b c) Rmat i1 i2.

(** The positions of [Le] from which the full tensors are filled: DiffTensors.hpp
    177-180 and 243-244 (rows of the matrix initialisers), and 202-214 and 253-256
    (assignments; subscripts first, position last). *)
Definition fill_R2_3 : list (list nat) := [[0; 3; 5]; [3; 1; 4]; [5; 4; 2]]%nat.
Definition fill_R2_2 : list (list nat) := [[0; 1]; [1; 2]]%nat.
Definition fill_R3_3 : list (nat * nat * nat * nat) :=
  [ (0, 0, 0, 0); (1, 1, 1, 1); (2, 2, 2, 2);
    (0, 0, 1, 3); (0, 1, 0, 3); (1, 0, 0, 3);
    (0, 1, 1, 4); (1, 1, 0, 4); (1, 0, 1, 4);
    (1, 1, 2, 5); (1, 2, 1, 5); (2, 1, 1, 5);
    (1, 2, 2, 6); (2, 2, 1, 6); (2, 1, 2, 6);
    (0, 2, 2, 7); (2, 2, 0, 7); (2, 0, 2, 7);
    (0, 0, 2, 8); (0, 2, 0, 8); (2, 0, 0, 8);
    (0, 1, 2, 9); (1, 2, 0, 9); (2, 0, 1, 9); (0, 2, 1, 9); (2, 1, 0, 9); (1, 0, 2, 9) ]%nat.
Definition fill_R3_2 : list (nat * nat * nat * nat) :=
  [ (0, 0, 0, 0); (0, 0, 1, 1); (0, 1, 0, 1); (1, 0, 0, 1);
    (0, 1, 1, 2); (1, 0, 1, 2); (1, 1, 0, 2); (1, 1, 1, 3) ]%nat.
Definition filled2 (t : list (list nat)) (Le : vec) : mat := fun i j => Le (nth j (nth i t []) 0%nat).
Definition filled3 (t : list (nat * nat * nat * nat)) (Le : vec) : tensor3 := fun i j k =>
  match find (fun '(a, b, c, _) => Nat.eqb a i && Nat.eqb b j && Nat.eqb c k) t with
  | Some (_, l) => Le l
  | None => 0 (* not reached: every subscript is assigned *)
  end.

(** The entries written back: DiffTensors.hpp 182-183, 246 and 219-228, 260-263.  The
    other positions of [Le] do not exist. *)
Definition read_R2_3 : list (nat * nat) := [(0, 0); (1, 1); (2, 2); (0, 1); (1, 2); (0, 2)]%nat.
Definition read_R2_2 : list (nat * nat) := [(0, 0); (0, 1); (1, 1)]%nat.
Definition read_R3_3 : list (nat * nat * nat) :=
  [(0, 0, 0); (1, 1, 1); (2, 2, 2); (0, 0, 1); (0, 1, 1); (1, 1, 2); (1, 2, 2); (0, 2, 2); (0, 0, 2); (0, 1, 2)]%nat.
Definition read_R3_2 : list (nat * nat * nat) := [(0, 0, 0); (0, 0, 1); (0, 1, 1); (1, 1, 1)]%nat.
Definition read2 (t : list (nat * nat)) (T : mat) : vec := fun l =>
  match nth_error t l with Some (i, j) => T i j | None => 0 end.
Definition read3 (t : list (nat * nat * nat)) (T : tensor3) : vec := fun l =>
  match nth_error t l with Some (i, j, k) => T i j k | None => 0 end.

(** DiffTensors.hpp 156-270 TransSymDiffOrderTensorV: the new [Le]. *)
Definition TransSymDiffOrderTensorV (dim rank : nat) (Le : vec) (trans : mat) : res vec :=
  let rank3 n fill rd :=
    let T := filled3 fill Le in
    let T := MatTransform0 n (tr trans) T in
    let T := MatTransform1 n (tr trans) T in
    let T := MatTransform2 n (tr trans) T in
    Ok (read3 rd T) in
  if Nat.eqb dim 3 then
    match rank with
    | 0 => Ok Le
    | 1 => Ok (mvec 3 trans Le)
    | 2 => Ok (read2 read_R2_3 (mmul 3 (mmul 3 trans (filled2 fill_R2_3 Le)) (tr trans)))
    | 3 => rank3 3 fill_R3_3 read_R3_3
    | _ => Abort
    end%nat
  else
    match rank with
    | 0 => Ok Le
    | 1 => Ok (mvec 2 trans Le)
    | 2 => Ok (read2 read_R2_2 (mmul 2 (mmul 2 trans (filled2 fill_R2_2 Le)) (tr trans)))
    | 3 => rank3 2 fill_R3_2 read_R3_2
    | _ => Abort
    end%nat.

(** The rows [first] to [first + count - 1] of a matrix replaced. *)
Definition set_rows (first count : nat) (new m : mat) : mat := fun r b =>
  if Nat.leb first r && Nat.ltb r (first + count) then new (r - first)%nat b else m r b.

(** The loop over the columns that transforms the rows of one order, lines 280-285 and
    the like.  The rank is one with an implementation, so there is no assertion. *)
Definition trans_rows (dim rank first count : nat) (trans m : mat) : mat :=
  set_rows first count
    (fun r b => match TransSymDiffOrderTensorV dim rank (fun l => m (first + l)%nat b) trans with
                | Ok v => v r
                | _ => 0
                end) m.

(** DiffTensors.hpp 272-328 ConvertDiffsLinMap: the cases of the switch fall through. *)
Definition ConvertDiffsLinMap (dim rows : nat) (m : mat) (dXijdXi : mat) : res mat :=
  let first_order n m := set_rows 1 n (mmul n dXijdXi (fun k b => m (1 + k)%nat b)) m in
  if Nat.eqb dim 2 then
    let case3 m := first_order 2%nat m in
    let case6 m := case3 (trans_rows 2 2 3 3 dXijdXi m) in
    let case10 m := case6 (trans_rows 2 3 6 4 dXijdXi m) in
    if Nat.eqb rows 10 then Ok (case10 m) else if Nat.eqb rows 6 then Ok (case6 m)
    else if Nat.eqb rows 3 then Ok (case3 m) else if Nat.eqb rows 1 then Ok m else Abort
  else
    let case4 m := first_order 3%nat m in
    let case10 m := case4 (trans_rows 3 2 4 6 dXijdXi m) in
    let case20 m := case10 (trans_rows 3 3 10 10 dXijdXi m) in
    if Nat.eqb rows 20 then Ok (case20 m) else if Nat.eqb rows 10 then Ok (case10 m)
    else if Nat.eqb rows 4 then Ok (case4 m) else if Nat.eqb rows 1 then Ok m else Abort.

(** The row of the derivative along some axes, [std::get<n>(diffOperatorIJK2IcDim)[..]];
    Geom/BaseFnProps.v shows that it exists for up to three axes below [dim]. *)
Definition row_of (dim : nat) (ds : list nat) : nat :=
  Z.to_nat ((if Nat.eqb dim 2 then diffOperatorIJK2I2D else diffOperatorIJK2I) (map Z.of_nat ds)).
(** The axes of a row, diffOperatorDimList[ii]. *)
Definition axes_of_row (dim ii : nat) : nat * nat * nat :=
  let '(i, j, k) := nth ii (if Nat.eqb dim 2 then diffOperatorDimList2D else diffOperatorDimList) (0, 0, 0)%Z in
  (Z.to_nat i, Z.to_nat j, Z.to_nat k).

(** The rows of one order replaced by the same rows of [out], lines 361, 383 and 421. *)
Definition copy_rows (from upto : nat) (out m : mat) : mat := fun r b =>
  if Nat.leb from r && Nat.ltb r upto then out r b else m r b.

(** DiffTensors.hpp 349-360, 366-382 and 388-420: the new rows of order 1, 2 and 3. *)
Definition full1 (dim : nat) (DxiDx m : mat) : mat := fun ii iB =>
  let '(i, _, _) := axes_of_row dim ii in
  sumn dim (fun m' => DxiDx (row_of dim [i]) m' * m (row_of dim [m']) iB).
Definition full2 (dim : nat) (DxiDx m : mat) : mat := fun ii iB =>
  let '(i, j, _) := axes_of_row dim ii in
  sumn dim (fun m' => DxiDx (row_of dim [i; j]) m' * m (row_of dim [m']) iB) +
  sumn dim (fun m' => sumn dim (fun n =>
    DxiDx (row_of dim [i]) m' * DxiDx (row_of dim [j]) n * m (row_of dim [m'; n]) iB)).
Definition full3 (dim : nat) (DxiDx m : mat) : mat := fun ii iB =>
  let '(i, j, k) := axes_of_row dim ii in
  sumn dim (fun m' => DxiDx (row_of dim [i; j; k]) m' * m (row_of dim [m']) iB) +
  sumn dim (fun m' => sumn dim (fun n =>
    DxiDx (row_of dim [i; j]) m' * DxiDx (row_of dim [k]) n * m (row_of dim [m'; n]) iB +
    DxiDx (row_of dim [i; k]) m' * DxiDx (row_of dim [j]) n * m (row_of dim [m'; n]) iB +
    DxiDx (row_of dim [j; k]) m' * DxiDx (row_of dim [i]) n * m (row_of dim [m'; n]) iB)) +
  sumn dim (fun m' => sumn dim (fun n => sumn dim (fun p =>
    DxiDx (row_of dim [i]) m' * DxiDx (row_of dim [j]) n * DxiDx (row_of dim [k]) p *
    m (row_of dim [m'; n; p]) iB))).

(** DiffTensors.hpp 330-424 ConvertDiffsFullMap. *)
Definition ConvertDiffsFullMap (dim rows : nat) (m DxiDx : mat) : res mat :=
  match ndiff2order dim rows with
  | None => Abort
  | Some 0%nat => Ok m
  | Some order =>
      let m1 := copy_rows 1 (ndiffSizS dim 1) (full1 dim DxiDx m) m in
      if Nat.eqb order 1 then Ok m1 else
      let m2 := copy_rows (ndiffSizS dim 1) (ndiffSizS dim 2) (full2 dim DxiDx m1) m1 in
      if Nat.eqb order 2 then Ok m2 else
      Ok (copy_rows (ndiffSizS dim 2) (ndiffSizS dim 3) (full3 dim DxiDx m2) m2)
  end.

(** DiffTensors.hpp 426-459: CFVPeriodicity.  [rotation[i]] is inside the array of 4 for
    every periodic id. *)
Definition TransDiValueInplace (dim rows : nat) (p : Periodicity) (u : mat) (id : Z) : res mat :=
  do i <- period_index id;
  do Q <- vat (rotation p) i;
  ConvertDiffsLinMap dim rows u Q.
Definition TransDiValueBackInplace (dim rows : nat) (p : Periodicity) (u : mat) (id : Z) : res mat :=
  do i <- period_index id;
  do Q <- vat (rotation p) i;
  ConvertDiffsLinMap dim rows u (tr Q).

(** DiffTensors.hpp 473-482: the matrix of the first derivatives, extended by the
    identity in 2D. *)
Definition first_derivatives (dim : nat) (DxDxi : mat) : mat := fun i j =>
  if Nat.eqb dim 2 then
    if Nat.ltb i 2 && Nat.ltb j 2 then DxDxi (1 + i)%nat j
    else if Nat.eqb i 2 && Nat.eqb j 2 then 1 else 0
  else DxDxi (1 + i)%nat j.

(** DiffTensors.hpp 500-513 and 521-548: the right-hand sides of order 2 and 3 (zero in
    columns from [dim] on). *)
Definition rhs2 (dim : nat) (DxDxi DxiDx : mat) : mat := fun ii j =>
  let '(i, k, _) := axes_of_row dim ii in
  if Nat.ltb j dim then
    - sumn dim (fun m => sumn dim (fun n =>
        DxDxi (row_of dim [m; n]) j * DxiDx (row_of dim [i]) m * DxiDx (row_of dim [k]) n))
  else 0.
Definition rhs3 (dim : nat) (DxDxi DxiDx : mat) : mat := fun ii j =>
  let '(i, k, l) := axes_of_row dim ii in
  if Nat.ltb j dim then
    - sumn dim (fun m => sumn dim (fun n =>
        DxDxi (row_of dim [m; n]) j * DxiDx (row_of dim [i; k]) m * DxiDx (row_of dim [l]) n +
        DxDxi (row_of dim [m; n]) j * DxiDx (row_of dim [k; l]) m * DxiDx (row_of dim [i]) n +
        DxDxi (row_of dim [m; n]) j * DxiDx (row_of dim [i; l]) m * DxiDx (row_of dim [k]) n))
    - sumn dim (fun m => sumn dim (fun n => sumn dim (fun p =>
        DxDxi (row_of dim [m; n; p]) j * DxiDx (row_of dim [i]) m * DxiDx (row_of dim [k]) n *
        DxiDx (row_of dim [l]) p)))
  else 0.

(** DiffTensors.hpp 467-555 DxDxi2DxiDx: the new DxiDx.  [inverse] is Eigen's
    [fullPivLu().inverse()] of a 3x3 matrix. *)
Definition DxDxi2DxiDx (inverse : mat -> mat) (dim maxDiff : nat) (DxDxi DxiDx : mat) : res mat :=
  if Nat.eqb maxDiff 0 then Ok DxiDx else
  let inv := inverse (first_derivatives dim DxDxi) in
  let m1 := set_rows 1 (if Nat.eqb dim 2 then 2 else 3) inv DxiDx in
  if Nat.eqb maxDiff 1 then Ok m1 else
  let m2 := copy_rows (ndiffSizS dim 1) (ndiffSizS dim 2) (mmul 3 (rhs2 dim DxDxi m1) inv) m1 in
  if Nat.eqb maxDiff 2 then Ok m2 else
  let m3 := copy_rows (ndiffSizS dim 2) (ndiffSizS dim 3) (mmul 3 (rhs3 dim DxDxi m2) inv) m2 in
  if Nat.eqb maxDiff 3 then Ok m3 else Abort.
