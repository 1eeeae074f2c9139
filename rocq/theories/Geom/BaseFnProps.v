(** C51: polynomial basis functions and their derivatives. *)
From Coq Require Import List ZArith Reals Lra.
From Verif Require Import Base.Prelude Geom.BaseFnModel Geom.BaseFnSpec Geom.BaseFnProofs Geom.BaseFnTableProofs.
Import ListNotations.
Local Open Scope R_scope.

(** In 3D, in a matrix of any size, the entry in the row of a derivative and the
    column of a monomial is that derivative, in physical coordinates, of the monomial
    of normalised coordinates. *)
Theorem C51_derivatives_3D : forall lx ly lz rows cols, lx <> 0 -> ly <> 0 -> lz <> 0 ->
  (rows <= 20)%Z -> (cols <= 20)%Z ->
  forall ds i j m, (length ds <= 3)%nat -> diffOperatorIJK2I (map axis_no ds) = i -> (i < rows)%Z ->
  (j < cols)%Z -> vat diffOperatorOrderList j = Ok (multi_Z m) ->
  exists g, partial ds (monomial lx ly lz m) g /\
    forall X Y Z, exists T,
      FPolynomialFill3D (X / lx) (Y / ly) (Z / lz) lx ly lz rows cols = Ok T /\ entry T i j = g X Y Z.
Proof. exact fill3_derivatives. Qed.
Print Assumptions C51_derivatives_3D.

(** The same in 2D. *)
Theorem C51_derivatives_2D : forall lx ly rows cols, lx <> 0 -> ly <> 0 -> (rows <= 10)%Z -> (cols <= 10)%Z ->
  forall ds i j m, (length ds <= 3)%nat -> ~ In AZ ds -> diffOperatorIJK2I2D (map axis_no ds) = i -> (i < rows)%Z ->
  (j < cols)%Z -> vat diffOperatorOrderList2D j = Ok (multi_Z m) ->
  exists g, partial ds (monomial lx ly 1 m) g /\
    forall X Y Z, exists T,
      FPolynomialFill2D (X / lx) (Y / ly) Z lx ly rows cols = Ok T /\ entry T i j = g X Y Z.
Proof. exact fill2_derivatives. Qed.
Print Assumptions C51_derivatives_2D.

(** The tables list every multi-index of order at most 3 once, by order. *)
Theorem C51_tables : lists_multi_indices [AX; AY; AZ] ndiffSizC diffOperatorOrderList /\
                     lists_multi_indices [AX; AY] ndiffSizC2D diffOperatorOrderList2D.
Proof. exact (conj table3 table2). Qed.
Print Assumptions C51_tables.

(** Any sequence of at most 3 axes is mapped to the index of its multi-index. *)
Theorem C51_index_3D : forall ds, (length ds <= 3)%nat ->
  let i := diffOperatorIJK2I (map axis_no ds) in
  (0 <= i < 20)%Z /\ vat diffOperatorOrderList i = Ok (multi_Z (multi ds)).
Proof. exact index3_ok. Qed.
Print Assumptions C51_index_3D.

Theorem C51_index_2D : forall ds, (length ds <= 3)%nat -> ~ In AZ ds ->
  let i := diffOperatorIJK2I2D (map axis_no ds) in
  (0 <= i < 10)%Z /\ vat diffOperatorOrderList2D i = Ok (multi_Z (multi ds)).
Proof. exact index2_ok. Qed.
Print Assumptions C51_index_2D.

(** The number of combinations of an index is the number of sequences of axes with
    this multi-index. *)
Theorem C51_combinations_3D : forall i m, vat diffOperatorOrderList i = Ok (multi_Z m) ->
  vat diffNCombs i = Ok (zlen (filter (fun ds => multi_eqb (multi ds) m)
    (sequences [AX; AY; AZ] (let '(a, b, c) := m in a + b + c)%nat))).
Proof. exact combinations3. Qed.
Print Assumptions C51_combinations_3D.

Theorem C51_combinations_2D : forall i m, vat diffOperatorOrderList2D i = Ok (multi_Z m) ->
  vat diffNCombs2D i = Ok (zlen (filter (fun ds => multi_eqb (multi ds) m)
    (sequences [AX; AY] (let '(a, b, c) := m in a + b + c)%nat))).
Proof. exact combinations2. Qed.
Print Assumptions C51_combinations_2D.

(** The axes listed for an index have this index. *)
Theorem C51_axes : forall i m d,
  (vat diffOperatorOrderList i = Ok m -> vat diffOperatorDimList i = Ok d ->
     diffOperatorIJK2I (axes_of m d) = i) /\
  (vat diffOperatorOrderList2D i = Ok m -> vat diffOperatorDimList2D i = Ok d ->
     diffOperatorIJK2I2D (axes_of m d) = i).
Proof. exact (fun i m d => conj (dims3 i m d) (dims2 i m d)). Qed.
Print Assumptions C51_axes.

(** The number of basis functions of an order is the number of multi-indices up to it. *)
Theorem C51_ndof : forall k, (k <= 3)%nat ->
  GetNDof 2 (Z.of_nat k) = Ok (nth k ndiffSizC2D 0%Z) /\ GetNDof 3 (Z.of_nat k) = Ok (nth k ndiffSizC 0%Z).
Proof. exact ndof_ok. Qed.
Print Assumptions C51_ndof.

(** The derivative along y, x, x of the 14th monomial is row 13. *)
Example C51_example : diffOperatorIJK2I (map axis_no [AY; AX; AX]) = 13%Z /\
  vat diffOperatorOrderList 13 = Ok (multi_Z (2, 1, 0)%nat) /\
  exists T, FPolynomialFill3D 3 4 5 2 3 1 20 20 = Ok T /\ entry T 13 13 = 1 / (2 * 2) * 2 / 3 /\ entry T 4 13 = 2.
Proof.
  split; [reflexivity|]. split; [reflexivity|]. eexists. split; [reflexivity|].
  split; cbv -[Rplus Rmult Rdiv Ropp Rinv IZR]; field.
Qed.
