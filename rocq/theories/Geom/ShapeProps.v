(** * C43: the shape functions are a nodal basis with correct derivatives *)
From Coq Require Import List ZArith QArith Qreals Reals Lra Lia.
From Verif Require Import Geom.ElemModel Geom.ShapeExpr Geom.ShapeModel.
From Verif Require Import Geom.ShapeSpec Geom.ShapeProofs.
Import ListNotations.
Local Open Scope R_scope.

(** The shape functions of every element type sum to one at every point, the
    apex of a pyramid included. *)
Theorem C43_partition_of_unity : forall t p,
  t <> UnknownElem -> node_sum t (GetNj t p) = 1.
Proof. exact unity. Qed.
Print Assumptions C43_partition_of_unity.

Example C43_unity_nv :
  GetNj Quad4 (Pt (/ 2) 0 0) 0 = / 8 * 1 /\ GetNj Quad4 (Pt (/ 2) 0 0) 1 = 3 / 8.
Proof. cbv - [Rplus Rmult Rminus Rdiv Rinv Ropp IZR]. split; field. Qed.

(** They are one at their own node and zero at the others, for every node but
    the apex of a pyramid. *)
Theorem C43_nodal : forall t i j,
  (i < GetNumNodes t)%nat -> (j < GetNumNodes t)%nat ->
  (is_pyramid t = true -> i <> 4%nat) ->
  GetNj t (node_point t i) j = delta i j.
Proof. exact nodal. Qed.
Print Assumptions C43_nodal.

Example C43_nodal_nv : (26 < GetNumNodes Hex27)%nat /\ is_pyramid Hex27 = false.
Proof. split; [cbn; lia|reflexivity]. Qed.

(** At the apex of a pyramid the code moves the point by 1e-15, and so the
    values are only close to those of a nodal basis. *)
Theorem C43_nodal_at_apex_partial : forall t j,
  is_pyramid t = true -> (j < GetNumNodes t)%nat ->
  Rabs (GetNj t (node_point t 4) j - delta 4 j) <= / 10 ^ 14.
Proof. exact apex. Qed.
Print Assumptions C43_nodal_at_apex_partial.

Example C43_apex_nv : node_point Pyramid14 4 = Pt 0 0 1.
Proof. cbn. unfold Q2R. cbn. f_equal; lra. Qed.

Theorem C43_nodal_at_apex_refuted :
  GetNj Pyramid5 (node_point Pyramid5 4) 4 <> delta 4 4.
Proof. exact apex_not_exact. Qed.
Print Assumptions C43_nodal_at_apex_refuted.

(** Linear fields are reproduced: the coordinates of the nodes interpolate to
    the coordinates of the point. *)
Theorem C43_linear_fields : forall t v p,
  t <> UnknownElem -> regular t p ->
  node_sum t (fun j => GetNj t p j * get_var v (node_point t j))
  = if in_space t v then get_var v p else 0.
Proof. exact linear_regular. Qed.
Print Assumptions C43_linear_fields.

Example C43_linear_nv :
  in_space Prism18 VZ = true /\ in_space Tri6 VZ = false
  /\ regular Pyramid14 (Pt 0 0 (/ 2)).
Proof.
  split; [reflexivity|]. split; [reflexivity|]. intros _. cbn [p_zt].
  pose proof eps_small. rewrite Rabs_pos_eq; lra.
Qed.

(** At every point, the neighbourhood of the apex included, up to 1e-15. *)
Theorem C43_linear_fields_everywhere : forall t v p,
  t <> UnknownElem -> in_space t v = true ->
  Rabs (node_sum t (fun j => GetNj t p j * get_var v (node_point t j))
        - get_var v p) <= / 10 ^ 15.
Proof. exact linear_close. Qed.
Print Assumptions C43_linear_fields_everywhere.

Example C43_everywhere_nv : in_space Pyramid5 VZ = true.
Proof. reflexivity. Qed.

(** The second order elements other than the pyramid reproduce quadratic
    fields. *)
Theorem C43_quadratic_fields : forall t u v p,
  GetOrder t = Some 2%nat -> is_pyramid t = false ->
  in_space t u = true -> in_space t v = true ->
  node_sum t (fun j => GetNj t p j
                       * (get_var u (node_point t j) * get_var v (node_point t j)))
  = get_var u p * get_var v p.
Proof. exact quadratic. Qed.
Print Assumptions C43_quadratic_fields.

Example C43_quadratic_nv : GetOrder Prism18 = Some 2%nat /\ in_space Prism18 VZ = true.
Proof. split; reflexivity. Qed.

(** Each row of tabulated derivatives, up to the third, is the derivative of the
    row with one derivative less... *)
Theorem C43_derivatives : forall t dim r r' a a' v p j,
  GetDim t = Some dim -> (j < GetNumNodes t)%nat ->
  nth_error (diffOperatorOrderList dim) r = Some a ->
  nth_error (diffOperatorOrderList dim) r' = Some a' ->
  a = incr v a' -> regular t p ->
  partial_derivative v (fun q => GetDiNj t q r' j) p (GetDiNj t p r j).
Proof. exact derivatives. Qed.
Print Assumptions C43_derivatives.

Example C43_derivatives_nv :
  nth_error (diffOperatorOrderList 3) 19 = Some (1, 1, 1)%nat
  /\ nth_error (diffOperatorOrderList 3) 9 = Some (1, 0, 1)%nat
  /\ (1, 1, 1)%nat = incr VY (1, 0, 1)%nat.
Proof. repeat split. Qed.

(** ... and there is such a row below every row but that of the values. *)
Theorem C43_every_row_is_a_derivative : forall dim r a,
  nth_error (diffOperatorOrderList dim) r = Some a ->
  r = 0%nat
  \/ exists v r' a', nth_error (diffOperatorOrderList dim) r' = Some a' /\ a = incr v a'.
Proof. exact rows_connected. Qed.
Print Assumptions C43_every_row_is_a_derivative.

Example C43_rows_nv : length (diffOperatorOrderList 3) = 20%nat.
Proof. reflexivity. Qed.

(** Row zero holds the values and the three rows of first derivatives are the
    gradient, for the elements of every dimension. *)
Theorem C43_gradient : forall t v p j,
  (j < GetNumNodes t)%nat -> regular t p ->
  partial_derivative v (fun q => GetNj t q j) p (GetD1Nj t p (var_rank v) j).
Proof. exact first_derivatives. Qed.
Print Assumptions C43_gradient.

Example C43_gradient_nv : GetD1Nj Line2 (Pt 0 0 0) 0 1 = / 2.
Proof. cbv - [Rplus Rmult Rminus Rdiv Rinv Ropp IZR]. field. Qed.
