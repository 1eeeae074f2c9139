(** C55: converting derivatives between coordinates. *)
From Coq Require Import List ZArith Reals Bool Lia.
From Verif Require Import Base.Prelude Geom.BoundaryModel Geom.PeriodicModel Geom.PeriodicSpec Geom.PeriodicProofs
  Geom.BaseFnModel Geom.BaseFnSpec
  Geom.DiffTensorModel Geom.DiffTensorSpec Geom.DiffTensorNormProofs Geom.DiffTensorMapProofs
  Geom.DiffTensorInvProofs Geom.DiffTensorExample.
Import ListNotations.
Local Open Scope R_scope.

(** A matrix holding in each column the derivatives of a function up to some order, at
    the image of a point under an affine change of coordinates, is turned into one that
    holds the derivatives of the composed functions at the point. *)
Theorem C55_linear_map dim k A c D E F dF M X Y Z :
  dim = 2%nat \/ dim = 3%nat -> (k <= 3)%nat -> maps D E (affine dim A c) ->
  (forall b, smooth_in E k (F b) (dF b)) ->
  (forall b, holds dim 0 (rows_up_to dim k) M b (fun m => compose (dF b m) (affine dim A c) X Y Z)) ->
  exists out, ConvertDiffsLinMap dim (rows_up_to dim k) M A = Ok out /\
  forall b, holds_derivatives D dim (rows_up_to dim k) out b (compose (F b) (affine dim A c)) X Y Z.
Proof. exact (linear_map dim k A c D E F dF M X Y Z). Qed.
Print Assumptions C55_linear_map.

(** A number of rows that is not that of all derivatives up to an order is refused. *)
Theorem C55_linear_map_refuses dim rows M A :
  dim = 2%nat \/ dim = 3%nat -> (forall k, (k <= 3)%nat -> rows <> rows_up_to dim k) ->
  ConvertDiffsLinMap dim rows M A = Abort.
Proof. exact (lin_map_refuses dim rows M A). Qed.
Print Assumptions C55_linear_map_refuses.

(** The inner product of the derivatives of one order is the full contraction of the
    two symmetric tensors: every sequence of axes counts once. *)
Theorem C55_inner_product_is_contraction dim rank Le Ri L R :
  dim = 2%nat \/ dim = 3%nat -> (rank <= 3)%nat ->
  holds_order dim rank Le L -> holds_order dim rank Ri R ->
  NormSymDiffOrderTensorV dim rank 1 Le Ri =
    Ok (sum_over (sequences (axes dim) rank) (fun ds => L (multi ds) * R (multi ds))).
Proof. exact (norm_contraction dim rank Le Ri L R). Qed.
Print Assumptions C55_inner_product_is_contraction.

(** It does not change when both tensors are turned. *)
Theorem C55_rotation_keeps_inner_product dim rank Q Le Ri :
  dim = 2%nat \/ dim = 3%nat -> (rank <= 3)%nat -> orthogonal dim Q ->
  exists Le' Ri' v, TransSymDiffOrderTensorV dim rank Le Q = Ok Le' /\ TransSymDiffOrderTensorV dim rank Ri Q = Ok Ri' /\
    NormSymDiffOrderTensorV dim rank 1 Le Ri = Ok v /\ NormSymDiffOrderTensorV dim rank 1 Le' Ri' = Ok v.
Proof. exact (rotation_norm dim rank Q Le Ri). Qed.
Print Assumptions C55_rotation_keeps_inner_product.

(** Across a period the derivatives become those of the function followed through the
    period: [xi] leads from a point to the point the period takes there. *)
Theorem C55_periodic_derivatives dim k p id xi D E F dF M X Y Z :
  dim = 2%nat \/ dim = 3%nat -> (k <= 3)%nat -> well_formed 3 p -> (dim = 2%nat -> planar p) -> FaceIDIsPeriodic id = true ->
  leads_back p id xi -> maps D E xi -> (forall b, smooth_in E k (F b) (dF b)) ->
  (forall b, holds dim 0 (rows_up_to dim k) M b (fun m => compose (dF b m) xi X Y Z)) ->
  exists out, TransDiValueInplace dim (rows_up_to dim k) p M id = Ok out /\
  forall b, holds_derivatives D dim (rows_up_to dim k) out b (compose (F b) xi) X Y Z.
Proof. exact (periodic_derivatives dim k p id xi D E F dF M X Y Z). Qed.
Print Assumptions C55_periodic_derivatives.

(** There and back again. *)
Theorem C55_periodic_roundtrip dim k p id M :
  dim = 2%nat \/ dim = 3%nat -> (k <= 3)%nat -> well_formed 3 p -> (dim = 2%nat -> planar p) -> FaceIDIsPeriodic id = true ->
  exists out, TransDiValueInplace dim (rows_up_to dim k) p M id = Ok out /\
  exists back, TransDiValueBackInplace dim (rows_up_to dim k) p out id = Ok back /\
  forall r b, (r < rows_up_to dim k)%nat -> back r b = M r b.
Proof. exact (periodic_roundtrip dim k p id M). Qed.
Print Assumptions C55_periodic_roundtrip.

Theorem C55_periodic_refuses dim rows p M id : FaceIDIsPeriodic id = false ->
  TransDiValueInplace dim rows p M id = Abort /\ TransDiValueBackInplace dim rows p M id = Abort.
Proof. exact (periodic_refuses dim rows p M id). Qed.
Print Assumptions C55_periodic_refuses.

(** The conversion for general coordinates: correct for first derivatives and for
    coordinates whose higher derivatives vanish.  Missing: all other coordinates, see
    the next theorem. *)
Theorem C55_full_map_partial dim k D E xi dxi F dF M DxiDx X Y Z :
  dim = 2%nat \/ dim = 3%nat -> (k <= 3)%nat -> coordinates dim xi -> maps D E xi ->
  (forall b, smooth_in E k (F b) (dF b)) -> (forall a, smooth_in D k (xi a) (dxi a)) ->
  (forall b, holds dim 0 (rows_up_to dim k) M b (fun m => compose (dF b m) xi X Y Z)) ->
  (forall m, (m < dim)%nat -> holds dim 1 (rows_up_to dim k) DxiDx m (fun a => dxi (axis_at m) a X Y Z)) ->
  (k <= 1)%nat \/ (forall r m, (dim < r)%nat -> DxiDx r m = 0) ->
  exists out, ConvertDiffsFullMap dim (rows_up_to dim k) M DxiDx = Ok out /\
  forall b, holds_derivatives D dim (rows_up_to dim k) out b (compose (F b) xi) X Y Z.
Proof. exact (full_map dim k D E xi dxi F dF M DxiDx X Y Z). Qed.
Print Assumptions C55_full_map_partial.

(** Without that restriction the result is wrong: the first derivatives have already
    been converted when the second ones are computed from them. *)
Theorem C55_full_map_refuted : exists (xi : axis -> fn) dxi F dF M DxiDx out,
  coordinates 2 xi /\ maps everywhere everywhere xi /\
  (forall b : nat, smooth_in everywhere 2 (F b) (dF b)) /\ (forall a, smooth_in everywhere 2 (xi a) (dxi a)) /\
  (forall b, holds 2 0 (rows_up_to 2 2) M b (fun m => compose (dF b m) xi 0 0 0)) /\
  (forall m, (m < 2)%nat -> holds 2 1 (rows_up_to 2 2) DxiDx m (fun a => dxi (axis_at m) a 0 0 0)) /\
  ConvertDiffsFullMap 2 (rows_up_to 2 2) M DxiDx = Ok out /\
  ~ holds_derivatives everywhere 2 (rows_up_to 2 2) out 0 (compose (F 0%nat) xi) 0 0 0.
Proof. exact full_map_wrong. Qed.
Print Assumptions C55_full_map_refuted.

(** The derivatives of the inverse of a change of coordinates, from those of the change
    itself, whichever inverse of the matrix of first derivatives is used. *)
Theorem C55_inverse_map inverse dim k D E xi x dxi dx DxDxi old X Y Z :
  dim = 2%nat \/ dim = 3%nat -> (k <= 3)%nat -> open_region D -> D X Y Z -> coordinates dim xi -> maps D E xi ->
  (forall a, smooth_in D k (xi a) (dxi a)) -> (forall a, smooth_in E k (x a) (dx a)) ->
  (forall j X Y Z, (j < dim)%nat -> D X Y Z -> compose (x (axis_at j)) xi X Y Z = coordinate (axis_at j) X Y Z) ->
  (forall j, (j < dim)%nat -> holds dim 1 (rows_up_to dim k) DxDxi j (fun a => compose (dx (axis_at j) a) xi X Y Z)) ->
  inverse_of (first_derivatives dim DxDxi) (inverse (first_derivatives dim DxDxi)) ->
  exists out, DxDxi2DxiDx inverse dim k DxDxi old = Ok out /\
    (forall l, (l < dim)%nat -> holds dim 1 (rows_up_to dim k) out l (fun a => dxi (axis_at l) a X Y Z)) /\
    (forall l, out 0%nat l = old 0%nat l).
Proof. exact (inverse_map inverse dim k D E xi x dxi dx DxDxi old X Y Z). Qed.
Print Assumptions C55_inverse_map.

(** Hypotheses that are met: a quadratic function under a quarter turn in space, under a
    period with that turn, and the change (x, y) -> (2 x + y^2, y) of the plane. *)
Example C55_linear_case : exists out,
  ConvertDiffsLinMap 3 20 (layout 3 (fun _ => dquad 1 2 3 4) (affine 3 quarter (fun _ => 1)) 1 2 3) quarter = Ok out /\
  forall b, holds_derivatives everywhere 3 20 out b (compose (quad 1 2 3 4) (affine 3 quarter (fun _ => 1))) 1 2 3.
Proof.
  exact (C55_linear_map 3 3 quarter (fun _ => 1) everywhere everywhere (fun _ => quad 1 2 3 4) (fun _ => dquad 1 2 3 4) _ 1 2 3
    (or_intror eq_refl) (le_n 3) (fun _ _ _ _ => I) (fun _ => quad_smooth _ _ _ _ _ _)
    (fun b => layout_holds 3 0 20 (fun _ => dquad 1 2 3 4) (affine 3 quarter (fun _ => 1)) 1 2 3 b)).
Qed.
Example C55_period_case : well_formed 3 turned /\ FaceIDIsPeriodic BC_ID_PERIODIC_1 = true /\
  leads_back turned BC_ID_PERIODIC_1 (back_to turned BC_ID_PERIODIC_1) /\
  forall b, holds 3 0 20 (layout 3 (fun _ => dquad 1 2 3 4) (back_to turned BC_ID_PERIODIC_1) 1 2 3) b
              (fun m => compose (dquad 1 2 3 4 m) (back_to turned BC_ID_PERIODIC_1) 1 2 3).
Proof.
  exact (conj (turned_well_formed 3 (or_intror eq_refl)) (conj eq_refl
    (conj (back_to_leads turned BC_ID_PERIODIC_1 (turned_well_formed 3 (or_intror eq_refl)) eq_refl)
    (fun b => layout_holds 3 0 20 (fun _ => dquad 1 2 3 4) _ 1 2 3 b)))).
Qed.
Example C55_inverse_case : exists DxDxi : mat,
  coordinates 2 bend /\ (forall a, smooth_in everywhere 3 (bend a) (dbend a)) /\ (forall a, smooth_in everywhere 3 (unbend a) (dunbend a)) /\
  (forall j X Y Z, (j < 2)%nat -> compose (unbend (axis_at j)) bend X Y Z = coordinate (axis_at j) X Y Z) /\
  (forall j, (j < 2)%nat -> holds 2 1 (rows_up_to 2 3) DxDxi j (fun a => compose (dunbend (axis_at j) a) bend 1 2 0)) /\
  inverse_of (first_derivatives 2 DxDxi) (tri_inverse (first_derivatives 2 DxDxi)).
Proof. exact inverse_case. Qed.
