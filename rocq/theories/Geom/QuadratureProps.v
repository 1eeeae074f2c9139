(** C52: the quadrature rules integrate polynomials. *)
From Coq Require Import List ZArith QArith Reals Lra.
From Verif Require Import Base.Prelude Geom.ElemModel Geom.QuadratureModel Geom.QuadratureSpec
  Geom.QuadratureProofs Geom.QuadratureSumProofs Geom.QuadratureFinalProofs.
Import ListNotations.

(** On every reference element, a rule asked for order [o] up to six adds to the buffer
    the integral of any polynomial of degree at most [o], up to one part in ten to the
    thirteen of the sum of its coefficients (the tables have fifteen digits or more). *)
Theorem C52_polynomials_are_integrated : forall ps o p buf,
  ps <> UnknownPSpace -> (o <= 6)%nat -> degree_at_most p o ->
  exists s v, Integration ps (Z.of_nat o) (eval p) buf = Ok (Some s) /\ integral_over ps (eval p) v /\
    (Rabs (s - (buf + v)) <= 1 / 10000000000000 * weight p)%R.
Proof. exact quadrature_accuracy. Qed.
Print Assumptions C52_polynomials_are_integrated.

(** The rule has as many points as its scheme number says, they all lie strictly inside
    the element and all weights are positive. *)
Theorem C52_points_inside_weights_positive : forall ps o,
  ps <> UnknownPSpace -> (o <= 6)%nat ->
  exists pts, quadrature_points ps (Z.of_nat o) = Ok (map Some pts) /\ zlen pts = GetQuadratureScheme ps (Z.of_nat o) /\
    Forall (fun '((x, y, z), w) => inside ps x y z /\ (0 < w)%Q) pts.
Proof. exact points_inside. Qed.
Print Assumptions C52_points_inside_weights_positive.

(** An order above six (or a negative one) is not refused: no point is visited and the
    buffer is returned unchanged, whatever the integrand. *)
Theorem C52_unsupported_order_refuted : forall ps o f buf,
  (o < 0 \/ 6 < o)%Z -> Integration ps o f buf = Ok (Some buf).
Proof. exact no_rule. Qed.
Print Assumptions C52_unsupported_order_refuted.

(** 3 x^2 y + 2 z^3 has degree 3, and the prism rule of order 3 has 18 points. *)
Example C52_example : PrismSpace <> UnknownPSpace /\ (3 <= 6)%nat /\
  degree_at_most [(3%R, (2, 1, 0)%nat); (2%R, (0, 0, 3)%nat)] 3 /\ GetQuadratureScheme PrismSpace 3 = 18%Z.
Proof. split; [discriminate|]. split; [repeat constructor|]. split; [repeat constructor|reflexivity]. Qed.
