(** The force on the default walls. *)
From Coq Require Import Reals List Arith ZArith Bool Lra Lia.
From Verif Require Import Base.Prelude Euler.GasModel Geom.BoundaryModel Euler.BndModel Euler.DriverModel Euler.DriverSpec.
Import ListNotations.
Local Open Scope R_scope.
Lemma default_force inviscid id l i : (id < BC_ID_DEFAULT_MAX)%Z ->
  cl_force inviscid [id] l i = total (map (fun b => match bf_type b with BCWall => - bf_flux b i | BCWallInvis => if inviscid then - bf_flux b i else 0 | _ => 0 end) l).
Proof.
  intro L. unfold cl_force. cbn [fold_right]. rewrite (proj2 (Z.leb_gt _ _) L). unfold fluxWallSum, sum_flux. rewrite Rplus_0_r.
  induction l as [|b l IH]; cbn; [reflexivity|]. unfold in_wall_sum at 1. destruct (bf_type b); cbn; rewrite ?IH; try ring. destruct inviscid; cbn; rewrite IH; ring.
Qed.
