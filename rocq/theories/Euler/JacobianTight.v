(** Values of the other cell are turned the way its points are. *)
From Coq Require Import Reals List ZArith Arith Bool Lra Lia.
From Verif Require Import Base.Prelude Base.PreludeFacts Geom.BoundaryModel Geom.PeriodicModel Euler.GasModel Euler.JacobianModel.
Import ListNotations.
Local Open Scope R_scope.
Lemma turned_with_points d p id if2c U V P Q P' Q' : (d = 2 \/ d = 3)%nat -> if2c = 0%Z \/ if2c = 1%Z ->
  (d = 2%nat -> P 2%nat = Q 2%nat) ->
  from_other d p id (other_turn true id (if2c =? 1)%Z FaceIDIsPeriodicMain FaceIDIsPeriodicDonor) U = Ok V ->
  GetOtherCellPointFromCell p id if2c P = Ok P' -> GetOtherCellPointFromCell p id if2c Q = Ok Q' ->
  (forall i, (i < d)%nat -> mom U i = Q i - P i) ->
  rho V = rho U /\ ene V = ene U /\ extra V = extra U /\ forall i, (i < d)%nat -> mom V i = Q' i - P' i.
Proof.
  intros D S Z2 F HP HQ M. unfold GetOtherCellPointFromCell in HP, HQ. unfold other_turn in F. cbn [negb] in F.
  assert (PM : FaceIDIsPeriodic id = FaceIDIsPeriodicMain id || FaceIDIsPeriodicDonor id). { unfold FaceIDIsPeriodic, FaceIDIsPeriodicMain, FaceIDIsPeriodicDonor. now rewrite !orb_assoc. }
  rewrite PM in HP, HQ. assert (X : FaceIDIsPeriodicMain id = true -> FaceIDIsPeriodicDonor id = false). { unfold FaceIDIsPeriodicMain, FaceIDIsPeriodicDonor. intro H. rewrite !orb_true_iff, !Z.eqb_eq in H. decompose [or] H; subst; reflexivity. }
  assert (TA : forall W, (do m <- TransVector d p (mom_in U) id; Ok (with_mom U (fun i => m i 0%nat))) = Ok W -> TransCoord p P id = Ok P' -> TransCoord p Q id = Ok Q' -> rho W = rho U /\ ene W = ene U /\ extra W = extra U /\ forall i, (i < d)%nat -> mom W i = Q' i - P' i).
  { intros W H A B. unfold TransVector in H. unfold TransCoord in A, B. destruct (period_index id) as [k| |]; try discriminate. cbn [bind] in *. destruct (vat (rotation p) k) as [T| |]; try discriminate. cbn [bind] in *. destruct (vat (rotationCenter p) k) as [o| |]; try discriminate. cbn [bind] in *. destruct (vat (translation p) k) as [t| |]; try discriminate. cbn [bind] in *.
    injection H as <-. injection A as <-. injection B as <-. cbn. repeat split. intros i I. destruct D as [-> | ->]; cbn [Nat.eqb]; unfold mmul, mom_in, vadd, mvec, vsub; cbn [PeriodicModel.sumn]; rewrite ?M by lia; [rewrite (Z2 eq_refl)|]; ring. }
  assert (TB : forall W, (do m <- TransVectorBack d p (mom_in U) id; Ok (with_mom U (fun i => m i 0%nat))) = Ok W -> TransCoordBack p P id = Ok P' -> TransCoordBack p Q id = Ok Q' -> rho W = rho U /\ ene W = ene U /\ extra W = extra U /\ forall i, (i < d)%nat -> mom W i = Q' i - P' i).
  { intros W H A B. unfold TransVectorBack in H. unfold TransCoordBack in A, B. destruct (period_index id) as [k| |]; try discriminate. cbn [bind] in *. destruct (vat (rotation p) k) as [T| |]; try discriminate. cbn [bind] in *. destruct (vat (rotationCenter p) k) as [o| |]; try discriminate. cbn [bind] in *. destruct (vat (translation p) k) as [t| |]; try discriminate. cbn [bind] in *.
    injection H as <-. injection A as <-. injection B as <-. cbn. repeat split. intros i I. destruct D as [-> | ->]; cbn [Nat.eqb]; unfold mmul, mom_in, vadd, mvec, vsub, tr; cbn [PeriodicModel.sumn]; rewrite ?M by lia; [rewrite (Z2 eq_refl)|]; ring. }
  destruct (FaceIDIsPeriodicMain id) eqn:EM; [rewrite (X eq_refl) in *|destruct (FaceIDIsPeriodicDonor id) eqn:ED]; destruct S as [-> | ->]; cbn in F, HP, HQ; eauto.
  all: injection F as <-; injection HP as <-; injection HQ as <-; repeat split; exact M.
Qed.
