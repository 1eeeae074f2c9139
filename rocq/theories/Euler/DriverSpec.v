(** Words used in the statements about the lift driver. *)
From Coq Require Import Reals List Arith ZArith.
From Verif Require Import Base.Prelude Euler.GasModel Geom.BoundaryModel Euler.BndModel Euler.DriverModel.
Import ListNotations.
Local Open Scope R_scope.

(** sum and average of a list *)
Fixpoint total (l : list R) : R := match l with [] => 0 | x :: l => x + total l end.
Definition average (l : list R) : R := total l / INR (List.length l).

(** how many of the first values of [l] lie within the long threshold of the target *)
Definition on_target (s : cl_settings) (x : R) : Prop := Rabs (s_target s - x) <= IZR (s_longThreshold s).
Fixpoint leading (s : cl_settings) (l : list R) : nat :=
  match l with [] => 0 | x :: l => if Rle_dec (Rabs (s_target s - x)) (IZR (s_longThreshold s)) then S (leading s l) else 0 end.

(** the driver has seen the coefficients [l], latest first, since the angle last
    changed *)
Definition seen (s : cl_settings) (st : cl_state) (l : list R) : Prop :=
  List.length (c_hist st) = s_window s /\ c_size st = List.length l /\ (c_head st < s_window s)%nat /\ c_acc st = leading s l /\
  forall k, (k < s_window s)%nat ->
    nth ((c_head st + s_window s - k) mod s_window s) (c_hist st) 0 = nth k l veryLarge.

(** the lift has settled: enough values, the last window of them close to their
    average *)
Definition settled (s : cl_settings) (lastCL : R) (iter : Z) (l : list R) : Prop :=
  (s_start s <= iter)%Z /\ (s_window s <= List.length l)%nat /\ (s_min s <= List.length l)%nat /\
  let w := firstn (s_window s) l in
  forall x, In x w -> Rabs (x - average w) <= Rmin (s_threshold s) (Rabs (s_target s - lastCL) * s_ratio s).

(** minus the sum of the fluxes through the faces of the named boundaries *)
Definition named_force (ids : list Z) (l : list bface) : vec :=
  fold_right (fun b acc i => (if in_dec Z.eq_dec (bf_zone b) ids then - bf_flux b i else 0) + acc i) (fun _ => 0) l.

(** the driver and a flow whose lift answers at once to the angle *)
Definition fly (f : R -> R) (s : cl_settings) (st : cl_state) (its : list Z) : res cl_state :=
  foldM (fun st it => update s st it (f (c_AOA st))) st its.
(** how many iterations it takes at least between two changes of the angle *)
Definition cycle (s : cl_settings) : nat := Nat.max (s_window s) (s_min s).
