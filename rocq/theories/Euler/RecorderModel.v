(** Model of the recorders of src/Euler/EulerBC.hpp 318-565 (boundary integrals, anchor
    points, profiles along one coordinate), of src/Geom/Grid.hpp and of
    src/Euler/EulerEvaluator.hxx 1947-1990 updateBCProfilesPressureRadialEq, over the
    real numbers.  A collective operation is a function of the list of the ranks'
    states. *)
From Coq Require Import Reals List Arith ZArith Bool.
From Verif Require Import Base.Prelude Euler.GasModel Euler.RiemannModel Euler.DriverModel Solver.ScalarModel.
Import ListNotations.
Local Open Scope R_scope.

Definition vadd (u v : vec) : vec := fun i => u i + v i.
Definition vzero : vec := fun _ => 0.
Definition vscale (k : R) (u : vec) : vec := fun i => k * u i.

(** *** 318-349 IntegrationRecorder *)
Record integral := { i_v : vec; i_div : R }.
Definition integral_reset : integral := {| i_v := vzero; i_div := verySmallReal |}.
Definition integral_add (r : integral) (a : vec) (d : R) : integral := {| i_v := vadd (i_v r) a; i_div := i_div r + d |}.
Definition integral_reduce (rs : list integral) : list integral :=
  let t := {| i_v := fold_right (fun r acc => vadd (i_v r) acc) vzero rs; i_div := fold_right (fun r acc => i_div r + acc) 0 rs |} in
  map (fun _ => t) rs.

(** *** 351-390 AnchorPointRecorder; [a_val] is [None] while never assigned *)
Record anchor := { a_val : option vec; a_dist : R }.
Definition anchor_new : anchor := {| a_val := None; a_dist := veryLarge |}.
Definition anchor_reset (a : anchor) : anchor := {| a_val := a_val a; a_dist := veryLarge |}.
Definition anchor_add (a : anchor) (v : vec) (d : R) : anchor :=
  if Rlt_dec d (a_dist a) then {| a_val := Some v; a_dist := d |} else a.
(** MPI_MINLOC: the least distance, of the lowest rank on ties *)
Fixpoint minloc (best : nat * R) (k : nat) (ds : list R) : nat * R :=
  match ds with
  | [] => best
  | d :: ds => minloc (if Rlt_dec d (snd best) then (k, d) else best) (S k) ds
  end.
Definition anchor_obtain (rs : list anchor) : res (list anchor) :=
  match rs with
  | [] => UB
  | r0 :: rest =>
      let root := fst (minloc (0%nat, a_dist r0) 1 (map a_dist rest)) in
      do r <- vget rs (Z.of_nat root);
      match a_val r with
      | None => UB
      | Some v => Ok (map (fun r => {| a_val := Some v; a_dist := a_dist r |}) rs)
      end
  end.

(** *** 422-565 OneDimProfile *)
Record bin := { b_v : vec; b_div : R }.
Record profile := { p_nodes : list R; p_bins : list bin }.
Definition p_size (p : profile) : nat := (List.length (p_nodes p) - 1)%nat.

(** std::lower_bound and std::upper_bound of a sorted range *)
Fixpoint lower_bound (l : list R) (x : R) : nat :=
  match l with [] => 0 | y :: l => if Rlt_dec y x then S (lower_bound l x) else 0 end.
Fixpoint upper_bound (l : list R) (x : R) : nat :=
  match l with [] => 0 | y :: l => if Rle_dec y x then S (upper_bound l x) else 0 end.

(** 447-465 GenerateUniform (Eigen setLinSpaced) and SetZero *)
Definition lin_spaced (n : nat) (a b : R) : list R := map (fun i => a + INR i * ((b - a) / INR n)) (seq 0 (S n)).
Definition zero_profile (nodes : list R) : profile :=
  {| p_nodes := nodes; p_bins := repeat {| b_v := vzero; b_div := 0 |} (List.length nodes - 1) |}.

(** 477-495 AddSimpleInterval.  The size of no nodes would be negative. *)
Definition add_step (nodes : list R) (vmean : vec) (divV lV rV : R) (bins : list bin) (i : nat) : res (list bin) :=
  do cL <- vget nodes (Z.of_nat i); do cR <- vget nodes (Z.of_nat (i + 1));
  do rel <- rdiv (Rmax (Rmin rV cR - Rmax lV cL) 0) (rV - lV);
  do b <- vget bins (Z.of_nat i);
  vset bins (Z.of_nat i) {| b_v := vadd (b_v b) (vscale (divV * rel) vmean); b_div := b_div b + divV * rel |}.
Definition add_interval (p : profile) (vmean : vec) (divV lV rV : R) : res profile :=
  match p_nodes p with
  | [] => UB
  | _ =>
      let iCL := Nat.min (p_size p - 1) (lower_bound (p_nodes p) lV - 1) in
      let iCR := Nat.min (p_size p) (upper_bound (p_nodes p) rV) in
      do bins <- foldM (add_step (p_nodes p) vmean divV lV rV) (p_bins p) (seq iCL (iCR - iCL));
      Ok {| p_nodes := p_nodes p; p_bins := bins |}
  end.

(** 497-505 Reduce: the sums over the ranks, which hold the same nodes *)
Definition bin_add (a b : bin) : bin := {| b_v := vadd (b_v a) (b_v b); b_div := b_div a + b_div b |}.
Fixpoint bins_add (a b : list bin) : list bin :=
  match a, b with x :: a, y :: b => bin_add x y :: bins_add a b | _, _ => [] end.
Definition profile_reduce (ps : list profile) : list profile :=
  map (fun p => {| p_nodes := p_nodes p;
                   p_bins := fold_right (fun q acc => bins_add (p_bins q) acc) (p_bins (zero_profile (p_nodes p))) ps |}) ps.

(** 507-511 Get *)
Definition get (p : profile) (i : nat) : res vec :=
  do _ <- assert_ (i <? p_size p)%nat;
  do b <- vget (p_bins p) (Z.of_nat i);
  do _ <- rdiv 1 (b_div b + verySmallReal);
  Ok (fun c => b_v b c / (b_div b + verySmallReal)).

(** 513-530 GetPlain *)
Definition get_plain (p : profile) (x : R) : res vec :=
  let iCL := Nat.min (p_size p - 1) (lower_bound (p_nodes p) x - 1) in
  do vL <- vget (p_nodes p) (Z.of_nat iCL); do vR <- vget (p_nodes p) (Z.of_nat (iCL + 1));
  do rel <- rdiv (x - vL) (vR - vL + verySmallReal);
  let rel := Rmax (Rmin rel 1) 0 in
  do a <- get p (iCL - 1); do b <- get p (Nat.min (iCL + 1) (p_size p - 1)); do m <- get p iCL;
  Ok (fun c => rel * (1/2 * (b c + m c)) + (1 - rel) * (1/2 * (a c + m c))).

(** *** EulerEvaluator.hxx 1951-1971: the radial equilibrium.  [E] is the component of
    the pressure; the averages replace the sums. *)
Definition normalise (p : profile) : res profile :=
  do bs <- mapM (fun b => do _ <- rdiv 1 (b_div b + verySmallReal);
                          Ok {| b_v := fun c => b_v b c / (b_div b + verySmallReal); b_div := 1 |}) (p_bins p);
  Ok {| p_nodes := p_nodes p; p_bins := bs |}.
Definition with_comp (E : nat) (x : R) (b : bin) : bin := {| b_v := fun c => if (c =? E)%nat then x else b_v b c; b_div := b_div b |}.
Definition rise (p : profile) (i : nat) : res R :=
  do b0 <- vget (p_bins p) (Z.of_nat (i - 1)); do b1 <- vget (p_bins p) (Z.of_nat i);
  do n0 <- vget (p_nodes p) (Z.of_nat (i - 1)); do n1 <- vget (p_nodes p) (Z.of_nat i); do n2 <- vget (p_nodes p) (Z.of_nat (i + 1));
  do vt0 <- rdiv (b_v b0 2%nat) (b_v b0 0%nat); do vt1 <- rdiv (b_v b1 2%nat) (b_v b1 0%nat);
  let l0 := n1 - n0 in let l1 := n2 - n1 in
  let ldist := 1/2 * (l0 + l1) in
  do vtm <- rdiv (vt0 * l0 + vt1 * l1) (l0 + l1);
  do rhom <- rdiv (b_v b0 0%nat * l0 + b_v b1 0%nat * l1) (l0 + l1);
  do q <- rdiv (rhom * (vtm * vtm)) n1;
  Ok (q * ldist).
Definition set_pressure (E : nat) (p : profile) (i : nat) : res profile :=
  do b0 <- vget (p_bins p) (Z.of_nat (i - 1)); do b1 <- vget (p_bins p) (Z.of_nat i);
  do r <- rise p i;
  do bs <- vset (p_bins p) (Z.of_nat i) (with_comp E (b_v b0 E + r) b1);
  Ok {| p_nodes := p_nodes p; p_bins := bs |}.
Definition radial_eq (E : nat) (p : profile) : res profile :=
  do p <- normalise p;
  do b <- vget (p_bins p) 0; do bs <- vset (p_bins p) 0 (with_comp E 0 b);
  foldM (set_pressure E) {| p_nodes := p_nodes p; p_bins := bs |} (seq 1 (p_size p - 1)).

(** *** src/Geom/Grid.hpp 7-26 GetTanhDistributionBilateral *)
Definition tanh_eq (x0 x1 d0 : R) (n : nat) (h : R) : R :=
  -1 + tanh (h - 2 * h / INR n) / (tanh h + verySmallReal) + d0 * 2 / (x1 - x0).
Definition tanh_nodes (x0 x1 : R) (n : nat) (h : R) : list R :=
  map (fun i => if (i =? 0)%nat then x0 else if (i =? n)%nat then x1
                else (tanh (- h + INR i * ((h - - h) / INR n)) + tanh h) / (2 * tanh h) * (x1 - x0) + x0) (seq 0 (S n)).
Definition tanh_distribution (x0 x1 : R) (n : nat) (d0 : R) : res (list R) :=
  if Rlt_dec x0 x1 then
    do _ <- assert_ (0 <? n)%nat;
    if Rle_dec ((x1 - x0) / INR n) d0 then Ok (lin_spaced n x0 x1)
    else
      do h <- BisectSolveLower (tanh_eq x0 x1 d0 n) (/ 10 ^ 10) 20 0 20;
      do _ <- rdiv 1 (2 * tanh h);
      Ok (tanh_nodes x0 x1 n h)
  else Abort.
