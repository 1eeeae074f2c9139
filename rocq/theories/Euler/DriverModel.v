(** Model of src/Euler/CLDriver.hpp (the driver that adjusts the angle of attack until
    the lift coefficient meets its target) and of src/Euler/EulerEvaluator.hpp 956-981
    CLDriverGetIntegrationUpdate, EulerEvaluator_EvaluateRHS.hxx 530-548 (the forces it
    sums), over the real numbers.  A NaN is [UB]; a division by zero that gives an
    infinity is followed through the comparisons. *)
From Coq Require Import Reals List Arith ZArith String Bool.
From Verif Require Import Base.Prelude Euler.GasModel Euler.RiemannModel Geom.RotationModel Geom.BoundaryModel Euler.BndModel.
Import ListNotations.
Local Open Scope R_scope.

(** src/DNDS/Defines.hpp 152 veryLargeReal *)
Definition veryLarge : R := 3 * 10 ^ 200.
(** a real stored into an [index] *)
Definition trunc (x : R) : Z := if Rle_dec 0 x then Int_part x else (- Int_part (- x))%Z.

(** 14-43 *)
Record cl_settings := {
  s_AOAInit : R; s_AOAAxis : string; s_CL0Axis : string; s_CD0Axis : string;
  s_area : R; s_q : R; s_target : R; s_relax : R; s_ratio : R;
  s_start : Z; s_min : nat; s_threshold : R; s_window : nat;
  s_longWindow : nat; s_longThreshold : Z }.
Definition default_settings : cl_settings :=
  {| s_AOAInit := 0; s_AOAAxis := "z"; s_CL0Axis := "y"; s_CD0Axis := "x"; s_area := 1; s_q := 1/2; s_target := 0;
     s_relax := 1/4; s_ratio := 1/2; s_start := 2147483647; s_min := 50; s_threshold := / 10 ^ 3; s_window := 10;
     s_longWindow := 100; s_longThreshold := trunc (/ 10 ^ 4) |}.

(** 47-53, 67 *)
Record cl_state := { c_lastCL : R; c_lastAOA : R; c_hist : list R; c_size : nat; c_head : nat; c_acc : nat; c_AOA : R }.

(** 70-87 the constructor *)
Definition is_axis (s : string) : bool := (String.eqb s "x" || String.eqb s "y" || String.eqb s "z")%bool.
Definition new_driver (s : cl_settings) : res cl_state :=
  do _ <- assert_ (is_axis (s_AOAAxis s)); do _ <- assert_ (is_axis (s_CL0Axis s)); do _ <- assert_ (is_axis (s_CD0Axis s));
  do _ <- assert_ (2 <=? s_window s)%nat;
  Ok {| c_lastCL := veryLarge; c_lastAOA := veryLarge; c_hist := repeat veryLarge (s_window s); c_size := 0; c_head := 0; c_acc := 0;
        c_AOA := s_AOAInit s |}.

(** 54-59 _PushCL *)
Definition push (st : cl_state) (CL : R) : cl_state :=
  let head := ((c_head st + 1) mod List.length (c_hist st))%nat in
  {| c_lastCL := c_lastCL st; c_lastAOA := c_lastAOA st; c_hist := upd head CL (c_hist st); c_size := S (c_size st); c_head := head;
     c_acc := c_acc st; c_AOA := c_AOA st |}.
Definition with_acc (st : cl_state) (n : nat) : cl_state :=
  {| c_lastCL := c_lastCL st; c_lastAOA := c_lastAOA st; c_hist := c_hist st; c_size := c_size st; c_head := c_head st; c_acc := n; c_AOA := c_AOA st |}.

Definition mean (l : list R) : R := fold_left Rplus l 0 / INR (List.length l).
(** Eigen maxCoeff and minCoeff of a non-empty vector *)
Definition maxCoeff (l : list R) : R := match l with [] => 0 | x :: l => fold_left Rmax l x end.
Definition minCoeff (l : list R) : R := match l with [] => 0 | x :: l => fold_left Rmin l x end.

(** 118-131: the slope, in degrees, bounded.  [num / 0] is infinite, [0 / 0] a NaN that
    passes through min and max. *)
Definition slope_std : R := PI * PI / 90.
Definition bound_slope (k : R) : R := Rmax (Rmin k (10 * slope_std)) (9/10 * slope_std).
Definition slope (lastCL CL lastAOA AOA : R) : res R :=
  if Req_EM_T lastCL veryLarge then Ok (bound_slope slope_std)
  else if Req_EM_T lastAOA veryLarge then Ok (bound_slope slope_std)
  else if Req_EM_T (lastAOA - AOA) 0 then
    if Req_EM_T (lastCL - CL) 0 then UB
    else if Rlt_dec (lastCL - CL) 0 then Ok (bound_slope slope_std) else Ok (10 * slope_std)
  else
    let k := (lastCL - CL) / (lastAOA - AOA) in
    Ok (bound_slope (if Rlt_dec k 0 then slope_std else k)).

(** 95-150 Update *)
Definition update (s : cl_settings) (st : cl_state) (iter : Z) (CL : R) : res cl_state :=
  let st := push st CL in
  let st := with_acc st (if Rle_dec (Rabs (s_target s - CL)) (IZR (s_longThreshold s)) then S (c_acc st) else 0%nat) in
  if (iter <? s_start s)%Z then Ok st
  else if ((List.length (c_hist st) <=? c_size st) && (s_min s <=? c_size st))%nat%bool then
    let cur := mean (c_hist st) in
    let thr := Rmin (s_threshold s) (Rabs (s_target s - c_lastCL st) * s_ratio s) in
    let dev := Rmax (maxCoeff (c_hist st) - cur) (cur - minCoeff (c_hist st)) in
    if Rle_dec dev thr then
      do k <- slope (c_lastCL st) CL (c_lastAOA st) (c_AOA st);
      Ok {| c_lastCL := cur; c_lastAOA := c_AOA st; c_hist := repeat veryLarge (List.length (c_hist st)); c_size := 0; c_head := 0; c_acc := 0;
            c_AOA := c_AOA st + (s_target s - CL) / k * s_relax s |}
    else Ok st
  else Ok st.
Definition run (s : cl_settings) (st : cl_state) (l : list (Z * R)) : res cl_state := foldM (fun st p => update s st (fst p) (snd p)) st l.

(** 152-155 *)
Definition ConvergedAtTarget (s : cl_settings) (st : cl_state) : bool := (s_longWindow s <=? c_acc st)%nat.

(** 160-201 *)
Definition GetAOARotation (s : cl_settings) (AOA : R) : res mat :=
  if String.eqb (s_AOAAxis s) "z" then Ok (RotZ AOA) else if String.eqb (s_AOAAxis s) "y" then Ok (RotY (- AOA)) else Abort.
Definition GetCL0Direction (s : cl_settings) : res vec :=
  if String.eqb (s_CL0Axis s) "y" then Ok (v3 0 1 0) else if String.eqb (s_CL0Axis s) "z" then Ok (v3 0 0 1) else Abort.
Definition GetCD0Direction (s : cl_settings) : res vec := if String.eqb (s_CD0Axis s) "x" then Ok (v3 1 0 0) else Abort.
Definition GetForce2CoeffRatio (s : cl_settings) : res R := rdiv 1 (s_area s * s_q s).

(** *** the force: faces of the boundary with their zone, type and momentum flux *)
Record bface := { bf_zone : Z; bf_type : bctype; bf_flux : vec }.
Definition sum_flux (f : bface -> bool) (l : list bface) : vec :=
  fold_right (fun b acc i => - bf_flux b i + acc i) (fun _ => 0) (filter f l).
(** EvaluateRHS.hxx 530-535; [inviscid] is muGas < 1e-99 *)
Definition in_wall_sum (inviscid : bool) (b : bface) : bool :=
  match bf_type b with BCWall => true | BCWallInvis => inviscid | _ => false end.
Definition fluxWallSum (inviscid : bool) (l : list bface) : vec := sum_flux (in_wall_sum inviscid) l.
(** 545-548 and EulerEvaluator.hpp 962-973; [ids] is a set *)
Definition cl_force (inviscid : bool) (ids : list Z) (l : list bface) : vec :=
  fold_right (fun id acc i => (if (BC_ID_DEFAULT_MAX <=? id)%Z then sum_flux (fun b => (bf_zone b =? id)%Z) l i else fluxWallSum inviscid l i) + acc i)
    (fun _ => 0) ids.
(** 974-977: the coefficients.  [d] is the space dimension. *)
Definition transpose (M : mat) : mat := fun i j => M j i.
Definition coefficients (d : nat) (s : cl_settings) (AOA : R) (F : vec) : res (R * R) :=
  do M <- GetAOARotation s AOA; do L <- GetCL0Direction s; do D <- GetCD0Direction s; do r <- GetForce2CoeffRatio s;
  let f := mat_vec 3 (transpose M) (ToThreeDim d F) in
  Ok (dot 3 f L * r, dot 3 f D * r).
