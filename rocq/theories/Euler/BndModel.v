(** Model of src/Euler/EulerEvaluator_EvaluateDt.hxx 1476-1999 generateBoundaryValue:
    the state outside a boundary face, over the real numbers.  Experimentals.hpp 16 and
    34 define USE_FIX_ZERO_SA_NUT_AT_WALL and USE_ABS_VELO_IN_ROTATION; the code is
    modelled with both, so that TransformURotatingFrame (EulerEvaluator.hpp 808-815) does
    nothing.  The states of the built-in test cases (1613-1855: double Mach
    reflection, Rayleigh-Taylor, isentropic vortex, 2-D Riemann, Noh) are passed in
    as [e_special].  An exception of a map's [at] is [Abort]; a NaN is [UB]. *)
From Coq Require Import Reals List Arith ZArith String.
From Verif Require Import Base.Prelude Euler.GasModel Euler.GasSpec Euler.CompressModel Euler.RiemannModel
  Geom.BoundaryModel Geom.RotationModel.
Local Open Scope R_scope.
Local Open Scope string_scope.

(** src/Euler/EulerBC.hpp 12-24 *)
Inductive bctype := BCUnknown | BCFar | BCWall | BCWallInvis | BCOut | BCOutP | BCIn | BCInPsTs | BCSym | BCSpecial.

(** what the handler holds for one id: EulerBC.hpp 59-62 *)
Record bc := { b_id : Z; b_type : bctype; b_value : state; b_flag : string -> option Z }.
(** EulerBC.hpp 307-312 GetFlagFromID for a physical boundary *)
Definition get_flag (b : bc) (k : string) : res Z := match b_flag b k with Some f => Ok f | None => Abort end.

(** EulerEvaluatorSettings.hpp 68-101 *)
Record frame := { fr_on : bool; fr_axis : vec; fr_center : vec; fr_rpm : R }.
Definition vOmega (f : frame) : vec := fun i => fr_axis f i * (fr_rpm f * (2 * PI / 60)).
(** EulerEvaluator.hpp 764-798: the speed of the grid at a point *)
Definition grid_speed (f : frame) (p : vec) : vec :=
  if fr_on f then cross (vOmega f) (fun i => p i - fr_center f i) else fun _ => 0.

(** turbulence models, as far as they matter for a wall *)
Inductive turbulence := NoTurb | SA | TwoEq (* other two-equation models *) | RKE | KOmega (* SST and Wilcox *).

Record env := {
  e_d : nat; e_gamma : R; e_Cp : R; e_Rgas : R;
  e_far : state;                 (* settings.farFieldStaticValue *)
  e_frame : frame;
  e_cl : option mat;             (* pCLDriver->GetAOARotation() *)
  e_anchor : option state;       (* anchorRecorders.at(btype).val *)
  e_profile : option R;          (* profileRecorders.at(btype).GetPlain(r)(I4) *)
  e_turb : turbulence;
  e_mu : R;                      (* muEff(ULMeanXy, T) *)
  e_dwall : R;                   (* dWall[iCell].mean() *)
  e_special : res state }.

Definition with_mom (U : state) (m : vec) : state := {| rho := rho U; mom := m; ene := ene U; extra := extra U |}.
Definition with_ene (U : state) (e : R) : state := {| rho := rho U; mom := mom U; ene := e; extra := extra U |}.
Definition with_extra (U : state) (k : nat) (x : R) : state :=
  {| rho := rho U; mom := mom U; ene := ene U; extra := fun i => if (i =? k)%nat then x else extra U i |}.

(** 1504-1505, 1955-1956, 1990-1991 *)
Definition cl_turn (e : env) (U : state) : state :=
  match e_cl e with
  | Some M => with_mom U (mat_vec (e_d e) M (mom U))
  | None => U
  end.

(** EulerEvaluator.hpp 817-825 TransformURotatingFrame_ABS_VELO *)
Definition shift_frame (e : env) (p : vec) (dir : R) (U : state) : res state :=
  do _ <- rdiv 1 (rho U);
  let d := e_d e in
  let e1 := ene U - sqnorm d (mom U) / (2 * rho U) in
  let m := fun i => mom U i + dir * cross (vOmega (e_frame e)) (fun i => p i - fr_center (e_frame e) i) i * rho U in
  Ok {| rho := rho U; mom := m; ene := e1 + sqnorm d m / (2 * rho U); extra := extra U |}.
Definition shift_if (on : bool) (e : env) (p : vec) (dir : R) (U : state) : res state :=
  if on then shift_frame e p dir U else Ok U.

(** 1501-1513: the far state *)
Definition far_state (e : env) (b : bc) (t : R) : res state :=
  let far := cl_turn e (if (BC_ID_DEFAULT_MAX <=? b_id b)%Z then b_value b else e_far e) in
  match b_type b with
  | BCFar =>
      if fr_on (e_frame e) then
        do f <- get_flag b "frameOpt";
        if (f =? 0)%Z then Ok far
        else Ok (with_mom far (mat_vec 3 (RotateAxis (fun i => - (vOmega (e_frame e) i * t))) (ToThreeDim (e_d e) (mom far))))
      else Ok far
  | _ => Ok far
  end.

(** 1546-1579: the pressure imposed at a subsonic outflow *)
Definition outlet_pressure (e : env) (b : bc) (UL : state) (pUL pFar : R) : res R :=
  match b_type b with
  | BCOutP =>
      do o <- get_flag b "anchorOpt";
      do p1 <- (if (o =? 1)%Z then
                  let anchor := match e_anchor e with Some A => A | None => UL end in
                  do W <- cons2prim (e_d e) anchor (e_gamma e);
                  Ok (pFar + Rmax (pUL - ene W) (- (95/100) * pFar))
                else Ok pFar);
      if (o =? 2)%Z then
        let pInc := match e_profile e with Some x => x | None => 0 end in
        Ok (p1 + Rmax pInc (- (95/100) * p1))
      else Ok p1
  | _ => Ok pFar
  end.

(** 1496-1602; [pf] is the point of the face at which the grid speed is taken *)
Definition gen_far (e : env) (b : bc) (n pf : vec) (t : R) (UL : state) : res state :=
  if Rlt_dec 0 (rho UL) then
    let d := e_d e in
    let g := e_gamma e in
    do far <- far_state e b t;
    let un := dot d (mom UL) n / rho UL in
    let asqr := sound2 d g UL in
    if Rle_dec 0 asqr then
      let a := sqrt asqr in
      let vgN := dot d (grid_speed (e_frame e) pf) n in
      if Rlt_dec 0 (un - vgN - a) then Ok UL
      else if Rlt_dec 0 (un - vgN) then
        do W <- cons2prim d far g;
        do V <- cons2prim d UL g;
        do p <- outlet_pressure e b UL (ene V) (ene W);
        prim2cons d (with_ene V p) g
      else if Rlt_dec 0 (un - vgN + a) then
        do W <- cons2prim d far g;
        do V <- cons2prim d UL g;
        prim2cons d (with_ene W (ene V)) g
      else Ok far
    else Abort
  else Abort.

(** 1862: the mirrored momentum *)
Definition mirror (d : nat) (n m : vec) : vec := fun i => m i - 2 * dot d m n * n i.

(** 1855-1865: slip wall and symmetry plane *)
Definition gen_slip (e : env) (n p : vec) (UL : state) : res state :=
  do U <- shift_if (fr_on (e_frame e)) e p (-1) UL;
  shift_if (fr_on (e_frame e)) e p 1 (with_mom U (mirror (e_d e) n (mom U))).

(** 1892-1948: the turbulence variables at a wall; both states *)
Definition wall_turb (e : env) (fixUL : bool) (UL ULm UR : state) : res (state * state) :=
  match e_turb e with
  | NoTurb => Ok (UL, UR)
  | SA => if fixUL then Ok (with_extra UL 0 0, with_extra UR 0 0)
          else Ok (UL, with_extra UR 0 (- extra UR 0%nat))
  | TwoEq => Ok (UL, with_extra (with_extra UR 0 (- extra UR 0%nat)) 1 (- extra UR 1%nat))
  | RKE =>
      let UR1 := with_extra UR 0 (- extra UR 0%nat) in
      do k1 <- rdiv (extra ULm 0%nat) (rho ULm);
      do x <- rdiv 1 (e_dwall e);
      let epsWall := 2 * e_mu e / rho ULm * k1 / (e_dwall e * e_dwall e) in
      Ok (UL, with_extra UR1 1 (2 * epsWall * rho UL - extra UL 1%nat))
  | KOmega =>
      let UR1 := with_extra UR 0 (- extra UR 0%nat) in
      do x <- rdiv 1 (e_dwall e);
      let w := e_mu e / (e_dwall e * e_dwall e) * 800 in
      Ok (UL, with_extra UR1 1 (2 * w - extra UL 1%nat))
  end.

(** 1866-1948: no-slip wall.  With frameOpt 0 the wall turns with the frame. *)
Definition gen_wall (e : env) (b : bc) (p : vec) (fixUL : bool) (UL ULm : state) : res (state * state) :=
  do turning <- (if fr_on (e_frame e) then do f <- get_flag b "frameOpt"; Ok (f =? 0)%Z else Ok false);
  do U <- shift_if turning e p (-1) UL;
  do UR <- shift_if turning e p 1 (with_mom U (fun i => mom U i * -1));
  wall_turb e fixUL UL ULm UR.

(** entries 2, 3, ... of the value of a stagnation inlet: 1986 *)
Definition inlet_direction (d : nat) (V : state) : vec :=
  fun i => if (i + 2 <=? d)%nat then mom V (S i) else ene V.

(** 1963-1994: inlet with stagnation pressure and temperature *)
Definition gen_stag (e : env) (b : bc) (UL : state) : res state :=
  let d := e_d e in
  let g := e_gamma e in
  do W <- cons2prim d UL g;
  let pStag := rho (b_value b) in
  let tStag := mom (b_value b) 0%nat in
  let vSqr := Rmin (sqnorm d (velocity UL)) (tStag * 2 * e_Cp e * (95/100)) in
  do h <- rdiv (1/2 * vSqr) (e_Cp e);
  let tStatic := tStag - h in
  do r <- rdiv tStatic tStag;
  do k <- rdiv g (g - 1);
  do pStatic <- (if Rlt_dec 0 r then Ok (pStag * Rpower r k) else UB);
  do rStatic <- rdiv pStatic (e_Rgas e * tStatic);
  do v <- rsqrt vSqr;
  do U <- prim2cons d {| rho := rStatic; mom := fun i => normalized d (inlet_direction d (b_value b)) i * v;
                         ene := pStatic; extra := extra (b_value b) |} g;
  Ok (cl_turn e U).

(** 1476-1999: the inner state, which a wall may change, and the outer one.  The
    frame transforms of 1524, 1600, 1963, 1971, 1994 do nothing; 1958-1962 is never
    reached. *)
Definition boundary_value (e : env) (b : bc) (n p pf : vec) (t : R) (fixUL : bool) (UL ULm : state) : res (state * state) :=
  match b_type b with
  | BCFar | BCOutP => do UR <- gen_far e b n pf t UL; Ok (UL, UR)
  | BCSpecial => if Rlt_dec 0 (rho UL) then do UR <- e_special e; Ok (UL, UR) else Abort
  | BCWallInvis | BCSym => do UR <- gen_slip e n p UL; Ok (UL, UR)
  | BCWall => gen_wall e b p fixUL UL ULm
  | BCOut => Ok (UL, UL)
  | BCIn => Ok (UL, cl_turn e (b_value b))
  | BCInPsTs => do UR <- gen_stag e b UL; Ok (UL, UR)
  | BCUnknown => Abort
  end.
