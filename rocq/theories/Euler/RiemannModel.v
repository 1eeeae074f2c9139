(** Model of the numerical fluxes of src/Euler/Gas.hpp: 254-384 HLLEPFlux_IdealGas,
    386-511 HLLCFlux_IdealGas_HartenYee, 513-691 RoeFlux_IdealGas_HartenYee (six
    eigenvalue options), 944-994 the dispatcher, over the real numbers.  A NaN at run
    time (root of a negative number, division by zero) is [UB].  The batch variants
    (750-942), which repeat the same formulas per column, and the fluxes of extra
    scalars, which are not set here, are left out. *)
From Coq Require Import Reals List Arith.
From Verif Require Import Base.Prelude Euler.GasModel Euler.GasSpec Euler.CompressModel.
Local Open Scope R_scope.

Definition rsqrt (x : R) : res R := if Rle_dec 0 x then Ok (sqrt x) else UB.
Definition rdiv (x y : R) : res R := if Req_EM_T y 0 then UB else Ok (x / y).
(** src/DNDS/Defines.hpp 350-353 signTol *)
Definition signTol (x tol : R) : R := if Rlt_dec tol x then 1 else if Rlt_dec x (- tol) then -1 else 0.

Definition add_state (U V : state) : state :=
  {| rho := rho U + rho V; mom := fun i => mom U i + mom V i; ene := ene U + ene V; extra := fun i => extra U i + extra V i |}.
Definition sub_state (U V : state) : state :=
  {| rho := rho U - rho V; mom := fun i => mom U i - mom V i; ene := ene U - ene V; extra := fun i => extra U i - extra V i |}.

(** 547-556 (also 693-715 GetRoeAverage): the Roe average *)
Record roe_avg := { av_v : vec; av_vv : R; av_H : R; av_a2 : R; av_rho : R }.
Definition roe_average (d : nat) (g : R) (UL UR : state) : roe_avg :=
  let sl := sqrt (rho UL) in
  let sr := sqrt (rho UR) in
  let v := fun i => (sl * velocity UL i + sr * velocity UR i) / (sl + sr) in
  let vv := sqnorm d v in
  let H := (sl * enthalpy d g UL + sr * enthalpy d g UR) / (sl + sr) in
  {| av_v := v; av_vv := vv; av_H := H; av_a2 := (g - 1) * (H - 1/2 * vv); av_rho := sl * sr |}.

(** 660-671 and 717-748 (RoeFluxIncFDiff): strengths of the waves *)
Definition strength_t (d : nat) (n : vec) (A : roe_avg) (incU : state) : vec :=
  let al := fun i => mom incU i - rho incU * av_v A i in
  fun i => al i - n i * dot d al n.
Definition strength1 (d : nat) (g : R) (n : vec) (A : roe_avg) (incU : state) : R :=
  let vn := dot d (av_v A) n in
  (g - 1) / av_a2 A * (rho incU * (av_H A - vn * vn) + vn * dot d (mom incU) n
                       - (ene incU - dot d (strength_t d n A incU) (av_v A))).
Definition strength0 (d : nat) (g : R) (n : vec) (A : roe_avg) (a : R) (incU : state) : R :=
  let vn := dot d (av_v A) n in
  (rho incU * (vn + a) - dot d (mom incU) n - a * strength1 d g n A incU) / (2 * a).
Definition strength4 (d : nat) (g : R) (n : vec) (A : roe_avg) (a : R) (incU : state) : R :=
  rho incU - (strength0 d g n A a incU + strength1 d g n A incU).

(** 673-687, 741-747: the sum of the waves times their speeds *)
Definition wave_sum (d : nat) (g : R) (n : vec) (A : roe_avg) (a : R) (incU : state) (l0 l1 l4 : R) : state :=
  let vn := dot d (av_v A) n in
  let a0 := strength0 d g n A a incU * l0 in
  let a1 := strength1 d g n A incU * l1 in
  let at_ := fun i => strength_t d n A incU i * l1 in
  let a4 := strength4 d g n A a incU * l4 in
  {| rho := a0 + a1 + a4;
     mom := fun i => (av_v A i - a * n i) * a0 + (av_v A i + a * n i) * a4 + av_v A i * a1 + at_ i;
     ene := (av_H A - vn * a) * a0 + 1/2 * av_vv A * a1 + (av_H A + vn * a) * a4 + dot d at_ (av_v A);
     extra := fun _ => 0 |}.

(** 689: half the sum of the fluxes less half an increment *)
Definition central (FL FR inc : state) : state := 
  {| rho := (rho FL + rho FR) * (1/2) - 1/2 * rho inc;
     mom := fun i => (mom FL i + mom FR i) * (1/2) - 1/2 * mom inc i;
     ene := (ene FL + ene FR) * (1/2) - 1/2 * ene inc;
     extra := fun _ => 0 |}.

Definition scaleHartenYee : R := 5 / 100.
Definition scaleLD : R := 2 / 10.

(** 575-651: the three wave speeds of each option.  [vL] and [vR] are the normal
    velocities of the mean states relative to the face, [aL2] and [aR2] their squared
    sound speeds, [v] and [a] the Roe averages. *)
Definition harten_yee (th l : R) : R := if Rlt_dec l th then (l * l + th * th) / (2 * th) else l.
Definition speeds (opt : nat) (vv v a vL vR aL2 aR2 dLambda : R) : res (R * R * R) :=
  match opt with
  | 0%nat => let th := Rmax (scaleHartenYee * (sqrt vv + a)) dLambda in
         Ok (harten_yee th (Rabs (v - a)), Rabs v, harten_yee th (Rabs (v + a)))
  | 1%nat => do aL <- rsqrt aL2; do aR <- rsqrt aR2;
         let uL := signTol vL (aL * smallR) * Rmax (Rabs vL) (aL * scaleLD) in
         let uR := signTol vR (aR * smallR) * Rmax (Rabs vR) (aR * scaleLD) in
         Ok (Rmax (Rabs (uL - aL)) (Rabs (uR - aR)), Rmax (Rabs uL) (Rabs uR), Rmax (Rabs (uL + aL)) (Rabs (uR + aR)))
  | 2%nat => do aL <- rsqrt aL2; do aR <- rsqrt aR2;
         let l := Rmax (Rabs vL + aL) (Rabs vR + aR) in Ok (l, l, l)
  | 3%nat => let as_ := Rmin (Rabs v / scaleLD) a in
         Ok (Rabs (v - as_), Rabs v, Rabs (v + as_))
  | 4%nat => let us := signTol v (a * smallR) * Rmax (a * scaleLD) (Rabs v) in
         Ok (Rabs (us - a), Rabs us, Rabs (us + a))
  | 5%nat => do aL <- rsqrt aL2; do aR <- rsqrt aR2;
         let aL := Rmin aL (Rabs vL / scaleLD) in
         let aR := Rmin aR (Rabs vR / scaleLD) in
         Ok (Rmax (Rabs (vL - aL)) (Rabs (vR - aR)), Rmax (Rabs vL) (Rabs vR), Rmax (Rabs (vL + aL)) (Rabs (vR + aR)))
  | _ => Abort
  end.

(** What every flux checks and computes first (269-315, 399-445, 527-573): densities
    positive, mean densities positive (else NaN), Roe sound speed positive. *)
Definition common (d : nat) (g : R) (UL UR ULm URm : state) : res (roe_avg * R) :=
  if Rlt_dec 0 (rho UL) then if Rlt_dec 0 (rho UR) then
  if Rlt_dec 0 (rho ULm) then if Rlt_dec 0 (rho URm) then
    let A := roe_average d g ULm URm in
    if Rlt_dec 0 (av_a2 A) then Ok (A, sqrt (av_a2 A)) else Abort
  else UB else UB else Abort else Abort.

Definition normal_speed (d : nat) (U : state) (vg n : vec) : R := dot d (fun i => velocity U i - vg i) n.

(** 513-691 *)
Definition roe_flux (d : nat) (opt : nat) (g dLambda : R) (vg n : vec) (UL UR ULm URm : state) : res state :=
  do Aa <- common d g UL UR ULm URm;
  let '(A, a) := Aa in
  let FL := exact_flux d g vg n UL in
  let FR := exact_flux d g vg n UR in
  let v := dot d (av_v A) n - dot d vg n in
  do l <- speeds opt (av_vv A) v a (normal_speed d ULm vg n) (normal_speed d URm vg n) (sound2 d g ULm) (sound2 d g URm) dLambda;
  let '(l0, l1, l4) := l in
  let incU := sub_state UR UL in
  if (opt =? 2)%nat then Ok (central FL FR (scale_state l0 incU))
  else Ok (central FL FR (wave_sum d g n A a incU l0 l1 l4)).

(** 254-384; [type] 0 is HLLEP, 1 is HLLEP_V1 *)
Definition hllep_speeds (v a vL vR aL aR : R) : R * R :=
  let SL := Rmin (Rabs (v - a)) (vL - aL) in
  let SR := Rmax (Rabs (v + a)) (vR + aR) in
  (Rmax SR 0, Rmin SL 0).
Definition hllep_flux (d : nat) (type : nat) (g : R) (vg n : vec) (UL UR ULm URm : state) : res state :=
  do Aa <- common d g UL UR ULm URm;
  let '(A, a) := Aa in
  let FL := exact_flux d g vg n UL in
  let FR := exact_flux d g vg n UR in
  let v := dot d (av_v A) n - dot d vg n in
  do aL <- rsqrt (sound2 d g UL);
  do aR <- rsqrt (sound2 d g UR);
  let '(SP, SM) := hllep_speeds v a (normal_speed d ULm vg n) (normal_speed d URm vg n) aL aR in
  let incU := sub_state UR UL in
  if (type =? 0)%nat then
    let dfix := a / (a + Rabs v) in
    let div := SP - SM in
    let div := div + signP div * verySmall in
    let a1 := strength1 d g n A incU in
    do _ <- rdiv 1 div;
    Ok {| rho := (SP * rho FL - SM * rho FR) / div + SP * SM / div * (rho UR - rho UL - dfix * 1 * a1);
          mom := fun i => (SP * mom FL i - SM * mom FR i) / div + SP * SM / div * (mom UR i - mom UL i - dfix * av_v A i * a1);
          ene := (SP * ene FL - SM * ene FR) / div + SP * SM / div * (ene UR - ene UL - dfix * (av_vv A * (1/2)) * a1);
          extra := fun _ => 0 |}
  else
    let delta1 := a / (Rabs v + a + verySmall) in
    do _ <- rdiv 1 (SP - SM);
    let l1 := ((SP + SM) * v - 2 * (1 - delta1) * (SP * SM)) / (SP - SM) in
    let l4 := ((SP + SM) * (v + a) - 2 * (1 - 0) * (SP * SM)) / (SP - SM) in
    let l0 := ((SP + SM) * (v - a) - 2 * (1 - 0) * (SP * SM)) / (SP - SM) in
    Ok (central FL FR (wave_sum d g n A a incU l0 l1 l4)).

(** 446-452 HLLCq *)
Definition hllc_q (g p pS : R) : res R :=
  if Rle_dec pS p then Ok 1
  else do r <- rdiv pS p; do c <- rdiv ((g + 1) / 2) g; rsqrt (1 + c * (r - 1)).

(** 478-508: the flux between the outer waves, seen from the state of one side *)
Definition hllc_star (U F : state) (n : vec) (S SS p v : R) : state :=
  let div := S - SS in
  if Rlt_dec (Rabs div) verySmall then F
  else
    let k := (p + rho U * (S - v) * (SS - v)) * S in
    {| rho := ((rho U * S - rho F) * SS + 0 * k) / div;
       mom := fun i => ((mom U i * S - mom F i) * SS + n i * k) / div;
       ene := ((ene U * S - ene F) * SS + SS * k) / div;
       extra := fun _ => 0 |}.

(** 453-455: speeds of the outer waves *)
Definition hllc_outer (d : nat) (g : R) (A : roe_avg) (a : R) (vg n : vec) (ULm URm : state) : res (R * R) :=
  let vL := normal_speed d ULm vg n in
  let vR := normal_speed d URm vg n in
  let pS := 1/2 * (pressure d g ULm + pressure d g URm) - 1/2 * (vL - vR) * av_rho A * a in
  let pS := Rmax 0 pS in
  do aL <- rsqrt (sound2 d g ULm);
  do qL <- hllc_q g (pressure d g ULm) pS;
  do aR <- rsqrt (sound2 d g URm);
  do qR <- hllc_q g (pressure d g URm) pS;
  Ok (vL - aL * qL, vR + aR * qR).

(** 470-477: speed of the contact *)
Definition hllc_contact (d : nat) (g : R) (vg n : vec) (UL UR ULm URm : state) (SL SR : R) : R :=
  let vL := normal_speed d ULm vg n in
  let vR := normal_speed d URm vg n in
  let vgn := dot d vg n in
  let div := rho UL * (SL - vL) - rho UR * (SR - vR) in
  if Rlt_dec verySmall (Rabs div) then
    (pressure d g UR - pressure d g UL
     + (dot d (mom UL) n - vgn * rho UL) * (SL - vL) - (dot d (mom UR) n - vgn * rho UR) * (SR - vR)) / div
  else 0.

(** 386-511 *)
Definition hllc_flux (d : nat) (g : R) (vg n : vec) (UL UR ULm URm : state) : res state :=
  do Aa <- common d g UL UR ULm URm;
  let '(A, a) := Aa in
  let FL := exact_flux d g vg n UL in
  let FR := exact_flux d g vg n UR in
  do out <- hllc_outer d g A a vg n ULm URm;
  let '(SL, SR) := out in
  if Rle_dec 0 SL then Ok FL
  else if Rle_dec SR 0 then Ok FR
  else
    let SS := hllc_contact d g vg n UL UR ULm URm SL SR in
    if Rle_dec 0 SS then Ok (hllc_star UL FL n SL SS (pressure d g UL) (normal_speed d ULm vg n))
    else Ok (hllc_star UR FR n SR SS (pressure d g UR) (normal_speed d URm vg n)).

(** 944-994 *)
Inductive riemann_type := Roe | Roe_M1 | Roe_M2 | Roe_M3 | Roe_M4 | Roe_M5 | HLLC | HLLEP | HLLEP_V1.
Definition numerical_flux (d : nat) (t : riemann_type) (g dLambda : R) (vg n : vec) (UL UR ULm URm : state) : res state :=
  match t with
  | Roe => roe_flux d 0 g dLambda vg n UL UR ULm URm
  | Roe_M1 => roe_flux d 1 g dLambda vg n UL UR ULm URm
  | Roe_M2 => roe_flux d 2 g dLambda vg n UL UR ULm URm
  | Roe_M3 => roe_flux d 3 g dLambda vg n UL UR ULm URm
  | Roe_M4 => roe_flux d 4 g dLambda vg n UL UR ULm URm
  | Roe_M5 => roe_flux d 5 g dLambda vg n UL UR ULm URm
  | HLLEP => hllep_flux d 0 g vg n UL UR ULm URm
  | HLLEP_V1 => hllep_flux d 1 g vg n UL UR ULm URm
  | HLLC => hllc_flux d g vg n UL UR ULm URm
  end.
