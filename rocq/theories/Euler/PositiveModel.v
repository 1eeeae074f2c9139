(** Model of the positivity-preserving limiters of src/Euler: CompressRecPart, CompressInc
    and AddFixedIncrement (EulerEvaluator.hpp 983-1275), EvaluateURecBeta,
    AssertMeanValuePP, EvaluateCellRHSAlpha, EvaluateCellRHSAlphaExpansion and
    MinSmoothDTau (EulerEvaluator.hxx 1339-1845), and the fincrement callback of
    EulerSolver.hxx 642-690, over the real numbers.  A division by zero is [UB], a failed
    DNDS_assert is [Abort].  The macros USE_NS_SA_NUT_REDUCED_ORDER and
    USE_NS_SA_ALLOW_NEGATIVE_MEAN are off, as in src/Euler/Experimentals.hpp 30-32. *)
From Coq Require Import Reals List Arith Bool.
From Verif Require Import Base.Prelude Euler.GasModel Euler.CompressModel.
Import ListNotations.
Local Open Scope R_scope.

(** componentwise operations of Eigen on state vectors *)
Definition sadd (u v : state) : state :=
  {| rho := rho u + rho v; mom := fun i => mom u i + mom v i; ene := ene u + ene v;
     extra := fun i => extra u i + extra v i |}.
Definition sscale (a : R) (u : state) : state :=
  {| rho := a * rho u; mom := fun i => a * mom u i; ene := a * ene u;
     extra := fun i => a * extra u i |}.
Definition szero : state := {| rho := 0; mom := fun _ => 0; ene := 0; extra := fun _ => 0 |}.
Definition set_extra (i : nat) (x : R) (u : state) : state :=
  {| rho := rho u; mom := mom u; ene := ene u;
     extra := fun j => if (j =? i)%nat then x else extra u j |}.

(** the models without a turbulence variable, NS_SA and NS_2EQ; [extra 0] is component
    I4 + 1 and [extra 1] is component I4 + 2 *)
Inductive turbulence := Laminar | OneEq | TwoEq.

(** The settings used: refUPrim, idealGasProperty.gamma, ppEpsIsRelaxed, the two compression
    powers after rounding (taken non-negative), and, for the k-omega models, the product
    RANSBottomLimit * farFieldStaticValue(I4 + 2). *)
Record settings := {
  ref_rho : R; ref_p : R; ref_extra : nat -> R; gam : R; relaxed : bool;
  alpha_power : nat; beta_power : nat; omega_floor : option R }.

(** smallReal * ref * 1e-1 (EulerEvaluator.hpp 1080-1081 and elsewhere) *)
Definition eps (ref : R) : R := smallR * ref / 10.

(** EulerEvaluator.hpp 983-1073 CompressRecPart; the flag is true when the value was
    replaced.  The caller's flag is only ever set, here it starts as false. *)
Definition compress_rec_part (d : nat) (tb : turbulence) (umean inc : state) : res (state * bool) :=
  let s := sadd umean inc in
  let p := if Rlt_dec (rho s) 0 then (umean, true) else (s, false) in
  do eK <- ekin d (rho (fst p)) (mom (fst p));
  let p := if Rlt_dec (ene (fst p) - eK) 0 then (umean, true) else p in
  match tb with
  | TwoEq =>
      let p := if Rlt_dec (extra (fst p) 0%nat) 0 then (set_extra 0 (extra umean 0%nat) (fst p), true) else p in
      let p := if Rlt_dec (extra (fst p) 1%nat) 0 then (set_extra 1 (extra umean 1%nat) (fst p), true) else p in
      Ok p
  | _ => Ok p
  end.

(** EulerEvaluator.hpp 1080-1085: the bounds CompressInc uses *)
Definition inc_rho_eps (st : settings) : R := if relaxed st then eps (ref_rho st) * verySmall else eps (ref_rho st).
Definition inc_p_eps (st : settings) : R := if relaxed st then eps (ref_p st) * verySmall else eps (ref_p st).

(** 1090-1101: the density *)
Definition fix_density (st : settings) (u ret : state) : res state :=
  if Rle_dec (rho u + rho ret) (inc_rho_eps st) then
    (if Req_EM_T (rho ret - verySmall) 0 then UB
     else Ok (sscale ((inc_rho_eps st - rho u) / (rho ret - verySmall)) ret))
  else Ok ret.

(** 1128-1136: up to [n] rounds; what is left afterwards is used *)
Fixpoint inc_decay (d : nat) (u ret : state) (floor : R) (n : nat) (a : R) : res R :=
  match n with
  | O => Ok a
  | S k => do e <- einner d u ret a;
           if Rlt_dec e floor then inc_decay d u ret floor k (a * (9/10)) else Ok a
  end.

(** 1113-1125: the multiplier.  With c2 = 0 the quotient is 0/0 for a falling pressure, and
    std::min and std::max turn the NaN into 0; for c2 = 0 and c1 > 0 the result depends on
    the sign of the zero, which is not modelled. *)
Definition inc_root (c1 c2 deltaC : R) : res R :=
  if Req_EM_T c2 0 then (if Rlt_dec 0 c1 then UB else Ok 0)
  else Ok (Rmax 0 (Rmin ((- sqrt deltaC - c1) / (2 * c2)) 1)).

(** 1102-1152: the internal energy *)
Definition fix_energy (d : nat) (st : settings) (u ret : state) : res state :=
  do ekOld <- ekin d (rho u) (mom u);
  if Rlt_dec 0 (ene u - ekOld) then
    do eNew <- einner d u ret 1;
    if Rle_dec eNew (inc_p_eps st) then
      if Req_EM_T (gam st) 1 then UB else
      let floor := inc_p_eps st / (gam st - 1) in
      let c0 := 2 * ene u * rho u - sqnorm d (mom u) - 2 * rho u * floor in
      let c1 := 2 * ene u * rho ret + 2 * rho u * ene ret - 2 * dot d (mom u) (mom ret) - 2 * rho ret * floor in
      let c2 := 2 * ene ret * rho ret - sqnorm d (mom ret) in
      let deltaC := c1 * c1 - 4 * c0 * c2 in
      if Rlt_dec 0 deltaC then
        do alpha <- inc_root c1 c2 deltaC;
        do a <- inc_decay d u ret floor 1000 (alpha * (99/100));
        do e <- einner d u ret a;
        if Rlt_dec e (floor * (1/2)) then Abort else Ok (sscale a ret)
      else Abort
    else Ok ret
  else Abort.

(** 1158-1171 and 1174-1198: one turbulence variable; [least] is 1e-6 for NS_SA *)
Definition fix_extra (least : option R) (i : nat) (u ret : state) : res state :=
  if Rlt_dec (extra u i + extra ret i) 0 then
    if Rle_dec 0 (extra u i) then
      let new := extra u i * exp (extra ret i / (extra u i + / 10 ^ 6)) in
      let new := match least with Some l => Rmax l new | None => new end in
      Ok (set_extra i (new - extra u i) ret)
    else Abort
  else Ok ret.

(** 1075-1202 CompressInc *)
Definition compress_inc (d : nat) (tb : turbulence) (st : settings) (u uInc : state) : res state :=
  if Rlt_dec 0 (rho u) then
    do ret <- fix_density st u uInc;
    do ret <- fix_energy d st u ret;
    match tb with
    | Laminar => Ok ret
    | OneEq => fix_extra (Some (/ 10 ^ 6)) 0 u ret
    | TwoEq => do ret <- fix_extra None 0 u ret; fix_extra None 1 u ret
    end
  else Abort.

(** 1213-1260 AddFixedIncrement on one cell (the log line is left out) *)
Definition add_fixed_increment (d : nat) (tb : turbulence) (st : settings) (alpha : R) (u uInc : state) : res state :=
  do c <- compress_inc d tb st u (sscale alpha uInc);
  let v := sadd u c in
  match tb, omega_floor st with
  | TwoEq, Some w => Ok (set_extra 1 (Rmax (extra v 1%nat) w) v)
  | _, _ => Ok v
  end.

(** EulerEvaluator.hxx 1568-1572, 1630-1637: the bounds of the mean values *)
Definition mean_rho_eps (st : settings) : R := if relaxed st then 0 else eps (ref_rho st).
Definition mean_p_eps (st : settings) : R := if relaxed st then 0 else eps (ref_p st).

(** internal energy without the guard against a zero density *)
Definition rho_e (d : nat) (u : state) : res R :=
  if Req_EM_T (rho u) 0 then UB else Ok (ene u - 1/2 * sqnorm d (mom u) / rho u).

(** EulerEvaluator.hxx 1564-1617 AssertMeanValuePP on one cell, with panic *)
Definition assert_mean_pp (d : nat) (st : settings) (u : state) : res unit :=
  if Rlt_dec (rho u) (mean_rho_eps st) then Abort else
  do e <- rho_e d u;
  if Req_EM_T (gam st) 1 then UB else
  if Rlt_dec e (mean_p_eps st / (gam st - 1)) then Abort else Ok tt.

(** EulerEvaluator.hxx 1643-1712: one cell of EvaluateCellRHSAlpha; the flag tells whether
    the cell was limited *)
Definition rhs_alpha_cell (d : nat) (st : settings) (rx : R) (compress : nat) (u res_ : state) : res (R * bool) :=
  let rhoEps := mean_rho_eps st in
  let pEps := mean_p_eps st in
  if Rle_dec rhoEps (rho u) then
    let relaxedRho := rhoEps * rx + rho u * (1 - rx) in
    let alphaRho := if Rlt_dec (rho res_) 0
      then Rmin 1 ((rho u - relaxedRho) / (- rho res_ - smallR * rho res_)) else 1 in
    if Rle_dec 0 alphaRho then
      let inc := sscale alphaRho res_ in
      do eNew <- rho_e d (sadd u inc);
      do eOld <- rho_e d u;
      let pNew := eNew * (gam st - 1) in
      let pOld := eOld * (gam st - 1) in
      let relaxedP := if Rlt_dec pNew pOld then pEps + (pOld - pEps) * (1 - rx) else pEps in
      do alphaP <- (if Rlt_dec pNew relaxedP then
                      if Req_EM_T (gam st) 1 then UB else
                      do c <- compression_ratio d 0 u inc (relaxedP / (gam st - 1)); Ok (Rmin 1 c)
                    else Ok 1);
      let a := alphaRho * alphaP in
      if Rlt_dec a 1 then Ok (a ^ (compress * alpha_power st) * safety, true) else Ok (a, false)
    else Abort
  else Abort.

(** all cells of all ranks, in lists of one list per rank *)
Fixpoint rhs_alpha_cells (d : nat) (st : settings) (rx : R) (compress : nat) (cells : list (state * state)) : res (list (R * bool)) :=
  match cells with
  | [] => Ok []
  | (u, r) :: t => do a <- rhs_alpha_cell d st rx compress u r;
                   do l <- rhs_alpha_cells d st rx compress t; Ok (a :: l)
  end.
(** the reduction clauses of 1641 *)
Definition local_min (l : list (R * bool)) : R := fold_right (fun (p : R * bool) m => if snd p then Rmin m (fst p) else m) 1 l.
Definition local_count (l : list (R * bool)) : nat := length (filter (fun p : R * bool => snd p) l).
(** EulerEvaluator.hxx 1714-1727: the two flags *)
Definition spread_min (min_if_not_one min_all : bool) (m : R) (l : list (R * bool)) : list R :=
  let l := map (fun p => if min_if_not_one then (if Rlt_dec (fst p) 1 then m else fst p) else fst p) l in
  map (fun a => if min_all then m else a) l.

(** EulerEvaluator.hxx 1619-1729 EvaluateCellRHSAlpha on all ranks: the multipliers, the
    number of limited cells and the least multiplier *)
Definition rhs_alpha (d : nat) (st : settings) (rx : R) (compress : nat) (min_if_not_one min_all : bool)
    (ranks : list (list (state * state))) : res (list (list R) * nat * R) :=
  if (if relaxed st then if Rlt_dec rx 1 then true else false else true) then
    do ls <- mapM (rhs_alpha_cells d st rx compress) ranks;
    let m := fold_right Rmin 1 (map local_min ls) in
    Ok (map (spread_min min_if_not_one min_all m) ls, fold_right plus 0%nat (map local_count ls), m)
  else Abort.

(** EulerEvaluator.hxx 1784-1797: one cell of EvaluateCellRHSAlphaExpansion, where the
    bounds are not relaxed; [alpha] is the multiplier before *)
Definition rhs_alpha_expand (d : nat) (st : settings) (alphaMin : R) (u res_ : state) (alpha : R) : res R :=
  let v := sadd u res_ in
  do e <- rho_e d v;
  if Rlt_dec (e * (gam st - 1)) (eps (ref_p st)) then Ok alphaMin
  else if Rlt_dec (rho v) (eps (ref_rho st)) then Ok alphaMin else Ok alpha.

(** EulerSolver.hxx 642-690 fincrement on one cell: limit, relax the turbulence variables
    (the code scales components I4 and I4 + 1), add and check *)
Definition ransrelax_inc (tb : turbulence) (rr : R) (v : state) : state :=
  match tb with
  | TwoEq => {| rho := rho v; mom := mom v; ene := rr * ene v;
                extra := fun i => if (i =? 0)%nat then rr * extra v 0%nat else extra v i |}
  | _ => v
  end.
Definition fincrement (d : nat) (tb : turbulence) (st : settings) (rx rr alpha : R) (u inc : state) : res state :=
  if (if relaxed st then if Rlt_dec rx 1 then true else false else true) then
    do a <- rhs_alpha_cell d st rx 2 u inc;
    do v <- add_fixed_increment d tb st alpha u (ransrelax_inc tb rr (sscale (fst a) inc));
    do _ <- assert_mean_pp d st v;
    Ok v
  else Abort.

(** EulerEvaluator.hxx 1816-1845 MinSmoothDTau on one cell; [others] are the values of the
    cells across its inner faces.  Without any the quotient is 0/0 and std::min keeps the
    old value. *)
Definition min_smooth (dTau : R) (others : list R) : R :=
  match others with
  | [] => dTau
  | _ => Rmin dTau ((fold_left Rplus others 0 + INR (length others) * 1 * dTau)
                    / (INR (length others) * (1 + 1)))
  end.

(** *** EvaluateURecBeta, EulerEvaluator.hxx 1339-1562, on one cell.
    The reconstruction is the list of its coefficient rows, a quadrature point the list of
    the base functions' values there (1387-1402). *)
Definition rec_at (coefs : list state) (row : list R) : state :=
  fold_right (fun p s => sadd (sscale (fst p) (snd p)) s) szero (combine row coefs).

(** src/CFV/VariationalReconstruction.hpp 839-912 DownCastURecOrder with method 0; orders
    above 3 abort *)
Definition down_cast (dim3 : bool) (order : nat) (c : list state) : res (list state) :=
  let from k := Ok (firstn k c ++ map (fun _ => szero) (skipn k c)) in
  match order with
  | 0%nat => Ok c
  | 1%nat => from 0%nat
  | 2%nat => from (if dim3 then 3 else 2)%nat
  | 3%nat => from (if dim3 then 9 else 5)%nat
  | _ => Abort
  end.

(** 1412-1430 checkRecBaseGood; the same bound serves the turbulence variables *)
Definition extras_good (tb : turbulence) (bound : R) (v : state) : bool :=
  let ok i := if Rlt_dec (extra v i) bound then false else true in
  match tb with Laminar => true | OneEq => ok 0%nat | TwoEq => ok 0%nat && ok 1%nat end.
Definition all_rho_good (tb : turbulence) (rhoEps : R) (vs : list state) : bool :=
  forallb (fun v => (if Rlt_dec (rho v) rhoEps then false else true) && extras_good tb rhoEps v) vs.
Fixpoint all_e_good (d : nat) (pEps : R) (vs : list state) : res bool :=
  match vs with
  | [] => Ok true
  | v :: t => do e <- rho_e d v; do b <- all_e_good d pEps t;
              Ok ((if Rlt_dec e pEps then false else true) && b)
  end.
Definition points (u : state) (rows : list (list R)) (c : list state) : list state :=
  map (fun r => sadd (rec_at c r) u) rows.
Definition good (d : nat) (tb : turbulence) (rhoEps pEps : R) (vs : list state) : res bool :=
  if all_rho_good tb rhoEps vs then all_e_good d pEps vs else Ok false.

(** 1438-1445: the loop that lowers the order; returns the reconstruction and its base *)
Fixpoint lower_order (d : nat) (dim3 : bool) (tb : turbulence) (rhoEps pEps : R) (u : state) (rows : list (list R))
    (order : nat) (c base : list state) : res (list state * list state) :=
  match order with
  | O => Ok (c, base)
  | S k =>
      do b <- down_cast dim3 order c;
      do g <- good d tb rhoEps pEps (points u rows b);
      if g then Ok (c, b) else lower_order d dim3 tb rhoEps pEps u rows k b b
  end.

(** 1447-1456: the multiplier of the density *)
Definition rho_theta (rhoEps : R) (bs incs : list state) : R :=
  let rhoS := map (fun p => rho (snd p) + rho (fst p)) (combine bs incs) in
  if existsb (fun r => if Rlt_dec r rhoEps then true else false) rhoS then
    fold_left (fun th p => if Rlt_dec (rho (snd p)) 0
                 then Rmin th ((rho (fst p) - rhoEps) / (- rho (snd p) + verySmall)) else th)
      (combine bs incs) 1
  else 1.

(** 1474-1491: the multiplier of the turbulence variables of NS_2EQ *)
Definition extra_theta (st : settings) (bs incs : list state) (i : nat) (th0 : R) : R :=
  let vEps := smallR * ref_extra st i in
  if existsb (fun p => if Rlt_dec (extra (snd p) i + extra (fst p) i) vEps then true else false) (combine bs incs) then
    fold_left (fun th p => if Rlt_dec (extra (snd p) i) 0
                 then Rmin th ((extra (fst p) i - vEps) / (- extra (snd p) i + verySmall)) else th)
      (combine bs incs) th0
  else th0.
Definition scale_extras (a : R) (v : state) : state :=
  {| rho := rho v; mom := mom v; ene := ene v;
     extra := fun i => if (i <? 2)%nat then a * extra v i else extra v i |}.

(** 1498-1501: the increment scaled by theta1, the turbulence variables left alone *)
Definition scale_flow (tb : turbulence) (a : R) (v : state) : state :=
  match tb with
  | Laminar => sscale a v
  | _ => {| rho := a * rho v; mom := fun i => a * mom v i; ene := a * ene v; extra := extra v |}
  end.

(** 1506-1521: the multiplier of the pressure *)
Fixpoint p_theta (d : nat) (g pEps : R) (ps : list (state * state)) (th : R) : res R :=
  match ps with
  | [] => Ok th
  | (b, i) :: t =>
      do e <- rho_e d (sadd i b);
      if Req_EM_T g 1 then UB else
      if Rlt_dec e (2 * pEps / (g - 1)) then
        do c <- compression_ratio d 0 b i pEps; p_theta d g pEps t (Rmin th c)
      else p_theta d g pEps t th
  end.

(** 1523-1535: the final multiplier *)
Definition final_beta (st : settings) (b : R) : R :=
  if Rlt_dec b 1 then
    let b := b * (b ^ beta_power st * safety) in
    if Rlt_dec b (/ 10 ^ 3) then 0 else b
  else b.

(** 1354-1373: the bounds, with the least density and pressure of the mean values of all
    cells when ppEpsIsRelaxed *)
Definition beta_eps (st : settings) (ref least : R) : R :=
  if relaxed st then Rmin (eps ref) (1/2 * least) else eps ref.

Definition urec_beta (d : nat) (dim3 : bool) (tb : turbulence) (st : settings) (rhoEps pEps : R) (to_mean : bool)
    (order : nat) (u : state) (rows : list (list R)) (c : list state) : res (list state * R) :=
  if Rlt_dec (rho u) rhoEps then Abort else
  do eCent <- rho_e d u;
  let pCent := (gam st - 1) * eCent in
  if Rlt_dec pCent pEps then Abort else
  do g <- good d tb rhoEps pEps (points u rows c);
  if g then Ok (c, 1) else
  do cb <- lower_order d dim3 tb rhoEps pEps u rows (if to_mean then 1%nat else order) c c;
  let c := fst cb in
  let base := snd cb in
  let bs := points u rows base in
  let incs := map (fun r => rec_at (map (fun p => sadd (fst p) (sscale (-1) (snd p))) (combine c base)) r) rows in
  let theta1 := rho_theta rhoEps bs incs in
  let c := match tb with
           | TwoEq => let th := extra_theta st bs incs 1 (extra_theta st bs incs 0 1) in
                      if Rlt_dec th 1 then map (scale_extras (th * (9/10))) c else c
           | _ => c
           end in
  let incs := map (scale_flow tb theta1) incs in
  do thetaP <- (if Rle_dec pCent (2 * pEps) then Ok 0 else p_theta d (gam st) pEps (combine bs incs) 1);
  let beta := final_beta st (theta1 * thetaP) in
  if Rlt_dec beta 0 then Abort else
  let c := if Rlt_dec beta 1
           then map (fun p => sadd (sscale beta (sadd (fst p) (sscale (-1) (snd p)))) (snd p)) (combine c base)
           else c in
  do ok <- all_e_good d pEps (points u rows c);
  if ok then Ok (c, beta) else Abort.
