(** Model of the approximate flux Jacobians of the implicit solver,
    src/Euler/EulerEvaluator.hpp 577-641 (fluxJacobian0_Right), 649-728
    (fluxJacobian0_Right_Times_du, _AsMatrix), 730-762 (fluxJacobianC_Right_Times_du), 507-519
    (UFromOtherCell), src/Geom/Mesh.hpp 552-567 (CellOtherCellPeriodicHandle),
    src/Euler/EulerEvaluator.hxx 16-100 (LUSGSMatrixInit), 145-190, 226-265, over the real
    numbers.  [d] is 2 or 3 in the code; [x] is the number of extra scalars (0, or 1 and 2
    with the turbulence models).  A NaN is [UB]. *)
From Coq Require Import Reals List ZArith Arith Bool.
From Verif Require Import Base.Prelude Geom.PeriodicModel Euler.GasModel Euler.GasSpec Euler.RiemannModel.
Import ListNotations.
Local Open Scope R_scope.
Local Notation vec := GasModel.vec.
Local Notation dot := GasModel.dot.
Local Notation sumn := GasModel.sumn.

Definition zero_st : state := {| rho := 0; mom := fun _ => 0; ene := 0; extra := fun _ => 0 |}.

(** 649-664: the settings of a call: lambdaMain, lambdaVis, lambda0, lambda123, lambda4,
    useRoeTerm, incFsign, omitF *)
Record speeds_in := { lamMain : R; lamVis : R; lam0 : R; lam123 : R; lam4 : R }.

(** Gas.hpp 693-715 GetRoeAverage, for states of non-zero density *)
Definition roe_in (d : nat) (g : R) (U UO : state) : res (roe_avg * R) :=
  let A := roe_average d g U UO in
  if Rle_dec 0 (rho U) then
    if Rle_dec 0 (rho UO) then
      if Rle_dec 0 (av_a2 A) then (if Req_EM_T (rho UO) 0 then UB else if Req_EM_T (av_a2 A) 0 then UB else Ok (A, sqrt (av_a2 A)))
      else Abort
    else Abort
  else Abort.

(** 649-707 *)
Definition times_du (d : nat) (g : R) (U UO : state) (n vg : vec) (l : speeds_in) (useRoe : bool) (sign : R) (omitF : bool) (dU : state) : res state :=
  if Req_EM_T (rho U) 0 then UB else
  let velo := velocity U in
  let p := pressure d g U in
  let dv := dvelo U dU in
  let dp := dpres d U dU velo g in
  let F := if omitF then zero_st else flux_increment d U dU n velo dv vg dp p in
  do W <- (if useRoe then
             do r <- roe_in d g U UO;
             Ok (add_state (wave_sum d g n (fst r) (snd r) dU (sign * lam0 l) (sign * lam123 l) (sign * lam4 l)) (scale_state (sign * lamVis l) dU))
           else Ok (scale_state (sign * lamMain l) dU));
  Ok {| rho := rho F + rho W; mom := fun i => mom F i + mom W i; ene := ene F + ene W;
        extra := fun i => (if omitF then 0 else extra dU i * dot d n (fun k => velo k - vg k) + extra U i * dot d n dv) + sign * extra dU i * lamMain l |}.

(** 730-762 *)
Definition timesC_du (d : nat) (g : R) (U : state) (n vg : vec) (dU : state) : res state :=
  if Req_EM_T (rho U) 0 then UB else
  let velo := velocity U in
  let dv := dvelo U dU in
  let F := flux_increment d U dU n velo dv vg (dpres d U dU velo g) (pressure d g U) in
  Ok {| rho := rho F; mom := mom F; ene := ene F;
        extra := fun i => extra dU i * dot d n (fun k => velo k - vg k) + extra U i * dot d n dv |}.

(** 577-641, for three dimensions; row [i], column [j].  The code writes the entries out;
    here the rows 1 .. 3 share one formula, and the numerals count from 0. *)
Definition jac_entry (g : R) (U : state) (n : vec) (i j : nat) : R :=
  let r := rho U in let m := mom U in let E := ene U in
  let rhoun := dot 3 n m in
  let rhousqr := sqnorm 3 m in
  let un := rhoun / r in
  let msq := m 0%nat * m 0%nat * g + m 1%nat * m 1%nat * g + m 2%nat * m 2%nat * g in
  match i with
  | 0%nat => match j with 1%nat => n 0%nat | 2%nat => n 1%nat | 3%nat => n 2%nat | _ => 0 end
  | 1%nat | 2%nat | 3%nat =>
      let a := (i - 1)%nat in
      match j with
      | 0%nat => - (1) / (r * r) * m a * rhoun + (1 / (r * r) * n a * (g - 1) * (rhousqr - r * E * 2)) / 2 + (E * n a * (g - 1)) / r
      | 1%nat | 2%nat | 3%nat =>
          let b := (j - 1)%nat in
          if (a =? b)%nat then (rhoun + m a * n a * 2 - m a * g * n a) / r
          else (m a * n b) / r - (m b * n a * (g - 1)) / r
      | 4%nat => n a * (g - 1)
      | _ => 0
      end
  | 4%nat =>
      match j with
      | 0%nat => 1 / (r * r * r) * rhoun * (- rhousqr + msq - r * E * g)
      | 1%nat | 2%nat | 3%nat =>
          let b := (j - 1)%nat in
          1 / (r * r) * n b * (- rhousqr + msq - r * E * g * 2) * (- (1) / 2) - 1 / (r * r) * m b * rhoun * (g - 1)
      | 4%nat => (g * rhoun) / r
      | _ => 0
      end
  | S (S (S (S (S k)))) =>
      match j with
      | 0%nat => - un * extra U k / r
      | 1%nat | 2%nat | 3%nat => n (j - 1)%nat * extra U k / r
      | 4%nat => 0
      | _ => if (j =? i)%nat then un else 0
      end
  end.

(** component [k] of a state as the Eigen vector, and the unit vectors *)
Definition comp (d : nat) (U : state) (k : nat) : R :=
  if (k =? 0)%nat then rho U else if (k <=? d)%nat then mom U (k - 1)%nat else if (k =? d + 1)%nat then ene U else extra U (k - d - 2)%nat.
Definition from_comps (d : nat) (f : nat -> R) : state :=
  {| rho := f 0%nat; mom := fun i => f (S i); ene := f (d + 1)%nat; extra := fun i => f (d + 2 + i)%nat |}.
Definition unit_st (d k : nat) : state := from_comps d (fun i => if (i =? k)%nat then 1 else 0).

(** 709-728: column [j] of the identity is replaced by its image; the columns [0 .. d + 1 + x] *)
Definition times_matrix (d x : nat) (g : R) (U UO : state) (n vg : vec) (l : speeds_in) (useRoe : bool) (sign : R) (omitF : bool) : res (list state) :=
  mapM (fun j => times_du d g U UO n vg l useRoe sign omitF (unit_st d j)) (seq 0 (d + 2 + x)).
(** a matrix given by its columns, times a vector *)
Definition col_times (d : nat) (J : list state) (dU : state) (i : nat) : R :=
  sumn (length J) (fun j => comp d (nth j J zero_st) i * comp d dU j).

(** Mesh.hpp 552-567: which way a vector of the other cell is turned *)
Inductive turn := TurnA | TurnB | NoTurn.
Definition other_turn (isPeriodic : bool) (id : Z) (back : bool) (main donor : Z -> bool) : turn :=
  if negb isPeriodic then NoTurn
  else if negb (main id || donor id) then NoTurn
  else if (back && main id) || (negb back && donor id) then TurnA
  else TurnB.

(** the momentum as the matrix TransVector takes, and back *)
Definition mom_in (U : state) : mat := fun i _ => mom U i.
Definition with_mom (U : state) (m : vec) : state := {| rho := rho U; mom := m; ene := ene U; extra := extra U |}.
(** EulerEvaluator.hpp 507-519 UFromOtherCell *)
Definition from_other (d : nat) (p : Periodicity) (id : Z) (t : turn) (U : state) : res state :=
  match t with
  | NoTurn => Ok U
  | TurnA => do m <- TransVector d p (mom_in U) id; Ok (with_mom U (fun i => m i 0%nat))
  | TurnB => do m <- TransVectorBack d p (mom_in U) id; Ok (with_mom U (fun i => m i 0%nat))
  end.
(** EulerEvaluator.hxx 249-262: the columns 1 .. d of the block, turned the other way; the
    rows of the transposed part are the columns of the block *)
Definition mom_cols (d : nat) (J : list state) : mat := fun k i => comp d (nth (S k) J zero_st) i.
Definition with_cols (d : nat) (J : list state) (M : mat) : list state :=
  map (fun j => if ((1 <=? j) && (j <=? d))%nat then from_comps d (fun i => M (j - 1)%nat i) else nth j J zero_st) (seq 0 (length J)).
Definition turn_block (d : nat) (p : Periodicity) (id : Z) (t : turn) (J : list state) : res (list state) :=
  match t with
  | NoTurn => Ok J
  | TurnA => do M <- TransVectorBack d p (mom_cols d J) id; Ok (with_cols d J M)
  | TurnB => do M <- TransVector d p (mom_cols d J) id; Ok (with_cols d J M)
  end.

(** a face of a cell: area, lambdas (0 and 4 already swapped for the back cell), outward
    normal, grid velocity, and the other cell's state as seen from this one *)
Record cface := { area : R; lam : speeds_in; nrm : vec; vgrid : vec; there : state }.
(** 38-43: fpDivisor *)
Definition divisor (dTau dt alpha vol : R) (fs : list cface) : R :=
  fold_left (fun s f => s + (1/2 * alpha) * area f * lamMain (lam f) / vol) fs (1 / dTau + 1 / dt).
(** 145-190: one row of the product without Roe's term and without source *)
Definition off_diag (d : nat) (g alpha vol : R) (useRoe : bool) (here : state) (f : cface) (dUj : state) : res state :=
  do F <- times_du d g (there f) here (nrm f) (vgrid f) (lam f) useRoe (-1) false dUj;
  Ok (scale_state ((1/2 * alpha) * area f / vol) F).
Definition row_times (d : nat) (g dTau dt alpha vol : R) (here dU : state) (fs : list (cface * state)) : res state :=
  do buf <- foldM (fun b p => do W <- off_diag d g alpha vol false here (fst p) (snd p); Ok (sub_state b W)) zero_st fs;
  Ok (sub_state (scale_state (divisor dTau dt alpha vol (map fst fs)) dU) buf).
(** 44-68, 1: the diagonal block with Roe's term, as it acts on a vector *)
Definition diag_roe (d : nat) (g dTau dt alpha vol : R) (here : state) (fs : list cface) (dU : state) : res state :=
  do J <- foldM (fun b f => do F <- times_du d g here (there f) (nrm f) (vgrid f) (lam f) true 1 true dU;
                            Ok (add_state b (scale_state ((1/2 * alpha) * area f / vol) F))) zero_st fs;
  Ok (add_state J (scale_state (1 / dTau + 1 / dt) dU)).
Definition row_times_roe (d : nat) (g dTau dt alpha vol : R) (here dU : state) (fs : list (cface * state)) : res state :=
  do buf <- foldM (fun b p => do W <- off_diag d g alpha vol true here (fst p) (snd p); Ok (sub_state b W)) zero_st fs;
  do D <- diag_roe d g dTau dt alpha vol here (map fst fs) dU;
  Ok (sub_state D buf).
