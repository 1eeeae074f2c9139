(** The slope limiters of src/CFV/Limiters.hpp, over the real numbers.

    The C++ functions work on Eigen arrays: rows are the coefficients of
    one polynomial degree, columns are the flow variables.  The limiters of
    lines 341-496 work on each entry on its own and are modelled on
    one entry.  The polynomial limiters work on each column on its
    own and are modelled on one column, a list of rows.  Rounding,
    overflow and NaN are not modelled. *)
From Coq Require Import Reals List Lra.
From Verif Require Import Base.Prelude.
Import ListNotations.
Open Scope R_scope.

(** verySmallReal, src/DNDS/Defines.hpp 154. *)
Definition verySmallReal : R := (/ 10) ^ 200.

(** std::pow(verySmallReal, 1.0 / p) with p = 4, Limiters.hpp 346 and the
    same line in the other limiters; [verySmall_root] in LimiterProofs
    checks the fourth power. *)
Definition verySmallReal_pDiP : R := (/ 10) ^ 50.

(** Eigen's array sign(): zero at zero. *)
Definition sgn (x : R) : R :=
  if Rlt_dec 0 x then 1 else if Rlt_dec x 0 then -1 else 0.

(** FMINMOD_Biway, 483-487. *)
Definition minmod (u1 u2 : R) : R :=
  Rmin (Rabs u1) (Rabs u2) * (sgn u1 + sgn u2) * (1 / 2).

(** FVanLeer_Biway, 492-496, with the regularisation as an argument. *)
Definition van_leer_eps (eps u1 u2 : R) : R :=
  (sgn u1 + sgn u2) * Rabs (u1 * u2) / (Rabs (u1 + u2) + eps).
Definition van_leer : R -> R -> R := van_leer_eps verySmallReal.

(** The quotient of FWBAP_L2_Biway 429, FWBAP_L2_Cut_Biway 470 and
    FWBAP_L2_Multiway 361. *)
Definition theta_inverse (e u1 u2 : R) : R := u1 / (Rabs u2 + e) * sgn u2.

(** FWBAP_L2_Biway, 412-461. *)
Definition wbap_eps (e n u1 u2 : R) : R :=
  let frac := theta_inverse e u1 u2 in
  let theta1 := frac * frac * frac in
  let theta2 := (frac * frac) * (frac * frac) in
  u1 * (n + theta1) / (n + theta2) * Rabs (sgn u2).
Definition wbap : R -> R -> R -> R := wbap_eps verySmallReal_pDiP.

(** FWBAP_L2_Cut_Biway, 463-478. *)
Definition wbap_cut_eps (e n u1 u2 : R) : R :=
  let frac := theta_inverse e u1 u2 in
  let theta1 := frac * frac * frac in
  let theta2 := (frac * frac) * (frac * frac) in
  u1 * (n + theta1) / (n + theta2)
  * (Rabs (sgn u2) * (1 / 2 * Rabs (sgn u1 + sgn u2))).
Definition wbap_cut : R -> R -> R -> R := wbap_cut_eps verySmallReal_pDiP.

(** FWBAP_L2_Multiway, 341-371: the loop over the other candidates keeps
    the triple (uUp, uDown, uCent). *)
Definition wbap_multi_eps (e n1 u0 : R) (others : list R) : R :=
  let '(up, down, cent) :=
    fold_left (fun '(up, down, cent) u =>
      let t := theta_inverse e u0 u in
      (up + t * t * t, down + (t * t) * (t * t), cent * Rabs (sgn u)))
      others (0, 0, u0) in
  cent * (up + n1) / (down + n1).
Definition wbap_multi : R -> R -> list R -> R :=
  wbap_multi_eps verySmallReal_pDiP.

(** ** Columns of polynomial coefficients *)

(** The weights of the squares, 508-600 (and the same switch in every
    polynomial limiter): the C++ function asserts false for another number
    of rows.  [dim] is the template argument: 2, or anything else for the
    three-dimensional table. *)
Definition norm_weights (dim rows : nat) : res (list R) :=
  if Nat.eqb dim 2 then
    match rows with
    | 2%nat => Ok [1; 1]
    | 3%nat => Ok [1; 1/2; 1]
    | 4%nat => Ok [1; 1/3; 1/3; 1]
    | _ => Abort
    end
  else
    match rows with
    | 3%nat => Ok [1; 1; 1]
    | 6%nat => Ok [1; 1; 1; 1/2; 1/2; 1/2]
    | 10%nat => Ok [1; 1; 1; 1/3; 1/3; 1/3; 1/3; 1/3; 1/3; 1/6]
    | _ => Abort
    end.

(** Weighted sum of squares of a column. *)
Fixpoint wsq (w t : list R) : R :=
  match w, t with
  | a :: w', x :: t' => x * x * a + wsq w' t'
  | _, _ => 0
  end.

(** uMax, 505-506: the largest of |u1|, |u2| over the rows, plus e. *)
Fixpoint col_max (u1 u2 : list R) : R :=
  match u1, u2 with
  | x :: u1', y :: u2' => Rmax (Rmax (Rabs x) (Rabs y)) (col_max u1' u2')
  | _, _ => 0
  end.
Definition u_max (e : R) (u1 u2 : list R) : R := col_max u1 u2 + e.

Definition map2 (f : R -> R -> R) (a b : list R) : list R :=
  map (fun p => f (fst p) (snd p)) (combine a b).

(** The last statement of FWBAP_L2_Biway_PolynomialNorm (617) and of
    FWBAP_L2_Biway_PolynomialOrth (773). *)
Definition wbap_blend (eps n p1 p2 : R) (u1 u2 : list R) : list R :=
  map2 (fun x y => (y * p1 + n * (x * p2)) / (p1 + n * p2 + eps)) u1 u2.

(** FWBAP_L2_Biway_PolynomialNorm, 498-619.  Arrays of different sizes
    fail an Eigen assertion. *)
Definition wbap_norm_eps (eps e n : R) (dim : nat) (u1 u2 : list R) : res (list R) :=
  do _ <- assert_ (Nat.eqb (length u1) (length u2));
  do w <- norm_weights dim (length u1);
  let m := u_max e u1 u2 in
  let q1 := wsq w (map (fun x => x / m) u1) in
  let q2 := wsq w (map (fun x => x / m) u2) in
  Ok (wbap_blend eps n (q1 * q1) (q2 * q2) u1 u2).
Definition wbap_norm := wbap_norm_eps verySmallReal verySmallReal_pDiP.

(** FMEMM_Biway_PolynomialNorm, 621-755.  replaceFactor computed from
    replaceLoc (731-737) is overwritten at 743 and is not modelled. *)
Definition memm_eps (e : R) (dim : nat) (u1 u2 : list R) : res (list R) :=
  do _ <- assert_ (Nat.eqb (length u1) (length u2));
  do w <- norm_weights dim (length u1);
  let m := u_max e u1 u2 in
  let q1 := sqrt (wsq w (map (fun x => x / m) u1)) in
  let q2 := sqrt (wsq w (map (fun x => x / m) u2)) in
  let if_replace := sgn (q1 - q2) * (1 / 2) + 1 / 2 in
  let factor := 1 - if_replace in
  Ok (map2 (fun x y => x * factor + y * (1 - factor)) u1 u2).
Definition memm := memm_eps verySmallReal_pDiP.

(** FWBAP_L2_Biway_PolynomialOrth, 757-776: plain sums of squares. *)
Definition wbap_orth_eps (eps e n : R) (u1 u2 : list R) : res (list R) :=
  do _ <- assert_ (Nat.eqb (length u1) (length u2));
  let m := u_max e u1 u2 in
  let w := map (fun _ => 1) u1 in
  let q1 := wsq w (map (fun x => x / m) u1) in
  let q2 := wsq w (map (fun x => x / m) u2) in
  Ok (wbap_blend eps n (q1 * q1) (q2 * q2) u1 u2).
Definition wbap_orth := wbap_orth_eps verySmallReal verySmallReal_pDiP.

(** FWBAP_L2_Multiway_Polynomial2D, 9-111, and
    FWBAP_L2_Multiway_PolynomialOrth, 255-297, which differ in the weights
    only.  [uMax] starts at verySmallReal and takes the maximum over all
    candidates and rows; the first candidate counts n1 times. *)
Definition abs_max (u : list R) (m : R) : R :=
  fold_left (fun a x => Rmax a (Rabs x)) u m.
Definition multi_max (eps : R) (us : list (list R)) : R :=
  fold_left (fun m u => abs_max u m) us eps.

Definition multi_step (e m : R) (w : list R) (s : list R * R)
           (exn : R) (u : list R) : list R * R :=
  let theta := map (fun x => x / m) u in
  let nrm := wsq w theta + e in
  let k := / (nrm * nrm) in
  (map2 (fun a x => a + x * k * exn) (fst s) theta, snd s + k * exn).

Definition multi_out (eps e n1 : R) (w : list R) (us : list (list R)) : list R :=
  match us with
  | [] => []
  | u0 :: rest =>
    let m := multi_max eps us in
    let s0 := multi_step e m w (map (fun _ => 0) u0, 0) n1 u0 in
    let s := fold_left (fun s u => multi_step e m w s 1 u) rest s0 in
    map (fun a => m * (a / (snd s + eps))) (fst s)
  end.

Definition multi_check (us : list (list R)) : res nat :=
  match us with
  | [] => UB
  | u0 :: rest =>
    do _ <- assert_ (forallb (fun u => Nat.eqb (length u) (length u0)) rest);
    Ok (length u0)
  end.

Definition wbap_multi_poly2 (n1 : R) (us : list (list R)) : res (list R) :=
  do rows <- multi_check us;
  do w <- norm_weights 2 rows;
  Ok (multi_out verySmallReal verySmallReal_pDiP n1 w us).

Definition wbap_multi_orth (n1 : R) (us : list (list R)) : res (list R) :=
  do rows <- multi_check us;
  Ok (multi_out verySmallReal verySmallReal_pDiP n1 (repeat 1 rows) us).

(** FMEMM_Multiway_Polynomial2D, 116-250: the candidate of least norm, in
    turn against the least so far, and at last against the centre value.
    With [factor] = replaceFactor of 236, which is zero wherever the
    replacement is on, since 231 sets it to replaceLoc * 0 + 1. *)
Definition memm_select (w : list R) (best theta : list R) : list R :=
  let selection := sgn (wsq w theta - wsq w best) * (1 / 2) + 1 / 2 in
  map2 (fun t b => t * (1 - selection) + b * selection) theta best.

Definition memm_multi (u : list R) (others : list (list R)) : res (list R) :=
  do _ <- assert_ (forallb (fun v => Nat.eqb (length v) (length u)) others);
  do w <- norm_weights 2 (length u);
  let m := abs_max u 0 + verySmallReal in
  let theta0 := map (fun x => x / m) u in
  let best := fold_left (fun b v => memm_select w b (map (fun x => x / m) v))
                        others theta0 in
  let if_replace := sgn (wsq w theta0 - wsq w best) * (1 / 2) + 1 / 2 in
  let loc := Rmax (sqrt (wsq w theta0 / (wsq w best + verySmallReal)) - 1) verySmallReal in
  let factor := if_replace * ((loc * 0 + 1 - 1) / loc) + (1 - if_replace) in
  Ok (map2 (fun x b => x * factor + b * m * (1 - factor)) u best).
