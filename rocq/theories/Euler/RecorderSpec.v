(** Words used in the statements about the recorders. *)
From Coq Require Import Reals List Arith ZArith.
From Verif Require Import Base.Prelude Euler.GasModel Euler.RecorderModel Solver.ScalarModel.
Import ListNotations.
Local Open Scope R_scope.

(** length of the common part of [l, r] and [a, b] *)
Definition overlap (l r a b : R) : R := Rmax (Rmin r b - Rmax l a) 0.
(** nodes in increasing order *)
Definition increasing (l : list R) : Prop := forall i j, (i < j < List.length l)%nat -> nth i l 0 < nth j l 0.
Definition nondecreasing (l : list R) : Prop := forall i j, (i < j < List.length l)%nat -> nth i l 0 <= nth j l 0.

(** one face: its mean value, its area and the interval it covers *)
Record face := { f_v : vec; f_area : R; f_l : R; f_r : R }.
(** the share of its area that falls to the interval [a, b] *)
Definition share (f : face) (a b : R) : R := f_area f * (overlap (f_l f) (f_r f) a b / (f_r f - f_l f)).
Definition node (p : profile) (i : nat) : R := nth i (p_nodes p) 0.
Definition well_formed (p : profile) : Prop :=
  (2 <= List.length (p_nodes p))%nat /\ nondecreasing (p_nodes p) /\ List.length (p_bins p) = (List.length (p_nodes p) - 1)%nat.
Definition bin0 : bin := {| b_v := vzero; b_div := 0 |}.
Definition bin_of (p : profile) (i : nat) : bin := nth i (p_bins p) bin0.

Fixpoint sum_of {A} (f : A -> R) (l : list A) : R := match l with [] => 0 | x :: l => f x + sum_of f l end.

(** adding faces one after the other *)
Definition fill (p : profile) (fs : list face) : res profile :=
  foldM (fun p f => add_interval p (f_v f) (f_area f) (f_l f) (f_r f)) p fs.
(** the same with anchors and integrals *)
Definition anchors (a : anchor) (l : list (vec * R)) : anchor := fold_left (fun a x => anchor_add a (fst x) (snd x)) l a.
Definition integrals (r : integral) (l : list (vec * R)) : integral := fold_left (fun r x => integral_add r (fst x) (snd x)) l r.

(** middle of an interval *)
Definition mid (p : profile) (i : nat) : R := (node p i + node p (i + 1)) / 2.

(** the averages of a bin *)
Definition avg (p : profile) (i c : nat) : R := b_v (bin_of p i) c / (b_div (bin_of p i) + verySmallReal).
(** average over two neighbouring bins, weighted by their lengths *)
Definition across (p : profile) (f : nat -> R) (i : nat) : R :=
  (f i * (node p (i + 1) - node p i) + f (i + 1)%nat * (node p (i + 2) - node p (i + 1))) / (node p (i + 2) - node p i).
(** dp/dr = rho vt^2 / r, summed from the middle of the first bin *)
Fixpoint equilibrium (p : profile) (i : nat) : R :=
  match i with
  | O => 0
  | S k => equilibrium p k +
           across p (fun j => avg p j 0) k * (across p (fun j => avg p j 2 / avg p j 0) k) ^ 2 / node p (k + 1) * (mid p (k + 1) - mid p k)
  end.
