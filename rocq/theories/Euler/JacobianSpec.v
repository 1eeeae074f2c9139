(** Words used in the statements about the Jacobians of the implicit solver. *)
From Coq Require Import Reals List Arith.
From Verif Require Import Base.Prelude Euler.GasModel Euler.GasSpec Euler.RiemannModel Euler.JacobianModel.
Import ListNotations.
Local Open Scope R_scope.

(** the straight line of states from [U] in the direction [dU] *)
Definition along (U dU : state) (t : R) : state := add_state U (scale_state t dU).

(** the exact flux, with the extra scalars carried by the flow *)
Definition full_flux (d : nat) (g : R) (vg n : vec) (U : state) : state :=
  let F := exact_flux d g vg n U in
  {| rho := rho F; mom := mom F; ene := ene F; extra := fun i => extra U i * dot d (fun k => velocity U k - vg k) n |}.

(** the dissipation of a face for the jump [W]: by one speed, or by Roe's waves *)
Definition plain_diss (l : speeds_in) (W : state) : state := scale_state (lamMain l) W.
Definition roe_diss (d : nat) (g : R) (n : vec) (UL UR : state) (l : speeds_in) (W : state) : state :=
  let A := roe_average d g UL UR in
  let w := wave_sum d g n A (sqrt (av_a2 A)) W (lam0 l) (lam123 l) (lam4 l) in
  {| rho := rho w + lamVis l * rho W; mom := fun i => mom w i + lamVis l * mom W i; ene := ene w + lamVis l * ene W;
     extra := fun i => lamMain l * extra W i |}.

(** mean of the fluxes of both sides less half the dissipation of the jump *)
Definition dissipative_flux (d : nat) (g : R) (diss : state -> state) (vg n : vec) (UL UR : state) : state :=
  sub_state (scale_state (1/2) (add_state (full_flux d g vg n UL) (full_flux d g vg n UR))) (scale_state (1/2) (diss (sub_state UR UL))).

Definition sum_states (l : list state) : state := fold_right add_state zero_st l.
(** what flows out of a cell, per volume: [diss] may differ from face to face; [us] holds
    the states behind the faces *)
Definition outflow (d : nat) (g vol : R) (diss : cface -> state -> state) (U : state) (fs : list (cface * state)) : state :=
  sum_states (map (fun p => scale_state (area (fst p) / vol) (dissipative_flux d g (diss (fst p)) (vgrid (fst p)) (nrm (fst p)) U (snd p))) fs).

(** the faces close the cell, and together sweep no volume *)
Fixpoint lsum {A} (f : A -> R) (l : list A) : R := match l with [] => 0 | a :: l => f a + lsum f l end.
Definition closed (d : nat) (fs : list cface) : Prop :=
  (forall i, (i < d)%nat -> lsum (fun f => area f * nrm f i) fs = 0) /\ lsum (fun f => area f * dot d (vgrid f) (nrm f)) fs = 0.
(** the states behind the faces, moved along their increments *)
Definition moved (fs : list (cface * state)) (t : R) : list (cface * state) :=
  map (fun p => (fst p, along (there (fst p)) (snd p) t)) fs.
(** time term plus [alpha] times the outflow, along the increments *)
Definition implicit_residual (d : nat) (g dTau dt alpha vol : R) (diss : cface -> state -> state) (U dU : state) (fs : list (cface * state)) (t : R) : state :=
  add_state (scale_state (1 / dTau + 1 / dt) (along U dU t)) (scale_state alpha (outflow d g vol diss (along U dU t) (moved fs t))).

(** states Roe's average is defined for *)
Definition roe_ok (d : nat) (g : R) (U UO : state) : Prop :=
  0 < rho U /\ 0 < rho UO /\ 0 < av_a2 (roe_average d g U UO).

(** a mesh without boundary: faces between the cells [fL] and [fR], with the unit normal
    from [fL] to [fR] and the speeds of the waves for that order *)
Record mface := { fL : nat; fR : nat; farea : R; flam : speeds_in; fnrm : vec; fvg : vec }.
Definition back_speeds (l : speeds_in) : speeds_in := {| lamMain := lamMain l; lamVis := lamVis l; lam0 := lam4 l; lam123 := lam123 l; lam4 := lam0 l |}.
Definition left_view (u : nat -> state) (f : mface) : cface :=
  {| area := farea f; lam := flam f; nrm := fnrm f; vgrid := fvg f; there := u (fR f) |}.
Definition right_view (u : nat -> state) (f : mface) : cface :=
  {| area := farea f; lam := back_speeds (flam f); nrm := opp (fnrm f); vgrid := fvg f; there := u (fL f) |}.
(** the faces of cell [i] as it sees them, with the increments behind them *)
Definition seen (u du : nat -> state) (fs : list mface) (i : nat) : list (cface * state) :=
  flat_map (fun f => (if (fL f =? i)%nat then [(left_view u f, du (fR f))] else []) ++
                     (if (fR f =? i)%nat then [(right_view u f, du (fL f))] else [])) fs.
(** every face joins two of the [N] cells, and every cell is closed *)
Definition mesh_ok (d N : nat) (u du : nat -> state) (fs : list mface) : Prop :=
  (forall f, In f fs -> (fL f < N)%nat /\ (fR f < N)%nat) /\
  forall i, (i < N)%nat -> closed d (map fst (seen u du fs i)).
