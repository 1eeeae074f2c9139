(** What the time steppers are meant to do. *)
From Coq Require Import List ZArith Reals.
From Verif Require Import Base.Prelude Solver.OdeModel.
Import ListNotations.
Local Open Scope R_scope.

Fixpoint Rsum (l : list R) : R := match l with [] => 0 | x :: t => x + Rsum t end.

(** ** Multistep formulas

    A formula has a coefficient [c0] for the right-hand side and one for each old state,
    the newest first. *)
Record formula := { c_rhs : R; c_old : list R }.

(** The old states' part of the residual, and the residual at [x] with right-hand side [f]. *)
Definition old_sum (c : formula) (olds : list D) (dt : R) : D :=
  fun i => Rsum (map (fun co => fst co * snd co i / dt) (combine (c_old c) olds)).
Definition residual (c : formula) (olds : list D) (dt : R) (x f : D) : D :=
  fun i => old_sum c olds dt i - x i / dt + c_rhs c * f i.

Section Spec.
Context {E T : Type}.
Variable C : calls E T.

(** The inner iteration with the residual of the formula. *)
Fixpoint spec_loop (c : formula) (olds : list D) (dt : R) (n : nat) (iter : Z) (l : regs E T) : regs E T :=
  match n with
  | O => let '(e, rhs, _) := fstop C (r_env l) iter (r_rhs l) 1 in
         {| r_env := e; r_x := r_x l; r_xinc := r_xinc l; r_dTau := r_dTau l; r_rhsbuf := r_rhsbuf l;
            r_rhs := rhs; r_resOther := r_resOther l; r_xIncPrev := r_xIncPrev l |}
  | S n =>
      let '(e1, x1, t1) := fdt C (r_env l) (r_x l) (r_dTau l) (c_rhs c) 0 in
      let '(e2, f, x2, t2) := frhs C e1 (r_rhsbuf l) x1 t1 iter 1 0 in
      let '(e3, x3, rhs, resOther, t3, xinc3) :=
        fsolve C e2 x2 (residual c olds dt x2 f) (old_sum c olds dt) t2 dt (c_rhs c) (r_xinc l) iter 1 0 in
      let '(e4, x4, xinc4) := fincrement C e3 x3 xinc3 1 0 in
      let '(e5, rhs', stop) := fstop C e4 iter rhs 1 in
      let l' := {| r_env := e5; r_x := x4; r_xinc := xinc4; r_dTau := t3; r_rhsbuf := f; r_rhs := rhs';
                   r_resOther := resOther; r_xIncPrev := xinc4 |} in
      if stop then l' else spec_loop c olds dt n (iter + 1) l'
  end.

(** The history is the list of all earlier steps, the newest first: the state each started
    from and its size.  A step of maximal order [k] uses the newest [k-1] of them and the
    state it starts from; [form] gives the formula from the sizes of these steps. *)
Definition spec_step (k : nat) (form : list R -> R -> formula) (past : list (D * R)) (l : regs E T)
  (maxIter : Z) (dt : R) : list (D * R) * regs E T :=
  let kept := firstn (k - 1) past in
  ((r_x l, dt) :: past,
   spec_loop (form (map snd kept) dt) (r_x l :: map fst kept) dt (Z.to_nat maxIter) 1 (start l)).

Definition spec_steps k form past l (todo : list ((regs E T -> regs E T) * Z * R)) : list (D * R) * regs E T :=
  fold_left (fun pl t => spec_step k form (fst pl) (fst (fst t) (snd pl)) (snd (fst t)) (snd t)) todo (past, l).
End Spec.

(** The formulas by the sizes of the steps kept: the number of these fixes the order. *)
Definition form_of (row : list R) : formula := {| c_rhs := hd 0 row; c_old := tl row |}.
Definition BDF_formula (dts : list R) (_ : R) : formula :=
  form_of (nth (length dts)
    [[1; 1]; [2 / 3; 4 / 3; -1 / 3]; [6 / 11; 18 / 11; -9 / 11; 2 / 11];
     [12 / 25; 48 / 25; -36 / 25; 16 / 25; -3 / 25]] []).
Definition VBDF_formula (dts : list R) (dt : R) : formula :=
  match dts with
  | [] => form_of [1; 1]
  | d :: _ => let w := dt / d in  (* the ratio of the steps *)
      form_of [(1 + w) / (1 + 2 * w); (1 + w) * (1 + w) / (1 + 2 * w); - (w * w) / (1 + 2 * w)]
  end.

(** The steps of the constant formula are all of one size, as far as the program tells. *)
Definition alike (dt d : R) : Prop := Rabs (d - dt) < dt * (1 / 100000000).
Fixpoint steady (k : nat) (past todo : list R) : Prop :=
  match todo with
  | [] => True
  | dt :: t => Forall (alike dt) (firstn (k - 1) past) /\ steady k (dt :: past) t
  end.

(** What the buffer of a stepper holds: the newest steps, the newest first. *)
Definition holds_history (st : bdf) (k : nat) (past : list (D * R)) : Prop :=
  let kept := firstn (k - 1) past in
  cnPrev st = zlen kept /\
  forall j x dt, nth_error kept j = Some (x, dt) ->
    prev_at st (xPrevs st) (Z.of_nat j) = Ok x /\ prev_at st (dtPrevs st) (Z.of_nat j) = Ok dt.

(** ** Exactness on polynomials: [poly a] has the coefficients [a], the constant one first. *)
Definition poly (a : list R) (t : R) : R := fold_right (fun c v => c + t * v) 0 a.
(** Solutions whose entries are polynomials of at most this degree. *)
Definition of_degree (n : nat) (a : nat -> list R) : Prop := forall i, (length (a i) <= S n)%nat.
Definition at_time (a : nat -> list R) (t : R) : D := fun i => poly (a i) t.
(** [f] is the derivative of the solution at the time. *)
Definition slope (a : nat -> list R) (t : R) (f : D) : Prop := forall i, derivable_pt_lim (poly (a i)) t (f i).
(** A formula is exact for the solution, at the step of size [dt] from time [t], with the old
    states at [t] and at the times [ts]: its residual vanishes at the solution and nowhere else. *)
Definition exact_for (c : formula) (a : nat -> list R) (t dt : R) (ts : list R) : Prop :=
  forall x f, slope a (t + dt) f ->
    ((forall i, residual c (map (at_time a) (t :: ts)) dt x f i = 0) <-> (forall i, x i = at_time a (t + dt) i)).

(** ** Limiters that never act *)
Definition inactive {E} (Lm : limiters (E := E)) : Prop :=
  (forall e v p, falphaLimSource Lm e v p = (e, v)) /\
  (forall e x xp f ri renew ct p, (forall e' xp' f', fst (renew e' xp' f') = e') ->
     exists ri', fresidualIncPP Lm e x xp f ri renew ct p = (e, x, xp, f, ri')).

(** Callbacks that differ only in the right-hand side they compute. *)
Definition same_but_rhs {E T} (C C' : calls E T) : Prop :=
  fdt C = fdt C' /\ fsolve C = fsolve C' /\ fstop C = fstop C' /\ fincrement C = fincrement C' /\
  forall e r r' x t iter ct p, let '(e1, _, x1, t1) := frhs C e r x t iter ct p in
    let '(e2, _, x2, t2) := frhs C' e r' x t iter ct p in e1 = e2 /\ x1 = x2 /\ t1 = t2.

(** The same apart from the right-hand side that was kept. *)
Definition same_but_rhsbuf {E T} (l l' : regs E T) : Prop :=
  r_env l = r_env l' /\ r_x l = r_x l' /\ r_xinc l = r_xinc l' /\ r_dTau l = r_dTau l' /\ r_rhs l = r_rhs l' /\
  r_resOther l = r_resOther l' /\ r_xIncPrev l = r_xIncPrev l'.
(** Both end alike: with related results, or both in the same failure. *)
Definition rel_res {A B} (R0 : A -> B -> Prop) (a : res A) (b : res B) : Prop :=
  match a, b with Ok x, Ok y => R0 x y | Abort, Abort => True | UB, UB => True | _, _ => False end.

(** The callbacks with a solver that is told of the old states only: instead of the residual
    [c x f] it gets (1 + c) times the one without the right-hand side. *)
Definition deaf {E T} (C : calls E T) : calls E T :=
  {| frhs := frhs C; fdt := fdt C; fstop := fstop C; fincrement := fincrement C;
     fsolve := fun e x _ olds t dt c xinc iter ct p =>
       fsolve C e x (fun i => (1 + c) * (olds i - x i / dt)) olds t dt c xinc iter ct p |}.
(** The callbacks with a right-hand side that leaves what is in the buffer. *)
Definition stale {E T} (C : calls E T) : calls E T :=
  {| fdt := fdt C; fstop := fstop C; fincrement := fincrement C; fsolve := fsolve C;
     frhs := fun e r x t iter ct p => let '(e1, _, x1, t1) := frhs C e r x t iter ct p in (e1, r, x1, t1) |}.
