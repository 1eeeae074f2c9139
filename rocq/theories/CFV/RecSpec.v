(** What a reconstruction is (C56): polynomials, the base functions of a cell, means over
    the points of a rule, and the functional of the jumps. *)
From Coq Require Import List ZArith Reals Bool.
From Verif Require Import Base.Prelude Geom.AdjModel Geom.BoundaryModel Geom.PeriodicModel Geom.PeriodicSpec Geom.BaseFnModel Geom.BaseFnSpec
  Geom.DiffTensorSpec CFV.RecModel.
Import ListNotations.
Local Open Scope R_scope.

(** Polynomials of degree at most [n] in the coordinates of a dimension, as sums of
    coefficients and exponents. *)
Definition mono (p : nat * nat * nat) : fn := fun X Y Z => let '(a, b, c) := p in X ^ a * Y ^ b * Z ^ c.
Definition polynomial (dim n : nat) (f : fn) : Prop := exists l : list (R * (nat * nat * nat)),
  Forall (fun t => (order_of (snd t) <= n)%nat /\ (dim = 2%nat -> snd (snd t) = 0%nat)) l /\
  forall X Y Z, f X Y Z = sum_over l (fun t => fst t * mono (snd t) X Y Z).

(** The coordinates of a cell: from its centre, along its axes if it has its own ones. *)
Definition own_coordinate (st : settings) (c : cell) (a : nat) : fn := fun X Y Z =>
  let d := vsub (point X Y Z) (cent c) in
  if localOrientation st then sumn 3 (fun i => majorCoord c i a * d i) else d a.
(** The lengths of a cell: half the extents of its box, or the largest of them for all. *)
Definition box (st : settings) (c : cell) : vec := if localOrientation st then majorHBox c else alignedHBox c.
Definition own_length (st : settings) (c : cell) (a : nat) : R :=
  let h := box st c in
  if anisotropicLengths st then h a else
  if Nat.eqb (dim st) 2 then Rmax (h 0%nat) (h 1%nat) else Rmax (Rmax (h 0%nat) (h 1%nat)) (h 2%nat).
(** The base functions: the monomials of the coordinates over the lengths, in the order of
    the table of multi-indices, minus a constant. *)
Definition exponents (st : settings) (j : nat) : nat * nat * nat :=
  let '(a, b, c) := nth j (operators (dim st)) (0, 0, 0)%Z in (Z.to_nat a, Z.to_nat b, Z.to_nat c).
Definition base_fn (st : settings) (c : cell) (j : nat) : fn := fun X Y Z =>
  mono (exponents st j) (own_coordinate st c 0 X Y Z / own_length st c 0) (own_coordinate st c 1 X Y Z / own_length st c 1)
                        (own_coordinate st c 2 X Y Z / own_length st c 2) - moment c j.
Definition with_moment (c : cell) (m : vec) : cell :=
  Cell (cent c) (alignedHBox c) (majorHBox c) (majorCoord c) m (relax c) (cell2face c).

(** Settings that are supported, and cells of some extent; own axes are orthonormal, and
    in 2D in the plane. *)
Definition supported (st : settings) : Prop := (dim st = 2%nat \/ dim st = 3%nat) /\ (maxOrder st <= 3)%nat.
Definition planar_axes (M : mat) : Prop := forall i, (i < 2)%nat -> M i 2%nat = 0 /\ M 2%nat i = 0.
Definition sound_cell (st : settings) (c : cell) : Prop :=
  (forall a, (a < dim st)%nat -> own_length st c a <> 0) /\
  (localOrientation st = true -> orthogonal 3 (majorCoord c) /\ (dim st = 2%nat -> planar_axes (majorCoord c))).

(** Sums over the points of a rule: weight, Jacobian determinant, point. *)
Definition value_at (f : fn) (x : vec) : R := f (x 0%nat) (x 1%nat) (x 2%nat).
Definition over_rule (rule : list (R * R * vec)) (g : vec -> R) : R :=
  sum_over rule (fun '(w, J, x) => g x * J * w).
Definition measure (rule : list (R * R * vec)) : R := over_rule rule (fun _ => 1).
Definition mean (rule : list (R * R * vec)) (f : fn) : R := over_rule rule (value_at f) / measure rule.

(** The reconstruction of a variable in a cell: the mean plus the base functions (but the
    constant one) times their coefficients. *)
Definition rec_fn (st : settings) (c : cell) (mean : R) (coef : nat -> R) : fn := fun X Y Z =>
  mean + sumn (rows_up_to (dim st) (maxOrder st) - 1) (fun l => coef l * base_fn st c (S l) X Y Z).

(** The moments of a cell are such that the base functions have mean zero. *)
Definition own_moments (st : settings) (c : cell) (rule : list (R * R * vec)) : Prop :=
  measure rule <> 0 /\ forall j, (j < rows_up_to (dim st) (maxOrder st))%nat -> mean rule (base_fn st c j) = 0.

(** The functional of a face.  Derivatives are taken along directions: the rows of the
    matrix of the face, or the axes times the length of the face. *)
Definition face_length (st : settings) (f : face) : R :=
  let s := sumn (dim st) (fun i => alignedScales f i ^ 2) in
  sqrt (match scaleType st with MeanAACBB => s / INR (dim st) | _ => s end) * scaleMultiplier st.
Definition directions (st : settings) (f : face) : mat :=
  if useAnisotropicFunctional st then coordTrans f else fun i j => if Nat.eqb i j then face_length st f else 0.
Definition number_of (a : axis) : nat := match a with AX => 0 | AY => 1 | AZ => 2 end%nat.
Fixpoint directional (dim : nat) (A : mat) (val : nat * nat * nat -> R) (ds : list axis) : R :=
  match ds with
  | [] => val (0, 0, 0)%nat
  | d :: ds => sum_over (axes dim) (fun m => A (number_of d) (number_of m) * directional dim A (fun i => val (next m i)) ds)
  end.
(** The product of two functions given by their derivatives up to some order: for every
    order the contraction of the derivatives, times the square of a weight. *)
Definition product (st : settings) (f : face) (order : nat) (va vb : nat * nat * nat -> R) : R :=
  sumn (S order) (fun rank => weight f rank ^ 2 *
    sum_over (sequences (axes (dim st)) rank) (fun ds =>
      directional (dim st) (directions st f) va ds * directional (dim st) (directions st f) vb ds)).
Definition known_scale (st : settings) : Prop := scaleType st <> UnknownScale.

(** A mesh for the first [nCell] of some cells: the cells are sound and the faces of a cell
    join it to another one, or are of an external boundary and have the cell as their first. *)
Definition joins (n : Z) (f : face) (i : Z) : Prop :=
  if FaceIDIsExternalBC (zone f) then f2c0 f = i /\ f2c1 f = UnInitIndex
  else (f2c0 f = i \/ f2c1 f = i) /\ f2c0 f <> f2c1 f /\ (0 <= f2c0 f < n)%Z /\ (0 <= f2c1 f < n)%Z.
Definition sound_mesh (st : settings) (nCell : Z) (cells : list cell) (faces : list face) : Prop :=
  (0 <= nCell <= zlen cells)%Z /\ Forall (sound_cell st) cells /\
  forall i c iFace, (0 <= i < nCell)%Z -> vget cells i = Ok c -> In iFace (cell2face c) ->
    exists f, vget faces iFace = Ok f /\ joins (zlen cells) f i.
(** Periods that are orthogonal, and in 2D in the plane. *)
Definition sound_periods (st : settings) : Prop :=
  isPeriodic st = true -> well_formed 3 (periodicity st) /\ (dim st = 2%nat -> planar (periodicity st)).

(** The cell on the other side of a face, a point of it as seen from the cell, and a value
    of it as seen from the cell, given how values change across a period. *)
Definition neighbour (f : face) (i : Z) : Z := if (f2c0 f =? i)%Z then f2c1 f else f2c0 f.
Definition seen_from (st : settings) (f : face) (i : Z) (y : vec) : res vec :=
  if isPeriodic st then GetOtherCellPointFromCell (periodicity st) (zone f) (if (f2c0 f =? i)%Z then 0 else 1) y else Ok y.
Definition brought (st : settings) (forth back : vec -> Z -> vec) (f : face) (i : Z) (w : vec) : vec :=
  if isPeriodic st && FaceIDIsPeriodic (zone f) then
    if xorb (f2c0 f =? i)%Z (FaceIDIsPeriodicMain (zone f)) then forth w (zone f) else back w (zone f)
  else w.
Definition linear_change (F : vec -> Z -> vec) : Prop := forall a b x y z v,
  F (fun k => a * x k + b * y k) z v = a * F x z v + b * F y z v.

(** The reconstruction of a variable in a cell, from the means and the coefficients. *)
Definition reconstruction (st : settings) (cells : list cell) (u : list vec) (uRec : list mat) (i : Z) (v : nat) (x : vec) : R :=
  match vget cells i, vget u i, vget uRec i with
  | Ok c, Ok ui, Ok ci => value_at (rec_fn st c (ui v) (fun l => ci l v)) x
  | _, _, _ => 0
  end.
(** The faces of the first [nCell] cells. *)
Definition face_of (nCell : Z) (cells : list cell) (faces : list face) (i iFace : Z) (f : face) : Prop :=
  (0 <= i < nCell)%Z /\ exists c, vget cells i = Ok c /\ In iFace (cell2face c) /\ vget faces iFace = Ok f.

(** On both sides of every inner face the reconstructions are the same functions. *)
Definition matching_inside (st : settings) (forth back : vec -> Z -> vec) (nCell : Z) (cells : list cell) (faces : list face)
  (u : list vec) (uRec : list mat) : Prop :=
  forall i iFace f, face_of nCell cells faces i iFace f -> FaceIDIsExternalBC (zone f) = false -> forall y v,
    yields (seen_from st f i y) (fun x => reconstruction st cells u uRec i v x =
      brought st forth back f i (fun w => reconstruction st cells u uRec (neighbour f i) w y) v).
(** At external boundaries the values prescribed are those of the reconstruction (unless
    they have no weight), and derivatives have no weight. *)
Definition matching_outside (st : settings) (prescribed : vec -> vec -> Z -> Z -> nat -> vec) (nCell : Z) (cells : list cell) (faces : list face)
  (u : list vec) (uRec : list mat) : Prop :=
  forall i iFace f, face_of nCell cells faces i iFace f -> FaceIDIsExternalBC (zone f) = true ->
    (forall r, (1 <= r <= maxOrder st)%nat -> weight f r = 0) /\
    forall g w J x ui v, nth_error (points f) g = Some (w, J, x) -> vget u i = Ok ui -> weight f 0%nat <> 0 ->
      prescribed (fun v => reconstruction st cells u uRec i v x) ui i iFace g v = reconstruction st cells u uRec i v x.
(** Sweeping in place needs prescribed values that do not depend on the reconstruction, or
    no external boundaries. *)
Definition prescribed_or_none (prescribed : vec -> vec -> Z -> Z -> nat -> vec) (nCell : Z) (cells : list cell) (faces : list face) : Prop :=
  (forall a b ui i k g, prescribed a ui i k g = prescribed b ui i k g) \/
  (forall i iFace f, face_of nCell cells faces i iFace f -> FaceIDIsExternalBC (zone f) = false).

(** The inverse of a matrix is one. *)
Definition inverted (st : settings) (K : coeff) : Prop := forall l q,
  (l < rows_up_to (dim st) (maxOrder st) - 1)%nat -> (q < rows_up_to (dim st) (maxOrder st) - 1)%nat ->
  mmul (rows_up_to (dim st) (maxOrder st) - 1) (AInv K) (matA K) l q = kron l q.
(** Two sets of coefficients are the same. *)
Definition same_coefficients (st : settings) (n : Z) (a b : list mat) : Prop := forall i, (0 <= i < n)%Z ->
  exists x y, vget a i = Ok x /\ vget b i = Ok y /\
  forall l v, (l < rows_up_to (dim st) (maxOrder st) - 1)%nat -> x l v = y l v.

(** Polynomials of every variable: their means over the cells by the rules that the moments
    are from, as a boundary condition they hold at the boundary, and a reconstruction is they. *)
Definition means_of (st : settings) (cells : list cell) (rule : Z -> list (R * R * vec)) (P : nat -> fn) (u : list vec) : Prop :=
  zlen u = zlen cells /\
  forall i c ui, vget cells i = Ok c -> vget u i = Ok ui -> own_moments st c (rule i) /\ forall v, ui v = mean (rule i) (P v).
Definition held_outside (st : settings) (prescribed : vec -> vec -> Z -> Z -> nat -> vec) (nCell : Z) (cells : list cell) (faces : list face)
  (u : list vec) (P : nat -> fn) : Prop :=
  forall i iFace f, face_of nCell cells faces i iFace f -> FaceIDIsExternalBC (zone f) = true ->
    (forall r, (1 <= r <= maxOrder st)%nat -> weight f r = 0) /\
    forall g w J x ui v, nth_error (points f) g = Some (w, J, x) -> vget u i = Ok ui -> weight f 0%nat <> 0 ->
      prescribed (fun v => value_at (P v) x) ui i iFace g v = value_at (P v) x.
Definition reproduces (st : settings) (cells : list cell) (u : list vec) (uRec : list mat) (P : nat -> fn) : Prop :=
  zlen uRec = zlen cells /\
  forall i v x, (0 <= i < zlen cells)%Z -> reconstruction st cells u uRec i v x = value_at (P v) x.
(** One iteration leaves the coefficients as they are, and the increment recorded is zero. *)
Definition fixed_point (st : settings) (nCell : Z) (uRec : list mat) (iter : bool -> bool -> res (list mat * list mat)) : Prop :=
  (forall into, exists r N, iter into false = Ok (r, N) /\ same_coefficients st nCell (if into then N else r) uRec) /\
  exists N, iter true true = Ok (uRec, N) /\ same_coefficients st nCell N (map (fun _ => fun _ _ => 0) uRec).

(** What the iteration minimises: the jumps.  The derivatives of a reconstruction, the
    derivatives of its jump at a face (at an external boundary to a constant), and the sum
    over the points of all faces of the product of the jump with itself. *)
Definition derivatives_of (st : settings) (cells : list cell) (u : list vec) (uRec : list mat) (D : Z -> nat -> nat * nat * nat -> fn) : Prop :=
  forall i v, (0 <= i < zlen cells)%Z ->
    smooth_in everywhere (maxOrder st) (fun X Y Z => reconstruction st cells u uRec i v (point X Y Z)) (D i v).
Definition jump (f : face) (wall : R) (D : Z -> nat * nat * nat -> fn) (x : vec) (m : nat * nat * nat) : R :=
  value_at (D (f2c0 f) m) x -
  (if FaceIDIsExternalBC (zone f) then if Nat.eqb (order_of m) 0 then wall else 0 else value_at (D (f2c1 f) m) x).
Definition energy (st : settings) (faces : list face) (wall : Z -> nat -> vec) (D : Z -> nat -> nat * nat * nat -> fn) (v : nat) : R :=
  sum_over (combine (upto (zlen faces)) faces) (fun '(k, f) =>
    sum_over (combine (seq 0 (length (points f))) (points f)) (fun '(g, (w, J, x)) =>
      let j := jump f (wall k g v) (fun i => D i v) x in product st f (maxOrder st) j j * J * w)).
(** A whole mesh: every cell lists each of its faces once. *)
Definition whole_mesh (cells : list cell) (faces : list face) : Prop :=
  (forall k f, vget faces k = Ok f ->
     (0 <= f2c0 f < zlen cells)%Z /\ (FaceIDIsExternalBC (zone f) = false -> f2c0 f <> f2c1 f /\ (0 <= f2c1 f < zlen cells)%Z)) /\
  forall i c, vget cells i = Ok c -> NoDup (cell2face c) /\
    forall k, In k (cell2face c) <-> exists f, vget faces k = Ok f /\ (f2c0 f = i \/ FaceIDIsExternalBC (zone f) = false /\ f2c1 f = i).
Definition positive_rules (faces : list face) : Prop := forall f w J x, In f faces -> In (w, J, x) (points f) -> 0 <= J * w.
Definition inverted_right (st : settings) (K : coeff) : Prop := forall l q,
  (l < rows_up_to (dim st) (maxOrder st) - 1)%nat -> (q < rows_up_to (dim st) (maxOrder st) - 1)%nat ->
  mmul (rows_up_to (dim st) (maxOrder st) - 1) (matA K) (AInv K) l q = kron l q.
(** The walls prescribe given values. *)
Definition given (prescribed : vec -> vec -> Z -> Z -> nat -> vec) (wall : Z -> nat -> vec) : Prop :=
  forall a ui i k g v, prescribed a ui i k g v = wall k g v.
(** No coefficients have less. *)
Definition minimal (st : settings) (cells : list cell) (faces : list face) (wall : Z -> nat -> vec) (u : list vec) (D : Z -> nat -> nat * nat * nat -> fn) : Prop :=
  forall uRec' D' v, zlen uRec' = zlen cells -> derivatives_of st cells u uRec' D' -> energy st faces wall D v <= energy st faces wall D' v.
