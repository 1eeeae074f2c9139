(** What a conservative finite volume right-hand side is (C54), on the whole mesh. *)
From Coq Require Import List ZArith Reals Bool Permutation.
From Verif Require Import Base.Prelude Geom.AdjModel Geom.BoundaryModel Geom.PeriodicModel Euler.RhsModel.
Import ListNotations.
Local Open Scope R_scope.

(** A face of the whole mesh: its cells, its zone, whether it is a wall and the
    flux through it, which is added to cell [side0] and taken from [side1]. *)
Record gface := GFace { side0 : nat; side1 : option nat; gzone : Z; gwall : bool; gflux : state }.

Definition rsum (l : list R) : R := fold_right Rplus 0 l.

(** A flux through a face of zone [z] seen from the cell of side 1: across a rotational
    period the momentum is turned, forwards for the main and back for the donor boundary. *)
Definition turned (dim : nat) (isPeriodic : bool) (p : Periodicity) (z : Z) (u : state) : state := fun k =>
  if isPeriodic && Nat.leb 1 k && Nat.leb k dim then
    match z with
    | -1 | -2 | -3 => match nth_error (rotation p) (Z.to_nat (- z)) with
        | Some Q => sumn dim (fun j => Q (Nat.pred k) j * u (S j))%R | None => u k end
    | -4 | -5 | -6 => match nth_error (rotation p) (Z.to_nat (- z - 3)) with
        | Some Q => sumn dim (fun j => Q j (Nat.pred k) * u (S j))%R | None => u k end
    | _ => u k
    end%Z
  else u k.

(** The rate of change of cell [c]: the fluxes of its faces over its volume. *)
Definition face_rate dim isPeriodic p (vol : nat -> R) (c k : nat) (f : gface) : R :=
  (if Nat.eqb (side0 f) c then gflux f k / vol c else 0) -
  match side1 f with
  | Some c' => if Nat.eqb c' c then turned dim isPeriodic p (gzone f) (gflux f) k / vol c else 0
  | None => 0
  end.
Definition cell_rate dim isPeriodic p vol (G : list gface) (c k : nat) : R :=
  rsum (map (face_rate dim isPeriodic p vol c k) G).

(** A rank: the global numbers of its own cells, of its ghost cells and of its faces; its
    number of own faces and its face table. *)
Record rank := Rank { own : list nat; ghost : list nat; fs : list nat; nFace : nat; table : list face }.

(** A row of the face table is the global face, in local cell numbers. *)
Definition matches (cells : list nat) (lf : face) (gf : gface) : Prop :=
  (0 <= f2c0 lf)%Z /\ nth_error cells (Z.to_nat (f2c0 lf)) = Some (side0 gf) /\
  match side1 gf with
  | None => f2c1 lf = UnInitIndex
  | Some c => (0 <= f2c1 lf)%Z /\ nth_error cells (Z.to_nat (f2c1 lf)) = Some c
  end /\
  zone lf = gzone gf /\ is_wall lf = gwall gf /\ (forall k, fluxEs lf k = gflux gf k).
Definition touches (cells : list nat) (gf : gface) : Prop :=
  In (side0 gf) cells \/ exists c, side1 gf = Some c /\ In c cells.
(** The face table of a rank has exactly the faces of its own cells, each once. *)
Definition has_faces (G : list gface) (r : rank) : Prop :=
  NoDup (own r ++ ghost r) /\ NoDup (fs r) /\
  Forall2 (fun i lf => exists gf, nth_error G i = Some gf /\ matches (own r ++ ghost r) lf gf) (fs r) (table r) /\
  (forall i gf, nth_error G i = Some gf -> (In i (fs r) <-> touches (own r) gf)).

(** Component [k] is not turned by any periodic boundary of the mesh. *)
Definition untouched (dim : nat) (isPeriodic : bool) (p : Periodicity) (k : nat) (f : gface) : Prop :=
  k = 0%nat \/ (dim < k)%nat \/ isPeriodic = false \/ FaceIDIsPeriodic (gzone f) = false \/
  (forall Q, In Q (rotation p) -> forall i j, (i < dim)%nat -> (j < dim)%nat -> Q i j = ident i j).

Definition is_boundary (f : gface) : bool := match side1 f with None => true | Some _ => false end.

(** The cells are distributed over the ranks. *)
Definition distributed (n : nat) (ranks : list rank) : Prop :=
  Permutation (concat (map own ranks)) (seq 0 n).
Definition sides_in (n : nat) (f : gface) : Prop :=
  (side0 f < n)%nat /\ forall c, side1 f = Some c -> (c < n)%nat.

(** The volume-weighted sum of component [k] of the rows of own cells. *)
Definition amount (vol : nat -> R) (k : nat) (r : rank) (rhs : list state) : R :=
  rsum (map (fun '(c, row) => vol c * row k) (combine (own r) rhs)).

(** The right-hand side as rank [r] computes it, without and with threads, for volumes,
    source factors and integrated sources given on the whole mesh. *)
Section Runs.
Variables (dim : nat) (isPeriodic : bool) (p : Periodicity) (vol alpha : nat -> R) (S : nat -> state).
Definition run (noSource : bool) (r : rank) : res (list state) :=
  EvaluateRHS dim isPeriodic p (Z.of_nat (length (own r))) (map vol (own r ++ ghost r)) (table r)
    noSource (map alpha (own r ++ ghost r)) (map S (own r)).
Definition run_threads (noSource : bool) (cell2face : list (list Z)) (r : rank) : res (list state) :=
  EvaluateRHS_threads dim isPeriodic p (Z.of_nat (length (own r))) (map vol (own r ++ ghost r)) (table r) cell2face
    noSource (map alpha (own r ++ ghost r)) (map S (own r)).
(** What the source adds to cell [c]. *)
Definition source_rate (noSource : bool) (c k : nat) : R :=
  if noSource then 0 else S c k * (alpha c / vol c).
End Runs.

(** cell2face of a rank: the faces of each own cell, each once. *)
Definition has_cell2face (r : rank) (cell2face : list (list Z)) : Prop :=
  length cell2face = length (own r) /\
  forall i l, nth_error cell2face i = Some l -> NoDup l /\
    forall j, In j l <-> exists f, (0 <= j)%Z /\ nth_error (table r) (Z.to_nat j) = Some f /\
      (f2c0 f = Z.of_nat i \/ f2c1 f = Z.of_nat i).

(** The faces of cell [c] close: their outward area vectors sum to zero. *)
Definition closed (area : gface -> nat -> R) (G : list gface) (c : nat) : Prop :=
  forall d, rsum (map (fun f => (if Nat.eqb (side0 f) c then area f d else 0) -
    match side1 f with Some c' => if Nat.eqb c' c then area f d else 0 | None => 0 end) G) = 0.

(** The walls of a rank are among its own faces, which come first. *)
Definition wall_first (G : list gface) (r : rank) : Prop :=
  forall j i f, nth_error (fs r) j = Some i -> nth_error G i = Some f -> gwall f = true -> (j < nFace r)%nat.
