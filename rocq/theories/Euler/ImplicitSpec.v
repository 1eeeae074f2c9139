(** Vocabulary of property C58: the linear system of the implicit time stepping. *)
From Coq Require Import List ZArith Bool Reals.
From Verif Require Import Base.Prelude Solver.DirectModel Solver.DirectSpec Solver.LUModel Solver.LUSpec Euler.ImplicitModel.
Import ListNotations.
Local Open Scope Z_scope.

(** what lies across the faces of cell [i]: the face, the side it is seen from, the cell *)
Definition neighbours (m : mesh) (i : Z) : list (Z * bool * Z) :=
  flat_map (fun k =>
    match nth_error (faces m) (Z.to_nat k) with
    | Some f => match across f i with (Some j, sd) => [(fid f, sd, j)] | (None, _) => [] end
    | None => []
    end) (nth (Z.to_nat i) (c2f m) []).
Definition other_cell (p : Z * bool * Z) : Z := snd p.

(** a mesh of [ncell m] own cells among [total] cells *)
Record mesh_ok (m : mesh) (total : Z) : Prop := {
  m_cells : 0 <= ncell m <= total;
  m_rows : zlen (c2f m) = ncell m;
  m_faces : forall i k, 0 <= i < ncell m -> In k (nth (Z.to_nat i) (c2f m) []) -> 0 <= k < zlen (faces m);
  m_across : forall i p, 0 <= i < ncell m -> In p (neighbours m i) -> 0 <= other_cell p < total
}.
(** no cell is its own neighbour, and no two cells share two faces *)
Definition no_self (m : mesh) : Prop :=
  forall i p, 0 <= i < ncell m -> In p (neighbours m i) -> other_cell p <> i.
Definition one_face (m : mesh) : Prop :=
  forall i, 0 <= i < ncell m -> NoDup (map other_cell (filter (fun p => other_cell p <? ncell m) (neighbours m i))).


(** own cells that come before cell [i] in a sweep *)
Definition earlier (m : mesh) (forward : bool) (i j : Z) : bool :=
  (0 <=? j) && (j <? ncell m) && (if forward then j <? i else i <? j).

Section Spec.
  Context {T V : Type} (O : ops T V) (finc : Z -> bool -> V -> V).

  Definition value (u : list V) (i : Z) : V := nth (Z.to_nat i) u (v0 O).
  Definition block (D : list T) (i : Z) : T := nth (Z.to_nat i) D (t0 O).

  (** the increments that reach cell [i] from the neighbours chosen by [sel] *)
  Definition coupling (m : mesh) (sel : Z -> bool) (u : list V) (i : Z) : V :=
    fold_right (vadd O) (v0 O)
      (map (fun p => finc (fst (fst p)) (snd (fst p)) (value u (other_cell p)))
           (filter (fun p => sel (other_cell p)) (neighbours m i))).

  (** row [i] of the system: diagonal block times the cell's value, plus all neighbours *)
  Definition row_of (m : mesh) (D : list T) (u : list V) (i : Z) : V :=
    vadd O (act O (block D i) (value u i)) (coupling m (fun _ => true) u i).
  Definition solves (m : mesh) (D : list T) (rhs u : list V) : Prop :=
    forall i, 0 <= i < ncell m -> row_of m D u i = value rhs i.

  (** the increments are linear *)
  Definition linear : Prop :=
    (forall k sd, finc k sd (v0 O) = v0 O) /\
    forall k sd x y, finc k sd (vadd O x y) = vadd O (finc k sd x) (finc k sd y).

  (** the absolute values: a cone without opposite elements *)
  Record absolute (vabs : V -> V) (nonneg : V -> Prop) : Prop := {
    abs_zero : forall v, vabs v = v0 O <-> v = v0 O;
    abs_nonneg : forall v, nonneg (vabs v);
    nonneg_zero : nonneg (v0 O);
    nonneg_add : forall a b, nonneg a -> nonneg b -> nonneg (vadd O a b);
    nonneg_split : forall a b, nonneg a -> nonneg b -> vadd O a b = v0 O -> a = v0 O /\ b = v0 O
  }.

  (** the arrays of a rank have the right sizes and the diagonal blocks can be inverted *)
  Definition diagonal_ok (invert : T -> res T) (m : mesh) (D : list T) : Prop :=
    zlen D = ncell m /\ forall d, In d D -> exists e, invert d = Ok e.

  (** *** the matrix of the own cells, given the increments as blocks *)
  Definition entry (jac : Z -> bool -> T) (m : mesh) (D : list T) (i j : Z) : T :=
    if i =? j then block D i
    else fold_right (tadd O) (t0 O) (map (fun p => jac (fst (fst p)) (snd (fst p))) (filter (fun p => other_cell p =? j) (neighbours m i))).
  (** the adjacency of the own cells has all neighbours *)
  Definition covers (m : mesh) (adj : list (list Z)) : Prop :=
    forall i p, 0 <= i < ncell m -> In p (neighbours m i) -> other_cell p <> i -> other_cell p < ncell m -> In (other_cell p) (row adj i).
  (** [F] is the complete factorization of what the assembly gives *)
  Definition factored (jac : Z -> bool -> T) (invert : T -> res T) (m : mesh) (D : list T) (s : symlu) (F : mat T) : Prop :=
    exists adj o2n n2o iluCode A, graph_ok (ncell m) adj /\ ordering_ok (ncell m) o2n n2o /\ iluCode < 0 /\ covers m adj /\
      symbolic (ncell m) adj o2n n2o iluCode = Ok s /\ to_lu O jac m s adj D = Ok A /\
      lu_decompose T (tsub O) (tmul O) invert s {| ldu := A; isDecomposed := false |} = Ok F.

  (** *** several ranks: item [p] of the lists belongs to rank [p] *)
  Definition total_of (r : rank) : Z := ncell (msh r) + zlen (ghosts r).
  (** the ghosts live on own cells of some rank *)
  Definition ranks_ok (rs : list rank) : Prop :=
    forall p r, nth_error rs p = Some r -> mesh_ok (msh r) (total_of r) /\
      forall g, In g (ghosts r) -> 0 <= fst g /\ exists o, nth_error rs (Z.to_nat (fst g)) = Some o /\ 0 <= snd g < ncell (msh o).
  Definition system_ok (invert : T -> res T) (rs : list rank) (Ds : list (list T)) (rhss : list (list V)) : Prop :=
    ranks_ok rs /\ length Ds = length rs /\ length rhss = length rs /\
    forall p r, nth_error rs p = Some r -> diagonal_ok invert (msh r) (nth p Ds []) /\ ncell (msh r) <= zlen (nth p rhss []).
  Definition arrays_ok (rs : list rank) (us : list (list V)) : Prop :=
    length us = length rs /\ forall p r, nth_error rs p = Some r -> zlen (nth p us []) = total_of r.
  (** every ghost holds its owner's value *)
  Definition consistent (rs : list rank) (us : list (list V)) : Prop :=
    arrays_ok rs us /\ forall p r q g, nth_error rs p = Some r -> nth_error (ghosts r) q = Some g ->
      value (nth p us []) (ncell (msh r) + Z.of_nat q) = value (nth (Z.to_nat (fst g)) us []) (snd g).
  (** a statement about every own cell of every rank *)
  Definition everywhere (rs : list rank) (P : nat -> mesh -> Z -> Prop) : Prop :=
    forall p r, nth_error rs p = Some r -> forall i, 0 <= i < ncell (msh r) -> P p (msh r) i.
  Definition all_solved (rs : list rank) (Ds : list (list T)) (rhss us : list (list V)) : Prop :=
    everywhere rs (fun p m i => row_of m (nth p Ds []) (nth p us []) i = value (nth p rhss []) i).
  (** the diagonal dominates by the factor [q] in the norm [nrm]: a cell whose neighbours are
      off by at most [M] is off by at most [q * M] *)
  Definition contracts (nrm : V -> R) (q : R) (rs : list rank) (Ds : list (list T)) : Prop :=
    forall p r, nth_error rs p = Some r -> forall i, 0 <= i < ncell (msh r) -> forall e w M, (0 <= M)%R ->
      (forall j, 0 <= j < total_of r -> (nrm (value e j) <= M)%R) ->
      vadd O (act O (block (nth p Ds []) i) w) (coupling (msh r) (fun j => negb (i =? j)) e i) = v0 O ->
      (nrm w <= q * M)%R.
End Spec.
