(** What the symbolic factorization has to produce. *)
From Coq Require Import List ZArith.
From Verif Require Import Base.Prelude Base.PreludeFacts Solver.DirectModel.
Import ListNotations.
Local Open Scope Z_scope.

(** Row [i] of a table *)
Definition row (l : list (list Z)) (i : Z) : list Z := nth (Z.to_nat i) l [].
(** Entry [p] of a row *)
Definition at_ (l : list Z) (p x : Z) : Prop := 0 <= p /\ nth_error l (Z.to_nat p) = Some x.

(** A symmetric adjacency on [n] cells. *)
Record graph_ok (n : Z) (adj : list (list Z)) : Prop := {
  g_size : zlen adj = n;
  g_range : forall i j, 0 <= i < n -> In j (row adj i) -> 0 <= j < n;
  g_sym : forall i j, 0 <= i < n -> In j (row adj i) -> In i (row adj j)
}.

(** An elimination ordering: two tables that undo each other, or none for the natural order. *)
Definition place (l : list Z) (v : Z) : Z := match l with [] => v | _ => nth (Z.to_nat v) l 0 end.
Record ordering_ok (n : Z) (o2n n2o : list Z) : Prop := {
  o_size : (o2n = [] /\ n2o = []) \/ (zlen o2n = n /\ zlen n2o = n);
  o_new : forall v, 0 <= v < n -> 0 <= place o2n v < n /\ place n2o (place o2n v) = v;
  o_old : forall v, 0 <= v < n -> 0 <= place n2o v < n /\ place o2n (place n2o v) = v
}.

(** Elimination: besides the entries of the matrix, eliminating a column [k] creates an entry
    (i, j) from (i, k) and (k, j), if the level of fill allows it. *)
Inductive filled (E allowed : Z -> Z -> Prop) : Z -> Z -> Prop :=
| f_edge i j : i <> j -> E i j -> filled E allowed i j
| f_fill k i j : 0 <= k < i -> k < j -> i <> j -> allowed i j ->
    filled E allowed i k -> filled E allowed k j -> filled E allowed i j.

(** Cells joined by a walk of at most 1 + steps edges *)
Fixpoint near (adj : list (list Z)) (steps : nat) (i j : Z) : Prop :=
  match steps with
  | O => In j (row adj i)
  | S s => near adj s i j \/ exists k, near adj s i k /\ In j (row adj k)
  end.
(** Level -1: all fill; 0: none; L: between cells joined by at most L + 1 edges *)
Definition level (adj : list (list Z)) (iluCode : Z) (i j : Z) : Prop :=
  iluCode < 0 \/ (0 < iluCode /\ near adj (Z.to_nat iluCode) i j).

(** The pattern, in the new numbering *)
Definition pattern (adj : list (list Z)) (n2o : list Z) (iluCode : Z) : Z -> Z -> Prop :=
  filled (fun i j => In (place n2o j) (row adj (place n2o i)))
         (fun i j => level adj iluCode (place n2o i) (place n2o j)).

Record structure_ok (n : Z) (adj : list (list Z)) (o2n n2o : list Z) (P : Z -> Z -> Prop) (s : symlu) : Prop := {
  s_num : Num s = n;
  s_o2n : old2new s = o2n;
  s_n2o : new2old s = n2o;
  s_len : zlen (lowNew s) = n /\ zlen (uppNew s) = n /\ zlen (lowOld s) = n /\ zlen (uppOld s) = n /\
          zlen (lowInUpp s) = n /\ zlen (uppInLow s) = n /\ zlen (rowPos s) = n;
  (* the rows: sorted, and exactly the pattern below and above the diagonal *)
  s_low : forall i, 0 <= i < n -> sasc (row (lowNew s) i) /\
          (forall j, In j (row (lowNew s) i) <-> 0 <= j < i /\ P i j);
  s_upp : forall i, 0 <= i < n -> sasc (row (uppNew s) i) /\
          (forall j, In j (row (uppNew s) i) <-> i < j < n /\ P i j);
  (* the same rows in the old numbering *)
  s_lowOld : forall i, 0 <= i < n -> row (lowOld s) (place n2o i) = map (place n2o) (row (lowNew s) i);
  s_uppOld : forall i, 0 <= i < n -> row (uppOld s) (place n2o i) = map (place n2o) (row (uppNew s) i);
  (* every cross-position points at the entry it claims *)
  s_liu : forall i, 0 <= i < n -> Forall2 (fun j p => at_ (row (uppNew s) j) p i) (row (lowNew s) i) (row (lowInUpp s) i);
  s_uil : forall i, 0 <= i < n -> Forall2 (fun j p => at_ (row (lowNew s) j) p i) (row (uppNew s) i) (row (uppInLow s) i);
  (* the positions of the adjacency's entries in a row "diagonal, lower, upper" *)
  s_pos : forall i, 0 <= i < n ->
    Forall2 (fun j p => if Z.eq_dec j i then p = -1
                        else 0 < p /\ at_ (i :: row (lowOld s) i ++ row (uppOld s) i) p j)
            (row adj i) (row (rowPos s) i)
}.
