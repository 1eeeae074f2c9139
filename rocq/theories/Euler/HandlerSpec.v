(** Words used in the statements about the table of boundary conditions. *)
From Coq Require Import Reals List Arith ZArith String.
From Verif Require Import Base.Prelude Geom.BoundaryModel Euler.BndModel Euler.HandlerModel.
Import ListNotations.
Local Open Scope string_scope.

(** conditions that carry a state *)
Definition carries_state (t : bctype) : Prop := t = BCFar \/ t = BCOut \/ t = BCOutP \/ t = BCIn \/ t = BCInPsTs.
(** what a list of conditions must satisfy: known types, states of the right length,
    new and different names *)
Definition item_ok (nVars : nat) (it : item) : Prop :=
  i_type it <> BCUnknown /\ (carries_state (i_type it) -> exists v, i_value it = Some v /\ List.length v = nVars).
Definition settings_ok (nVars : nat) (j : list item) : Prop :=
  Forall (item_ok nVars) j /\ NoDup (map i_name j) /\
  forall it, In it j -> ~ In (i_name it) (map fst GetFaceName2IDDefault).

(** a numeric field, zero when absent, as an unsigned 32-bit number *)
Definition setting (it : item) (k : string) (z : Z) : Prop :=
  match map_find (i_opt it) k with
  | Some x => (0 <= z < 2 ^ 32)%Z /\ exists q, x = (z + q * 2 ^ 32)%Z
  | None => z = 0%Z
  end.
(** the flags a condition of each type has, and the JSON fields they come from *)
Definition flag_fields (t : bctype) : list (string * string) :=
  match t with
  | BCFar | BCOut | BCOutP | BCIn | BCInPsTs =>
      [("frameOpt", "frameOption"); ("anchorOpt", "anchorOption"); ("integrationOpt", "integrationOption")]
  | BCWall | BCWallInvis | BCSpecial => [("frameOpt", "frameOption"); ("integrationOpt", "integrationOption"); ("specialOpt", "specialOption")]
  | BCSym => [("rectifyOpt", "rectifyOption"); ("integrationOpt", "integrationOption")]
  | BCUnknown => []
  end.
(** the state a condition holds *)
Definition holds_value (nVars : nat) (it : item) (v : list R) : Prop :=
  (carries_state (i_type it) -> i_value it = Some v) /\ (~ carries_state (i_type it) -> v = repeat 0%R nVars).

(** the flags that the evaluator demands (GetFlagFromID) of a boundary of each type:
    EulerEvaluator_EvaluateDt.hxx 1512 (1954 cannot be reached), 1546, 1571, 1831, 1866-1883,
    EulerSolver_Init.hxx 311, 324 *)
Definition demanded (t : bctype) : list string :=
  match t with
  | BCFar => ["frameOpt"] | BCOutP => ["anchorOpt"] | BCWall => ["frameOpt"]
  | BCSpecial => ["specialOpt"] | BCSym => ["rectifyOpt"] | _ => []
  end.

(** the same tables: everything but the inverse of the name map, which depends on the
    iteration order *)
Definition same_table (h h' : handler) : Prop :=
  h_types h = h_types h' /\ h_values h = h_values h' /\ h_flags h = h_flags h' /\ h_extra h = h_extra h' /\ h_name2id h = h_name2id h'.
(** a field that is read but not written *)
Definition not_written (t : bctype) : Prop := carries_state t \/ t = BCSym.

(** one row of the table as the evaluator sees it *)
Definition row (h : handler) (id : Z) (v : GasModel.state) : res bc :=
  do t <- GetTypeFromID h id; do f <- vat (h_flags h) id;
  Ok {| b_id := id; b_type := t; b_value := v; b_flag := map_find f |}.
