(** Model of the boundary identifiers and their names. *)
From Coq Require Import ZArith String List Bool.
Import ListNotations.
Open Scope Z_scope.
Open Scope string_scope.

(** src/Geom/BoundaryCondition.hpp 26-44. *)
Definition BC_ID_INTERNAL := 0.
Definition BC_ID_PERIODIC_1 := -1.
Definition BC_ID_PERIODIC_2 := -2.
Definition BC_ID_PERIODIC_3 := -3.
Definition BC_ID_PERIODIC_1_DONOR := -4.
Definition BC_ID_PERIODIC_2_DONOR := -5.
Definition BC_ID_PERIODIC_3_DONOR := -6.
Definition BC_ID_NULL := 1.
Definition BC_ID_DEFAULT_WALL := 2.
Definition BC_ID_DEFAULT_FAR := 3.
Definition BC_ID_DEFAULT_WALL_INVIS := 4.
Definition BC_ID_DEFAULT_SPECIAL_DMR_FAR := 11.
Definition BC_ID_DEFAULT_SPECIAL_RT_FAR := 12.
Definition BC_ID_DEFAULT_SPECIAL_IV_FAR := 13.
Definition BC_ID_DEFAULT_SPECIAL_2DRiemann_FAR := 14.
Definition BC_ID_DEFAULT_MAX := 20.

(** src/Geom/BoundaryCondition.hpp 49-78. *)
Definition FBC_Name_2_ID_Default (name : string) : Z :=
  if name =? "PERIODIC_1" then BC_ID_PERIODIC_1 else
  if name =? "PERIODIC_2" then BC_ID_PERIODIC_2 else
  if name =? "PERIODIC_3" then BC_ID_PERIODIC_3 else
  if name =? "PERIODIC_1_DONOR" then BC_ID_PERIODIC_1_DONOR else
  if name =? "PERIODIC_2_DONOR" then BC_ID_PERIODIC_2_DONOR else
  if name =? "PERIODIC_3_DONOR" then BC_ID_PERIODIC_3_DONOR else
  if (name =? "WALL") || (name =? "bc-4") then BC_ID_DEFAULT_WALL else
  if (name =? "FAR") || (name =? "bc-2") then BC_ID_DEFAULT_FAR else
  if (name =? "WALL_INVIS") || (name =? "bc-3") then BC_ID_DEFAULT_WALL_INVIS else
  if name =? "bc-DMRFar" then BC_ID_DEFAULT_SPECIAL_DMR_FAR else
  if name =? "bc-IVFar" then BC_ID_DEFAULT_SPECIAL_IV_FAR else
  if name =? "bc-RTFar" then BC_ID_DEFAULT_SPECIAL_RT_FAR else
  if name =? "bc-2DRiemannFar" then BC_ID_DEFAULT_SPECIAL_2DRiemann_FAR else
  BC_ID_NULL.

(** src/Geom/BoundaryCondition.hpp 80-100: the pairs in source order. *)
Definition GetFaceName2IDDefault : list (string * Z) :=
  [ ("PERIODIC_1", BC_ID_PERIODIC_1);
    ("PERIODIC_2", BC_ID_PERIODIC_2);
    ("PERIODIC_3", BC_ID_PERIODIC_3);
    ("PERIODIC_1_DONOR", BC_ID_PERIODIC_1_DONOR);
    ("PERIODIC_2_DONOR", BC_ID_PERIODIC_2_DONOR);
    ("PERIODIC_3_DONOR", BC_ID_PERIODIC_3_DONOR);
    ("WALL", BC_ID_DEFAULT_WALL);
    ("bc-4", BC_ID_DEFAULT_WALL);
    ("FAR", BC_ID_DEFAULT_FAR);
    ("bc-2", BC_ID_DEFAULT_FAR);
    ("WALL_INVIS", BC_ID_DEFAULT_WALL_INVIS);
    ("bc-3", BC_ID_DEFAULT_WALL_INVIS);
    ("bc-DMRFar", BC_ID_DEFAULT_SPECIAL_DMR_FAR);
    ("bc-IVFar", BC_ID_DEFAULT_SPECIAL_IV_FAR);
    ("bc-RTFar", BC_ID_DEFAULT_SPECIAL_RT_FAR);
    ("bc-2DRiemannFar", BC_ID_DEFAULT_SPECIAL_2DRiemann_FAR) ].

(** src/Geom/BoundaryCondition.hpp 102-157. *)
Definition FaceIDIsExternalBC (id : Z) := (0 <? id)%Z.
Definition FaceIDIsInternal (id : Z) := (id <=? 0)%Z.
Definition FaceIDIsTrueInternal (id : Z) := (id =? 0)%Z.
Definition FaceIDIsPeriodic (id : Z) :=
  ((id =? BC_ID_PERIODIC_1) || (id =? BC_ID_PERIODIC_2) || (id =? BC_ID_PERIODIC_3)
   || (id =? BC_ID_PERIODIC_1_DONOR) || (id =? BC_ID_PERIODIC_2_DONOR)
   || (id =? BC_ID_PERIODIC_3_DONOR))%Z.
Definition FaceIDIsPeriodic1 (id : Z) :=
  ((id =? BC_ID_PERIODIC_1) || (id =? BC_ID_PERIODIC_1_DONOR))%Z.
Definition FaceIDIsPeriodic2 (id : Z) :=
  ((id =? BC_ID_PERIODIC_2) || (id =? BC_ID_PERIODIC_2_DONOR))%Z.
Definition FaceIDIsPeriodic3 (id : Z) :=
  ((id =? BC_ID_PERIODIC_3) || (id =? BC_ID_PERIODIC_3_DONOR))%Z.
Definition FaceIDIsPeriodicMain (id : Z) :=
  ((id =? BC_ID_PERIODIC_1) || (id =? BC_ID_PERIODIC_2) || (id =? BC_ID_PERIODIC_3))%Z.
Definition FaceIDIsPeriodicDonor (id : Z) :=
  ((id =? BC_ID_PERIODIC_1_DONOR) || (id =? BC_ID_PERIODIC_2_DONOR)
   || (id =? BC_ID_PERIODIC_3_DONOR))%Z.

(** The lookup [ret.at(name)] in the map built from the pairs: among equal keys
    the first inserted pair stays. *)
Fixpoint map_find (l : list (string * Z)) (name : string) : option Z :=
  match l with
  | [] => None
  | (k, v) :: l => if k =? name then Some v else map_find l name
  end.

(** src/Geom/BoundaryCondition.hpp 10-24: a map that numbers names by first
    use. In [name_2_id[name] = name_2_id.size()] C++17 evaluates the right
    operand first, so the size does not count the new name. *)
Definition name_map_get (m : list (string * Z)) (name : string) : Z * list (string * Z) :=
  match map_find m name with
  | Some v => (v, m)
  | None => let v := Z.of_nat (List.length m) in (v, (name, v) :: m)
  end.

Fixpoint name_map_gets (m : list (string * Z)) (names : list string) : list Z * list (string * Z) :=
  match names with
  | [] => ([], m)
  | n :: ns => let '(v, m) := name_map_get m n in
               let '(vs, m) := name_map_gets m ns in (v :: vs, m)
  end.
