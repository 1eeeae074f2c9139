(** When an array can be written and read back. *)
From Coq Require Import ZArith List Bool String Ascii Arith.
From Verif Require Import Base.Prelude DNDS.ArrayModel.
Import ListNotations.
Open Scope Z_scope.

Section Spec.
Variable T : Type.

(** A max-layout array must have its row-size vector, that is, it was resized at
    least once. *)
Definition writable (a : arr T) : Prop :=
  match lay a with Max | StaticMax _ => pSizes a <> None | _ => True end.
(** A fixed-layout array must have rows of non-zero length. *)
Definition nonzero (a : arr T) : Prop :=
  match lay a with Fixed | StaticFixed _ => stride a <> 0 | _ => True end.
(** Can an array of layout [l] and dynamic row size [rd] be read into one of
    layout [lt]?  The same layout, or the static and the dynamic form of the same
    layout with the same row length. *)
Definition compatible (l : layout) (rd : Z) (lt : layout) : Prop :=
  match l, lt with
  | CSR, CSR | Fixed, Fixed | Max, Max => True
  | StaticFixed m, StaticFixed n | StaticMax m, StaticMax n => m = n
  | StaticFixed _, Fixed | StaticMax _, Max => True
  | Fixed, StaticFixed n | Max, StaticMax n => rd = Z.of_nat n
  | _, _ => False
  end.
End Spec.
Arguments writable {T}. Arguments nonzero {T}.
(** the names under which the arrays are written *)
Definition names (items : list (nat * string)) : list string := map snd items.
