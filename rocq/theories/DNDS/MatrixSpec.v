(** Reference notions for arrays of matrices: rows of matrices. *)
From Coq Require Import ZArith List Bool.
From Verif Require Import Base.Prelude DNDS.ArraySpec DNDS.MatrixModel.
Import ListNotations.
Open Scope Z_scope.

Section Spec.
Variable T : Type.
Variable dflt : T.

(** The common shape and, per row, the list of its matrices. *)
Record batches := { brow : Z; bcol : Z; mats : list (list (list T)) }.

(** What a call makes of it; [None] when the call must be refused. *)
Definition bstep (b : batches) (c : ucall T) : option batches :=
  match c with
  | UResize n r k => Some {| brow := r; bcol := k; mats := repeat [] n |}
  | UResizeBatch i s =>
      match in_range i (length (mats b)) with
      | None => None
      | Some q => Some {| brow := brow b; bcol := bcol b;
                          mats := upd q (fit (repeat dflt (Z.to_nat (brow b * bcol b))) s (nth q (mats b) [])) (mats b) |}
      end
  | USet i j m =>
      match in_range i (length (mats b)) with
      | None => None
      | Some q =>
          match in_range j (length (nth q (mats b) [])) with
          | None => None
          | Some l => Some {| brow := brow b; bcol := bcol b;
                              mats := upd q (upd l m (nth q (mats b) [])) (mats b) |}
          end
      end
  end.
Fixpoint bsteps (b : batches) (cs : list (ucall T)) : option batches :=
  match cs with [] => Some b | c :: t => match bstep b c with Some b' => bsteps b' t | None => None end end.

(** The calls covered: positive shapes that agree with the fixed sizes, sizes
    within [int], matrices of the shape in force. *)
Definition ucovered (n_row n_col : Z) (b : batches) (c : ucall T) : Prop :=
  match c with
  | UResize n r k =>
      0 < r /\ 0 < k /\ r * k <= int32_max /\ (n_row = -1 \/ n_row = r) /\ (n_col = -1 \/ n_col = k)
  | UResizeBatch i s => Z.of_nat s * (brow b * bcol b) <= int32_max
  | USet i j m => zlen m = brow b * bcol b
  end.
Fixpoint ucovered_all (n_row n_col : Z) (b : batches) (cs : list (ucall T)) : Prop :=
  match cs with
  | [] => True
  | c :: t => ucovered n_row n_col b c /\
              match bstep b c with Some b' => ucovered_all n_row n_col b' t | None => True end
  end.

(** A new array: no rows; the fixed sizes are the shape. *)
Definition no_batches (n_row n_col : Z) : batches :=
  {| brow := Z.max n_row 0; bcol := Z.max n_col 0; mats := [] |}.

(** All reads of the array. *)
Definition ushows (n_row n_col : Z) (u : ubatch T) (b : batches) : Prop :=
  zlen (brows u) = zlen (mats b) /\
  (mats b <> [] -> Rows n_row u = brow b /\ Cols n_col u = bcol b) /\
  (forall i, BatchSize n_row n_col u i =
     match in_range i (length (mats b)) with Some q => Ok (zlen (nth q (mats b) [])) | None => Abort end) /\
  (forall i j, uget n_row n_col u i j =
     match in_range i (length (mats b)) with
     | Some q => match in_range j (length (nth q (mats b) [])) with
                 | Some l => Ok (nth l (nth q (mats b) []) [])
                 | None => Abort
                 end
     | None => Abort
     end).
End Spec.
Arguments brow {T}. Arguments bcol {T}. Arguments mats {T}. Arguments bstep {T}. Arguments bsteps {T}.
Arguments ucovered {T}. Arguments ucovered_all {T}. Arguments no_batches {T}. Arguments ushows {T}.

(** The sizes last given to each matrix. *)
Definition given (dims : list (Z * Z)) (cs : list (Z * Z * Z)) : list (Z * Z) :=
  fold_left (fun l x => let '(i, r, c) := x in upd (Z.to_nat i) (r, c) l) cs dims.

(** A resizing (place, rows, columns) of an array of [n] matrices. *)
Definition mcovered (n : nat) (x : Z * Z * Z) : Prop :=
  let '(i, r, c) := x in 0 <= i < Z.of_nat n /\ 0 < r /\ 0 <= c /\ r * c <= int32_max.
