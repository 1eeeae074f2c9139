(** What an array is to its users: a list of rows.  No buffers, no starts, no
    sharing.  The calls are those of the model ([call]). *)
From Coq Require Import List ZArith Bool.
From Verif Require Import Base.Prelude DNDS.ArrayModel.
Import ListNotations.
Local Open Scope Z_scope.

(** The layout meant by template arguments: a row size, or -1 (known at run time) or
    -2 (differs by row), and then a largest row size, -1 or -2. *)
Definition declares (rs rm : Z) (l : layout) : Prop :=
  match l with
  | StaticFixed n => rs = Z.of_nat n
  | Fixed => rs = -1
  | Max => rs = -2 /\ rm = -1
  | StaticMax n => rs = -2 /\ rm = Z.of_nat n
  | CSR => rs = -2 /\ rm = -2
  end.

Section Spec.
Variable T : Type.
Variable dflt : T.

(** [cells]: the rows.  In the max layouts every row has [width] cells of which
    the first [used] are the row's elements; in the fixed layouts all are; [comp]
    is the storage mode of a variable-row array. *)
Record sarr := {
  slay : layout; comp : bool; width : nat; cells : list (list T); used : list nat
}.

Definition is_max (l : layout) : bool :=
  match l with Max | StaticMax _ => true | _ => false end.
Definition is_csr (l : layout) : bool := match l with CSR => true | _ => false end.

(** The elements of row [i]. *)
Definition srow (s : sarr) (i : nat) : option (list T) :=
  match nth_error (cells s) i with
  | None => None
  | Some r => if is_max (slay s) then option_map (fun n => firstn n r) (nth_error (used s) i) else Some r
  end.

Definition swidth (l : layout) : nat :=
  match l with StaticFixed n | StaticMax n => n | _ => 0 end.
Definition snew (l : layout) : sarr :=
  {| slay := l; comp := false; width := swidth l; cells := []; used := [] |}.

(** [n] items of [l], extended with [x] at the end when there are too few. *)
Definition fit {A} (x : A) (n : nat) (l : list A) : list A := firstn n l ++ repeat x (n - length l).

(** Consecutive groups of the given sizes; [dflt] when the source is exhausted. *)
Fixpoint regroup (sizes : list nat) (src : list T) : list (list T) :=
  match sizes with
  | [] => []
  | n :: t => fit dflt n src :: regroup t (skipn n src)
  end.

Definition with_cells (s : sarr) (c : list (list T)) : sarr :=
  {| slay := slay s; comp := comp s; width := width s; cells := c; used := used s |}.
Definition with_comp (s : sarr) (b : bool) : sarr :=
  {| slay := slay s; comp := b; width := width s; cells := cells s; used := used s |}.

(** Resizing a table to [n] rows of width [wd].  For the max layouts the row
    sizes are either all reset or kept (new rows 0): the class documents the
    former. *)
Definition table_resize (s : sarr) (n wd : nat) : list sarr :=
  let c := regroup (repeat wd n) (concat (cells s)) in
  if is_max (slay s) then
    [ {| slay := slay s; comp := comp s; width := wd; cells := c; used := repeat 0%nat n |};
      {| slay := slay s; comp := comp s; width := wd; cells := c; used := fit 0%nat n (used s) |} ]
  else [ {| slay := slay s; comp := comp s; width := wd; cells := c; used := used s |} ].

(** In compressed mode (and not empty): no resizing of any kind. *)
Definition locked (s : sarr) : bool :=
  comp s && match cells s with [] => false | _ => true end.

(** [Some k]: [z] is the index of an element of a list of length [n]. *)
Definition in_range (z : Z) (n : nat) : option nat :=
  if (0 <=? z) && (z <? Z.of_nat n) then Some (Z.to_nat z) else None.

(** The states a call may lead to; none when the call must be rejected. *)
Definition allowed1 (s : sarr) (c : call T) : list sarr :=
  match c with
  | CResize n =>
      match slay s with
      | CSR => if locked s then [] else [with_cells s (fit [] n (cells s))]
      | StaticFixed w | StaticMax w => table_resize s n w
      | Fixed | Max => []
      end
  | CResize2 n rd =>
      match slay s with
      | CSR => if locked s then [] else [with_cells s (fit [] n (cells s))]
      | StaticFixed w | StaticMax w => if Nat.eqb rd w then table_resize s n w else []
      | Fixed | Max => table_resize s n rd
      end
  | CResizeF sizes =>
      match slay s with
      | CSR => [ {| slay := CSR; comp := true; width := width s;
                    cells := regroup sizes (if comp s then concat (cells s) else []);
                    used := used s |} ]
      | _ => []
      end
  | CResizeRow i n =>
      match in_range i (length (cells s)) with
      | None => []
      | Some k =>
          match slay s with
          | CSR => if locked s then []
                   else [with_cells s (upd k (fit dflt n (nth k (cells s) [])) (cells s))]
          | Max | StaticMax _ =>
              if Nat.leb n (width s)
              then [ {| slay := slay s; comp := comp s; width := width s; cells := cells s;
                        used := upd k n (used s) |} ]
              else []
          | _ => []
          end
      end
  | CSet i j x =>
      match in_range i (length (cells s)) with
      | None => []
      | Some k =>
          match srow s k with
          | None => []
          | Some r =>
              match in_range j (length r) with
              | None => []
              | Some l => [with_cells s (upd k (upd l x (nth k (cells s) [])) (cells s))]
              end
          end
      end
  | CCompress => [if is_csr (slay s) then with_comp s true else s]
  | CDecompress =>
      [if is_csr (slay s) then with_comp s (comp s && negb (locked s)) else s]
  | CCopyFrom _ | CSwapWith _ => [s]
  end.

(** The same for a family of independent arrays: a call on one changes only that
    one; a copy takes the source's rows; a swap exchanges the two arrays. *)
Definition allowed (ss : list sarr) (id : nat) (c : call T) : list (list sarr) :=
  match nth_error ss id with
  | None => []
  | Some s =>
      match c with
      | CCopyFrom o =>
          match nth_error ss o with Some t => [upd id t ss] | None => [] end
      | CSwapWith o =>
          match nth_error ss o with
          | Some t =>
              if Nat.eqb (length (cells s)) (length (cells t)) &&
                 (if comp s then Nat.eqb (length (concat (cells s))) (length (concat (cells t))) else true)
              then [upd o s (upd id t ss)] else []
          | None => []
          end
      | _ => map (fun s' => upd id s' ss) (allowed1 s c)
      end
  end.

(** ** Calls covered by the refinement theorem *)

(** Row sizes are below the 32-bit limit. *)
Definition small (n : nat) : Prop := Z.of_nat n < int32_max.

Definition covered (ss : list sarr) (id : nat) (c : call T) : Prop :=
  exists s, nth_error ss id = Some s /\
  match c with
  | CResize n => ~ (slay s = CSR /\ comp s = true /\ cells s = [] /\ n <> 0%nat)
  | CResize2 n rd =>
      ~ (slay s = CSR /\ comp s = true /\ cells s = [] /\ n <> 0%nat) /\
      (slay s = Max -> Forall (fun k => (k <= rd)%nat) (firstn n (used s)))
  | CResizeF sizes => Forall small sizes
  | CResizeRow _ n => small n
  | CCopyFrom o => exists t, nth_error ss o = Some t /\ slay t = slay s
  | CSwapWith o =>
      exists t, nth_error ss o = Some t /\ slay t = slay s /\ comp t = comp s /\
                width t = width s /\ used t = used s
  | _ => True
  end.

(** All calls of a history are covered, whichever allowed states it goes through. *)
Inductive covered_history : list sarr -> list (nat * call T) -> Prop :=
| ch_nil : forall ss, covered_history ss []
| ch_cons : forall ss id c cs,
    covered ss id c ->
    (forall ss', In ss' (allowed ss id c) -> covered_history ss' cs) ->
    covered_history ss ((id, c) :: cs).

(** The histories of allowed states. *)
Inductive history : list sarr -> list (nat * call T) -> list sarr -> Prop :=
| h_nil : forall ss, history ss [] ss
| h_cons : forall ss id c cs ss' ss'',
    In ss' (allowed ss id c) -> history ss' cs ss'' -> history ss ((id, c) :: cs) ss''.

(** A history up to a call that must be rejected. *)
Definition rejected (ss : list sarr) (cs : list (nat * call T)) : Prop :=
  exists cs1 id c cs2 ss', cs = cs1 ++ (id, c) :: cs2 /\ history ss cs1 ss' /\ allowed ss' id c = [].

(** ** Observations: everything the array's readers return. *)
Definition looks_like (h : heap) (a : arr T) (s : sarr) : Prop :=
  size a = zlen (cells s) /\
  (forall i, match in_range i (length (cells s)) with
             | Some k => exists r, srow s k = Some r /\ RowSize h a i = Ok (zlen r)
             | None => True
             end) /\
  (forall i j, at_ h a i j =
     match in_range i (length (cells s)) with
     | None => Abort
     | Some k =>
         match srow s k with
         | None => Abort
         | Some r => match in_range j (length r) with
                     | None => Abort
                     | Some l => match nth_error r l with Some x => Ok x | None => Abort end
                     end
         end
     end).

Definition world_looks_like (w : world T) (ss : list sarr) : Prop :=
  length (arrs w) = length ss /\
  forall id a s, nth_error (arrs w) id = Some a -> nth_error ss id = Some s ->
    looks_like (hp w) a s.

(** Nothing a reader returns differs between the two. *)
Definition same_reads (h : heap) (a : arr T) (h' : heap) (a' : arr T) : Prop :=
  size a' = size a /\
  (forall i, 0 <= i < size a -> RowSize h' a' i = RowSize h a i) /\
  (forall i j, at_ h' a' i j = at_ h a i j).

End Spec.
Arguments slay {T}. Arguments comp {T}. Arguments width {T}. Arguments cells {T}.
Arguments used {T}. Arguments srow {T}. Arguments snew {T}. Arguments regroup {T}.
Arguments locked {T}. Arguments allowed1 {T}. Arguments allowed {T}.
Arguments covered {T}. Arguments covered_history {T}. Arguments history {T}.
Arguments rejected {T}. Arguments looks_like {T}. Arguments world_looks_like {T}.
Arguments table_resize {T}. Arguments with_cells {T}. Arguments with_comp {T}.
Arguments same_reads {T}.
