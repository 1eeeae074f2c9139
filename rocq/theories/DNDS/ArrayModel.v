(** Model of src/DNDS/Array.hpp: the array class, all five data layouts.

    [_pRowStart] and [_pRowSizes] are shared pointers; they are modelled as
    addresses into a heap of vectors, so that copies of an array share them.
    Simplifications: [index]/[rowsize] are unbounded integers; the use count of a
    row-size vector counts the arrays of the modelled world that point to it
    (no pointer is held outside arrays); alignment is [NoAlign]. *)
From Coq Require Import List ZArith Bool.
From Verif Require Import Base.Prelude Base.MPIModel.
Import ListNotations.
Local Open Scope Z_scope.

(** Array.hpp 20-28 and 94-113: the layouts with their compile-time sizes. *)
Inductive layout :=
| StaticFixed (rs : nat)     (* TABLE_StaticFixed *)
| Fixed                      (* TABLE_Fixed *)
| Max                        (* TABLE_Max *)
| StaticMax (rm : nat)       (* TABLE_StaticMax *)
| CSR.

(** Defines.hpp 172-173; Array.hpp 94-113 _GetDataLayout.  [None] is
    ErrorLayout (rejected at compile time). *)
Definition DynamicSize : Z := -1.
Definition NonUniformSize : Z := -2.
Definition GetDataLayout (rs rm : Z) : option layout :=
  if negb (rs =? DynamicSize) && negb (rs =? NonUniformSize) && (0 <=? rs)
  then Some (StaticFixed (Z.to_nat rs))
  else if rs =? DynamicSize then Some Fixed
  else if rs =? NonUniformSize then
    if rm =? NonUniformSize then Some CSR
    else if rm =? DynamicSize then Some Max
    else if 0 <=? rm then Some (StaticMax (Z.to_nat rm))
    else None
  else None.

Section Array.
Variable T : Type.
(** the value of a value-initialised element (std::vector::resize) *)
Variable dflt : T.

(** Array.hpp 132-139. *)
Record arr := {
  lay : layout;
  pStart : option nat; pSizes : option nat;
  dat : list T; unc : list (list T);
  size : Z; rsd : Z
}.
(** 145-147 default constructor *)
Definition new_arr (l : layout) : arr :=
  {| lay := l; pStart := None; pSizes := None; dat := []; unc := []; size := 0; rsd := 0 |}.

Definition heap := list (list Z).
Definition deref (h : heap) (p : option nat) : res (list Z) :=
  match p with
  | None => UB (* null *)
  | Some k => match nth_error h k with Some v => Ok v | None => UB end
  end.
Definition alloc (h : heap) (v : list Z) : heap * option nat := (h ++ [v], Some (length h)).
Definition store (h : heap) (p : option nat) (v : list Z) : res heap :=
  match p with
  | None => UB
  | Some k => if (k <? length h)%nat then Ok (upd k v h) else UB
  end.

(** std::vector::resize(n, x); a negative size is a huge unsigned one, which
    throws std::length_error. *)
Definition vresize {A} (x : A) (n : Z) (l : list A) : res (list A) :=
  if n <? 0 then Abort
  else Ok (firstn (Z.to_nat n) l ++ repeat x (Z.to_nat n - length l)).

(** 225-241 IfCompressed *)
Definition IfCompressed (a : arr) : res bool :=
  match lay a with
  | CSR => Ok ((0 <? size a) && match pStart a with Some _ => true | None => false end)
  | _ => Abort
  end.

(** 158-169 RowSize() *)
Definition RowSize0 (a : arr) : res Z :=
  match lay a with
  | Fixed => Ok (rsd a)
  | StaticFixed rs => Ok (Z.of_nat rs)
  | _ => Abort
  end.

(** 171-197 RowSize(iRow) *)
Definition RowSize (h : heap) (a : arr) (i : Z) : res Z :=
  match lay a with
  | Fixed => Ok (rsd a)
  | StaticFixed rs => Ok (Z.of_nat rs)
  | Max | StaticMax _ =>
      do _ <- assert_ ((i <? size a) && (0 <=? i));
      do _ <- assert_ (match pSizes a with Some _ => true | None => false end);
      do v <- deref h (pSizes a);
      vat v i
  | CSR =>
      do _ <- assert_ ((i <? size a) && (0 <=? i));
      do c <- IfCompressed a;
      if c then
        do v <- deref h (pStart a);
        do e <- vat v (i + 1); do s <- vat v i;
        do _ <- assert_ (e - s <? int32_max);
        Ok (e - s)
      else do r <- vat (unc a) i; Ok (zlen r)
  end.

(** 199-205 RowSizeMax, 207-223 RowSizeField *)
Definition RowSizeMax (a : arr) : res Z :=
  match lay a with
  | Max => Ok (rsd a)
  | StaticMax rm => Ok (Z.of_nat rm)
  | _ => Abort
  end.
Definition RowSizeField0 (a : arr) : res Z :=
  match lay a with
  | Max | StaticMax _ => RowSizeMax a
  | Fixed | StaticFixed _ => RowSize0 a
  | CSR => Abort
  end.
Definition RowSizeField (h : heap) (a : arr) (i : Z) : res Z :=
  match lay a with CSR => RowSize h a i | _ => Abort end.

(** The distance between consecutive rows of the table layouts, as used by [at]
    (455-462) and [operator[]] (494-501). *)
Definition stride (a : arr) : Z :=
  match lay a with
  | StaticFixed rs => Z.of_nat rs
  | StaticMax rm => Z.of_nat rm
  | Fixed | Max | CSR => rsd a
  end.

(** Where an element is stored. *)
Inductive place := InData (k : Z) | InRow (i j : Z).

(** 444-473 at: bounds assertions and the element's place.  [std::vector::at]
    throws outside the vector. *)
Definition locate (h : heap) (a : arr) (i j : Z) : res place :=
  do _ <- assert_ ((i <? size a) && (0 <=? i));
  do n <- RowSize h a i;
  do _ <- assert_ ((j <? n) && (0 <=? j));
  match lay a with
  | CSR =>
      do c <- IfCompressed a;
      if c then do v <- deref h (pStart a); do s <- vat v i; Ok (InData (s + j))
      else Ok (InRow i j)
  | _ => Ok (InData (i * stride a + j))
  end.
Definition at_ (h : heap) (a : arr) (i j : Z) : res T :=
  do p <- locate h a i j;
  match p with
  | InData k => vat (dat a) k
  | InRow i j => do r <- vat (unc a) i; vat r j
  end.

Definition with_dat (a : arr) (d : list T) : arr :=
  {| lay := lay a; pStart := pStart a; pSizes := pSizes a; dat := d; unc := unc a;
     size := size a; rsd := rsd a |}.
Definition with_unc (a : arr) (u : list (list T)) : arr :=
  {| lay := lay a; pStart := pStart a; pSizes := pSizes a; dat := dat a; unc := u;
     size := size a; rsd := rsd a |}.

(** 475-478 writing through operator()(i,j) *)
Definition set_ (h : heap) (a : arr) (i j : Z) (x : T) : res arr :=
  do p <- locate h a i j;
  match p with
  | InData k => do _ <- vat (dat a) k; do d <- vset (dat a) k x; Ok (with_dat a d)
  | InRow i j =>
      do r <- vat (unc a) i; do _ <- vat r j;
      do r' <- vset r j x; do u <- vset (unc a) i r'; Ok (with_unc a u)
  end.

(** 491-521 operator[]: the pointer to a row. *)
Inductive rowptr := PData (off : Z) | PRow (i : Z) | PNull.
Definition row_ (h : heap) (a : arr) (i : Z) : res rowptr :=
  do _ <- assert_ ((i <=? size a) && (0 <=? i));
  match lay a with
  | CSR =>
      do c <- IfCompressed a;
      if c then do v <- deref h (pStart a); do s <- vat v i; Ok (PData s)
      else if size a =? 0 then Ok PNull
      else do _ <- assert_ (i <? size a); do _ <- vat (unc a) i; Ok (PRow i)
  | _ => Ok (PData (i * stride a))
  end.

(** 243-257 CSRDecompress *)
Definition Decompress (h : heap) (a : arr) : res arr :=
  match lay a with
  | CSR =>
      do c <- IfCompressed a;
      if c then
        do v <- deref h (pStart a);
        do rows <- mapM (fun i => do s <- vat v i; do e <- vat v (i + 1); slice (dat a) s (e - s))
                        (ranks (Z.to_nat (size a)));
        Ok {| lay := lay a; pStart := None; pSizes := pSizes a; dat := []; unc := rows;
              size := size a; rsd := rsd a |}
      else Ok a
  | _ => Ok a
  end.

(** 259-287 CSRCompress *)
Definition Compress (h : heap) (a : arr) : res (heap * arr) :=
  match lay a with
  | CSR =>
      do c <- IfCompressed a;
      if c then Ok (h, a) else
      do lens <- mapM (fun i => do r <- vat (unc a) i; Ok (zlen r)) (ranks (Z.to_nat (size a)));
      let starts := psums 0 lens in
      do d0 <- vresize dflt (last starts 0) (dat a);
      do d <- foldM (fun d i => do r <- vget (unc a) i; do s <- vat starts i; write_at d s r)
                    d0 (ranks (Z.to_nat (size a)));
      let (h', p) := alloc h starts in
      Ok (h', {| lay := lay a; pStart := p; pSizes := pSizes a; dat := d; unc := [];
                 size := size a; rsd := rsd a |})
  | _ => Ok (h, a)
  end.

(** 337-345, 362-370: row sizes of the max layouts are resized in place when
    this array is the only owner, otherwise replaced by zeros. *)
Definition resize_sizes (h : heap) (uses : nat) (p : option nat) (n : Z)
  : res (heap * option nat) :=
  if (uses =? 1)%nat then
    do v <- deref h p; do v' <- vresize 0 n v; do h' <- store h p v'; Ok (h', p)
  else if n <? 0 then Abort else Ok (alloc h (repeat 0 (Z.to_nat n))).

(** 319-347 Resize(nSize, nRow_size_dynamic).  [uses] is the use count of
    [_pRowSizes]. *)
Definition Resize2 (h : heap) (uses : nat) (a : arr) (n rd : Z) : res (heap * arr) :=
  match lay a with
  | CSR =>
      do c <- IfCompressed a; do _ <- assert_ (negb c);
      do u <- vresize [] n (unc a);
      Ok (h, {| lay := lay a; pStart := pStart a; pSizes := pSizes a; dat := dat a; unc := u;
                size := n; rsd := rsd a |})
  | Fixed =>
      do d <- vresize dflt (n * rd) (dat a);
      Ok (h, {| lay := lay a; pStart := pStart a; pSizes := pSizes a; dat := d; unc := unc a;
                size := n; rsd := rd |})
  | StaticFixed rs =>
      do d <- vresize dflt (n * Z.of_nat rs) (dat a);
      do _ <- assert_ (rd =? Z.of_nat rs);
      Ok (h, {| lay := lay a; pStart := pStart a; pSizes := pSizes a; dat := d; unc := unc a;
                size := n; rsd := rsd a |})
  | Max =>
      do d <- vresize dflt (n * rd) (dat a);
      do hp <- resize_sizes h uses (pSizes a) n;
      Ok (fst hp, {| lay := lay a; pStart := pStart a; pSizes := snd hp; dat := d; unc := unc a;
                     size := n; rsd := rd |})
  | StaticMax rm =>
      do d <- vresize dflt (n * Z.of_nat rm) (dat a);
      do _ <- assert_ (rd =? Z.of_nat rm);
      do hp <- resize_sizes h uses (pSizes a) n;
      Ok (fst hp, {| lay := lay a; pStart := pStart a; pSizes := snd hp; dat := d; unc := unc a;
                     size := n; rsd := rsd a |})
  end.

(** 349-376 Resize(nSize) *)
Definition Resize1 (h : heap) (uses : nat) (a : arr) (n : Z) : res (heap * arr) :=
  match lay a with
  | CSR => Resize2 h uses a n 0
  | StaticFixed rs => Resize2 h uses a n (Z.of_nat rs)
  | StaticMax rm => Resize2 h uses a n (Z.of_nat rm)
  | Fixed | Max => Abort
  end.

(** 379-393 Resize(nSize, FRowSize); [sizes] is the list of the function's
    values.  Other layouts are rejected at compile time. *)
Definition ResizeF (h : heap) (a : arr) (sizes : list Z) : res (heap * arr) :=
  match lay a with
  | CSR =>
      let starts := psums 0 sizes in
      do d <- vresize dflt (last starts 0) (dat a);
      let (h', p) := alloc h starts in
      Ok (h', {| lay := lay a; pStart := p; pSizes := None; dat := d; unc := [];
                 size := zlen sizes; rsd := rsd a |})
  | _ => Abort
  end.

(** 402-425 ResizeRow *)
Definition ResizeRow (h : heap) (uses : nat) (a : arr) (i n : Z) : res (heap * arr) :=
  match lay a with
  | CSR =>
      do c <- IfCompressed a; do _ <- assert_ (negb c);
      do _ <- assert_ ((i <? size a) && (0 <=? i));
      do r <- vat (unc a) i; do r' <- vresize dflt n r;
      do u <- vset (unc a) i r';
      Ok (h, with_unc a u)
  | Max | StaticMax _ =>
      do m <- RowSizeMax a;
      do _ <- assert_ (n <=? m);
      do _ <- assert_ ((i <? size a) && (0 <=? i));
      do _ <- assert_ (match pSizes a with Some _ => true | None => false end);
      do v <- deref h (pSizes a);
      do _ <- vat v i; do v' <- vset v i n;
      if (1 <? uses)%nat then
        let (h', p) := alloc h v' in
        Ok (h', {| lay := lay a; pStart := pStart a; pSizes := p; dat := dat a; unc := unc a;
                   size := size a; rsd := rsd a |})
      else do h' <- store h (pSizes a) v'; Ok (h', a)
  | Fixed | StaticFixed _ => Abort
  end.

(** 582-603 SwapData: the new (this, R). *)
Definition SwapData (a b : arr) : res (arr * arr) :=
  do _ <- assert_ (size b =? size a);
  do _ <- assert_ (zlen (dat b) =? zlen (dat a));
  match lay a with
  | CSR =>
      do c <- IfCompressed a;
      if c then
        Ok ({| lay := lay a; pStart := pStart b; pSizes := pSizes a; dat := dat b; unc := unc a;
               size := size a; rsd := rsd a |},
            {| lay := lay b; pStart := pStart a; pSizes := pSizes b; dat := dat a; unc := unc b;
               size := size b; rsd := rsd b |})
      else
        Ok ({| lay := lay a; pStart := pStart a; pSizes := pSizes b; dat := dat a; unc := unc b;
               size := size a; rsd := rsd a |},
            {| lay := lay b; pStart := pStart b; pSizes := pSizes a; dat := dat b; unc := unc a;
               size := size b; rsd := rsd b |})
  | _ => Ok (with_dat a (dat b), with_dat b (dat a))
  end.

(** ** Several arrays and their shared descriptors *)
Record world := { hp : heap; arrs : list arr }.

(** use_count of a row-size vector *)
Definition uses (w : world) (p : option nat) : nat :=
  match p with
  | None => 0
  | Some k => length (filter (fun a => match pSizes a with Some k' => Nat.eqb k k' | None => false end)
                             (arrs w))
  end.

(** One call on array number [id]; CopyData (577-580) and SwapData take a
    second array of the same type. *)
Inductive call :=
| CResize (n : nat)
| CResize2 (n rd : nat)
| CResizeF (sizes : list nat)
| CResizeRow (i : Z) (n : nat)
| CSet (i j : Z) (x : T)
| CCompress
| CDecompress
| CCopyFrom (other : nat)
| CSwapWith (other : nat).

Definition put (w : world) (id : nat) (r : res (heap * arr)) : res world :=
  do ha <- r; Ok {| hp := fst ha; arrs := upd id (snd ha) (arrs w) |}.

Definition do_call (w : world) (id : nat) (c : call) : res world :=
  match nth_error (arrs w) id with
  | None => UB (* no such object *)
  | Some a =>
      let u := uses w (pSizes a) in
      match c with
      | CResize n => put w id (Resize1 (hp w) u a (Z.of_nat n))
      | CResize2 n rd => put w id (Resize2 (hp w) u a (Z.of_nat n) (Z.of_nat rd))
      | CResizeF sizes => put w id (ResizeF (hp w) a (map Z.of_nat sizes))
      | CResizeRow i n => put w id (ResizeRow (hp w) u a i (Z.of_nat n))
      | CSet i j x => put w id (do a' <- set_ (hp w) a i j x; Ok (hp w, a'))
      | CCompress => put w id (Compress (hp w) a)
      | CDecompress => put w id (do a' <- Decompress (hp w) a; Ok (hp w, a'))
      | CCopyFrom o =>
          match nth_error (arrs w) o with
          | None => UB
          | Some b => put w id (Ok (hp w, b))
          end
      | CSwapWith o =>
          match nth_error (arrs w) o with
          | None => UB
          | Some b =>
              do ab <- SwapData a b;
              Ok {| hp := hp w; arrs := upd o (snd ab) (upd id (fst ab) (arrs w)) |}
          end
      end
  end.

Fixpoint run (w : world) (cs : list (nat * call)) : res world :=
  match cs with
  | [] => Ok w
  | (id, c) :: t => do w' <- do_call w id c; run w' t
  end.

End Array.
Arguments lay {T}. Arguments pStart {T}. Arguments pSizes {T}. Arguments dat {T}.
Arguments unc {T}. Arguments size {T}. Arguments rsd {T}.
Arguments hp {T}. Arguments arrs {T}. Arguments new_arr {T}.
Arguments IfCompressed {T}. Arguments RowSize0 {T}. Arguments RowSize {T}.
Arguments RowSizeMax {T}. Arguments RowSizeField0 {T}. Arguments RowSizeField {T}.
Arguments stride {T}. Arguments locate {T}. Arguments at_ {T}. Arguments set_ {T}.
Arguments with_dat {T}. Arguments with_unc {T}.
Arguments row_ {T}. Arguments Decompress {T}. Arguments Compress {T}.
Arguments Resize2 {T}. Arguments Resize1 {T}. Arguments ResizeF {T}.
Arguments ResizeRow {T}. Arguments SwapData {T}. Arguments uses {T}.
Arguments CResize {T}. Arguments CResize2 {T}. Arguments CResizeF {T}.
Arguments CResizeRow {T}. Arguments CSet {T}. Arguments CCompress {T}.
Arguments CDecompress {T}. Arguments CCopyFrom {T}. Arguments CSwapWith {T}.
Arguments put {T}. Arguments do_call {T}. Arguments run {T}.
