(** Writing arrays to and reading them from the JSON serializer
    (src/DNDS/Array.hpp 605-808).

    Simplifications: the compile-time parameter [_row_max] of the fixed layouts has
    its default value [_row_size]; elements are stored as such, not as bytes, so
    the division of the byte count by the element size is exact. *)
From Coq Require Import ZArith List Bool String Ascii Arith.
From Coq Require Import DecimalString DecimalZ.
From Verif Require Import Base.Prelude DNDS.ArrayModel DNDS.JsonModel.
Import ListNotations.
Open Scope list_scope.
Open Scope Z_scope.

(** std::to_string and std::stoi *)
Definition to_string (z : Z) : string := NilEmpty.string_of_int (Z.to_int z).
Definition stoi (s : string) : res Z :=
  match NilEmpty.int_of_string s with Some d => Ok (Z.of_int d) | None => Abort end.

(** The template parameters _row_size and _row_max of a layout. *)
Definition row_size_of (l : layout) : Z :=
  match l with
  | StaticFixed n => Z.of_nat n | Fixed => DynamicSize | _ => NonUniformSize
  end.
Definition row_max_of (l : layout) : Z :=
  match l with
  | StaticFixed n | StaticMax n => Z.of_nat n | Fixed | Max => DynamicSize | CSR => NonUniformSize
  end.

(** 605-622 GetArraySignature *)
Definition GetArraySignature (sizeofT align : Z) (l : layout) : string :=
  let name := match l with
              | CSR => "CSR" | StaticFixed _ => "TABLE_StaticFixed" | Fixed => "TABLE_Fixed"
              | StaticMax _ => "TABLE_StaticMax" | Max => "TABLE_Max"
              end in
  (name ++ "__" ++ to_string sizeofT ++ "_" ++ to_string (row_size_of l) ++
   "_" ++ to_string (row_max_of l) ++ "_" ++ to_string align)%string.

(** 641-647 ParseArraySignatureTuple *)
Definition ParseArraySignatureTuple (v : string) : res (Z * Z * Z * Z) :=
  let strings := splitClean "_" v in
  let sz := List.length strings in
  do _ <- assert_ (Nat.eqb sz 5 || Nat.eqb sz 6);
  do a <- stoi (nth (sz - 4) strings ""%string); do b <- stoi (nth (sz - 3) strings ""%string);
  do c <- stoi (nth (sz - 2) strings ""%string); do d <- stoi (nth (sz - 1) strings ""%string);
  Ok (a, b, c, d).
(** 649-659 ArraySignatureIsCompatible *)
Definition ArraySignatureIsCompatible (sizeofT : Z) (l : layout) (v : string) : res bool :=
  do t <- ParseArraySignatureTuple v;
  let '(sz, rs, rm, _) := t in
  if negb (sz =? sizeofT) then Ok false
  else if (0 <=? rs) && (0 <=? row_size_of l) && negb (rs =? row_size_of l) then Ok false
  else if (0 <=? rm) && (0 <=? row_max_of l) && negb (rm =? row_max_of l) then Ok false
  else Ok true.

Section Serial.
Variable T : Type.
Variable dflt : T.
Variables sizeofT align : Z.
(** typeid(self_type).name() *)
Variable type_name : layout -> string.

(** 704-740 WriteSerializer.  A shared vector is identified by its heap position;
    no vector is freed while the arrays are written. *)
Definition WriteSerializer (s : ser T) (h : heap) (a : arr T) (name : string)
  : res (ser T * heap * arr T) :=
  let cwd := GetCurrentPath s in
  do s <- CreatePath s name;
  do s <- GoToPath s name;
  do s <- write s "array_sig" (JStr (GetArraySignature sizeofT align (lay a)));
  do s <- write s "array_type" (JStr (type_name (lay a)));
  do s <- write s "size" (JNum (size a));
  do s <- write s "row_size_dynamic" (JNum (rsd a));
  do sha <-
    match lay a with
    | CSR =>
        do c <- IfCompressed a;
        do ha <- (if c then Ok (h, a) else Compress dflt h a);
        let (h, a) := ha in
        do v <- deref h (pStart a);
        match pStart a with
        | Some k => do s <- WriteShared s "pRowStart" k v; Ok (s, h, a)
        | None => UB
        end
    | Max | StaticMax _ =>
        do v <- deref h (pSizes a);
        match pSizes a with
        | Some k => do s <- WriteShared s "pRowSizes" k v; Ok (s, h, a)
        | None => UB
        end
    | Fixed | StaticFixed _ => Ok (s, h, a)
    end;
  let '(s, h, a) := sha in
  do s <- write s "data" (JData (dat a));
  do s <- GoToPath s cwd;
  Ok (s, h, a).

(** The shared pointers of the arrays as variables: [_pRowStart] of array [x] is
    number [2x], [_pRowSizes] is number [2x+1]. *)
Definition member (arrs : list (arr T)) (y : nat) : res (option nat) :=
  match nth_error arrs (Nat.div2 y) with
  | None => UB
  | Some a => Ok (if Nat.even y then pStart a else pSizes a)
  end.
Definition new_vec (h : heap) (l : list Z) : heap * option nat := (h ++ [l], Some (List.length h)).

(** SerializerBase.hpp 34-40 operator/ on an unknown offset: only the size, 0, is
    divided. *)
Definition divide_unknown (R : Z) : res unit := if R =? 0 then UB else Ok tt.

(** 742-808 ReadSerializer, into array number [x]. *)
Definition ReadSerializer (s : ser T) (w : world T) (x : nat) (name : string)
  : res (ser T * world T) :=
  match nth_error (arrs w) x with
  | None => UB
  | Some a =>
  let h := hp w in
  let rs := row_size_of (lay a) in let rm := row_max_of (lay a) in
  let cwd := GetCurrentPath s in
  do s <- GoToPath s name;
  do sig <- ReadStr s "array_sig";
  do _ <- (if String.eqb sig (GetArraySignature sizeofT align (lay a)) then Ok tt
           else do c <- ArraySignatureIsCompatible sizeofT (lay a) sig; assert_ c);
  do t <- ParseArraySignatureTuple sig;
  let '(_, rsR, rmR, _) := t in
  do _ <- assert_ (negb (negb (rs =? rsR) && ((rs =? NonUniformSize) || (rsR =? NonUniformSize))));
  do n <- ReadNum s "size";
  do rd <- ReadNum s "row_size_dynamic";
  do rd <- (if 0 <=? rs then
              if rsR =? DynamicSize then do _ <- assert_ (rd =? rs); Ok 0
              else if 0 <=? rsR then do _ <- assert_ (rsR =? rs); Ok 0
              else Ok rd
            else Ok rd);
  let rd := if (rs =? DynamicSize) && (0 <=? rsR) then rsR else rd in
  let rd := if (rm =? DynamicSize) && (0 <=? rmR) then rmR else rd in
  do shp <-
    match lay a with
    | CSR =>
        do shp <- ReadShared s "pRowStart" (2 * x) (new_vec h) (member (arrs w)) h;
        let '(s, h, p) := shp in Ok (s, h, p, pSizes a)
    | Max | StaticMax _ =>
        do shp <- ReadShared s "pRowSizes" (2 * x + 1) (new_vec h) (member (arrs w)) h;
        let '(s, h, p) := shp in Ok (s, h, pStart a, p)
    | Fixed | StaticFixed _ => Ok (s, h, pStart a, pSizes a)
    end;
  let '(s, h, ps, pz) := shp in
  do d <- ReadData s "data";
  let a' := {| lay := lay a; pStart := ps; pSizes := pz; dat := d; unc := unc a; size := n; rsd := rd |} in
  do _ <- match lay a with
          | Fixed | StaticFixed _ => do R <- RowSize0 a'; divide_unknown R
          | _ => Ok tt
          end;
  do s <- GoToPath s cwd;
  Ok (s, {| hp := h; arrs := upd x a' (arrs w) |})
  end.

(** several arrays, one after the other, under names in the current path *)
Definition write_one (sw : ser T * world T) (kn : nat * string) : res (ser T * world T) :=
  let (s, w) := sw in let (k, name) := kn in
  match nth_error (arrs w) k with
  | None => UB
  | Some a =>
      do sha <- WriteSerializer s (hp w) a name;
      let '(s, h, a) := sha in Ok (s, {| hp := h; arrs := upd k a (arrs w) |})
  end.
Definition write_all : ser T * world T -> list (nat * string) -> res (ser T * world T) := foldM write_one.
Definition read_one (sw : ser T * world T) (xn : nat * string) : res (ser T * world T) :=
  let (s, w) := sw in let (x, name) := xn in ReadSerializer s w x name.
Definition read_all : ser T * world T -> list (nat * string) -> res (ser T * world T) := foldM read_one.
End Serial.
